(** Call_Model.v -- model of CALL (pbat/command/pBat_Call.c).  The parameters that are passed
    are in Params_Model, scripts and labels in Script_Model.  Running the called script
    ([pBat_RunBatch]) or the program ([pBat_RunBlock]) is a variable: a function of the
    input and of the state.  Messages and the help are left out; the memory of scripts
    ([cpy]) is not modelled: a script that CALL copied is not freed by what is called
    (pBat_ReadScript.c:298, 339), and loading another one resets the mark (171). *)

From Verif Require Import Base Num_Model StrLib_Model Path_Model Env_Model Var_Model LocalVar_Model Expand_Model Args_Model Block_Model CmdList_Model
  Stream_Model If_Model Body_Model For_Model Run_Model Script_Model Params_Model.

(** pBat_Errors.h:43-50 *)
Definition PBAT_EXPECTED_MORE : Z := 8.
Definition PBAT_EXTENSION_DISABLED_ERROR : Z := 7.
Definition PBAT_COMMAND_ERROR : Z := 3.
Definition PBAT_FILE_ERROR : Z := 1.
Definition PBAT_LABEL_ERROR : Z := 6.

Inductive calling :=
| CallHelp
| CallDisabled
| Calls (file label : cstr) (rest : cstr).   (* empty when not given *)

(** pBat_Call.c:66-151: the loop over the parameters; [ext] is bIsExtended, [n] iNbParam. *)
Fixpoint call_options (fuel : nat) (cmdly : bool) (w : xworld) (old line : cstr) (ext : bool) (n : nat) (file label : cstr)
  : outcome (calling * xworld) :=
  match fuel with
  | O => OutOfFuel
  | S f =>
      do (t, r, w) <- pBat_GetNextParameterEs w old line;
      match r with
      | None => Ret (Calls file label line, w)
      | Some next =>
          if (stricmp t (s2l "/E") =? 0)%Z && (n =? 0) then
            if cmdly then Ret (CallDisabled, w) else call_options f cmdly w t next true n file label
          else if (stricmp t (s2l "/?") =? 0)%Z then Ret (CallHelp, w)
          else if (negb (n =? 0) && negb ext) || (n =? 2) then Ret (Calls file label line, w)
          else if match t with c :: _ => ceq c ":"%char | [] => false end
          then call_options f cmdly w t next ext (S n) file (match label with [] => t | _ => label end)
          else call_options f cmdly w t next ext (S n) (match file with [] => t | _ => file end) label
      end
  end.

Section Call.
Variable sio : scriptio.
Variable log : list event.
Variable exists_file : cstr -> bool.
(** [pBat_RunBatch] *)
Variable run : input -> xworld -> outcome xworld.
(** [pBat_RunBlock] of a text *)
Variable block : xworld -> cstr -> outcome xworld.
(** bCmdlyCorrect *)
Variable cmdly : bool.
(** The addresses of names of variables, see Env_Model. *)
Variable ka : Z.

(** pBat_FilePath.c:34-64 [pBat_GetFileFullPath] (Linux); [None] for -1. *)
Definition pBat_GetFileFullPath (cur p : cstr) (size : nat) : option cstr :=
  let q := TRANS p in
  let full := firstn (size - 1) (cur ++ "/"%char :: q) in
  if PBAT_TEST_ABSOLUTE_PATH q then (if exists_file q then Some (firstn (size - 1) q) else None)
  else if exists_file full then Some full else None.

(** pBat_Call.c:233-397 [pBat_CmdCallFile]: the error level, the input and the state afterwards.  The
    name of the script, which the expansion of special variables uses, is the one of the
    input.  When the label is not found, the input is what pBat_JumpToLabel leaves. *)
Definition set_script (w : xworld) (s : cstr) : xworld :=
  mkX (x_var w) (x_ka w) (x_args w) (x_locals w) s (x_stat w) (x_cap w) (x_delayed w).
Definition pBat_CmdCallFile (i : input) (w : xworld) (file label : cstr) (line : cstr) : outcome (Z * input * xworld) :=
  match match file with
        | [] => Some None
        | _ => match pBat_GetFileFullPath (vw_cd (x_var w)) file FILENAME_MAX with Some p => Some (Some p) | None => None end
        end with
  | None => Ret (PBAT_FILE_ERROR, i, w)
  | Some path =>
      do (found, j, zero) <-
        match label, path with
        | [], Some p => Ret (true, mkIn p (in_name i) (in_script i) (in_size i) (in_curr i) false, p)
        | [], None => Undef                                      (* not called so *)
        | _, _ => do (found, j) <- pBat_JumpToLabel sio log i label path; Ret (found, j, label)
        end;
      if found then
        do (args, w) <- call_args w zero line;
        do w' <- run j (set_script (set_locals (set_args w args) pBat_GetLocalBlock) (in_file j));
        Ret (vw_err (x_var w'), i, set_script (set_locals (set_args w' (x_args w)) (x_locals w)) (x_script w))
      else Ret (PBAT_LABEL_ERROR, j, w)
  end.

(** pBat_Call.c:399-427 [pBat_CmdCallExternal] *)
Definition pBat_CmdCallExternal (w : xworld) (file args : cstr) : outcome xworld :=
  do (t, w) <- pBat_ReplaceVars w (file ++ s2l " " ++ args);
  block w t.

(** pBat_Call.c:48-231 [pBat_CmdCall]; [line] is what follows CALL. *)
Definition pBat_CmdCall (i : input) (w : xworld) (line : cstr) : outcome (Z * input * xworld) :=
  let line := pBat_SkipBlanks line in
  do (c, w) <- call_options (S (length line)) cmdly w [] line false 0 [] [];
  match c with
  | CallHelp => Ret (vw_err (x_var w), i, w)
  | CallDisabled => Ret (PBAT_EXTENSION_DISABLED_ERROR, i, w)
  | Calls [] [] _ => Ret (PBAT_EXPECTED_MORE, i, w)
  | Calls file [] rest =>
      do PATH <- pBat_GetEnv (vw_env (x_var w)) (s2l "PATH") ka;
      do PATHEXT <- pBat_GetEnv (vw_env (x_var w)) (s2l "PATHEXT") ka;
      do p <- pBat_GetFilePath exists_file (vw_cd (x_var w)) PATH PATHEXT file FILENAME_MAX;
      match p with
      | None => Ret (PBAT_COMMAND_ERROR, i, w)
      | Some p =>
          do (_, e) <- pBat_SplitPath p;
          if (stricmp e (s2l ".bat") =? 0)%Z || (stricmp e (s2l ".cmd") =? 0)%Z
          then pBat_CmdCallFile i w p [] rest
          else
            do (t, w) <- pBat_GetEndOfLine w rest;
            do w <- pBat_CmdCallExternal w p t;
            Ret (vw_err (x_var w), i, w)
      end
  | Calls file label rest => pBat_CmdCallFile i w file label rest
  end.
End Call.
