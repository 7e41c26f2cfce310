(** Start_Model.v -- model of START (pbat/command/pBat_Start.c): what it asks pBat_ExecuteFile
    (C87) or a thread of its own to run.  Messages and the help are left out, no allocation fails. *)

From Verif Require Import Base Num_Model StrLib_Model Path_Model Env_Model Var_Model LocalVar_Model Expand_Model Args_Model Block_Model CmdList_Model
  Stream_Model If_Model Body_Model For_Model Run_Model Script_Model Params_Model Call_Model.

(** pBat_Exec.h [EXECINFO] and its flags PBAT_EXEC_WAIT, PBAT_EXEC_SEPARATE_WINDOW *)
Record execinfo := mkE { x_title : option cstr; x_dir : cstr; x_file : cstr; x_argv : list cstr; x_cmdline : cstr; x_wait : bool; x_window : bool }.
(** What START does: nothing (/?), an error, a built-in command run by a thread
    ([pBat_StartCommandBackground], 85-106), or [pBat_ExecuteFile] *)
Inductive started := SHelp | SFail (err : Z) | SThread (cmd : cstr) (wait : bool) | SExec (e : execinfo).
(** What the loop over the parameters ends with: [file] is [info.file] and [text] is
    [param->str]; no file if there was none. *)
Inductive sgot := GHelp | GFail (err : Z) | GNone | GFile (command : bool) (file text : cstr).
Definition is (p : cstr) (o : string) : bool := (stricmp p (s2l o) =? 0)%Z.

(** 243-245 *)
Definition is_uri (p : cstr) : bool :=
  match p with
  | [] => false
  | _ :: r => negb (match r with c :: _ => ceq c ":"%char | [] => false end) && match strchr p ":"%char with Some _ => true | None => false end
  end.

Section Start.
Variable exists_file : cstr -> bool.
(** lpclCommands, lppBatExec, bEchoOn, bCmdlyCorrect; the addresses of names of variables *)
Variables (table : tree) (lppBatExec : cstr) (bEchoOn bCmdlyCorrect : bool) (ka : Z).

(** 226-234, 269-277, 308-316: how the interpreter is called *)
Definition interpreter : cstr := lppBatExec ++ s2l " /a:q" ++ (if bEchoOn then [] else s2l "e") ++ (if bCmdlyCorrect then s2l "c" else []).

(** 194-290: what is to be run; [p] is the parameter and [line] begins with it *)
Definition start_what (w : xworld) (p line : cstr) (window : bool) : outcome sgot :=
  do found <- pBat_GetCommandProc p table;
  match found with
  | Some _ =>
      if window then Ret (GFile false lppBatExec (interpreter ++ s2l " /C " ++ line))
      else Ret (GFile true (firstn (FILENAME_MAX - 1) p) line)
  | None =>
      if is_uri p
      then Ret (GFile false (firstn (FILENAME_MAX - 1) p) line)
      else
        do PATH <- pBat_GetEnv (vw_env (x_var w)) (s2l "PATH") ka;
        do PATHEXT <- pBat_GetEnv (vw_env (x_var w)) (s2l "PATHEXT") ka;
        do f <- pBat_GetFilePath exists_file (vw_cd (x_var w)) PATH PATHEXT p FILENAME_MAX;
        let buf := match f with Some x => x | None => pBat_MakeFullPath (vw_cd (x_var w)) p FILENAME_MAX end in
        do (_, e) <- pBat_SplitPath buf;
        if is e ".bat" || is e ".cmd" then Ret (GFile false lppBatExec (interpreter ++ s2l " " ++ line))
        else Ret (GFile false buf line)
  end.

(** 136-296: the loop over the parameters; the title, the directory and the flags are given
    back too.  The string of /D is as large as [x_cap] says.  After /NODE or /AFFINITY at the
    end, [line] is NULL. *)
Fixpoint start_params (fuel : nat) (w : xworld) (old line : cstr) (wait window : bool) (dir title : option cstr) : outcome (sgot * bool * bool * option cstr * option cstr * xworld) :=
  match fuel with
  | O => OutOfFuel
  | S f =>
      do (p, next, w) <- pBat_GetNextParameterEs w old line;
      match next with
      | None => Ret (GNone, wait, window, dir, title, w)
      | Some next =>
          if is p "/?" then Ret (GHelp, wait, window, dir, title, w)
          else if is p "/WAIT" || is p "/W" then start_params f w p next true window dir title
          else if is p "/B" then start_params f w p next wait false dir title
          else if existsb (is p) ["/NORMAL"; "/SHARED"; "/SEPARATE"; "/HIGH"; "/LOW"; "/REALTIME"; "/ABOVENORMAL"; "/BELOWNORMAL"]%string
          then start_params f w p next wait window dir title
          else if is p "/NODE" || is p "/AFFINITY" then
            do (p, next, w) <- pBat_GetNextParameterEs w p next;
            match next with
            | None => Undef
            | Some next => start_params f w p next wait window dir title
            end
          else if is p "/D" then
            match dir with
            | Some _ => Ret (GFail PBAT_UNEXPECTED_ELEMENT, wait, window, dir, title, w)
            | None =>
                do (d, next, w) <- pBat_GetNextParameterEs w p next;
                match next with
                | None => Ret (GFail PBAT_EXPECTED_MORE, wait, window, dir, title, w)
                | Some next =>
                    do d <- pBat_EsToFullPath (vw_cd (x_var w)) d (x_cap w d);
                    start_params f w [] next wait window (Some d) title
                end
            end
          else if match pBat_SkipBlanks line with c :: _ => ceq c dquote | [] => false end && match title with None => true | Some _ => false end
          then start_params f w [] next wait window dir (Some p)
          else do g <- start_what w p line window; Ret (g, wait, window, dir, title, w)
      end
  end.

(** 320-365, with the text [text] (the string param) *)
Definition start_run (w : xworld) (command : bool) (file text : cstr) (wait window : bool) (dir title : option cstr) : outcome (started * xworld) :=
  do (t, w) <- pBat_GetEndOfLine w text;
  do (l, w) <- pBat_GetParamList w text;
  match l with
  | [] => Ret (SFail PBAT_EXPECTED_MORE, w)
  | _ => if command then Ret (SThread (pBat_SkipBlanks t) wait, w)
         else Ret (SExec (mkE title (match dir with Some d => d | None => vw_cd (x_var w) end) file l (pBat_SkipBlanks t) wait window), w)
  end.
(** 108-385 [pBat_CmdStart]; [line] is what follows START. *)
Definition pBat_CmdStart (w : xworld) (line : cstr) : outcome (started * xworld) :=
  do (g, wait, window, dir, title, w) <- start_params (S (length line)) w [] line false true None None;
  match g with
  | GHelp => Ret (SHelp, w)
  | GFail e => Ret (SFail e, w)
  | GNone => match title with
             | None => Ret (SFail PBAT_EXPECTED_MORE, w)
             | Some _ => start_run w false lppBatExec interpreter wait window dir title
             end
  | GFile command file text => start_run w command file text wait window dir title
  end.
End Start.
