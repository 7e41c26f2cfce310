(** Script_Model.v -- model of pbat/core/pBat_ReadScript.c, pBat_Read.c, pBat_Jump.c,
    of GOTO (pbat/command/pBat_Goto.c) and of the loop that runs scripts (pBat_Run.c:52-105).

    Pointers to commands are numbers of commands: the current command is the number of
    commands before it (the number of all commands for NULL), and [following] of a label
    the number of commands before the label.  Simplified: no failing allocation; paths
    have less than FILENAME_MAX characters; copies of scripts ([cpy]) are those of CALL,
    which is not modelled; messages and what ECHO prints are not modelled. *)

From Verif Require Import Base StrLib_Model Path_Model Var_Model Expand_Model Args_Model Block_Model CmdList_Model Stream_Model If_Model Body_Model
  For_Model Run_Model.

(** pBat_Read.c:296-311 [pBat_RmTrailingNl] (Linux): the last character of the
    text is removed if it is the last end of line. *)
Fixpoint pBat_RmTrailingNl (s : cstr) : cstr :=
  match s with
  | [] => []
  | [c] => if ceq c nl then [] else [c]
  | c :: r => c :: pBat_RmTrailingNl r
  end.

(** pBat_ReadScript.h:47-68 [struct batch_script_t]: commands and labels. *)
Record script := mkScript { s_cmds : list cstr; s_lbls : list (cstr * nat) }.

(** pBat_ReadScript.c:181-265: the loop of [pBat_LoadBatchScript] for one line;
    [nb] is the number of lines read before. *)
Definition load_line (nb : nat) (line : cstr) (s : script) : script :=
  let pch := pBat_SkipBlanks line in
  if (nb =? 0) && prefixb (s2l "#!") pch then s
  else match pch with
       | [] => s
       | c :: r =>
           if ceq c ":"%char then
             if match r with d :: _ => ceq d ":"%char | [] => false end then s
             else (* 218: the line loses its end of line; pch is the rest of it *)
               mkScript (s_cmds s) (s_lbls s ++ [(pBat_StripEndDelims (pBat_RmTrailingNl pch), length (s_cmds s))])
           else
             mkScript (s_cmds s ++ [match strchr pch nl with Some _ => pch | None => pch ++ [nl] end]) (s_lbls s)
       end.
Fixpoint load_lines (nb : nat) (ls : list cstr) (s : script) : script :=
  match ls with
  | [] => s
  | l :: r => load_lines (S nb) r (load_line nb l s)
  end.
(** pBat_ReadScript.c:150-283 [pBat_LoadBatchScript]; [ls] are the lines that [pBat_EsGet]
    gives (Estr_Model.read_all). *)
Definition pBat_LoadBatchScript (ls : list cstr) : script := load_lines 0 ls (mkScript [] []).

(** pBat_ReadScript.c:285-320 [pBat_ReloadBatchScript]: the current command. *)
Definition reload_at (curr : nat) (s : script) : nat := if curr <? length (s_cmds s) then curr else 0.

(** The file system: what [pBat_EsGet] reads from a file and its size, if it can be
    opened, at the time of a given history; and what [err] holds in
    [pBat_CheckBatchScriptChanges], pBat_ReadScript.c:323-334, which on Linux is
    not initialised when the size is known (125-134). *)
Record scriptio := mkSio {
  sio_file : list event -> cstr -> option (list cstr * Z);
  sio_err : list event -> bool }.

(** [INPUT_FILE], pBat_Core.h: the file, and what was loaded: its name (empty if none
    is loaded), the script, the size and the current command. *)
Record input := mkIn { in_file : cstr; in_name : cstr; in_script : script; in_size : Z; in_curr : nat; in_eof : bool }.
Definition set_curr (i : input) (n : nat) : input := mkIn (in_file i) (in_name i) (in_script i) (in_size i) n (in_eof i).
Definition set_eof (i : input) : input := mkIn (in_file i) (in_name i) (in_script i) (in_size i) (in_curr i) true.
Definition no_script : script := mkScript [] [].

Section Script.
Variable sio : scriptio.
(** pBat_ReadScript.c:45-55 [pBat_OpenBatchScript] for the input, pBat_Read.c:39-50 and 52-65;
    on failure nothing is loaded (FreeBatchScript). *)
Definition open_input (log : list event) (i : input) : bool * input :=
  match sio_file sio log (in_file i) with
  | Some (ls, size) => (true, mkIn (in_file i) (in_file i) (pBat_LoadBatchScript ls) size 0 (in_eof i))
  | None => (false, mkIn (in_file i) [] no_script (in_size i) 0 (in_eof i))
  end.
(** pBat_Read.c:34-87 [pBat_UpdateScript]; false for -1. *)
Definition pBat_UpdateScript (log : list event) (i : input) : bool * input :=
  match in_file i with
  | [] => (true, i)
  | _ =>
      if match in_name i with [] => true | _ => negb (streqb (in_file i) (in_name i)) end then open_input log i
      else
        let changed := match sio_file sio log (in_name i) with
                       | Some (_, size) => negb (size =? in_size i)%Z && negb (sio_err sio log)
                       | None => false                      (* *err is 1 *)
                       end in
        if changed then
          match sio_file sio log (in_name i) with
          | Some (ls, size) =>
              let s := pBat_LoadBatchScript ls in
              (true, mkIn (in_file i) (in_name i) s size (reload_at (in_curr i) s) (in_eof i))
          | None => (false, mkIn (in_file i) [] no_script (in_size i) 0 (in_eof i))
          end
        else (true, i)
  end.

(** pBat_Read.c:276-294 [pBat_CheckBlocks]; [None] for -1. *)
Fixpoint check_loop (fuel : nat) (s : cstr) : outcome (option bool) :=
  match fuel with
  | O => OutOfFuel
  | S f =>
      do e <- pBat_GetBlockLineEndEx (skip_op s) false;
      match e with
      | None => Ret (Some false)
      | Some [] => Ret None
      | Some ((c :: _) as e) => if ceq c nl then Ret (Some true) else check_loop f e
      end
  end.
Definition pBat_CheckBlocks (s : cstr) : outcome (option bool) := check_loop (S (length s)) s.

(** pBat_Read.c:119-128: the lines joined, how many they are, and whether it is complete. *)
Fixpoint join_lines (w : xworld) (acc : cstr) (ls : list cstr) : outcome (cstr * nat * bool * xworld) :=
  match ls with
  | [] => Undef
  | l :: r =>
      do (t, w) <- pBat_ReplaceVars w l;
      let acc := acc ++ t in
      do ok <- pBat_CheckBlocks acc;
      match ok with
      | Some true => Ret (acc, 1, true, w)
      | _ => match r with
             | [] => Ret (acc, 1, false, w)
             | _ => do (t, n, b, w) <- join_lines w acc r; Ret (t, S n, b, w)
             end
      end
  end.
(** pBat_Read.c:89-146 [pBat_GetLine] for a file, when CMDLYCORRECT is not set. *)
Definition pBat_GetLine (log : list event) (w : xworld) (i : input) : outcome (option cstr * input * xworld) :=
  match in_file i with
  | [] => Undef                                   (* interactive: not modelled *)
  | _ =>
      let '(ok, i) := pBat_UpdateScript log i in
      if negb ok then Ret (None, set_eof i, w)
      else match skipn (in_curr i) (s_cmds (in_script i)) with
           | [] => Ret (None, set_eof i, w)
           | ls =>
               do (t, n, ok, w) <- join_lines w [] ls;
               let i := set_curr i (in_curr i + n) in
               if ok then Ret (Some (pBat_RmTrailingNl t), i, w) else Ret (None, set_eof i, w)
           end
  end.

(** pBat_Jump.c:74-80: a label is looked for. *)
Fixpoint find_label (name : cstr) (l : list (cstr * nat)) : option nat :=
  match l with
  | [] => None
  | (t, n) :: r =>
      if (strnicmp t name (length name) =? 0)%Z &&
         match nth_error t (length name) with Some c => pBat_IsDelim c | None => true end
      then Some n else find_label name r
  end.
(** pBat_Jump.c:32-102 [pBat_JumpToLabel] (CMDLYCORRECT not set); false for -1.  If the
    label is not found in the script itself, 82-85, a structure that was never
    initialised is freed. *)
Definition pBat_JumpToLabel (log : list event) (i : input) (label : cstr) (file : option cstr) : outcome (bool * input) :=
  if match in_file i, file with [], None => true | _, _ => false end then Ret (false, i)
  else
    match match file with Some p => if (stricmp (in_name i) p =? 0)%Z then None else Some p | None => None end with
    | Some p =>
        match sio_file sio log p with
        | None => Ret (false, i)
        | Some (ls, size) =>
            let s := pBat_LoadBatchScript ls in
            match find_label label (s_lbls s) with
            | None => Ret (false, i)
            | Some n => Ret (true, mkIn p p s size n (in_eof i))
            end
        end
    | None =>
        let '(ok, i) := pBat_UpdateScript log i in
        if negb ok then Ret (false, i)
        else match find_label label (s_lbls (in_script i)) with
             | None => Undef
             | Some n => Ret (true, set_curr i n)
             end
    end.
End Script.

(** pBat_Jump.c:104-175 [pBat_JumpToLabel_Cmdly], with CMDLYCORRECT: the number of lines
    read when the label is found. *)
Fixpoint find_cmdly (name : cstr) (ls : list cstr) (n : nat) : option nat :=
  match ls with
  | [] => None
  | l :: r =>
      if (strnicmp (pBat_SkipBlanks l) name (length name) =? 0)%Z &&
         match nth_error l (length name) with Some c => pBat_IsDelim c | None => true end
      then Some (S n) else find_cmdly name r (S n)
  end.
Definition pBat_JumpToLabel_Cmdly (name : cstr) (ls : list cstr) : option nat :=
  if length name =? 1 then None else find_cmdly name ls 0.

(** pBat_Goto.c:43-128 [pBat_CmdGoto] up to the jump: the end of the script, or a label
    and a file; [line] is what follows GOTO.  The error of [pBat_GetFileFullPath] is not
    modelled (it makes paths from the current directory).  [old] is the last parameter. *)
Inductive goto := GHelp | GEof | GLabel (label : cstr) (file : option cstr).
Fixpoint goto_options (fuel : nat) (w : xworld) (old line : cstr) (file : option cstr) : outcome (option (cstr * option cstr) * xworld) :=
  match fuel with
  | O => OutOfFuel
  | S f =>
      do (t, rest, w) <- pBat_GetNextParameterEs w old line;
      match rest with
      | None => Ret (Some (line, file), w)
      | Some rest =>
          if streqb t (s2l "/?") then Ret (None, w)
          else if (stricmp t (s2l "/Q") =? 0)%Z then goto_options f w t rest file
          else if (strnicmp t (s2l "/F") 2 =? 0)%Z then
            let p := skipn 2 t in
            let p := match p with ":"%char :: p' => p' | _ => p end in
            goto_options f w t rest (Some (pBat_MakeFullPathEs (vw_cd (x_var w)) p))
          else Ret (Some (line, file), w)
      end
  end.
Definition pBat_CmdGoto (w : xworld) (line : cstr) : outcome (goto * xworld) :=
  do (r, w) <- goto_options (S (length line)) w [] line None;
  match r with
  | None => Ret (GHelp, w)
  | Some (line, file) =>
      let line := pBat_StripEndDelims (pBat_SkipBlanks line) in
      do (t, w) <- pBat_GetEndOfLine w line;
      let label := firstn 4095 (match line with ":"%char :: _ => t | _ => ":"%char :: t end) in
      Ret (if (stricmp label (s2l ":EOF") =? 0)%Z then GEof else GLabel label file, w)
  end.

Section Batch.
Variable leaf : list event -> xworld -> cstr -> leafres.
Variable can_open : list event -> cstr -> std -> bool -> bool.
Variable fio : forio.
Variable table : tree.
Variable strtod : cstr -> dbl * nat.
Variable exists_file : list event -> cstr -> bool.
Variable ka : Z.
Variable sio : scriptio.
(** The label and the file that the last command of a history looks for, if it is a GOTO
    that found one.  GOTO reads it ([pBat_CmdGoto]) when it is run; a history determines the state in
    which its last command was run. *)
Variable jumped : list event -> option (cstr * option cstr).

(** pBat_Run.c:52-105 [pBat_RunBatch] *)
Fixpoint batch (fuel : nat) (i : input) (r : rst) : outcome (input * rst) :=
  match fuel with
  | O => OutOfFuel
  | S f =>
      if in_eof i then Ret (i, r)
      else
        do (l, i, w) <- pBat_GetLine sio (r_log r) (r_x r) i;
        let r := set_x r w in
        match l with
        | None => batch f i r
        | Some l =>
            do r1 <- run_line leaf can_open fio table strtod exists_file ka f l r;
            do i <- (if length (r_log r1) =? length (r_log r) then Ret i
                     else match jumped (r_log r1) with
                          | None => Ret i
                          | Some (l, p) => do (_, i) <- pBat_JumpToLabel sio (r_log r1) i l p; Ret i
                          end);
            if (r_abort r1 =? -1)%Z then Ret (i, r1) else batch f i (mkR (r_io r1) (r_x r1) 0 (r_log r1))
        end
  end.
End Batch.
