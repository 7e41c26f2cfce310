(** CmdList_Model.v -- model of libpbat/cmdlist/pBat_CmdList.c, the table of
    internal commands and DEF macros kept as a binary search tree.

    Allocation failures are not modelled.  The command flag word is split into
    the position [e_limit] where a delimiter is expected (0: none) and the two
    flag bits. *)

From Verif Require Import Base.

(** libpBat.h:222-235: COMMANDLIST and COMMANDINFO.  [e_proc] identifies the
    procedure, or is the body for a DEF macro. *)
Record entry := mkEntry {
  e_name : cstr; e_proc : cstr; e_limit : nat; e_def : bool; e_look : bool }.

Inductive tree := Leaf | Node (e : entry) (l r : tree).

(** pBat_CmdList.c:32-125 [pBat_AddCommandDynamic]. *)
Fixpoint pBat_AddCommandDynamic (x : entry) (t : tree) : tree :=
  match t with
  | Leaf => Node x Leaf Leaf
  | Node e l r =>
      let iRet := stricmp (e_name x) (e_name e) in
      if (iRet >? 0)%Z then Node e l (pBat_AddCommandDynamic x r)
      else if (iRet <? 0)%Z then Node e (pBat_AddCommandDynamic x l) r
      else t
  end.

(** pBat_CmdList.c:235-248: the characters accepted after a command name; the
    end of the line is '\0'. *)
Definition is_cmd_delim (o : option ascii) : bool :=
  match o with
  | None => true
  | Some c => ceq c space || ceq c ","%char || ceq c ";"%char || ceq c nl || ceq c tab
              || ceq c "/"%char
  end.

(** pBat_CmdList.c:202-272 [pBat_GetCommandProc].  When the name matches but no
    delimiter follows, the code compares again with [stricmp] and follows that
    result ([loop_again]); a zero there would loop forever. *)
Fixpoint pBat_GetCommandProc (line : cstr) (t : tree) : outcome (option entry) :=
  match t with
  | Leaf => Ret None
  | Node e l r =>
      let iRet := strnicmp line (e_name e) (length (e_name e)) in
      if (iRet >? 0)%Z then pBat_GetCommandProc line r
      else if (iRet <? 0)%Z then pBat_GetCommandProc line l
      else if e_limit e =? 0 then Ret (Some e)
      else if length line <? e_limit e then Undef        (* read past the end *)
      else if is_cmd_delim (nth_error line (e_limit e)) then Ret (Some e)
      else
        let iRet2 := stricmp line (e_name e) in
        if (iRet2 >? 0)%Z then pBat_GetCommandProc line r
        else if (iRet2 <? 0)%Z then pBat_GetCommandProc line l
        else OutOfFuel
  end.

(** pBat_CmdList.c:274-323 [pBat_ReplaceCommand]: new tree and whether a command
    was replaced.  A non DEF replacement only changes the flags. *)
Fixpoint pBat_ReplaceCommand (x : entry) (t : tree) : tree * bool :=
  match t with
  | Leaf => (Leaf, false)
  | Node e l r =>
      let iRet := strnicmp (e_name x) (e_name e) (length (e_name e)) in
      if (iRet >? 0)%Z then let (r', b) := pBat_ReplaceCommand x r in (Node e l r', b)
      else if (iRet <? 0)%Z then let (l', b) := pBat_ReplaceCommand x l in (Node e l' r, b)
      else (Node (mkEntry (e_name e) (if e_def x then e_proc x else e_proc e)
                    (e_limit x) (e_def x) (e_look x)) l r, true)
  end.

(** pBat_CmdList.c:164-168 and [qsort]: sorting by [stricmp].  Names in a table
    are distinct, so the sorted array is unique; modelled by insertion sort. *)
Fixpoint sort_insert (x : entry) (l : list entry) : list entry :=
  match l with
  | [] => [x]
  | y :: l' => if (stricmp (e_name x) (e_name y) <=? 0)%Z then x :: l
               else y :: sort_insert x l'
  end.
Fixpoint qsort (l : list entry) : list entry :=
  match l with [] => [] | x :: l' => sort_insert x (qsort l') end.

Definition dummy_entry : entry := mkEntry [] [] 0 false false.

(** pBat_CmdList.c:170-186 [_pBat_PutSeed]. *)
Fixpoint _pBat_PutSeed (fuel : nat) (info : list entry) (b t : nat) (acc : tree) : outcome tree :=
  match fuel with
  | O => OutOfFuel
  | S f =>
      let iMid := (b + t) / 2 in
      if iMid =? b then Ret acc
      else
        match nth_error info (iMid - 1) with
        | None => Undef
        | Some x =>
            do t1 <- _pBat_PutSeed f info b iMid (pBat_AddCommandDynamic x acc);
            _pBat_PutSeed f info iMid t t1
        end
  end.

(** pBat_CmdList.c:188-200 [pBat_MapCommandInfo]; [Mid = i/2-1] is zero exactly
    for i = 2 and i = 3. *)
Definition pBat_MapCommandInfo (info : list entry) : outcome tree :=
  let i := length info in
  if (Z.of_nat (i / 2) - 1 =? 0)%Z then Ret Leaf
  else _pBat_PutSeed (S (S i)) (qsort info) 0 (i + 1) Leaf.

(** pBat_CmdList.c:461-481 [_pBat_FillInfoFromList]. *)
Fixpoint _pBat_FillInfoFromList (t : tree) : list entry :=
  match t with
  | Leaf => []
  | Node e l r => e :: _pBat_FillInfoFromList l ++ _pBat_FillInfoFromList r
  end.

(** pBat_CmdList.c:414-438 [pBat_ReMapCommandInfo]. *)
Definition pBat_ReMapCommandInfo (t : tree) : outcome tree :=
  pBat_MapCommandInfo (_pBat_FillInfoFromList t).

(** pBat_CmdList.c:348-412 [pBat_DuplicateCommandList] *)
Fixpoint pBat_DuplicateCommandList (t : tree) : tree :=
  match t with
  | Leaf => Leaf
  | Node e l r => Node (mkEntry (e_name e) (e_proc e) (e_limit e) (e_def e) (e_look e))
                    (pBat_DuplicateCommandList l) (pBat_DuplicateCommandList r)
  end.

(** pbat/command/pBat_Def.c:106-172, second half of [pBat_CmdDef]: define macro
    [name] with body [body]; [force] is the /f switch.  Returns the table and
    whether the definition was accepted. *)
Definition cmd_def (force : bool) (name body : cstr) (t : tree) : outcome (tree * bool) :=
  let x := mkEntry name body (length name) true false in
  do found <- pBat_GetCommandProc name t;
  match found with
  | Some _ => if force then Ret (pBat_ReplaceCommand x t) else Ret (t, false)
  | None => do t' <- pBat_ReMapCommandInfo (pBat_AddCommandDynamic x t);
            match t' with
            | Leaf => Ret (pBat_AddCommandDynamic x t, false)   (* "unable to remap" *)
            | _ => Ret (t', true)
            end
  end.

(** pbat/command/pBat_CommandInfo.c:32-82 [lpCmdInfo]. *)
Local Notation b n p := (mkEntry (s2l n) (s2l p) (length (s2l n)) false false).
Local Notation b0 n p := (mkEntry (s2l n) (s2l p) 0 false false).
Local Notation bl n p := (mkEntry (s2l n) (s2l p) (length (s2l n)) false true).
Local Open Scope string_scope.
Definition lpCmdInfo : list entry :=
  [ b0 "ECHO" "CmdEcho"; b "EXIT" "CmdExit"; b "PAUSE" "CmdPause"; b "SET" "CmdSet";
    b "SETLOCAL" "CmdSetLocal"; b "ENDLOCAL" "CmdEndLocal"; b "HELP" "CmdHelp"; b "REM" "CmdRem";
    b "CLS" "CmdCls"; b "COLOR" "CmdColor"; b "TITLE" "CmdTitle"; b "TYPE" "CmdType";
    b "MORE" "CmdMore"; b "GOTO" "CmdGoto"; b0 "GOTO:" "CmdGoto"; b "START" "CmdStart";
    b "CD" "CmdCd"; b "CHDIR" "CmdCd"; b "DIR" "CmdDir"; bl "IF" "CmdIf"; b "DEL" "CmdDel";
    b "ERASE" "CmdDel"; b "REN" "CmdRen"; b "RENAME" "CmdRen"; b "MOVE" "CmdCopy"; b "MD" "CmdMkdir";
    b "MKDIR" "CmdMkdir"; b "RD" "CmdRmdir"; b "RMDIR" "CmdRmdir"; b "COPY" "CmdCopy";
    bl "FOR" "CmdFor"; b0 "(" "CmdBlock"; b "CALL" "CmdCall"; b0 "CALL:" "CmdCall";
    bl "DEF" "CmdDef"; b "SHIFT" "CmdShift"; b "FIND" "CmdFind"; b "BREAK" "CmdBreak";
    b "CHCP" "CmdChcp"; b "PUSHD" "CmdPushd"; b "POPD" "CmdPopd"; b "WC" "CmdWc"; b "XARGS" "CmdXargs";
    b "PROMPT" "CmdPrompt"; b "PECHO" "CmdPecho"; b "TIMEOUT" "CmdTimeout"; b "MOD" "CmdMod";
    b "LOCALE" "CmdLocale"; b "VER" "CmdVer" ].

(** pbat/pBat.c:172: the table is built from [lpCmdInfo] at start-up. *)
Definition builtin_table : tree :=
  match pBat_MapCommandInfo lpCmdInfo with Ret t => t | _ => Leaf end.
