(** Small_Model.v -- model of PAUSE, TITLE, CLS, BREAK, VER, REM, CHCP, LOCALE and HELP (pbat/command).  A command gets its line with
    its own name in front.  Console codes, texts and failing allocations are left out. *)

From Verif Require Import Base StrLib_Model Path_Model Expand_Model Args_Model CmdList_Model.

(** What can be seen: the help of a command, the title, the screen is cleared, a key is waited for, the system is named, a
    message, names of commands, a command that is run, messages are loaded from a directory. *)
Inductive cev :=
| CHelp (name : cstr) | CTitle (t : cstr) | CClear | CKey | CSystem | CMessage (code : Z) (t : cstr)
| CNames (l : list cstr) | CRun (line : cstr) | CMessages (dir : cstr).
(** pbat/errors/pBat_Errors.h:46 *)
Definition PBAT_UNEXPECTED_ELEMENT : Z := 4.

(** pBat_Title.c:47-72 [pBat_CmdTitle] *)
Definition pBat_CmdTitle (w : xworld) (line : cstr) : outcome (Z * list cev * xworld) :=
  let line := skipn 5 line in
  do (arg, r, w) <- pBat_GetNextParameter w line 3;
  match r with
  | None => Ret (0%Z, [], w)
  | Some _ =>
      if streqb arg (s2l "/?") then Ret (0%Z, [CHelp (s2l "TITLE")], w)
      else do (t, w) <- pBat_GetEndOfLine w line; Ret (0%Z, [CTitle t], w)
  end.

(** pBat_Cls.c:43-66 [pBat_CmdCls] *)
Definition pBat_CmdCls (w : xworld) (line : cstr) : outcome (Z * list cev * xworld) :=
  do (arg, r, w) <- pBat_GetNextParameter w (skipn 3 line) 4;
  match r with
  | None => Ret (0%Z, [CClear], w)
  | Some _ =>
      if streqb arg (s2l "/?") then Ret (0%Z, [CHelp (s2l "CLS")], w)
      else Ret (PBAT_UNEXPECTED_ELEMENT, [CMessage PBAT_UNEXPECTED_ELEMENT arg], w)
  end.

(** pBat_Break.c:50-62 [pBat_CmdBreak] *)
Definition pBat_CmdBreak (w : xworld) (line : cstr) : outcome (Z * list cev * xworld) :=
  do (arg, r, w) <- pBat_GetNextParameter w (skipn 5 line) 4;
  Ret (0%Z, match r with Some _ => if streqb arg (s2l "/?") then [CHelp (s2l "BREAK")] else [] | None => [] end, w).

(** pBat_Ver.c:36-77 [pBat_CmdVer]; without a parameter the buffer is empty *)
Definition pBat_CmdVer (w : xworld) (line : cstr) : outcome (Z * list cev * xworld) :=
  match skipn 3 line with
  | [] => Ret (0%Z, [CSystem], w)
  | _ => do (arg, _, w) <- pBat_GetNextParameter w (skipn 3 line) 3;
         Ret (0%Z, [if (stricmp arg (s2l "/?") =? 0)%Z then CHelp (s2l "VER") else CSystem], w)
  end.

(** pBat_Rem.c:43-57 [pBat_CmdRem] and pBat_Chcp.c:131-134 [pBat_CmdChcp] *)
Definition pBat_CmdRem (w : xworld) (line : cstr) : outcome (Z * list cev * xworld) := Ret (0%Z, [], w).
Definition pBat_CmdChcp (w : xworld) (line : cstr) : outcome (Z * list cev * xworld) := Ret (0%Z, [], w).

(** pBat_Pause.c:43-58 [pBat_CmdPause].  [behind] is what the memory behind the end of the line holds: lpLine+6 is behind it for a
    line of five characters.  strncmp stops at the first character that differs. *)
Definition pBat_CmdPause (w : xworld) (line behind : cstr) : outcome (Z * list cev * xworld) :=
  let line := pBat_SkipBlanks line in
  match skipn 6 (line ++ "000"%char :: behind) with
  | [] => Undef
  | c :: r =>
      if ceq c "/"%char then
        match r with
        | [] => Undef
        | d :: _ => Ret (0%Z, [if ceq d "?"%char then CHelp (s2l "PAUSE") else CKey], w)
        end
      else Ret (0%Z, [CKey], w)
  end.

(** pBat_Locale.c:66-97 [pBat_CmdLocale]; lpCurrentDir is [cur], the memory of the parameter has [cap] bytes.  The loop
    begins at the name of the command. *)
Fixpoint locale_loop (fuel : nat) (cur : cstr) (cap : nat) (w : xworld) (old line : cstr) (done : bool) : outcome (Z * list cev * xworld) :=
  match fuel with
  | O => OutOfFuel
  | S f =>
      do (p, next, w) <- pBat_GetNextParameterEs w old line;
      match next with
      | None => Ret (0%Z, [], w)
      | Some rest =>
          if done then Ret (PBAT_UNEXPECTED_ELEMENT, [CMessage PBAT_UNEXPECTED_ELEMENT p], w)
          else if streqb p (s2l "/?") then
            do (z, l, w) <- locale_loop f cur cap w p rest true; Ret (z, CHelp (s2l "LOCALE") :: l, w)
          else
            do d <- pBat_EsToFullPath cur p cap;
            do (z, l, w) <- locale_loop f cur cap w d rest true; Ret (z, CMessages d :: l, w)
      end
  end.
Definition pBat_CmdLocale (cur : cstr) (cap : nat) (w : xworld) (line : cstr) : outcome (Z * list cev * xworld) :=
  locale_loop (S (length line)) cur cap w [] line false.

(** pBat_Help.c:51-91 [pBat_CmdHelp]: how many parameters there are, and the last *)
Fixpoint help_params (fuel : nat) (w : xworld) (old line : cstr) (n : nat) : outcome (nat * cstr * xworld) :=
  match fuel with
  | O => OutOfFuel
  | S f =>
      do (p, next, w) <- pBat_GetNextParameterEs w old line;
      match next with
      | None => Ret (n, p, w)
      | Some rest => help_params f w p rest (S n)
      end
  end.
Definition pBat_CmdHelp (w : xworld) (line : cstr) : outcome (Z * list cev * xworld) :=
  let line := skipn 4 line in
  do (n, p, w) <- help_params (S (length line)) w [] line 0;
  match n with
  | 0 => Ret (0%Z, [CNames (map e_name (filter (fun e => match e_name e with c :: _ => negb (ceq c "("%char) | [] => true end) lpCmdInfo))], w)
  | 1 => Ret (0%Z, [CRun (p ++ s2l " /?")], w)
  | _ => Ret (PBAT_UNEXPECTED_ELEMENT, [CMessage PBAT_UNEXPECTED_ELEMENT p], w)
  end.
