(** Body_Model.v -- what can be observed of an execution, and how IF and FOR get the
    text they run: pbat/core/pBat_Args.c:109-157, pbat/core/pBat_Run.c:816-848. *)

From Verif Require Import Base StrLib_Model Args_Model Block_Model Parse_Model Stream_Model.

(** What happens: a command runs, with its text and the three streams it has; what
    writes into pipe [n] -- the left side of a pipe, or the command that FOR /F reads
    from -- is started, reading from the given place. *)
Inductive event :=
| Ran (cmd : cstr) (i o e : option dest)
| Started (n : nat) (cmd : cstr) (st : stream) (i : option dest).

(** pBat_Args.c:113-141 [pBat_GetNextBlock]: the text of the block and what starts at its end. *)
Definition pBat_GetNextBlock (s : cstr) : outcome (cstr * cstr) :=
  let l := pBat_SkipBlanks s in
  do e <- pBat_GetNextBlockEnd l;
  let b := match l with c :: r => if ceq c "("%char then r else l | [] => l end in
  let e := match e with
           | Some e => e
           | None => match find_idx (fun c => ceq c nl) b with Some k => skipn k b | None => [] end
           end in
  if length b <? length e then Undef else Ret (firstn (length b - length e) b, e).
(** pBat_Args.c:143-157 [pBat_GetBlockLine] *)
Definition pBat_GetBlockLine (s : cstr) : outcome (cstr * cstr) :=
  do e <- pBat_GetBlockLineEndEx s false;
  let b := match s with c :: r => if ceq c "("%char then r else s | [] => s end in
  match e with
  | None => Undef                                        (* the end is NULL *)
  | Some e => if length b <? length e then Undef else Ret (firstn (length b - length e) b, e)
  end.
(** pBat_If.c:325-333, pBat_For.c:296-300: what IF and FOR run. *)
Definition opens (s : cstr) : bool := match s with c :: _ => ceq c "("%char | [] => false end.
Definition body_of (s : cstr) : outcome (cstr * cstr) := if opens s then pBat_GetNextBlock s else pBat_GetBlockLine s.
Definition after_par (s : cstr) : cstr :=
  pBat_SkipBlanks (match s with c :: r => if ceq c ")"%char then r else s | [] => s end).
(** pBat_Run.c:816-848 [pBat_LookAHeadMakeParsedLine] *)
Definition in_block (b : cstr) : cstr := "("%char :: b ++ [")"%char].
