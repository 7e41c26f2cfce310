(** Layout_Model.v -- model of how tea shows a page as text (tea/src/Tea_Output.c, tea/src/out/tea_text_out.c).  A character is one
    byte (text that is not UTF-8).  A node is the text that is shown of it (what tea_text_out.c:217-266 makes of emphasis and links is
    left out).  Ending the program with exit(-1) is [None]. *)

From Verif Require Import Base.

Definition eow (c : ascii) : bool := ceq c " "%char || ceq c nl.

(** Tea_Output.c:66-80 [Tea_GetWordLength] *)
Fixpoint Tea_GetWordLength (s : cstr) : nat :=
  match s with [] => 0 | c :: r => if eow c then 0 else S (Tea_GetWordLength r) end.
(** 26-64 [Tea_GetWordLengthT]: [ns] are the nodes behind this one.  Going on with another node counts as a character. *)
Fixpoint len_in (s : cstr) (k : nat) : nat :=
  match s with [] => k | c :: r => if eow c then 0 else S (len_in r k) end.
Fixpoint len_nodes (ns : list cstr) : nat :=
  match ns with
  | [] => 0
  | [] :: ns => len_nodes ns
  | n :: ns => S (len_in n (len_nodes ns))
  end.
Definition Tea_GetWordLengthT (ns : list cstr) (s : cstr) : nat := len_in s (len_nodes ns).

(** 97-129 [Tea_OutputWord]: what is written, the rest, iLeft *)
Fixpoint Tea_OutputWord (s : cstr) (lft : nat) : cstr * cstr * nat :=
  match s with
  | [] => ([], [], lft)
  | c :: r =>
      if eow c then ([], s, lft)
      else match lft with
           | O => ([], s, lft)
           | S l => let '(o, t, l) := Tea_OutputWord r l in (c :: o, t, l)
           end
  end.
(** 131-170 [Tea_OutputLineT] and 172-211 [Tea_OutputLine], which differ by the length of words, [len].  [None] is NULL. *)
Fixpoint output_line (fuel : nat) (len : cstr -> nat) (s : cstr) (lft : nat) : outcome (cstr * option cstr * nat) :=
  match fuel with
  | O => OutOfFuel
  | S f =>
      match s with
      | [] => Ret ([], None, lft)
      | _ =>
          if lft <=? len s then Ret ([], Some s, lft)
          else
            let '(o, r, lft) := Tea_OutputWord s lft in
            match r with
            | [] => Ret (o, None, lft)
            | c :: r' =>
                if ceq c nl then Ret (o, Some r, lft)
                else
                  let '(b, lft) := match lft with O => ([], O) | S l => ([" "%char], l) end in
                  do (o', t, lft) <- output_line f len r' lft;
                  Ret (o ++ b ++ o', t, lft)
            end
      end
  end.
Definition Tea_OutputLine (s : cstr) (lft : nat) := output_line (S (length s)) Tea_GetWordLength s lft.
Definition Tea_OutputLineT (ns : list cstr) (s : cstr) (lft : nat) := output_line (S (length s)) (Tea_GetWordLengthT ns) s lft.
(** 82-95 [Tea_MakeMargin] *)
Definition margin (n : nat) : cstr := repeat " "%char n.
Definition drop_nl (s : cstr) : cstr := match s with c :: r => if ceq c nl then r else s | [] => [] end.
Definition at_nl (s : cstr) : bool := match s with c :: _ => ceq c nl | [] => false end.

(** tea_text_out.c:92-125, the loop of [Tea_TextOutputStaticBlock]; the loop of the program has no end of its own, so [fuel] may be
    any number: [OutOfFuel] for each is a loop that does not end. *)
Fixpoint static_loop (fuel m k w : nat) (first : bool) (b : option cstr) : outcome cstr :=
  match b with
  | None => Ret []
  | Some s =>
      match fuel with
      | O => OutOfFuel
      | S f =>
          let n := if first || at_nl s then m else k in
          do (o, r, _) <- Tea_OutputLine (drop_nl s) (w - n);
          do t <- static_loop f m k w false r;
          Ret ((if first then [] else [nl]) ++ margin n ++ o ++ t)
      end
  end.
(** 78-127 [Tea_TextOutputStaticBlock] with "\n" for lpNl *)
Definition Tea_TextOutputStaticBlock (fuel m k w : nat) (s : cstr) : outcome (option cstr) :=
  if (w <=? m) || (w <=? k) then Ret None
  else do o <- static_loop fuel m k w true (Some s); Ret (Some o).

(** tea_text_out.c:145-213, the loops of [Tea_TextOutputParagraph]; [first] is the margin of the first line as long as there is none.
    pBat_GetNextChar(NULL), and reading behind the end of a node, are undefined. *)
Fixpoint skip_sp (s : cstr) : cstr := match s with c :: r => if ceq c " "%char then skip_sp r else s | [] => [] end.
Fixpoint para_loop (fuel m w : nat) (first : option nat) (nomargin : bool) (lft lftnl : nat) (b : option cstr) (ns : list cstr) : outcome cstr :=
  match fuel with
  | O => OutOfFuel
  | S f =>
      match b with
      | None => match ns with [] => Ret [] | n :: ns => para_loop f m w first true lft lftnl (Some n) ns end
      | Some s =>
          let n := match first with Some n => n | None => m end in
          let '(pre, s, lft, lftnl, first) :=
            if nomargin then ([], s, lft, lftnl, first)
            else (match first with Some _ => [] | None => [nl] end ++ margin n, drop_nl s, w - n, w - n, None) in
          do (o, r, lft) <- Tea_OutputLineT ns s lft;
          if lftnl =? lft then
            match r with
            | None => Undef
            | Some s =>
                if length s <? lft then Undef
                else
                  do t <- para_loop f m w first false 0 lftnl (Some (skip_sp (skipn lft s))) ns;
                  Ret (pre ++ o ++ firstn lft s ++ t)
            end
          else
            do t <- para_loop f m w first false lft lftnl r ns;
            Ret (pre ++ o ++ t)
      end
  end.
(** 129-215 [Tea_TextOutputParagraph] *)
Definition Tea_TextOutputParagraph (fuel m fl w : nat) (ns : list cstr) : outcome (option cstr) :=
  if (w <=? m) || (w <=? fl) then Ret None
  else match ns with
       | [] => Ret (Some [])
       | n :: ns => do o <- para_loop fuel m w (Some fl) false 0 0 (Some n) ns; Ret (Some o)
       end.
