(** Ansi_Model.v -- model of how tea shows a paragraph with colours (tea/src/out/tea_ansi_out.c).  As in Layout_Model a character is one
    byte; ending the program with exit(-1) is [None].  Titles and code are shown as in C101 between two sequences. *)

From Verif Require Import Base Tea_Model Layout_Model.

(** What is written: text, or a sequence that changes the colour *)
Inductive aev := AText (t : cstr) | ACode (t : cstr).
Definition ESC : ascii := "027"%char.
(** tea_ansi_out.c:104-114 *)
Definition on (x : node) : list aev :=
  match x with
  | Emphasis _ => [ACode (ESC :: s2l "[36m" ++ ESC :: s2l "[1m")]
  | Link _ _ => [ACode (ESC :: s2l "[34m" ++ ESC :: s2l "[1m")]
  | Plain _ => []
  end.
(** 147-149 *)
Definition off (x : node) : list aev := match x with Plain _ => [] | _ => [ACode (ESC :: s2l "[39m" ++ ESC :: s2l "[0m")] end.

(** 100-154, the loops of [Tea_TextAnsiOutputParagraph]; [x] is the node that is shown, [first] the margin of the first line as long as
    there is none.  The loop of the program has no end of its own: [OutOfFuel] for each [fuel] is a loop that does not end. *)
Fixpoint ansi_loop (fuel m w : nat) (first : option nat) (nomargin : bool) (lft : nat) (x : node) (b : option cstr) (ns : list node) : outcome (list aev) :=
  match fuel with
  | O => OutOfFuel
  | S f =>
      match b with
      | None =>
          match ns with
          | [] => Ret (off x)
          | y :: ns => do t <- ansi_loop f m w first true lft y (Some (text_of y)) ns; Ret (off x ++ on y ++ t)
          end
      | Some s =>
          let n := match first with Some n => n | None => m end in
          let '(pre, s, lft, first) :=
            if nomargin then ([], s, lft, first)
            else (match first with Some _ => [] | None => [nl] end ++ margin n, drop_nl s, w - n, None) in
          do (o, r, lft) <- Tea_OutputLineT (map text_of ns) s lft;
          do t <- ansi_loop f m w first false lft x r ns;
          Ret (AText (pre ++ o) :: t)
      end
  end.
(** 85-156 [Tea_TextAnsiOutputParagraph] with "\n" for lpNl *)
Definition Tea_TextAnsiOutputParagraph (fuel m fl w : nat) (ns : list node) : outcome (option (list aev)) :=
  if (w <=? m) || (w <=? fl) then Ret None
  else match ns with
       | [] => Ret (Some [])
       | x :: ns => do l <- ansi_loop fuel m w (Some fl) false 0 x (Some (text_of x)) ns; Ret (Some (on x ++ l))
       end.
