(** Layout_Spec.v -- how a text is laid out, without the program. *)

From Verif Require Import Base Layout_Model Tea_Spec.

(** A word: no blank and no end of line.  [word_of s] is the word a text begins with. *)
Fixpoint word_of (s : cstr) : cstr := match s with c :: r => if ceq c " "%char || ceq c nl then [] else c :: word_of r | [] => [] end.
(** Every word has less than [n] characters. *)
Definition short (n : nat) (s : cstr) : Prop := forall u v, s = u ++ v -> length (word_of v) < n.

(** Lines with margins: a line ends where the text has an end of line (margin [m] follows), or behind a blank when the next word would
    not fit (margin [k] follows).  No line is longer than [w], and every character is there. *)
Inductive laid (m k w : nat) : nat -> cstr -> cstr -> Prop :=
| la_end n c : ~ In nl c -> n + length c <= w -> laid m k w n c (repeat " "%char n ++ c)
| la_hard n c s o : ~ In nl c -> n + length c <= w -> laid m k w m s o -> laid m k w n (c ++ nl :: s) (repeat " "%char n ++ c ++ nl :: o)
| la_soft n c s o : ~ In nl (c ++ [" "%char]) -> n + length c + 1 <= w -> w <= n + length c + 1 + length (word_of s) -> hd_error s <> Some nl -> s <> [] -> laid m k w k s o ->
    laid m k w n (c ++ " "%char :: s) (repeat " "%char n ++ c ++ " "%char :: nl :: o).

(** Lines of a text: the first has at most [lft] characters, the others at most [w]. *)
Fixpoint fits (w lft : nat) (o : cstr) : Prop :=
  match o with
  | [] => True
  | c :: r => if ceq c nl then fits w w r else match lft with O => False | S l => fits w l r end
  end.

(** Every word of the parts of a paragraph has less than [n] characters, when a word goes on through the parts behind it (each
    that is not empty counts for one more, here an x). *)
Fixpoint joined (l : list cstr) : cstr := match l with [] => [] | [] :: l => joined l | p :: l => "x"%char :: p ++ joined l end.
Definition short_parts (n : nat) (l : list cstr) : Prop :=
  forall a u v b, l = a ++ (u ++ v) :: b -> length (word_of (v ++ joined b)) < n.

(** A paragraph in lines: nothing is changed, but behind some of its blanks a new line with margin [m] begins. *)
Inductive filled (m : nat) : cstr -> cstr -> Prop :=
| fi_end s : filled m s s
| fi_line c s o : filled m s o -> filled m (c ++ " "%char :: s) (c ++ " "%char :: nl :: repeat " "%char m ++ o).
