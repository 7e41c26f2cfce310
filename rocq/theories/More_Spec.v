(** More_Spec.v -- how MORE lays a text out. *)

From Verif Require Import Base.

(** A line is cut in rows of 79 characters; the last row may be shorter. *)
Inductive cut : cstr -> list cstr -> Prop :=
| cut_last l : length l <= 79 -> cut l [l]
| cut_more a l ps : length a = 79 -> l <> [] -> cut l ps -> cut (a ++ l) (a :: ps).
(** Whether an empty line is left out, [prev] being the line before it that was not. *)
Definition drops (squeeze : bool) (prev : option cstr) : bool :=
  match prev with
  | None => false
  | Some [] => squeeze
  | Some l => length l mod 79 =? 0
  end.
(** The lines that are not left out. *)
Fixpoint kept (squeeze : bool) (prev : option cstr) (ls : list cstr) : list cstr :=
  match ls with
  | [] => []
  | [] :: ls => if drops squeeze prev then kept squeeze prev ls else [] :: kept squeeze (Some []) ls
  | l :: ls => l :: kept squeeze (Some l) ls
  end.
Definition lastly (prev : option cstr) (ls : list cstr) : option cstr := last (map Some ls) prev.
Definition ended (p : cstr) : cstr := if length p =? 79 then p ++ [nl] else p.
(** What is printed of a text that ends in the middle of a line [r]. *)
Definition last_rows (r : cstr) (rows : list cstr) : Prop := r = [] /\ rows = [] \/ r <> [] /\ exists ps, cut r ps /\ rows = map ended ps.
(** All but blanks and ends of lines. *)
Definition ink (c : ascii) : bool := negb (ceq c nl || ceq c " "%char || ceq c "009"%char).
