(** Glob_Spec.v -- what a wildcard pattern means. *)

From Verif Require Import Base.

(** The characters of a string: in byte mode each byte, in UTF-8 mode a non ASCII
    byte together with the continuation bytes (128..191) that follow it. *)
Definition joins (utf8 : bool) (c : ascii) (r : cstr) : bool :=
  match r with
  | [] => false
  | d :: _ => utf8 && (128 <=? code c)%Z && ((128 <=? code d)%Z && (code d <? 192)%Z)
  end.
Fixpoint chars (utf8 : bool) (s : cstr) : list cstr :=
  match s with
  | [] => []
  | c :: r =>
      match chars utf8 r with
      | u :: us => if joins utf8 c r then (c :: u) :: us else [c] :: u :: us
      | [] => [[c]]
      end
  end.

(** Same character, or same up to case. *)
Definition same_char (cs : bool) (a b : ascii) : Prop :=
  if cs then a = b else tolower a = tolower b.

(** A question mark stands for one character, a star for any run of characters,
    any other pattern byte for itself. *)
Inductive glob (cs : bool) : cstr -> list cstr -> Prop :=
| glob_nil : glob cs [] []
| glob_one p u us : glob cs p us -> glob cs ("?"%char :: p) (u :: us)
| glob_star p us1 us2 : glob cs p us2 -> glob cs ("*"%char :: p) (us1 ++ us2)
| glob_lit c d p us : c <> "?"%char -> c <> "*"%char -> same_char cs c d ->
    glob cs p us -> glob cs (c :: p) ([d] :: us).

(** No question mark right after a star. *)
Definition no_star_question (p : cstr) : Prop :=
  forall a b, p <> a ++ "*"%char :: "?"%char :: b.
(** No question mark anywhere after a star. *)
Definition no_question_after_star (p : cstr) : Prop :=
  forall a b c, p <> a ++ "*"%char :: b ++ "?"%char :: c.

Definition ends_with_star (p : cstr) : Prop := exists q, p = q ++ ["*"%char].
