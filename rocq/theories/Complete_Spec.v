(** Complete_Spec.v -- what the key TAB does. *)

From Verif Require Import Base Lex Fs_Model Search_Spec.

(** The word before the cursor, [w], and whether it is in quotes that end behind the cursor.
    Blanks, '&' and '|' are between words. *)
Definition cuts (c : ascii) : Prop := In c ("009"%char :: s2l " &|").
Definition first_word (a : cstr) : Prop := a = [] \/ exists a' c, a = a' ++ [c] /\ cuts c.
Inductive word_at : cstr -> cstr -> cstr -> Prop :=
| wa_plain a w after : first_word a -> ~ In dquote w -> (forall c, In c w -> ~ cuts c) -> (forall r, after <> dquote :: r) -> word_at (a ++ w) after w
| wa_quoted a w r : first_word a -> ~ In dquote w -> word_at (a ++ dquote :: w) (dquote :: r) w.

(** [n] is in the directory [d], and begins with [c], in any case, and something follows. *)
Definition goes_on (f : fsys) (d : place) (c n : cstr) : Prop :=
  get f (n :: d) <> None /\ exists a r, n = a ++ r /\ same_name a c /\ r <> [].
(** The longest beginning that all of [l] have *)
Definition all_begin (l : list cstr) (p : cstr) : Prop := Forall (fun q => exists r, q = p ++ r) l.
Definition longest_begin (l : list cstr) (p : cstr) : Prop := all_begin l p /\ forall p', all_begin l p' -> length p' <= length p.

(** The name at the end of a path *)
Definition last_name (p n : cstr) : Prop :=
  ~ In "/"%char n /\ ~ In "\"%char n /\ exists a, p = a ++ n /\ (a = [] \/ exists a' c, a = a' ++ [c] /\ (c = "/"%char \/ c = "\"%char)).
(** Names, each in [width] columns, in rows of [per] names, the last one of which can be
    shorter *)
Definition col (width : nat) (s : cstr) : cstr := s ++ repeat " "%char (width - length s).
Definition row (width : nat) (r : list cstr) : cstr := flat_map (col width) r ++ ["013"%char; "010"%char].
Definition in_rows (per : nat) (names : list cstr) (rows : list (list cstr)) : Prop :=
  concat rows = names /\ Forall (fun r => r <> [] /\ length r <= per) rows /\ forall a r b, rows = a ++ r :: b -> b <> [] -> length r = per.
