(** StrLib_Spec.v -- what escaping and quoting mean, independently of how the
    code searches. *)

From Verif Require Import Base.

(** Reading a line from left to right, an unprotected '^' protects the next
    character.  [protected_from e s] tells for each position of [s] whether it
    is protected, [e] being whether the first one is. *)
Fixpoint protected_from (e : bool) (s : cstr) : list bool :=
  match s with
  | [] => []
  | c :: r => e :: protected_from (negb e && Ascii.eqb c "^"%char) r
  end.

(** Position [i] holds a character satisfying [p] that is not protected. *)
Definition live (p : ascii -> bool) (s : cstr) (i : nat) : Prop :=
  nth_error (protected_from false s) i = Some false /\
  exists c, nth_error s i = Some c /\ p c = true.

(** [r] is the first position satisfying [P], or [None] if there is none. *)
Definition first_pos (P : nat -> Prop) (r : option nat) : Prop :=
  match r with
  | Some i => P i /\ forall j, j < i -> ~ P j
  | None => forall j, ~ P j
  end.

(** [r] is the last position satisfying [P], or [None] if there is none. *)
Definition last_pos (P : nat -> Prop) (r : option nat) : Prop :=
  match r with
  | Some i => P i /\ forall j, i < j -> ~ P j
  | None => forall j, ~ P j
  end.

(** Number of unprotected double quotes strictly before position [i]. *)
Fixpoint count_quotes (s : cstr) (prot : list bool) (i : nat) : nat :=
  match i, s, prot with
  | S i', c :: s', e :: prot' =>
      (if Ascii.eqb c """"%char && negb e then 1 else 0) + count_quotes s' prot' i'
  | _, _, _ => 0
  end.

Definition quotes_before (s : cstr) (i : nat) : nat :=
  count_quotes s (protected_from false s) i.

(** A live position lying outside quotes. *)
Definition live_unquoted (p : ascii -> bool) (s : cstr) (i : nat) : Prop :=
  live p s i /\ Nat.Even (quotes_before s i).

(** [escaping t s]: [s] is [t] with a '^' put in front of some characters,
    among which every '^'. *)
Inductive escaping : cstr -> cstr -> Prop :=
| esc_nil : escaping [] []
| esc_plain c t s : c <> "^"%char -> escaping t s -> escaping (c :: t) (c :: s)
| esc_prot c t s : escaping t s -> escaping (c :: t) ("^"%char :: c :: s).
