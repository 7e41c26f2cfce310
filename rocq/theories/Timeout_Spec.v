(** Timeout_Spec.v -- what TIMEOUT asks for, and how long it waits. *)

From Coq Require Import Reals.
From Flocq Require IEEE754.BinarySingleNaN.
From Verif Require Import Base Lex Timeout_Model.

(** The number a double stands for, if it is one *)
Definition is_number (d : dbl) (r : R) : Prop := BinarySingleNaN.is_finite d = true /\ BinarySingleNaN.B2R d = r.

(** The time slept, in milliseconds *)
Fixpoint slept (l : list tev) : Z :=
  match l with [] => 0%Z | TSleep ms :: l => (ms + slept l)%Z | _ :: l => slept l end.

(** Parameters of TIMEOUT *)
Definition quiet (p : cstr) : Prop := same_name p (s2l "/T").
Definition no_key (p : cstr) : Prop := same_name p (s2l "/NOBREAK").
Definition help (p : cstr) : Prop := same_name p (s2l "/?").
Definition other (p : cstr) : Prop := ~ quiet p /\ ~ no_key p /\ ~ help p.
(** [reads strtod p d]: the text [p] is, to its end, the number [d]. *)
Definition reads (strtod : cstr -> dbl * nat) (p : cstr) (d : dbl) : Prop := other p /\ exists k, strtod p = (d, k) /\ length p <= k.
Definition unread (strtod : cstr -> dbl * nat) (p : cstr) : Prop := other p /\ snd (strtod p) < length p.
(** One number, else options *)
Definition asked (strtod : cstr -> dbl * nat) (ps : list cstr) (nobreak : bool) (d : dbl) : Prop :=
  exists a p b, ps = a ++ p :: b /\ Forall (fun q => quiet q \/ no_key q) (a ++ b) /\ reads strtod p d /\
    (nobreak = true <-> Exists no_key ps).
(** No number, options *)
Definition unasked (ps : list cstr) (nobreak : bool) : Prop := Forall (fun q => quiet q \/ no_key q) ps /\ (nobreak = true <-> Exists no_key ps).

(** The first time a key is there is the [k]-th (from 0). *)
Definition first_key (key : nat -> bool) (k : nat) : Prop := key k = true /\ forall j, j < k -> key j = false.
(** The time until a key is seen that the [k]-th look sees, in seconds *)
Definition look (k : nat) : R := (INR (S k) / 10)%R.
(** [near a b e]: [a] and [b] differ by [e] at most. *)
Definition near (a b e : R) : Prop := (Rabs (a - b) <= e)%R.
Definition seconds (ms : Z) : R := (IZR ms / 1000)%R.
