(** Num_Model.v -- C integers: range of [int], [atol]/[atoi], and "%d". *)

From Verif Require Import Base.

Definition INT_MIN : Z := -2147483648.
Definition INT_MAX : Z := 2147483647.
Definition in_int (z : Z) : bool := (INT_MIN <=? z)%Z && (z <=? INT_MAX)%Z.

(** Result of an [int] operation: overflow is undefined behaviour. *)
Definition int_op (z : Z) : outcome Z := if in_int z then Ret z else Undef.

(** Conversion of a [long] to [int] (wraps with gcc). *)
Definition to_int (z : Z) : Z := ((z + 2147483648) mod 4294967296 - 2147483648)%Z.

(** C library [isspace] in the C locale. *)
Definition is_space (c : ascii) : bool := ceq c space || ((9 <=? code c)%Z && (code c <=? 13)%Z).
Fixpoint skip_space (s : cstr) : cstr :=
  match s with
  | c :: r => if is_space c then skip_space r else s
  | [] => []
  end.

Fixpoint num_val (s : cstr) (acc : Z) : Z :=
  match s with
  | c :: r => if is_digit c then num_val r (acc * 10 + (code c - 48)) else acc
  | [] => acc
  end.
Definition num_signed (s : cstr) : Z :=
  match s with
  | c :: r => if ceq c "-"%char then (- num_val r 0)%Z
              else if ceq c "+"%char then num_val r 0 else num_val s 0
  | [] => 0%Z
  end.

(** C library [atol]: undefined when the number does not fit a [long]. *)
Definition in_long (z : Z) : bool :=
  (-9223372036854775808 <=? z)%Z && (z <=? 9223372036854775807)%Z.
Definition atol (s : cstr) : outcome Z :=
  let z := num_signed (skip_space s) in if in_long z then Ret z else Undef.

(** [printf] "%d". *)
Definition digit (z : Z) : ascii := ascii_of_N (Z.to_N (48 + z)).
Fixpoint udec_loop (fuel : nat) (z : Z) (acc : cstr) : cstr :=
  match fuel with
  | O => acc
  | S f => let acc' := digit (z mod 10) :: acc in
           if (z <? 10)%Z then acc' else udec_loop f (z / 10) acc'
  end.
Definition udec (z : Z) : cstr := udec_loop (S (Z.to_nat (Z.log2 z))) z [].
Definition dec (z : Z) : cstr := if (z <? 0)%Z then "-"%char :: udec (- z) else udec z.
