(** Pairs_Model.v -- model of pbatize/pairs.c, the enumeration of the pairs of
    switches that the pbatize converter separates with a space. *)

From Verif Require Import Base.

(** pbatize/pbatize.h:32-36: position in the enumeration; [None] stands for
    [j == -1] (the command itself paired with switch [i]). *)
Record pair := mkPair { p_i : nat; p_j : option nat }.

(** Reading [switches[k]]: the terminating NUL is at [length]; beyond it the
    access is out of bounds. *)
Definition at_end (switches : cstr) (k : nat) : outcome bool :=
  if k <? length switches then Ret false
  else if k =? length switches then Ret true else Undef.

(** pairs.c:27-32 [pair_start]. *)
Definition pair_start : pair := mkPair 0 None.

(** pairs.c:34-67 [pair_next]; [None] is the result 0 (finished). *)
Definition pair_next (switches : cstr) (p : pair) : outcome (option pair) :=
  match p_j p with
  | None =>
      do e <- at_end switches (S (p_i p));
      if e then
        if S (p_i p) =? 1 then Ret None else Ret (Some (mkPair 0 (Some 1)))
      else Ret (Some (mkPair (S (p_i p)) None))
  | Some j =>
      let j1 := if S j =? p_i p then S j else j in
      do e <- at_end switches (S j1);
      if e then
        do e2 <- at_end switches (S (p_i p));
        if e2 then Ret None else Ret (Some (mkPair (S (p_i p)) (Some 0)))
      else Ret (Some (mkPair (p_i p) (Some (S j1))))
  end.

(** pbatize.c:119-126: the do/while loop over the pairs; lists the pairs visited. *)
Fixpoint visit (fuel : nat) (switches : cstr) (p : pair) : outcome (list pair) :=
  match fuel with
  | O => OutOfFuel
  | S f =>
      do n <- pair_next switches p;
      match n with
      | None => Ret [p]
      | Some p' => do r <- visit f switches p'; Ret (p :: r)
      end
  end.

(** Reading [switches[k]] as a character, the NUL included. *)
Definition switch_at (switches : cstr) (k : nat) : cstr :=
  match nth_error switches k with Some c => [c] | None => [] end.

(** pairs.c:89-110 [pair_replace_exps]: text to replace and its replacement. *)
Definition pair_replace_exps (cmd switches : cstr) (p : pair) : cstr * cstr :=
  let first := match p_j p with
               | None => cmd
               | Some j => "/"%char :: switch_at switches j
               end in
  let second := "/"%char :: switch_at switches (p_i p) in
  (first ++ second, first ++ space :: second).
