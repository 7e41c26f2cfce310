(** Pipe_Spec.v -- what a chain of commands that are joined by pipes should do: each one reads
    what the one before it writes *)

From Verif Require Import Base Pipe_Model.

Section Spec.
Variable Q : Type.
Variable act : nat -> Q -> action Q.
Variable q0 : nat -> Q.

(** What a command did so far: what it read, whether it read the end, what it wrote; and its state *)
Record did := Did { d_in : cstr; d_end : bool; d_out : cstr; d_q : Q }.
(** One thing more that it does, if all it writes is taken *)
Inductive move (k : nat) : did -> did -> Prop :=
| m_read : forall i o x c f, act k x = ARead f -> move k (Did i false o x) (Did (i ++ [c]) false o (f (Some c)))
| m_end : forall i e o x f, act k x = ARead f -> move k (Did i e o x) (Did i true o (f None))
| m_write : forall i e o x c f, act k x = AWrite c f -> move k (Did i e o x) (Did i e (o ++ [c]) (f true)).
Inductive moves (k : nat) (d : did) : did -> Prop :=
| ms_none : moves k d d
| ms_more : forall d1 d2, moves k d d1 -> move k d1 d2 -> moves k d d2.

Definition prefix (a b : cstr) : Prop := exists c, b = a ++ c.
Definition stopped_at (k : nat) (d : did) : Prop := act k (d_q d) = AStop.

(** [h k] is what command [k] did.  It read nothing but what the command before it wrote, in that
    order, and read the end only after that one stopped and all was read. *)
Definition chain (m : nat) (input : cstr) (h : nat -> did) : Prop :=
  (forall k, k <= m -> moves k (Did [] false [] (q0 k)) (h k)) /\
  prefix (d_in (h 0)) input /\ (d_end (h 0) = true -> d_in (h 0) = input) /\
  (forall k, k < m -> prefix (d_in (h (S k))) (d_out (h k)) /\
     (d_end (h (S k)) = true -> d_in (h (S k)) = d_out (h k) /\ stopped_at k (h k))).
(** what the last command of a chain writes, once it stopped *)
Definition gives (m : nat) (input output : cstr) : Prop :=
  exists h, chain m input h /\ stopped_at m (h m) /\ d_out (h m) = output.
End Spec.
