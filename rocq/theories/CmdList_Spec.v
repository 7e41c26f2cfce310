(** CmdList_Spec.v -- what the command table is expected to do, stated on the
    sorted list of commands it holds. *)

From Coq Require Export Sorting.Sorted Sorting.Permutation.
From Verif Require Import Base Lex CmdList_Model.

(** The commands of a table, left to right. *)
Fixpoint entries (t : tree) : list entry :=
  match t with Leaf => [] | Node e l r => entries l ++ e :: entries r end.

(** Case-insensitive alphabetical order of the names. *)
Definition name_lt (a b : entry) : Prop := lex (key (e_name a)) (key (e_name b)) = Lt.
Definition ordered (t : tree) : Prop := StronglySorted name_lt (entries t).

(** A well formed command: a non empty name without NUL, and the delimiter, if
    one is required, is required right after the name. *)
Definition wf_entry (e : entry) : Prop :=
  nonul (e_name e) /\ e_name e <> [] /\ (e_limit e = 0 \/ e_limit e = length (e_name e)).
Definition wf (t : tree) : Prop := Forall wf_entry (entries t).

Definition delimiter (c : ascii) : Prop :=
  c = " "%char \/ c = ","%char \/ c = ";"%char \/ c = "010"%char \/ c = "009"%char \/ c = "/"%char.
(** The name stops here: end of line or delimiter. *)
Definition stops (s : cstr) : Prop := s = [] \/ exists d r, s = d :: r /\ delimiter d.

(** [line] starts with [name], ignoring case, [rest] being what follows. *)
Definition starts_with (line name rest : cstr) : Prop :=
  exists n, line = n ++ rest /\ same_name n name.

(** Number of nested levels. *)
Fixpoint depth (t : tree) : nat :=
  match t with Leaf => 0 | Node _ l r => S (Nat.max (depth l) (depth r)) end.
