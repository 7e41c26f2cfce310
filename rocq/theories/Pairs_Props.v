(** Pairs_Props.v -- property C43: pbatize considers every pair of switches once. *)

From Verif Require Import Base Pairs_Model Pairs_Proofs.

(** C43: for any non empty list of switches the loop ends, never reads outside
    the list, visits no pair twice, and visits exactly the pairs (command,
    switch) and (switch, other switch). *)
Theorem C43_pairs :
  forall switches, switches <> [] ->
    exists l fuel0, NoDup l /\
      (forall fuel, fuel0 <= fuel -> visit fuel switches pair_start = Ret l) /\
      forall p, In p l <->
        p_i p < length switches /\
        match p_j p with None => True | Some j => j < length switches /\ j <> p_i p end.
Proof.
  intros sw Hne. exists (all_pairs (length sw)), (length (all_pairs (length sw))).
  split; [apply all_pairs_nodup|]. split.
  - intros fuel Hf. apply visit_all; auto.
  - intros p. apply all_pairs_in. destruct sw; simpl; congruence.
Qed.
Print Assumptions C43_pairs.

(** C43: what is replaced for a pair is the two switches side by side, by the
    same two switches with a space in between. *)
Theorem C43_expressions :
  forall cmd switches p a b,
    nth_error switches (p_i p) = Some a ->
    match p_j p with None => b = cmd | Some j => exists c, nth_error switches j = Some c /\ b = ["/"%char; c] end ->
    pair_replace_exps cmd switches p = (b ++ ["/"%char; a], b ++ [" "%char; "/"%char; a]).
Proof.
  intros cmd sw p a b Ha Hb. unfold pair_replace_exps, switch_at. rewrite Ha.
  destruct (p_j p) as [j|].
  - destruct Hb as (c & Hc & ->). rewrite Hc. reflexivity.
  - subst b. reflexivity.
Qed.
Print Assumptions C43_expressions.

(** An empty switch list would be read out of bounds; no built-in command of
    pbatize has one. *)
Theorem C43_empty_refuted : visit 2 [] pair_start = Undef.
Proof. reflexivity. Qed.
Print Assumptions C43_empty_refuted.

(** The DIR command with switches A, S and B. *)
Example C43_ex :
  visit 20 (s2l "ASB") pair_start =
  Ret [mkPair 0 None; mkPair 1 None; mkPair 2 None; mkPair 0 (Some 1); mkPair 0 (Some 2);
       mkPair 1 (Some 0); mkPair 1 (Some 2); mkPair 2 (Some 0); mkPair 2 (Some 1)] /\
  pair_replace_exps (s2l "DIR") (s2l "ASB") (mkPair 1 (Some 0)) = (s2l "/A/S", s2l "/A /S").
Proof. vm_compute. auto. Qed.
