(** Errmsg_Proofs.v -- lemmas for C106. *)

From Coq Require Import NArith Lia.
From Verif Require Import Base Num_Model Errmsg_Model Errmsg_Spec.

Lemma printf_plain : forall p r a, plain p -> printf1 (p ++ r) a = (do t <- printf1 r a; Ret (p ++ t)).
Proof.
  induction p as [|c p IH]; intros r a H; cbn [app printf1].
  - destruct (printf1 r a); reflexivity.
  - destruct (Ascii.eqb_spec c "%"%char) as [->|_]; [exfalso; apply H; left; reflexivity|].
    rewrite IH by (intro X; apply H; right; exact X). destruct (printf1 r a); reflexivity.
Qed.
Lemma printf_end : forall p a, plain p -> printf1 p a = Ret p.
Proof. intros p a H. rewrite <- (app_nil_r p) at 1. rewrite printf_plain by exact H. cbn. rewrite app_nil_r. reflexivity. Qed.
Lemma printf_says : forall f c t, says f c t -> printf1 f (Some c) = Ret t.
Proof.
  intros f c t H. destruct H as [t c H|p q s P Q|p q z P Q].
  - apply printf_end, H.
  - rewrite printf_plain by exact P. change (s2l "%s" ++ q) with ("%"%char :: "s"%char :: q). cbn. rewrite printf_end by exact Q. reflexivity.
  - rewrite printf_plain by exact P. change (s2l "%d" ++ q) with ("%"%char :: "d"%char :: q). cbn. rewrite printf_end by exact Q. reflexivity.
Qed.

Definition num_ok (k : nat) : bool :=
  forallb (fun w : bool => N.eqb (N.ldiff (asked w k) C_ERROR) (N.of_nat k) && Bool.eqb (negb (N.eqb (N.land (asked w k) C_ERROR) 0)) w) [true; false].
Lemma num_all : forall k w, k < 128 \/ 256 <= k < 384 ->
  N.ldiff (asked w k) C_ERROR = N.of_nat k /\ negb (N.eqb (N.land (asked w k) C_ERROR) 0) = w.
Proof.
  assert (A : forallb num_ok (seq 0 128 ++ seq 256 128) = true) by (vm_compute; reflexivity).
  intros k w K. rewrite forallb_forall in A. specialize (A k).
  assert (I : In k (seq 0 128 ++ seq 256 128)) by (apply in_or_app; rewrite !in_seq; lia).
  specialize (A I). unfold num_ok in A. rewrite forallb_forall in A. specialize (A w).
  assert (W : In w [true; false]) by (destruct w; cbn; auto). specialize (A W).
  apply andb_true_iff in A. destruct A as [A B]. apply N.eqb_eq in A. apply Bool.eqb_prop in B. split; assumption.
Qed.

(** Split a message at its first special sign *)
Fixpoint cut (t : cstr) : cstr * cstr :=
  match t with [] => ([], []) | c :: r => if Ascii.eqb c "%"%char then ([], t) else let '(a, b) := cut r in (c :: a, b) end.
Lemma cut_ok : forall t a b, cut t = (a, b) -> t = a ++ b /\ plain a.
Proof.
  induction t as [|c t IH]; intros a b H; cbn in H.
  - injection H as <- <-. split; [reflexivity|intros []].
  - destruct (Ascii.eqb_spec c "%"%char) as [->|N]; [injection H as <- <-; split; [reflexivity|intros []]|].
    destruct (cut t) as [a' b'] eqn:E. injection H as <- <-. destruct (IH _ _ eq_refl) as [-> P]. split; [reflexivity|].
    intros [X|X]; [congruence|exact (P X)].
Qed.
Definition plainb (t : cstr) : bool := match snd (cut t) with [] => true | _ => false end.
Lemma plainb_ok : forall t, plainb t = true -> plain t.
Proof.
  intros t H. unfold plainb in H. destruct (cut t) as [a b] eqn:E. cbn in H. destruct b; [|discriminate].
  destruct (cut_ok _ _ _ E) as [-> P]. rewrite app_nil_r. exact P.
Qed.
(** A message with the conversion [d], or none *)
Definition shape (d : ascii) (t : cstr) : bool :=
  match snd (cut t) with [] => true | _ :: e :: q => Ascii.eqb e d && plainb q | _ => false end.
Lemma cut_head : forall t a c b, cut t = (a, c :: b) -> c = "%"%char.
Proof.
  induction t as [|x t IH]; intros a c b H; cbn in H; [discriminate|].
  destruct (Ascii.eqb_spec x "%"%char) as [->|N]; [injection H as <- <- <-; reflexivity|].
  destruct (cut t) as [a' b'] eqn:E. injection H as <- ->. exact (IH _ _ _ eq_refl).
Qed.
Lemma shape_ok : forall d t, shape d t = true -> plain t \/ exists p q, t = p ++ "%"%char :: d :: q /\ plain p /\ plain q.
Proof.
  intros d t H. unfold shape in H. destruct (cut t) as [a b] eqn:E. destruct (cut_ok _ _ _ E) as [T P]. cbn in H.
  destruct b as [|c [|e q]]; [left; rewrite T, app_nil_r; exact P|discriminate|].
  rewrite (cut_head _ _ _ _ E) in T. apply andb_true_iff in H. destruct H as [D Q]. apply Ascii.eqb_eq in D. subst e.
  right. exists a, q. split; [exact T|]. split; [exact P|]. apply plainb_ok, Q.
Qed.
