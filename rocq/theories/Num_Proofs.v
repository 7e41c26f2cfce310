(** Num_Proofs.v -- lemmas on numbers. *)

From Verif Require Import Base Num_Model.

Lemma in_int_iff z : in_int z = true <-> (INT_MIN <= z <= INT_MAX)%Z.
Proof. unfold in_int. rewrite Bool.andb_true_iff, !Z.leb_le. tauto. Qed.

Lemma int_op_ok z : (INT_MIN <= z <= INT_MAX)%Z -> int_op z = Ret z.
Proof. intros H. unfold int_op. apply in_int_iff in H. rewrite H. auto. Qed.

Lemma to_int_id z : (INT_MIN <= z <= INT_MAX)%Z -> to_int z = z.
Proof. unfold INT_MIN, INT_MAX, to_int. intros H. rewrite Z.mod_small by lia. lia. Qed.

Lemma digit_facts z : (0 <= z < 10)%Z ->
  is_digit (digit z) = true /\ (code (digit z) - 48 = z)%Z /\ is_space (digit z) = false /\
  ceq (digit z) "-"%char = false /\ ceq (digit z) "+"%char = false /\ digit z <> "000"%char.
Proof.
  intros H.
  assert (E : (z = 0 \/ z = 1 \/ z = 2 \/ z = 3 \/ z = 4 \/ z = 5 \/ z = 6 \/ z = 7 \/ z = 8 \/ z = 9)%Z) by lia.
  repeat (destruct E as [->|E]; [repeat split; try reflexivity; discriminate|]).
  subst. repeat split; try reflexivity; discriminate.
Qed.

(** Value of a string of digits. *)
Lemma num_val_app a b acc : Forall (fun c => is_digit c = true) a ->
  num_val (a ++ b) acc = num_val b (num_val a acc).
Proof. intros H. revert acc. induction H as [|c a Hc _ IH]; simpl; intros; auto. rewrite Hc. auto. Qed.

Lemma num_val_stop b acc : (forall c r, b = c :: r -> is_digit c = false) -> num_val b acc = acc.
Proof. destruct b; simpl; auto. intros H. rewrite (H _ _ eq_refl). auto. Qed.

Lemma udec_loop_spec fuel : forall z acc, (0 <= z < 2 ^ Z.of_nat fuel)%Z ->
  exists ds, udec_loop fuel z acc = ds ++ acc /\ Forall (fun c => is_digit c = true) ds /\
    num_val ds 0 = z /\ (fuel <> 0 -> ds <> []).
Proof.
  induction fuel as [|f IH]; intros z acc Hz.
  - exists []. simpl in *. repeat split; auto; lia.
  - cbn [udec_loop]. rewrite Nat2Z.inj_succ, Z.pow_succ_r in Hz by lia.
    pose proof (Z.mod_pos_bound z 10 ltac:(lia)) as Hm.
    destruct (digit_facts (z mod 10) Hm) as (D1 & D2 & _).
    destruct (Z.ltb_spec z 10).
    + exists [digit (z mod 10)]. rewrite Z.mod_small in * by lia. simpl. rewrite D1. repeat split; auto; try lia.
      discriminate.
    + pose proof (Z.div_mod z 10 ltac:(lia)) as Hd.
      destruct (IH (z / 10)%Z (digit (z mod 10) :: acc)) as (ds & E & F & V & _).
      { pose proof (Z.div_pos z 10). lia. }
      exists (ds ++ [digit (z mod 10)]). rewrite E, <- app_assoc. repeat split; auto.
      * apply Forall_app. split; auto.
      * rewrite num_val_app by auto. rewrite V. simpl. rewrite D1, D2. lia.
      * intros _ X. destruct ds; discriminate.
Qed.

Lemma udec_spec z : (0 <= z)%Z ->
  Forall (fun c => is_digit c = true) (udec z) /\ num_val (udec z) 0 = z /\ udec z <> [].
Proof.
  intros Hz. unfold udec.
  destruct (udec_loop_spec (S (Z.to_nat (Z.log2 z))) z []) as (ds & E & F & V & N).
  { split; auto. rewrite Nat2Z.inj_succ, Z2Nat.id by apply Z.log2_nonneg.
    destruct (Z.eq_dec z 0) as [->|]; [reflexivity|]. apply Z.log2_spec. lia. }
  rewrite E, app_nil_r. auto.
Qed.

Lemma is_digit_facts c : is_digit c = true ->
  is_space c = false /\ ~ In c (s2l "-+:,=~^%!") /\ c <> "000"%char.
Proof.
  intros H.
  pose proof (ascii_forall (fun c => negb (is_digit c) ||
    negb (is_space c || inset ("000"%char :: s2l "-+:,=~^%!") c)) eq_refl c) as X.
  cbv beta in X. rewrite H in X. cbn [negb orb] in X. apply Bool.negb_true_iff, Bool.orb_false_iff in X.
  destruct X as [X1 X2]. split; auto. split.
  - intros I. assert (Y : inset ("000"%char :: s2l "-+:,=~^%!") c = true).
    { unfold inset. apply existsb_exists. exists c. split; [right; auto|apply ceq_refl]. }
    congruence.
  - intros ->. discriminate.
Qed.

Lemma ceq_neq a b : ceq a b = false <-> a <> b.
Proof. split; intros H; [apply ceq_false in H; auto|]. destruct (ceq a b) eqn:E; auto. apply ceq_true in E. tauto. Qed.

(** The digits of a number, with its sign. *)
Lemma dec_chars z : Forall (fun c => is_digit c = true \/ c = "-"%char) (dec z).
Proof.
  unfold dec. destruct (Z.ltb_spec z 0).
  - constructor; auto. eapply Forall_impl; [|apply (udec_spec (- z)); lia]. auto.
  - eapply Forall_impl; [|apply (udec_spec z); lia]. auto.
Qed.

Lemma dec_not_in z c : In c (s2l "+:,=~^%!" ++ ["000"%char]) -> ~ In c (dec z).
Proof.
  intros Hc Hi. pose proof (dec_chars z) as F. rewrite Forall_forall in F. destruct (F c Hi) as [D| ->].
  - apply is_digit_facts in D. destruct D as (_ & D1 & D2). apply in_app_or in Hc. destruct Hc as [Hc|[Hc|[]]]; auto.
    apply D1. right. auto.
  - cbv in Hc. intuition discriminate.
Qed.

Lemma num_signed_dec z r : (forall c t, r = c :: t -> is_digit c = false) ->
  num_signed (skip_space (dec z ++ r)) = z.
Proof.
  intros Hr. unfold dec. destruct (Z.ltb_spec z 0) as [Hz|Hz].
  - simpl. destruct (udec_spec (- z)) as (F & V & _); [lia|].
    rewrite num_val_app, (num_val_stop r) by auto. lia.
  - destruct (udec_spec z Hz) as (F & V & N). destruct (udec z) as [|c t]; [congruence|].
    inversion F as [|? ? D F' E]; subst. destruct (is_digit_facts c D) as (A & B & _).
    simpl app. cbn [skip_space]. rewrite A. unfold num_signed.
    destruct (ceq c "-"%char) eqn:E1; [apply ceq_true in E1; subst; discriminate|].
    destruct (ceq c "+"%char) eqn:E2; [apply ceq_true in E2; subst; discriminate|].
    change (c :: t ++ r) with ((c :: t) ++ r). rewrite num_val_app, (num_val_stop r); auto.
Qed.

Lemma atol_dec z : in_long z = true -> atol (dec z) = Ret z.
Proof.
  intros H. unfold atol. rewrite <- (app_nil_r (dec z)), num_signed_dec by discriminate. rewrite H. auto.
Qed.

Lemma in_int_long z : in_int z = true -> in_long z = true.
Proof.
  rewrite in_int_iff. unfold INT_MIN, INT_MAX, in_long. rewrite Bool.andb_true_iff, !Z.leb_le. lia.
Qed.

Lemma dec_nonul z : nonul (dec z).
Proof. unfold nonul. apply dec_not_in. cbv. tauto. Qed.
