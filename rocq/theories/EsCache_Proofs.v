(** EsCache_Proofs.v *)

From Verif Require Import Base EsCache_Model.
From Coq Require Import NArith.

Lemma upd_length {A} (l : list A) i f : length (upd l i f) = length l.
Proof. revert i; induction l as [|x l IH]; intros [|i]; simpl; auto. Qed.

Lemma upd_nth {A} (l : list A) i f j d :
  i < length l -> nth j (upd l i f) d = if i =? j then f (nth j l d) else nth j l d.
Proof.
  revert i j; induction l as [|x l IH]; intros i j Hi; [simpl in Hi; lia|].
  destruct i as [|i], j as [|j]; simpl; auto. apply IH. simpl in Hi; lia.
Qed.

(** Status bit of slot [x]. *)
Definition bit (w : list N) (x : nat) : bool :=
  N.testbit (nth (x / 32) w 0%N) (N.of_nat (x mod 32)).

Lemma BIT_testbit a b : N.testbit (BIT a) (N.of_nat b) = (a =? b).
Proof.
  unfold BIT. destruct (Nat.leb a b) eqn:E.
  - apply Nat.leb_le in E. rewrite N.shiftl_spec_high by lia.
    replace (N.of_nat b - N.of_nat a)%N with (N.of_nat (b - a)) by lia.
    destruct (Nat.eqb a b) eqn:Eq.
    + apply Nat.eqb_eq in Eq. subst. rewrite Nat.sub_diag. reflexivity.
    + apply Nat.eqb_neq in Eq. destruct (b - a) as [|k] eqn:Ek; [lia|]. destruct k; reflexivity.
  - apply Nat.leb_gt in E. rewrite N.shiftl_spec_low by lia.
    symmetry. apply Nat.eqb_neq. lia.
Qed.

Lemma div_mod_eq x y : x / 32 = y / 32 -> x mod 32 = y mod 32 -> x = y.
Proof. intros H1 H2. rewrite (Nat.div_mod x 32), (Nat.div_mod y 32) by lia. congruence. Qed.

Lemma div_lt x : x < 128 -> x / 32 < 4.
Proof. intros H. apply Nat.div_lt_upper_bound; lia. Qed.

Lemma eqb_split x y : (x =? y) = (x / 32 =? y / 32) && (x mod 32 =? y mod 32).
Proof.
  destruct (x =? y) eqn:E.
  - apply Nat.eqb_eq in E. subst. rewrite !Nat.eqb_refl. reflexivity.
  - destruct (x / 32 =? y / 32) eqn:E1; auto. destruct (x mod 32 =? y mod 32) eqn:E2; auto.
    apply Nat.eqb_eq in E1, E2. apply Nat.eqb_neq in E. exfalso. apply E. apply div_mod_eq; auto.
Qed.

Lemma bit_on w x y : length w = 4 -> x < 128 -> bit (STATUS_ON w x) y = (x =? y) || bit w y.
Proof.
  intros Hw Hx. unfold bit, STATUS_ON. rewrite upd_nth by (rewrite Hw; apply div_lt; auto).
  rewrite (eqb_split x y). destruct (x / 32 =? y / 32) eqn:E; simpl; auto.
  rewrite N.lor_spec, BIT_testbit. apply orb_comm.
Qed.

Lemma bit_off w x y : length w = 4 -> x < 128 -> bit (STATUS_OFF w x) y = negb (x =? y) && bit w y.
Proof.
  intros Hw Hx. unfold bit, STATUS_OFF. rewrite upd_nth by (rewrite Hw; apply div_lt; auto).
  rewrite (eqb_split x y). destruct (x / 32 =? y / 32) eqn:E; simpl; auto.
  rewrite N.ldiff_spec, BIT_testbit. apply andb_comm.
Qed.

Lemma scan_bits_Some n j st k :
  scan_bits n j st = Some k -> j <= k < j + n /\ N.testbit st (N.of_nat (k - j)) = false.
Proof.
  revert j st; induction n as [|n IH]; intros j st H; cbn [scan_bits] in H; [discriminate|].
  destruct (N.testbit st 0) eqn:E.
  - apply IH in H as [H1 H2]. split; [lia|]. rewrite N.shiftr_spec in H2 by lia.
    replace (N.of_nat (k - j)) with (N.of_nat (k - S j) + 1)%N by lia. auto.
  - injection H as <-. rewrite Nat.sub_diag. split; [lia|auto].
Qed.

Lemma scan_bits_None n j st :
  scan_bits n j st = None -> forall k, k < n -> N.testbit st (N.of_nat k) = true.
Proof.
  revert j st; induction n as [|n IH]; intros j st H k Hk; cbn [scan_bits] in H; [lia|].
  destruct (N.testbit st 0) eqn:E; [|discriminate].
  destruct k as [|k]; [auto|]. specialize (IH _ _ H k ltac:(lia)).
  rewrite N.shiftr_spec in IH by lia. replace (N.of_nat (S k)) with (N.of_nat k + 1)%N by lia. auto.
Qed.

Lemma all_ones_bit k : k < 32 -> N.testbit all_ones (N.of_nat k) = true.
Proof.
  intros H. change all_ones with (N.ones 32). apply N.ones_spec_low. lia.
Qed.

Lemma scan_words_Some w i x :
  scan_words w i = Some x ->
  exists q r, x = (i + q) * 32 + r /\ q < length w /\ r < 32 /\
              N.testbit (nth q w 0%N) (N.of_nat r) = false.
Proof.
  revert i; induction w as [|st w IH]; intros i H; cbn [scan_words] in H; [discriminate|].
  assert (Hrec : scan_words w (S i) = Some x -> exists q r, x = (i + q) * 32 + r /\
             q < length (st :: w) /\ r < 32 /\ N.testbit (nth q (st :: w) 0%N) (N.of_nat r) = false).
  { intros H'. apply IH in H' as (q & r & H1 & H2 & H3 & H4). exists (S q), r.
    simpl. repeat split; auto; lia. }
  destruct (N.eqb st all_ones); auto.
  destruct (scan_bits 32 0 st) as [j|] eqn:E; auto.
  injection H as <-. apply scan_bits_Some in E as [E1 E2]. exists 0, j.
  rewrite Nat.sub_0_r in E2. simpl. repeat split; auto; lia.
Qed.

Lemma scan_words_None w i :
  scan_words w i = None ->
  forall q r, q < length w -> r < 32 -> N.testbit (nth q w 0%N) (N.of_nat r) = true.
Proof.
  revert i; induction w as [|st w IH]; intros i H q r Hq Hr; simpl in Hq; [lia|].
  cbn [scan_words] in H. destruct (N.eqb st all_ones) eqn:E.
  - apply N.eqb_eq in E. subst. destruct q as [|q]; simpl; [apply all_ones_bit; auto|].
    eapply IH; eauto. lia.
  - destruct (scan_bits 32 0 st) eqn:E2; [discriminate|].
    destruct q as [|q]; simpl; [eapply scan_bits_None; eauto|eapply IH; eauto; lia].
Qed.

Lemma scan_Some w x : length w = 4 -> scan_words w 0 = Some x -> x < 128 /\ bit w x = false.
Proof.
  intros Hw H. apply scan_words_Some in H as (q & r & -> & H1 & H2 & H3).
  split; [lia|]. unfold bit.
  replace ((0 + q) * 32 + r) with (r + q * 32) by lia.
  rewrite Nat.div_add, Nat.div_small, Nat.mod_add, Nat.mod_small by lia. exact H3.
Qed.

Lemma scan_None w : length w = 4 -> scan_words w 0 = None -> forall x, x < 128 -> bit w x = true.
Proof.
  intros Hw H x Hx. unfold bit. eapply scan_words_None; eauto.
  - rewrite Hw. apply div_lt; auto.
  - apply Nat.mod_upper_bound. lia.
Qed.

(** Build. *)
Lemma build_loop_spec n i ok w :
  length w = 4 -> i + n = 128 ->
  (forall x, x < 128 -> bit w x = negb ((x <? i) && ok x)) ->
  let (w', p) := build_loop n i ok w in
  length w' = 4 /\ length p = n /\
  (forall x, x < 128 -> bit w' x = negb (ok x)) /\
  (forall x, x < n -> sl_text (nth x p (mkSlot 0 [])) = []).
Proof.
  revert i w; induction n as [|n IH]; intros i w Hw Hi Hb; cbn [build_loop].
  - split; auto. split; auto. split; [|intros; lia]. intros x Hx. rewrite Hb by auto.
    replace (x <? i) with true by (symmetry; apply Nat.ltb_lt; lia). reflexivity.
  - specialize (IH (S i) (if ok i then STATUS_OFF w i else w)).
    destruct (build_loop n (S i) ok _) as [w' p].
    destruct IH as (H1 & H2 & H3 & H4).
    + destruct (ok i); auto. unfold STATUS_OFF. rewrite upd_length. auto.
    + lia.
    + intros x Hx. destruct (ok i) eqn:Eo.
      * rewrite bit_off by (auto; lia). rewrite Hb by auto.
        destruct (i =? x) eqn:E; simpl.
        -- apply Nat.eqb_eq in E. subst x. rewrite Eo.
           replace (i <? S i) with true by (symmetry; apply Nat.ltb_lt; lia). reflexivity.
        -- apply Nat.eqb_neq in E. f_equal. f_equal.
           destruct (x <? i) eqn:E1, (x <? S i) eqn:E2; auto; lia.
      * rewrite Hb by auto. f_equal. destruct (x <? i) eqn:E1, (x <? S i) eqn:E2; auto; try lia.
        assert (x = i) by lia. subst. rewrite Eo. reflexivity.
    + split; auto. split; [simpl; lia|]. split; auto.
      intros [|x] Hx; simpl; auto. apply H4. lia.
Qed.

Lemma repeat_ones_bit x : x < 128 -> bit (repeat all_ones 4) x = true.
Proof.
  intros H. unfold bit. rewrite (nth_indep _ 0%N all_ones).
  - rewrite nth_repeat. apply all_ones_bit. apply Nat.mod_upper_bound. lia.
  - rewrite repeat_length. apply div_lt; auto.
Qed.

(** Invariant. *)
Definition Inv (ok : nat -> bool) (w : world) : Prop :=
  length (c_words (w_cache w)) = 4 /\ length (c_pool (w_cache w)) = 128 /\
  NoDup (w_held w) /\
  (forall x, In (Pool x) (w_held w) -> x < 128 /\ ok x = true) /\
  (forall k, In (Fresh k) (w_held w) -> k < w_next w) /\
  (forall x, x < 128 ->
     (bit (c_words (w_cache w)) x = false <-> (ok x = true /\ ~ In (Pool x) (w_held w)))) /\
  (forall x, x < 128 -> ok x = true -> ~ In (Pool x) (w_held w) ->
     sl_text (nth x (c_pool (w_cache w)) (mkSlot 0 [])) = []) /\
  (forall x, In (Pool x) (w_held w) ->
     (0 < sl_len (nth x (c_pool (w_cache w)) (mkSlot 0 [])))%Z) /\
  (forall x, x < 128 -> ok x = true -> ~ In (Pool x) (w_held w) ->
     (0 < sl_len (nth x (c_pool (w_cache w)) (mkSlot 0 [])))%Z).

Lemma build_loop_len n i ok w x :
  x < n -> ok (i + x) = true ->
  sl_len (nth x (snd (build_loop n i ok w)) (mkSlot 0 [])) = DEFAULT_ESTR_SIZE.
Proof.
  revert i w x; induction n as [|n IH]; intros i w x Hx Hok; [lia|].
  cbn [build_loop]. destruct (build_loop n (S i) ok _) as [w' p] eqn:E. cbn [snd].
  destruct x as [|x]; simpl.
  - rewrite Nat.add_0_r in Hok. rewrite Hok. reflexivity.
  - change p with (snd (w', p)). rewrite <- E. apply IH; [lia|].
    rewrite <- Hok. f_equal. lia.
Qed.

Lemma Inv_start ok : Inv ok (start ok).
Proof.
  unfold start, pBat_EsCacheBuild.
  pose proof (build_loop_spec ESTR_CACHE_SIZE 0 ok (repeat all_ones 4)) as H.
  pose proof (fun x => build_loop_len ESTR_CACHE_SIZE 0 ok (repeat all_ones 4) x) as HL.
  destruct (build_loop ESTR_CACHE_SIZE 0 ok (repeat all_ones 4)) as [w p].
  destruct H as (H1 & H2 & H3 & H4); auto.
  { intros x Hx. rewrite repeat_ones_bit by auto. reflexivity. }
  unfold Inv. cbn [w_cache w_held w_next c_words c_pool].
  split; [auto|]. split; [auto|]. split; [constructor|].
  split; [intros x []|]. split; [intros k []|]. split.
  - intros x Hx. rewrite H3 by auto. destruct (ok x); simpl; split; intros Hb; auto; try discriminate.
    destruct Hb; discriminate.
  - split; [intros; apply H4; auto|]. split; [intros x []|].
    intros x Hx Hok _. cbn [snd] in HL. rewrite HL; auto. unfold DEFAULT_ESTR_SIZE; lia.
Qed.

Lemma handle_eqb_true a b : handle_eqb a b = true <-> a = b.
Proof.
  destruct a, b; simpl; rewrite ?Nat.eqb_eq; split; intros H; try congruence; discriminate.
Qed.

Lemma held_In h l : existsb (handle_eqb h) l = true <-> In h l.
Proof.
  rewrite existsb_exists. split.
  - intros (x & Hx & He). apply handle_eqb_true in He. subst; auto.
  - intros H. exists h. split; auto. apply handle_eqb_true; auto.
Qed.

Lemma filter_In_neq h l x : In x (filter (fun y => negb (handle_eqb h y)) l) <-> In x l /\ x <> h.
Proof.
  rewrite filter_In. rewrite negb_true_iff. split; intros [H1 H2]; split; auto.
  - intros ->. assert (handle_eqb h h = true) by (apply handle_eqb_true; auto). congruence.
  - destruct (handle_eqb h x) eqn:E; auto. apply handle_eqb_true in E. congruence.
Qed.

Lemma NoDup_filter_ {A} (f : A -> bool) l : NoDup l -> NoDup (filter f l).
Proof.
  induction 1 as [|x l Hx H IH]; simpl; [constructor|].
  destruct (f x); auto. constructor; auto. rewrite filter_In. tauto.
Qed.

(** What an acquisition guarantees. *)
Definition acquire_post (ok : nat -> bool) (w : world) : Prop :=
  let (h, w') := acquire w in
  ~ In h (w_held w) /\ acquired_text w' h = [] /\ w_held w' = h :: w_held w /\
  ((exists x, x < 128 /\ ok x = true /\ ~ In (Pool x) (w_held w)) ->
   exists i, h = Pool i /\ i < 128 /\ ok i = true).

Lemma acquire_ok ok w : Inv ok w -> acquire_post ok w /\ Inv ok (snd (acquire w)).
Proof.
  intros HInv. pose proof HInv as (I1 & I2 & I3 & I4 & I5 & I6 & I7 & I8 & I9).
  unfold acquire_post, acquire, pBat_EsCacheInit.
  destruct (scan_words (c_words (w_cache w)) 0) as [i|] eqn:Es.
  - apply scan_Some in Es as [Hi Hb]; auto. pose proof (proj1 (I6 i Hi) Hb) as [Hok Hni].
    cbn [snd]. split.
    + split; [auto|]. split; [simpl; apply I7; auto|]. split; [auto|]. intros _. eauto.
    + unfold Inv. cbn [w_cache w_held w_next c_words c_pool].
      split; [unfold STATUS_ON; rewrite upd_length; auto|]. split; [auto|].
      split; [constructor; auto|]. split.
      { intros x [H|H]; [injection H as <-; auto|apply I4; auto]. }
      split. { intros k [H|H]; [discriminate|auto]. }
      split.
      { intros x Hx. rewrite bit_on by auto. destruct (i =? x) eqn:E; simpl.
        - apply Nat.eqb_eq in E. subst x. split; [discriminate|]. intros [_ H]. exfalso. apply H. auto.
        - apply Nat.eqb_neq in E. rewrite (I6 x Hx). split; intros [Ha Hc]; (split; [auto|]); intros H.
          + destruct H as [H|H]; [congruence|auto].
          + apply Hc. right. auto. }
      split. { intros x Hx Ho Hn. apply I7; auto. intros H; apply Hn; right; auto. }
      split. { intros x [H|H]; [injection H as <-; apply I9; auto|apply I8; auto]. }
      intros x Hx Ho Hn. apply I9; auto. intros H; apply Hn; right; auto.
  - pose proof (scan_None _ I1 Es) as Hall. cbn [snd].
    assert (Hnf : ~ In (Fresh (w_next w)) (w_held w)) by (intros H; apply I5 in H; lia).
    split.
    + split; [auto|]. split; [auto|]. split; [auto|]. intros (x & Hx & Ho & Hn). exfalso.
      assert (bit (c_words (w_cache w)) x = false) by (apply I6; auto). rewrite Hall in H by auto.
      discriminate.
    + unfold Inv. cbn [w_cache w_held w_next c_words c_pool].
      split; [auto|]. split; [auto|]. split; [constructor; auto|].
      split. { intros x [H|H]; [discriminate|auto]. }
      split. { intros k [H|H]; [injection H as <-; lia|apply I5 in H; lia]. }
      split.
      { intros x Hx. rewrite (I6 x Hx). split; intros [Ha Hc]; (split; [auto|]); intros H.
        - destruct H as [H|H]; [discriminate|auto].
        - apply Hc. right. auto. }
      split. { intros x Hx Ho Hn. apply I7; auto. intros H; apply Hn; right; auto. }
      split. { intros x [H|H]; [discriminate|auto]. }
      intros x Hx Ho Hn. apply I9; auto. intros H; apply Hn; right; auto.
Qed.

Lemma step_ok ok w e w' : Inv ok w -> step w e = Some w' -> Inv ok w'.
Proof.
  intros HInv. pose proof HInv as (I1 & I2 & I3 & I4 & I5 & I6 & I7 & I8 & I9).
  destruct e as [|h r|h t len]; cbn [step]; intros H.
  - injection H as <-. apply acquire_ok; auto.
  - destruct (existsb (handle_eqb h) (w_held w)) eqn:Eh; [|discriminate]. injection H as <-.
    apply held_In in Eh. destruct h as [i|k].
    + destruct (I4 _ Eh) as [Hi Hok]. pose proof (I8 _ Eh) as Hlen.
      unfold Inv, pBat_EsCacheFree. cbn [w_cache w_held w_next c_words c_pool].
      assert (Hposlen : (0 < (if Z.eqb (sl_len (nth i (c_pool (w_cache w)) (mkSlot 0 []))) DEFAULT_ESTR_SIZE
              then sl_len (nth i (c_pool (w_cache w)) (mkSlot 0 []))
              else if r then DEFAULT_ESTR_SIZE else sl_len (nth i (c_pool (w_cache w)) (mkSlot 0 []))))%Z).
      { destruct (Z.eqb _ _); auto. destruct r; auto. unfold DEFAULT_ESTR_SIZE. lia. }
      split; [unfold STATUS_OFF; rewrite upd_length; auto|].
      split; [rewrite upd_length; auto|]. split; [apply NoDup_filter_; auto|].
      split. { intros x Hx. apply filter_In_neq in Hx as [Hx _]. auto. }
      split. { intros x Hx. apply filter_In_neq in Hx as [Hx _]. auto. }
      split.
      { intros x Hx. rewrite bit_off by auto. rewrite filter_In_neq.
        destruct (i =? x) eqn:E; simpl.
        - apply Nat.eqb_eq in E. subst x. split; auto. intros _. split; auto. intros [_ H]; auto.
        - apply Nat.eqb_neq in E. rewrite (I6 x Hx). split; intros [Ha Hc]; (split; [auto|]); intros H.
          + apply Hc. apply H.
          + apply Hc. split; [auto|congruence]. }
      split.
      { intros x Hx Ho Hn. rewrite filter_In_neq in Hn. rewrite upd_nth by lia.
        destruct (i =? x) eqn:E.
        - apply Nat.eqb_eq in E. subst x. cbn [sl_text].
          apply Z.ltb_lt in Hposlen. rewrite Hposlen. reflexivity.
        - apply Nat.eqb_neq in E. apply I7; auto. intros H. apply Hn. split; auto. congruence. }
      split.
      { intros x Hx. apply filter_In_neq in Hx as [Hx Hne]. rewrite upd_nth by lia.
        destruct (i =? x) eqn:E; [apply Nat.eqb_eq in E; congruence|auto]. }
      intros x Hx Ho Hn. rewrite filter_In_neq in Hn. rewrite upd_nth by lia.
      destruct (i =? x) eqn:E.
      * apply Nat.eqb_eq in E. subst x. cbn [sl_len]. auto.
      * apply Nat.eqb_neq in E. apply I9; auto. intros H. apply Hn. split; auto. congruence.
    + unfold Inv. cbn [w_cache w_held w_next c_words c_pool].
      assert (Hp : forall x, In (Pool x) (filter (fun y => negb (handle_eqb (Fresh k) y)) (w_held w))
                             <-> In (Pool x) (w_held w)).
      { intros x. rewrite filter_In_neq. split; [tauto|]. intros H; split; auto. discriminate. }
      split; [auto|]. split; [auto|]. split; [apply NoDup_filter_; auto|].
      split. { intros x Hx. apply Hp in Hx. auto. }
      split. { intros x Hx. apply filter_In_neq in Hx as [Hx _]. auto. }
      split. { intros x Hx. rewrite Hp. auto. }
      split. { intros x Hx. rewrite Hp. auto. }
      split. { intros x Hx. rewrite Hp in Hx. auto. }
      intros x Hx. rewrite Hp. auto.
  - destruct (existsb (handle_eqb h) (w_held w)) eqn:Eh; [|discriminate].
    destruct (0 <? len)%Z eqn:El; [|discriminate]. injection H as <-.
    apply held_In in Eh. apply Z.ltb_lt in El. destruct h as [i|k].
    + destruct (I4 _ Eh) as [Hi Hok].
      unfold Inv. cbn [w_cache w_held w_next c_words c_pool].
      split; [auto|]. split; [rewrite upd_length; auto|]. split; [auto|].
      split; [auto|]. split; [auto|]. split; [auto|].
      split.
      { intros x Hx Ho Hn. rewrite upd_nth by lia. destruct (i =? x) eqn:E; [|auto].
        apply Nat.eqb_eq in E. congruence. }
      split.
      { intros x Hx. rewrite upd_nth by lia. destruct (i =? x) eqn:E; auto. }
      intros x Hx Ho Hn. rewrite upd_nth by lia. destruct (i =? x) eqn:E; auto.
    + unfold Inv. cbn [w_cache w_held w_next c_words c_pool]. tauto.
Qed.

Lemma steps_ok ok es w w' : Inv ok w -> steps w es = Some w' -> Inv ok w'.
Proof.
  revert w; induction es as [|e es IH]; intros w H; cbn [steps].
  - intros H0; injection H0 as <-; auto.
  - destruct (step w e) as [w1|] eqn:E; [|discriminate]. intros H1.
    apply (IH w1); auto. eapply step_ok; eauto.
Qed.
