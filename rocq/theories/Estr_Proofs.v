(** Estr_Proofs.v -- growable strings refine ideal strings. *)

From Verif Require Import Base Estr_Model Estr_Spec.

(** ** Reading and writing blocks *)

Lemma nonul_cons c t : nonul (c :: t) <-> c <> nul /\ nonul t.
Proof. unfold nonul; simpl. unfold nul. intuition congruence. Qed.
Lemma nonul_app a b : nonul (a ++ b) <-> nonul a /\ nonul b.
Proof. unfold nonul. rewrite in_app_iff. tauto. Qed.
Lemma nonul_nil : nonul [].
Proof. intros []. Qed.
Lemma nonul_firstn n t : nonul t -> nonul (firstn n t).
Proof. intros H. rewrite <- (firstn_skipn n t), nonul_app in H. tauto. Qed.

Lemma scan_nul_app t rest : nonul t -> scan_nul (t ++ nul :: rest) = Ret t.
Proof.
  induction t as [|c t IH]; intros H; simpl; auto.
  apply nonul_cons in H as [H1 H2]. apply ceq_false in H1. rewrite H1.
  rewrite IH by auto. reflexivity.
Qed.

Lemma scan_nul_inv m t : scan_nul m = Ret t -> nonul t /\ exists rest, m = t ++ nul :: rest.
Proof.
  revert t; induction m as [|c m IH]; simpl; intros t H; [discriminate|].
  destruct (ceq c nul) eqn:Ec.
  - injection H as <-. apply ceq_true in Ec. subst. split; [apply nonul_nil|]. exists m; auto.
  - destruct (scan_nul m) as [u| |] eqn:Eu; simpl in H; try discriminate.
    injection H as <-. destruct (IH u eq_refl) as [H1 (rest & ->)].
    split; [apply nonul_cons; split; auto; apply ceq_false; auto|]. exists rest; auto.
Qed.

Lemma skipn_app_len {A} (a b : list A) n : length a = n -> skipn n (a ++ b) = b.
Proof. intros <-. induction a; simpl; auto. Qed.
Lemma firstn_app_len {A} (a b : list A) n : length a = n -> firstn n (a ++ b) = a.
Proof. intros <-. induction a; simpl; f_equal; auto. Qed.

Lemma cstr_at_app pre t rest off :
  length pre = off -> nonul t -> cstr_at (pre ++ t ++ nul :: rest) off = Ret t.
Proof. intros H Ht. unfold cstr_at. rewrite skipn_app_len by auto. apply scan_nul_app; auto. Qed.

Lemma write_at_ok m off data :
  off + length data <= length m ->
  write_at m off data = Ret (firstn off m ++ data ++ skipn (off + length data) m).
Proof. intros H. unfold write_at. apply Nat.leb_le in H. rewrite H. reflexivity. Qed.

Lemma write_at_app pre old post data off :
  length pre = off -> length old = length data ->
  write_at (pre ++ old ++ post) off data = Ret (pre ++ data ++ post).
Proof.
  intros H1 H2. rewrite write_at_ok.
  - rewrite firstn_app_len by auto. f_equal. f_equal. f_equal.
    rewrite app_assoc. apply skipn_app_len. rewrite app_length. lia.
  - rewrite !app_length. lia.
Qed.

Lemma write_at_len m off data m' : write_at m off data = Ret m' -> length m' = length m.
Proof.
  unfold write_at. destruct (_ <=? _) eqn:E; [|discriminate]. intros H; injection H as <-.
  apply Nat.leb_le in E. rewrite !app_length, firstn_length, skipn_length. lia.
Qed.

(** ** Sizes *)

Lemma compute_size_loop_ok fuel k s :
  (8 <= k <= 30)%Z -> (s <= 2 ^ 30)%Z -> (30 - k < Z.of_nat fuel)%Z ->
  exists r, compute_size_loop fuel (2 ^ k)%Z s = Ret r /\
            (s <= r)%Z /\ (2 ^ k <= r <= 2 ^ 30)%Z /\ (r = 2 ^ k \/ r < 2 * s)%Z.
Proof.
  revert k. induction fuel as [|fuel IH]; intros k Hk Hs Hf; [lia|].
  cbn [compute_size_loop]. destruct (2 ^ k <? s)%Z eqn:El.
  - apply Z.ltb_lt in El.
    assert (Hk' : (k < 30)%Z).
    { destruct (Z.eq_dec k 30) as [->|]; lia. }
    rewrite <- Z.pow_succ_r by lia.
    destruct (IH (Z.succ k)) as (r & H1 & H2 & H3 & H4); try lia.
    exists r. split; auto. rewrite Z.pow_succ_r in * by lia. lia.
  - apply Z.ltb_ge in El.
    assert (Hle : (2 ^ k <= 2 ^ 30)%Z) by (apply Z.pow_le_mono_r; lia).
    assert (Hi : (2 ^ k <=? INT_MAX)%Z = true).
    { apply Z.leb_le. unfold INT_MAX. change (2 ^ 30)%Z with 1073741824%Z in Hle. lia. }
    rewrite Hi. exists (2 ^ k)%Z. repeat split; auto; lia.
Qed.

Lemma compute_size_ok s :
  (s <= size_limit)%Z ->
  exists r, compute_size s = Ret r /\ (s <= r)%Z /\ (256 <= r <= size_limit)%Z /\
            (r = 256 \/ r < 2 * s)%Z.
Proof.
  intros H. unfold compute_size. change 256%Z with (2 ^ 8)%Z at 1.
  destruct (compute_size_loop_ok 64 8 s) as (r & H1 & H2 & H3 & H4); try lia.
  - change (2 ^ 30)%Z with 1073741824%Z. unfold size_limit in H. lia.
  - exists r. change (2 ^ 8)%Z with 256%Z in *. change (2 ^ 30)%Z with 1073741824%Z in *.
    unfold size_limit. auto.
Qed.

(** ** holds *)

Lemma holds_nonul es t : holds es t -> nonul t.
Proof. intros [H _]; auto. Qed.

Lemma holds_read es t : holds es t -> cstr_at (es_mem es) 0 = Ret t.
Proof.
  intros (H1 & _ & rest & H2). rewrite H2. apply (cstr_at_app []); auto.
Qed.

Lemma holds_strlen es t : holds es t -> m_strlen (es_mem es) 0 = Ret (length t).
Proof. intros H. unfold m_strlen. rewrite (holds_read _ _ H). reflexivity. Qed.

Lemma holds_cap es t : holds es t -> (Z.of_nat (length t) + 1 <= es_len es)%Z.
Proof.
  intros (_ & H1 & rest & H2). rewrite <- H1, H2, app_length. simpl. lia.
Qed.

Lemma holds_fun es t t' : holds es t -> holds es t' -> t = t'.
Proof. intros H1 H2. apply holds_read in H1, H2. congruence. Qed.

Lemma EsInit_holds junk : holds (pBat_EsInit junk) [].
Proof.
  split; [apply nonul_nil|]. split.
  - unfold pBat_EsInit. cbn [es_mem es_len length]. rewrite map_length, seq_length. reflexivity.
  - eexists. reflexivity.
Qed.

Lemma resize_ge m n junk :
  length m <= n -> exists post, resize m n junk = m ++ post /\ length (resize m n junk) = n.
Proof.
  intros H. unfold resize. rewrite firstn_all2 by auto.
  eexists. split; [reflexivity|]. rewrite app_length, map_length, seq_length. lia.
Qed.

Lemma grow_spec es t iLen a :
  holds es t -> (0 <= iLen)%Z ->
  (exists es', grow es iLen a = Some es' /\ holds es' t /\ (iLen <= es_len es')%Z /\
               es_len es' = Z.max (es_len es) iLen) \/
  (grow es iLen a = None /\ a = None).
Proof.
  intros H Hi. unfold grow. destruct (es_len es <? iLen)%Z eqn:El.
  - apply Z.ltb_lt in El. destruct a as [junk|]; [|right; auto].
    left. eexists. split; [reflexivity|].
    destruct H as (H1 & H2 & rest & H3).
    destruct (resize_ge (es_mem es) (Z.to_nat iLen) junk) as (post & Hp & Hl); [lia|].
    cbn [es_mem es_len]. split; [|lia].
    split; auto. cbn [es_mem es_len]. split; [lia|].
    exists (rest ++ post). rewrite Hp, H3, <- app_assoc. reflexivity.
  - apply Z.ltb_ge in El. left. exists es. split; [auto|split; [auto|lia]].
Qed.

(** Storing [t'] and a NUL at the beginning, or after the text. *)
Lemma strcpy_holds es t src :
  holds es t -> nonul src -> (Z.of_nat (length src) + 1 <= es_len es)%Z ->
  exists m, m_strcpy (es_mem es) src = Ret m /\ holds (mkEstr m (es_len es)) src.
Proof.
  intros (H1 & H2 & H3) Hs Hl. unfold m_strcpy. rewrite write_at_ok.
  - eexists. split; [reflexivity|]. split; auto. cbn [es_mem es_len]. split.
    + rewrite !app_length, firstn_length, skipn_length, ?app_length. simpl. lia.
    + eexists. simpl. rewrite <- ?app_assoc. reflexivity.
  - rewrite app_length. simpl. lia.
Qed.

Lemma write_after_holds es t src n :
  holds es t -> nonul src -> n = length t ->
  (Z.of_nat (length t) + Z.of_nat (length src) + 1 <= es_len es)%Z ->
  exists m, write_at (es_mem es) n (src ++ [nul]) = Ret m /\ holds (mkEstr m (es_len es)) (t ++ src).
Proof.
  intros (H1 & H2 & rest & H3) Hs -> Hl. rewrite write_at_ok.
  - eexists. split; [reflexivity|]. split; [apply nonul_app; auto|]. cbn [es_mem es_len]. split.
    + rewrite !app_length, firstn_length, skipn_length, ?app_length. simpl. lia.
    + rewrite H3. rewrite firstn_app_len by auto.
      eexists. rewrite <- ?app_assoc. reflexivity.
  - rewrite app_length. simpl. lia.
Qed.

Definition op_post (a : alloc) (es : estr) (t t' : cstr) (x : outcome result) : Prop :=
  (exists es', x = Ret (0%Z, es') /\ holds es' t') \/
  (x = Ret ((-1)%Z, es) /\ a = None).

Ltac fin := eexists; split; [reflexivity|assumption].

Lemma EsCpy_ok a es t src :
  holds es t -> nonul src -> fits (length src) -> op_post a es t src (pBat_EsCpy a es src).
Proof.
  intros H Hs Hf. unfold pBat_EsCpy.
  destruct (compute_size_ok (Z.of_nat (length src) + 1)) as (r & -> & H1 & H2 & _); [exact Hf|].
  cbn [bind]. destruct (grow_spec es t r a H) as [(es' & -> & H3 & H4 & _)|[-> ->]]; [lia| |].
  - destruct (strcpy_holds es' t src H3 Hs) as (m & -> & Hm); [lia|]. left. fin.
  - right. auto.
Qed.

Lemma EsCpy_some junk es t src :
  holds es t -> nonul src -> fits (length src) ->
  exists es', pBat_EsCpy (Some junk) es src = Ret (0%Z, es') /\ holds es' src.
Proof.
  intros H Hs Hf. destruct (EsCpy_ok (Some junk) es t src H Hs Hf) as [?|[_ ?]]; auto. discriminate.
Qed.

Lemma EsCpyN_ok a es t src n :
  holds es t -> nonul src -> fits n -> op_post a es t (firstn n src) (pBat_EsCpyN a es src n).
Proof.
  intros H Hs Hf. unfold pBat_EsCpyN.
  destruct (compute_size_ok (Z.of_nat n + 1)) as (r & -> & H1 & H2 & _); [exact Hf|].
  cbn [bind]. destruct (grow_spec es t r a H) as [(es' & -> & H3 & H4 & _)|[-> ->]]; [lia| |right; auto].
  left. destruct H3 as (Hn & Hlen & rest & Hm).
  set (d := firstn n src ++ repeat nul (n - length src)).
  assert (Hd : length d = n).
  { unfold d. rewrite app_length, firstn_length, repeat_length. lia. }
  assert (Hcp : (if n =? 0 then Ret (es_mem es') else m_strncpy (es_mem es') src n)
                = Ret (d ++ skipn n (es_mem es'))).
  { destruct (n =? 0) eqn:E0.
    - apply Nat.eqb_eq in E0. assert (Hd0 : d = []) by (apply length_zero_iff_nil; lia).
      rewrite Hd0, E0. reflexivity.
    - unfold m_strncpy. fold d. rewrite write_at_ok by lia. simpl. rewrite Hd. reflexivity. }
  rewrite Hcp. cbn [bind]. rewrite write_at_ok by (rewrite app_length, skipn_length; simpl; lia).
  cbn [bind]. eexists. split; [reflexivity|]. split; [apply nonul_firstn; auto|].
  cbn [es_mem es_len]. split.
  - rewrite !app_length, firstn_length, skipn_length, !app_length, skipn_length. simpl. lia.
  - rewrite firstn_app_len by auto. unfold d.
    destruct (n - length src) as [|k] eqn:Ek; simpl repeat.
    + rewrite app_nil_r. eexists. reflexivity.
    + eexists. rewrite <- app_assoc. simpl. reflexivity.
Qed.

Lemma EsCat_ok a es t src :
  holds es t -> nonul src -> fits (length (t ++ src)) ->
  op_post a es t (t ++ src) (pBat_EsCat a es src).
Proof.
  intros H Hs Hf. unfold pBat_EsCat. rewrite (holds_strlen _ _ H). cbn [bind].
  unfold fits in Hf. rewrite app_length in Hf.
  destruct (compute_size_ok (Z.of_nat (length t) + Z.of_nat (length src) + 1))
    as (r & -> & H1 & H2 & _); [lia|].
  cbn [bind]. destruct (grow_spec es t r a H) as [(es' & -> & H3 & H4 & _)|[-> ->]]; [lia| |right; auto].
  unfold m_strcat. rewrite (holds_strlen _ _ H3). cbn [bind].
  destruct (write_after_holds es' t src (length t) H3 Hs eq_refl) as (m & -> & Hm); [lia|].
  left. fin.
Qed.

Lemma EsCat_some junk es t src :
  holds es t -> nonul src -> fits (length (t ++ src)) ->
  exists es', pBat_EsCat (Some junk) es src = Ret (0%Z, es') /\ holds es' (t ++ src).
Proof.
  intros H Hs Hf. destruct (EsCat_ok (Some junk) es t src H Hs Hf) as [?|[_ ?]]; auto. discriminate.
Qed.

Lemma EsCatN_ok a es t src n :
  holds es t -> nonul src -> fits (length t + n) ->
  op_post a es t (t ++ firstn n src) (pBat_EsCatN a es src n).
Proof.
  intros H Hs Hf. unfold pBat_EsCatN. rewrite (holds_strlen _ _ H). cbn [bind].
  unfold fits in Hf.
  destruct (compute_size_ok (Z.of_nat (length t) + Z.of_nat n + 1))
    as (r & -> & H1 & H2 & _); [lia|].
  cbn [bind]. destruct (grow_spec es t r a H) as [(es' & -> & H3 & H4 & _)|[-> ->]]; [lia| |right; auto].
  unfold m_strncat. rewrite (holds_strlen _ _ H3). cbn [bind].
  destruct (write_after_holds es' t (firstn n src) (length t) H3) as (m & -> & Hm); auto.
  - apply nonul_firstn; auto.
  - rewrite firstn_length. lia.
  - left. fin.
Qed.

Lemma EsCpyE_ok a es t srcE src :
  holds es t -> holds srcE src -> fits (length src) -> op_post a es t src (pBat_EsCpyE a es srcE).
Proof.
  intros H Hs Hf. unfold pBat_EsCpyE. rewrite (holds_read _ _ Hs). cbn [bind].
  apply (EsCpy_ok a es t src H (holds_nonul _ _ Hs) Hf).
Qed.

Lemma EsCatE_ok a es t srcE src :
  holds es t -> holds srcE src -> fits (length (t ++ src)) ->
  op_post a es t (t ++ src) (pBat_EsCatE a es srcE).
Proof.
  intros H Hs Hf. pose proof (EsCat_ok a es t src H (holds_nonul _ _ Hs) Hf) as Ho.
  unfold pBat_EsCatE. rewrite (holds_read _ _ Hs). unfold pBat_EsCat in Ho.
  destruct (m_strlen (es_mem es) 0); cbn [bind] in *; auto.
Qed.

(** Capacity after a copy. *)
Lemma EsCpyE_cap junk es t srcE src :
  holds es t -> holds srcE src -> fits (length src) ->
  exists es', pBat_EsCpyE (Some junk) es srcE = Ret (0%Z, es') /\ holds es' src /\
    (es_len es' <= Z.max (es_len es) (Z.max 256 (2 * (Z.of_nat (length src) + 1))))%Z.
Proof.
  intros H Hs Hf. unfold pBat_EsCpyE. rewrite (holds_read _ _ Hs). cbn [bind].
  destruct (compute_size_ok (Z.of_nat (length src) + 1)) as (r & -> & H1 & H2 & H2'); [exact Hf|].
  cbn [bind]. destruct (grow_spec es t r (Some junk) H) as [(es' & -> & H3 & H4 & H5)|[_ ?]]; [lia| |discriminate].
  destruct (strcpy_holds es' t src H3 (holds_nonul _ _ Hs)) as (m & -> & Hm); [lia|].
  cbn [bind]. eexists. split; [reflexivity|]. split; [exact Hm|]. cbn [es_len]. lia.
Qed.

(** ** Replace *)

Lemma strstr_Some s p k :
  strstr s p = Some k ->
  exists a b, s = a ++ p ++ b /\ length a = k /\ forall j, j < k -> ~ occurs_at p s j.
Proof.
  revert k. induction s as [|c s IH]; intros k H; cbn [strstr] in H.
  - destruct (prefixb p []) eqn:Ep; [|discriminate]. injection H as <-.
    apply prefixb_spec in Ep as [t Ht]. exists [], t. repeat split; auto. lia.
  - destruct (prefixb p (c :: s)) eqn:Ep.
    + injection H as <-. apply prefixb_spec in Ep as [t Ht]. exists [], t. repeat split; auto. lia.
    + destruct (strstr s p) as [n|] eqn:En; [|discriminate]. injection H as <-.
      destruct (IH n eq_refl) as (a & b & -> & <- & Hj).
      exists (c :: a), b. repeat split; auto. intros j Hlt (a' & b' & Heq & Hlen).
      destruct a' as [|x a'].
      * simpl in Heq. assert (prefixb p (c :: a ++ p ++ b) = true) by (apply prefixb_spec; eauto).
        congruence.
      * simpl in Heq. injection Heq as -> Heq. simpl in Hlen.
        apply (Hj (length a')); [simpl in Hlt; lia|]. exists a', b'. auto.
Qed.

Lemma strstr_None s p : strstr s p = None -> forall j, ~ occurs_at p s j.
Proof.
  induction s as [|c s IH]; cbn [strstr]; intros H j (a & b & Heq & Hlen).
  - destruct (prefixb p []) eqn:Ep; [discriminate|].
    destruct a; [|discriminate]. simpl in Heq.
    assert (prefixb p [] = true) by (apply prefixb_spec; eauto). congruence.
  - destruct (prefixb p (c :: s)) eqn:Ep; [discriminate|].
    destruct (strstr s p) eqn:En; [discriminate|].
    destruct a as [|x a].
    + simpl in Heq. assert (prefixb p (c :: s) = true) by (apply prefixb_spec; eauto). congruence.
    + simpl in Heq. injection Heq as -> Heq. apply (IH eq_refl (length a)). exists a, b; auto.
Qed.

Lemma strstr_first a p b :
  (forall k, k < length a -> ~ occurs_at p (a ++ p ++ b) k) ->
  strstr (a ++ p ++ b) p = Some (length a).
Proof.
  intros H. destruct (strstr (a ++ p ++ b) p) as [k|] eqn:E.
  - apply strstr_Some in E as (a' & b' & Heq & Hlen & Hj). f_equal.
    destruct (lt_eq_lt_dec k (length a)) as [[Hl|Hl]|Hl]; auto.
    + exfalso. apply (H k Hl). exists a', b'. auto.
    + exfalso. apply (Hj _ Hl). exists a, b. auto.
  - exfalso. apply (strstr_None _ _ E (length a)). exists a, b. auto.
Qed.

Lemma replaced_total pat rep s : pat <> [] -> exists t, replaced pat rep s t.
Proof.
  intros Hp. remember (length s) as n eqn:Hn. assert (Hle : length s <= n) by lia. clear Hn.
  revert s Hle. induction n as [|n IH]; intros s Hle.
  - destruct s; [|simpl in Hle; lia]. exists []. constructor.
    intros k (a & b & H & _). destruct a, pat; try discriminate; congruence.
  - destruct (strstr s pat) as [k|] eqn:E.
    + apply strstr_Some in E as (a & b & -> & <- & Hj).
      destruct (IH b) as [t Ht].
      * rewrite !app_length in Hle. destruct pat; [congruence|simpl in Hle; lia].
      * eexists. apply rep_step; eauto.
    + exists s. constructor. apply strstr_None; auto.
Qed.

Lemma replaced_fun pat rep s t t' :
  pat <> [] -> replaced pat rep s t -> replaced pat rep s t' -> t = t'.
Proof.
  intros Hp H. revert t'. induction H as [s Hno|a b t Hfirst H IH]; intros t' H'.
  - inversion H' as [s' Hno'|a' b' t0 Hf' H0 Hs]; subst; auto.
    exfalso. apply (Hno (length a')). exists a', b'. auto.
  - inversion H' as [s' Hno'|a' b' t0 Hf' H0 Hs]; subst.
    + exfalso. apply (Hno' (length a)). exists a, b. auto.
    + apply strstr_first in Hfirst. apply strstr_first in Hf'. rewrite Hs in Hf'.
      assert (Hl : length a' = length a) by congruence.
      assert (Ha : a' = a).
      { rewrite <- (firstn_app_len a' (pat ++ b') (length a')) by auto.
        rewrite Hs, Hl. apply firstn_app_len; auto. }
      subst a'. apply app_inv_head in Hs. apply app_inv_head in Hs. subst b'.
      rewrite (IH t0); auto.
Qed.

(** Text [u] at offset [off] of block [m]. *)
Definition at_off (m : list ascii) (off : nat) (u : cstr) : Prop :=
  nonul u /\ exists pre rest, m = pre ++ u ++ nul :: rest /\ length pre = off.

Lemma at_off_read m off u : at_off m off u -> cstr_at m off = Ret u.
Proof. intros (H & pre & rest & -> & Hl). apply cstr_at_app; auto. Qed.

Lemma fits_le a b : a <= b -> fits b -> fits a.
Proof. unfold fits. lia. Qed.

Lemma replace_loop_ok fuel junk pat rep u t m off ret r0 :
  pat <> [] -> nonul rep -> replaced pat rep u t ->
  length u < fuel -> at_off m off u -> holds ret r0 ->
  fits (length (r0 ++ t)) ->
  exists m' off' ret' acc u',
    replace_loop strstr fuel (Some junk) m off ret pat rep = Ret (m', off', ret') /\
    length m' = length m /\ at_off m' off' u' /\ holds ret' (r0 ++ acc) /\ t = acc ++ u'.
Proof.
  intros Hp Hr H. revert fuel m off ret r0.
  induction H as [s Hno|a b t Hfirst H IH]; intros fuel m off ret r0 Hf Hat Hret Hfit.
  - destruct fuel as [|fuel]; [lia|]. cbn [replace_loop].
    rewrite (at_off_read _ _ _ Hat). cbn [bind].
    destruct (strstr s pat) as [k|] eqn:E.
    + exfalso. apply strstr_Some in E as (a & b & -> & <- & _).
      apply (Hno (length a)). exists a, b; auto.
    + exists m, off, ret, [], s. rewrite app_nil_r. repeat split; auto.
      * apply Hat.
      * destruct Hat as [_ Hat]; auto.
      * apply (holds_nonul _ _ Hret).
      * apply Hret.
      * apply Hret.
  - destruct fuel as [|fuel]; [lia|]. cbn [replace_loop].
    rewrite (at_off_read _ _ _ Hat). cbn [bind].
    rewrite (strstr_first _ _ _ Hfirst).
    destruct Hat as (Hnn & pre & rest & Hm & Hpre).
    destruct pat as [|pc pat']; [congruence|].
    apply nonul_app in Hnn as [Hna Hnn]. apply nonul_app in Hnn as [Hnp Hnb].
    assert (Hm' : write_at m (off + length a) [nul]
                  = Ret (pre ++ a ++ nul :: pat' ++ b ++ nul :: rest)).
    { rewrite Hm.
      replace (pre ++ (a ++ (pc :: pat') ++ b) ++ nul :: rest)
        with ((pre ++ a) ++ [pc] ++ (pat' ++ b ++ nul :: rest))
        by (rewrite <- ?app_assoc; simpl; rewrite <- ?app_assoc; reflexivity).
      rewrite write_at_app; [|rewrite app_length; lia|reflexivity].
      rewrite <- app_assoc. reflexivity. }
    rewrite Hm'. cbn [bind]. rewrite cstr_at_app by auto. cbn [bind].
    rewrite !app_length in Hfit, Hf. simpl in Hf.
    destruct (EsCat_some junk ret r0 a Hret Hna) as (ret1 & -> & Hret1).
    { eapply fits_le; [|exact Hfit]. rewrite app_length. lia. }
    cbn [bind]. destruct (EsCat_some junk ret1 (r0 ++ a) rep Hret1 Hr) as (ret2 & -> & Hret2).
    { eapply fits_le; [|exact Hfit]. rewrite !app_length. lia. }
    cbn [bind].
    destruct (IH fuel (pre ++ a ++ nul :: pat' ++ b ++ nul :: rest)
                 (off + length a + length (pc :: pat')) ret2 ((r0 ++ a) ++ rep))
      as (m' & off' & ret' & acc & u' & H1 & H2 & H3 & H4 & H5); auto; try lia.
    + split; auto. exists (pre ++ a ++ nul :: pat'), rest. split.
      * rewrite <- ?app_assoc. simpl. rewrite <- ?app_assoc. reflexivity.
      * rewrite !app_length. simpl. lia.
    + eapply fits_le; [|exact Hfit]. rewrite !app_length. lia.
    + exists m', off', ret', (a ++ rep ++ acc), u'. split; [exact H1|]. split.
      { rewrite H2, Hm, !app_length. simpl. rewrite !app_length. simpl. lia. }
      split; auto. split; [rewrite <- ?app_assoc in H4; auto|].
      rewrite H5, <- ?app_assoc; reflexivity.
Qed.

Lemma EsReplace_ok fuel junk junk' es s t pat rep :
  holds es s -> pat <> [] -> nonul rep -> replaced pat rep s t -> fits (length t) ->
  length s < fuel ->
  exists es', pBat_EsReplace fuel (Some junk) junk' es pat rep = Ret (0%Z, es') /\ holds es' t /\
    (es_len es' <= Z.max (es_len es) (Z.max 256 (2 * (Z.of_nat (length t) + 1))))%Z.
Proof.
  intros Hes Hp Hr Hrep Hfit Hf. unfold pBat_EsReplace, es_replace.
  pose proof Hes as (Hn & Hlen & rest & Hm).
  destruct (replace_loop_ok fuel junk pat rep s t (es_mem es) 0 (pBat_EsInit junk') [])
    as (m' & off' & ret' & acc & u' & -> & H2 & H3 & H4 & H5); auto.
  - split; auto. exists [], rest. auto.
  - apply EsInit_holds.
  - cbn [bind]. rewrite (at_off_read _ _ _ H3). cbn [bind]. simpl in H4.
    destruct (EsCat_some junk ret' acc u' H4) as (r2 & -> & Hr2).
    + apply H3.
    + rewrite <- H5. auto.
    + cbn [bind]. rewrite <- H5 in Hr2.
      (* the destination block holds some text: up to its first NUL *)
      assert (Hsome : exists t0, holds (mkEstr m' (es_len es)) t0).
      { destruct H3 as (Hu & pre & rest' & Hm' & _).
        assert (Hin : exists x, scan_nul m' = Ret x).
        { rewrite Hm'. clear. rewrite app_assoc. generalize (pre ++ u') as l.
          induction l as [|c l [x IH]]; simpl; [eauto|].
          destruct (ceq c nul); [eauto|]. rewrite IH. simpl. eauto. }
        destruct Hin as [x Hx]. exists x. apply scan_nul_inv in Hx as [Hx1 Hx2].
        split; auto. cbn [es_mem es_len]. split; [lia|auto]. }
      destruct Hsome as [t0 Ht0].
      destruct (EsCpyE_cap junk _ t0 r2 t Ht0 Hr2 Hfit) as (es' & -> & He & Hc).
      cbn [bind]. exists es'. cbn [es_len] in Hc. auto.
Qed.

Definition enough_fuel (fuel : nat) : Prop := (size_limit <= Z.of_nat fuel)%Z.

Lemma run_op_ok fuel junk a op es t :
  holds es t -> op_ok a op t -> length t < fuel ->
  (exists es' t', run_op fuel junk a op es = Ret (0%Z, es') /\ holds es' t' /\ ideal op t t' /\
     fits (length t')) \/
  (run_op fuel junk a op es = Ret ((-1)%Z, es) /\ a = None).
Proof.
  intros H Hok Hf. destruct op; cbn [run_op op_ok] in *.
  - destruct Hok as [H1 H2].
    destruct (EsCpy_ok a es t src H H1 H2) as [(es' & ? & ?)|?]; [left|right; auto].
    exists es', src. repeat split; auto; try constructor; auto; apply H3.
  - destruct Hok as [H1 H2].
    destruct (EsCpyN_ok a es t src n H H1 H2) as [(es' & ? & ?)|?]; [left|right; auto].
    exists es', (firstn n src). split; [auto|split; [auto|split; [constructor|]]].
    eapply fits_le; [|exact H2]. rewrite firstn_length. lia.
  - destruct Hok as [H1 H2]. rewrite <- app_length in H2.
    destruct (EsCat_ok a es t src H H1 H2) as [(es' & ? & ?)|?]; [left|right; auto].
    exists es', (t ++ src). split; [auto|split; [auto|split; [constructor|auto]]].
  - destruct Hok as [H1 H2].
    destruct (EsCatN_ok a es t src n H H1 H2) as [(es' & ? & ?)|?]; [left|right; auto].
    exists es', (t ++ firstn n src). split; [auto|split; [auto|split; [constructor|]]].
    eapply fits_le; [|exact H2]. rewrite app_length, firstn_length. lia.
  - destruct Hok as (s0 & H1 & H2).
    destruct (EsCpyE_ok a es t src s0 H H1 H2) as [(es' & ? & ?)|?]; [left|right; auto].
    exists es', s0. split; [auto|split; [auto|split; [constructor; auto|auto]]].
  - destruct Hok as (s0 & H1 & H2). rewrite <- app_length in H2.
    destruct (EsCatE_ok a es t src s0 H H1 H2) as [(es' & ? & ?)|?]; [left|right; auto].
    exists es', (t ++ s0). split; [auto|split; [auto|split; [constructor; auto|auto]]].
  - destruct Hok as (Ha & Hp & Hr & Hfit). destruct a as [j|]; [|congruence].
    destruct (replaced_total pat rep t Hp) as [t' Ht']. left.
    destruct (EsReplace_ok fuel j junk es t t' pat rep) as (es' & H1 & H2 & _); auto.
    exists es', t'. split; [auto|split; [auto|split; [constructor; auto|auto]]].
Qed.

Lemma run_ops_ok fuel junk h es t :
  enough_fuel fuel -> holds es t -> fits (length t) -> history_ok h t ->
  exists es' t', run_ops fuel junk h es = Ret es' /\ holds es' t' /\ ideal_history h t t'.
Proof.
  intros Hfuel. revert es t.
  induction h as [|[a op] h IH]; intros es t H Hfit Hok; cbn [run_ops].
  - exists es, t. repeat split; auto; try constructor; apply H.
  - destruct Hok as [Hop Hnext].
    assert (Hlt : length t < fuel) by (unfold enough_fuel, fits in *; lia).
    destruct (run_op_ok fuel junk a op es t H Hop Hlt)
      as [(es1 & t1 & -> & H1 & Hi & Hf1)|[-> ->]]; cbn [bind].
    + destruct (IH es1 t1 H1 Hf1) as (es' & t' & H2 & H3 & H4); [apply Hnext; auto|].
      exists es', t'. split; [auto|split; [auto|]]. eapply ih_ok; eauto.
    + destruct (IH es t H Hfit) as (es' & t' & H2 & H3 & H4); [apply Hnext; auto|].
      exists es', t'. split; [auto|split; [auto|]]. eapply ih_fail; eauto.
Qed.

(** ** The empty pattern *)

Lemma strstr_nil_pat s : strstr s [] = Some 0.
Proof. destruct s; reflexivity. Qed.

Lemma replace_loop_empty fuel a m off ret rep :
  forall x, replace_loop strstr fuel a m off ret [] rep <> Ret x.
Proof.
  revert m off ret. induction fuel as [|fuel IH]; intros m off ret x; [discriminate|].
  cbn [replace_loop]. destruct (cstr_at m off); try discriminate. cbn [bind].
  rewrite strstr_nil_pat. destruct (write_at m (off + 0) [nul]); try discriminate. cbn [bind].
  destruct (cstr_at a1 off); try discriminate. cbn [bind].
  destruct (pBat_EsCat a ret a2) as [[z r1]| |]; try discriminate. cbn [bind].
  destruct (pBat_EsCat a r1 rep) as [[z' r2]| |]; try discriminate. cbn [bind].
  apply IH.
Qed.

Lemma EsReplace_empty fuel a junk es rep :
  forall x, pBat_EsReplace fuel a junk es [] rep <> Ret x.
Proof.
  intros x. unfold pBat_EsReplace, es_replace.
  destruct (replace_loop strstr fuel a (es_mem es) 0 (pBat_EsInit junk) [] rep) as [y| |] eqn:E;
    try discriminate.
  exfalso. apply (replace_loop_empty _ _ _ _ _ _ _ E).
Qed.

(** ** Lines *)

Lemma take_line_spec n s :
  let (d, r) := take_line n s in
  s = d ++ r /\
  ((exists l, d = l ++ [nl] /\ ~ In nl l /\ length d <= n) \/
   (~ In nl d /\ (length d = n \/ (r = [] /\ length d <= n)))).
Proof.
  revert s; induction n as [|n IH]; intros s; cbn [take_line].
  - split; auto.
  - destruct s as [|c s].
    + split; auto. right. split; auto. right. simpl. split; auto; lia.
    + destruct (ceq c nl) eqn:Ec.
      * apply ceq_true in Ec. subst c. split; auto. left. exists []. simpl. repeat split; auto; lia.
      * apply ceq_false in Ec. specialize (IH s). destruct (take_line n s) as [d r].
        destruct IH as [-> [(l & -> & H1 & H2)|[H1 H2]]]; split; auto.
        -- left. exists (c :: l). simpl. repeat split; auto.
           ++ intros [H|H]; auto.
           ++ simpl in H2. lia.
        -- right. split.
           ++ intros [H|H]; auto.
           ++ simpl. intuition lia.
Qed.

Lemma strchr_nl_iff t : (exists k, strchr t nl = Some k) <-> In nl t.
Proof.
  unfold strchr. destruct (find_idx _ t) as [k|] eqn:E.
  - split; eauto. intros _. apply find_idx_Some in E as (c & Hc & He & _).
    apply ceq_true in He. subst. eapply nth_error_In; eauto.
  - split; [intros [k H]; discriminate|]. intros H. rewrite find_idx_None in E.
    specialize (E _ H). rewrite ceq_refl in E. discriminate.
Qed.

Definition line_limit : Z := 268435456.   (* 2^28 *)
Definition cap_limit : Z := 536870912.    (* 2^29 *)

(** State of the block while a line is being accumulated. *)
Definition accum (es : estr) (off n : nat) (t0 : cstr) : Prop :=
  Z.of_nat (length (es_mem es)) = es_len es /\ firstn off (es_mem es) = t0 /\
  length t0 = off /\ off + n = length (es_mem es) /\ 2 <= n.

Lemma first_line_nl l r line rest :
  ~ In nl l -> first_line ((l ++ [nl]) ++ r) line rest -> line = l ++ [nl] /\ rest = r.
Proof.
  intros Hl (Heq & Hne & [(l' & -> & Hl')|[-> Hno]]).
  - rewrite <- ?app_assoc in Heq. change "010"%char with nl in *.
    apply app_eq_app in Heq as (x & [[H1 H2]|[H1 H2]]).
    + destruct x as [|c x]; simpl in *.
      * rewrite app_nil_r in H1. subst. injection H2 as ->. auto.
      * injection H2 as <- H2. exfalso. apply Hl. rewrite H1. apply in_app_iff; right; left; auto.
    + destruct x as [|c x]; simpl in *.
      * rewrite app_nil_r in H1. subst. injection H2 as ->. auto.
      * injection H2 as <- H2. exfalso. apply Hl'. rewrite H1. apply in_app_iff; right; left; auto.
  - exfalso. apply Hno. rewrite app_nil_r in Heq. rewrite <- Heq.
    rewrite !in_app_iff. left. right. left. reflexivity.
Qed.

Lemma first_line_cons d s line rest :
  ~ In nl d -> s <> [] -> first_line (d ++ s) line rest ->
  exists line', line = d ++ line' /\ first_line s line' rest.
Proof.
  intros Hd Hs (Heq & Hne & [(l' & -> & Hl')|[-> Hno]]).
  - rewrite <- ?app_assoc in Heq. change "010"%char with nl in *.
    apply app_eq_app in Heq as (x & [[H1 H2]|[H1 H2]]).
    + destruct x as [|c x]; simpl in *.
      * rewrite app_nil_r in H1. subst. exists [nl]. split; auto.
        split; [auto|split; [discriminate|]]. left. exists []. auto.
      * injection H2 as <- H2. exfalso. apply Hd. rewrite H1. apply in_app_iff; right; left; auto.
    + exists (x ++ [nl]). subst. rewrite app_assoc. split; auto. split.
      * rewrite <- app_assoc. auto.
      * split; [destruct x; discriminate|]. left. exists x. split; auto.
        intros Hin. apply Hl'. apply in_app_iff; auto.
  - rewrite app_nil_r in Heq. subst line. exists s. split; auto. split; [rewrite app_nil_r; auto|].
    split; auto. right. split; auto. intros Hin. apply Hno. apply in_app_iff; auto.
Qed.

Lemma first_line_end d line rest : ~ In nl d -> first_line d line rest -> line = d /\ rest = [].
Proof.
  intros Hd (Heq & Hne & [(l' & -> & Hl')|[-> Hno]]).
  - exfalso. apply Hd. rewrite Heq. rewrite !in_app_iff. left. right. left. reflexivity.
  - rewrite app_nil_r in Heq. auto.
Qed.

Lemma get_loop_eof fuel a es off n got :
  fuel <> 0 -> get_loop fuel a es off n got [] = Ret (GotLoop es got []).
Proof. destruct fuel; [congruence|reflexivity]. Qed.

Lemma get_loop_ok fuel junk es off n got s t0 line rest :
  accum es off n t0 -> nonul t0 -> ~ In nl t0 -> nonul s ->
  first_line s line rest ->
  (es_len es <= cap_limit)%Z -> (Z.of_nat (length t0 + length line) < line_limit)%Z ->
  length s + 1 < fuel ->
  exists es', get_loop fuel (Some junk) es off n got s = Ret (GotLoop es' true rest) /\
    holds es' (t0 ++ line) /\ (es_len es' <= 2 * cap_limit)%Z /\
    (rest <> [] -> es_len es' <= cap_limit)%Z.
Proof.
  revert es off n got s t0 line.
  induction fuel as [|fuel IH]; intros es off n got s t0 line Hacc Hn0 Hnl0 Hns Hfl Hcap Hlim Hf; [lia|].
  cbn [get_loop].
  assert (Hsne : s <> []).
  { destruct Hfl as (-> & Hne & _). destruct line; [congruence|discriminate]. }
  unfold fgets. destruct s as [|c0 s0] eqn:Es; [congruence|]. rewrite <- Es in *. clear Es c0 s0.
  pose proof (take_line_spec (n - 1) s) as Htl. destruct (take_line (n - 1) s) as [d s'].
  destruct Htl as [Hs Hd]. destruct Hacc as (Hlen & Hpre & Hoff & Hsum & Hn).
  assert (Hdl : length d <= n - 1) by (destruct Hd as [(l & _ & _ & H)|[_ [H|[_ H]]]]; lia).
  assert (Hnd : nonul d) by (rewrite Hs in Hns; apply nonul_app in Hns; tauto).
  rewrite write_at_ok by (rewrite app_length; simpl; lia).
  cbn [bind]. rewrite Hpre.
  set (m := t0 ++ (d ++ [nul]) ++ skipn (off + length (d ++ [nul])) (es_mem es)).
  assert (Hm : m = (t0 ++ d) ++ nul :: skipn (off + length (d ++ [nul])) (es_mem es))
    by (unfold m; rewrite <- ?app_assoc; reflexivity).
  assert (Hnt : nonul (t0 ++ d)) by (apply nonul_app; auto).
  assert (Hml : length m = length (es_mem es)).
  { unfold m. rewrite !app_length, skipn_length, ?app_length. simpl. lia. }
  assert (Hat : cstr_at m 0 = Ret (t0 ++ d)).
  { rewrite Hm. apply (cstr_at_app []); auto. }
  rewrite Hat. cbn [bind].
  assert (Hholds : holds (mkEstr m (es_len es)) (t0 ++ d)).
  { split; auto. cbn [es_mem es_len]. split; [lia|]. eexists. exact Hm. }
  destruct Hd as [(l & Hdl' & Hl & _)|[Hnd' Hfull]].
  - destruct (proj2 (strchr_nl_iff (t0 ++ d))) as [k ->].
    { rewrite Hdl', !in_app_iff. right. right. left. reflexivity. }
    rewrite Hs, Hdl' in Hfl. apply first_line_nl in Hfl as [-> ->]; auto.
    rewrite <- Hdl' in *. eexists. split; [reflexivity|]. split; [auto|]. cbn [es_len]. lia.
  - destruct (strchr (t0 ++ d) nl) as [k|] eqn:Ek.
    { exfalso. assert (Hin : In nl (t0 ++ d)) by (apply strchr_nl_iff; eauto).
      apply in_app_iff in Hin as [?|?]; auto. }
    assert (Hii : (INT_MAX <? 2 * es_len es)%Z = false).
    { apply Z.ltb_ge. unfold INT_MAX, cap_limit in *. lia. }
    rewrite Hii.
    destruct (resize_ge m (2 * Z.to_nat (es_len es)) junk) as (post & Hpost & Hpl); [lia|].
    set (es2 := mkEstr (resize m (2 * Z.to_nat (es_len es)) junk) (2 * es_len es)).
    assert (Hholds2 : holds es2 (t0 ++ d)).
    { split; auto. unfold es2. cbn [es_mem es_len]. split; [lia|].
      rewrite Hpost, Hm. eexists. rewrite <- app_assoc. reflexivity. }
    destruct s' as [|c s'].
    + rewrite app_nil_r in Hs. rewrite Hs in Hfl. apply first_line_end in Hfl as [-> ->]; auto.
      rewrite get_loop_eof by lia. exists es2. split; [auto|split; [auto|]].
      unfold es2. cbn [es_len]. split; [lia|congruence].
    + assert (Hlen_d : length d = n - 1) by (destruct Hfull as [?|[? _]]; [auto|discriminate]).
      rewrite Hs in Hfl. apply first_line_cons in Hfl as (line' & -> & Hfl'); auto; [|discriminate].
      rewrite app_length in Hlim.
      destruct (IH es2 (Z.to_nat (es_len es) - 1) (S (Z.to_nat (es_len es))) true (c :: s') (t0 ++ d) line')
        as (es' & H1 & H2 & H3 & H4); auto.
      * unfold accum, es2. cbn [es_mem es_len]. split; [lia|].
        rewrite Hpost, Hm, <- app_assoc. split.
        -- apply firstn_app_len. rewrite app_length. lia.
        -- split; [rewrite app_length; lia|].
           replace ((t0 ++ d) ++ (nul :: skipn (off + length (d ++ [nul])) (es_mem es)) ++ post)
             with (resize m (2 * Z.to_nat (es_len es)) junk)
             by (rewrite Hpost, Hm, <- app_assoc; reflexivity).
           lia.
      * intros Hin. apply in_app_iff in Hin as [?|?]; auto.
      * rewrite Hs in Hns. apply nonul_app in Hns. tauto.
      * unfold es2. cbn [es_len]. unfold cap_limit, line_limit in *. lia.
      * rewrite app_length. lia.
      * rewrite Hs, app_length in Hf. simpl in *. lia.
      * exists es'. split; [exact H1|]. rewrite app_assoc. auto.
Qed.

Lemma replaced_le1 pat rep s t :
  length rep <= length pat -> replaced pat rep s t -> length t <= length s.
Proof. intros Hl. induction 1; auto. rewrite !app_length. lia. Qed.

Lemma nonul_replaced pat rep s t : nonul rep -> nonul s -> replaced pat rep s t -> nonul t.
Proof.
  intros Hr Hs H. induction H; auto. rewrite !nonul_app in *. tauto.
Qed.

Lemma norm_ok fuel junk junk' es s :
  holds es s -> fits (length s) -> length s < fuel ->
  exists e1 e2 t z1, pBat_EsReplace fuel (Some junk) junk' es [cr; nl] [nl] = Ret (z1, e1) /\
    pBat_EsReplace fuel (Some junk) junk' e1 [cr] [nl] = Ret (0%Z, e2) /\
    holds e2 t /\ normalised s t /\
    (es_len e2 <= Z.max (es_len es) (Z.max 256 (2 * (Z.of_nat (length s) + 1))))%Z.
Proof.
  intros H Hfit Hf.
  assert (Hnnl : nonul [nl]) by (intros [H0|[]]; discriminate).
  destruct (replaced_total [cr; nl] [nl] s) as [u Hu]; [discriminate|].
  destruct (replaced_total [cr] [nl] u) as [t Ht]; [discriminate|].
  assert (Hlu : length u <= length s) by (apply (replaced_le1 [cr; nl] [nl]); [simpl; lia|auto]).
  assert (Hlt : length t <= length u) by (apply (replaced_le1 [cr] [nl]); [simpl; lia|auto]).
  destruct (EsReplace_ok fuel junk junk' es s u [cr; nl] [nl]) as (e1 & H1 & H2 & H3); auto.
  { discriminate. }
  { eapply fits_le; eauto. }
  destruct (EsReplace_ok fuel junk junk' e1 u t [cr] [nl]) as (e2 & H4 & H5 & H6); auto.
  { discriminate. }
  { eapply fits_le; [|exact Hfit]. lia. }
  { lia. }
  exists e1, e2, t, 0%Z. split; [auto|split; [auto|split; [auto|split]]].
  - exists u. auto.
  - lia.
Qed.

Lemma accum_start es t : holds es t -> (2 <= es_len es)%Z -> accum es 0 (Z.to_nat (es_len es)) [].
Proof. intros (H1 & H2 & H3) H. unfold accum. simpl. repeat split; auto; lia. Qed.

Lemma EsGet_ok fuel junk junk' es t0 s line rest :
  holds es t0 -> (2 <= es_len es <= cap_limit)%Z ->
  nonul s -> first_line s line rest ->
  (Z.of_nat (length line) < line_limit)%Z -> length s + 1 < fuel ->
  exists es' t, pBat_EsGet fuel (Some junk) junk' es s = Ret (0%Z, es', rest) /\
    holds es' t /\ normalised line t /\ (2 <= es_len es')%Z /\
    (es_len es' <= 2 * cap_limit)%Z /\ (rest <> [] -> es_len es' <= cap_limit)%Z.
Proof.
  intros H Hcap Hns Hfl Hll Hf. unfold pBat_EsGet.
  destruct (get_loop_ok fuel junk es 0 (Z.to_nat (es_len es)) false s [] line rest)
    as (es1 & -> & H1 & H2 & H3); auto.
  { eapply accum_start; eauto; lia. }
  { apply nonul_nil. }
  { lia. }
  cbn [bind]. simpl in H1.
  assert (Hlen : length line <= length s).
  { destruct Hfl as (-> & _). rewrite app_length. lia. }
  destruct (norm_ok fuel junk junk' es1 line) as (e1 & e2 & t & z1 & -> & H5 & H6 & H7 & H8); auto.
  { unfold fits, size_limit, line_limit in *. lia. }
  { lia. }
  cbn [bind]. rewrite H5. cbn [bind]. exists e2, t. split; [auto|split; [auto|split; [auto|]]].
  assert (Hge : (2 <= es_len e2)%Z).
  { pose proof (holds_cap _ _ H6) as Hc.
    assert (Ht : t <> []).
    { intros ->. destruct H7 as (u & Hu & Hu').
      destruct Hfl as (_ & Hne & _).
      assert (Hu0 : u = []).
      { inversion Hu' as [x Hx Hx1 Hx2|a b t' Ha Hb Hc1 Hc2]; subst; auto.
        destruct a; discriminate. }
      subst u. inversion Hu as [x Hx Hx1 Hx2|a b t' Ha Hb Hc1 Hc2]; subst; auto.
      destruct a; discriminate. }
    destruct t; [congruence|]. simpl in Hc. lia. }
  split; auto. unfold line_limit, cap_limit in *. split; [lia|].
  intros Hr. specialize (H3 Hr). lia.
Qed.

Lemma EsGet_eof fuel junk junk' es t :
  holds es t -> fits (length t) -> length t < fuel ->
  exists es', pBat_EsGet fuel (Some junk) junk' es [] = Ret (1%Z, es', []).
Proof.
  intros H Hfit Hf. unfold pBat_EsGet. rewrite get_loop_eof by lia. cbn [bind].
  destruct (norm_ok fuel junk junk' es t) as (e1 & e2 & t' & z1 & -> & H5 & _); auto.
  cbn [bind]. rewrite H5. cbn [bind]. eauto.
Qed.

Lemma normalised_le s t : normalised s t -> length t <= length s.
Proof.
  intros (u & H1 & H2). apply replaced_le1 in H1; [|simpl; lia].
  apply replaced_le1 in H2; [|simpl; lia]. lia.
Qed.

Lemma read_all_ok n fuel junk junk' es t0 s ls :
  lines s ls -> holds es t0 -> (Z.of_nat (length t0) < line_limit)%Z ->
  (2 <= es_len es)%Z -> (s <> [] -> es_len es <= cap_limit)%Z ->
  nonul s -> Forall (fun l => Z.of_nat (length l) < line_limit)%Z ls ->
  length ls < n -> length s + 1 < fuel -> length t0 < fuel ->
  exists ts, read_all n fuel (Some junk) junk' es s = Ret (ts, 1%Z, []) /\ Forall2 normalised ls ts.
Proof.
  intros Hls. revert n es t0.
  induction Hls as [|s line rest ls Hfl Hls IH]; intros n es t0 H Ht0 Hc1 Hc2 Hns Hall Hn Hf Hff.
  - destruct n as [|n]; [simpl in Hn; lia|]. cbn [read_all].
    destruct (EsGet_eof fuel junk junk' es t0 H) as (es' & ->).
    { unfold fits, size_limit, line_limit in *. lia. }
    { lia. }
    cbn [bind]. simpl. exists []. split; auto.
  - destruct n as [|n]; [simpl in Hn; lia|]. cbn [read_all]. simpl in Hn.
    inversion Hall as [|x y Hline Hall']; subst.
    assert (Hsne : s <> []).
    { destruct Hfl as (-> & Hne & _). destruct line; [congruence|discriminate]. }
    destruct (EsGet_ok fuel junk junk' es t0 s line rest) as (es' & t & -> & H1 & H2 & H3 & H4 & H5); auto.
    cbn [bind]. simpl. rewrite (holds_read _ _ H1). cbn [bind].
    assert (Hrest : length line + length rest = length s).
    { destruct Hfl as (-> & _). rewrite app_length. auto. }
    pose proof (normalised_le _ _ H2) as Hle.
    destruct (IH n es' t) as (ts & -> & Hts); auto; try lia.
    + destruct Hfl as (-> & _). apply nonul_app in Hns. tauto.
    + cbn [bind]. exists (t :: ts). split; auto.
Qed.

Lemma lines_total s : exists ls, lines s ls.
Proof.
  remember (length s) as n eqn:Hn. assert (Hle : length s <= n) by lia. clear Hn.
  revert s Hle. induction n as [|n IH]; intros s Hle.
  - destruct s; [|simpl in Hle; lia]. exists []. constructor.
  - destruct s as [|c s]; [exists []; constructor|].
    pose proof (take_line_spec (length (c :: s)) (c :: s)) as Htl.
    cbn [length take_line] in Htl. destruct (ceq c nl) eqn:Ec.
    + apply ceq_true in Ec. subst c. destruct (IH s) as [ls Hls]; [simpl in Hle; lia|].
      exists ([nl] :: ls). econstructor; eauto. split; [reflexivity|split; [discriminate|]].
      left. exists []. auto.
    + apply ceq_false in Ec. destruct (take_line (length s) s) as [d r].
      destruct Htl as [Heq Hd]. destruct (IH r) as [ls Hls].
      { simpl in Heq, Hle. injection Heq as Heq. rewrite Heq, app_length in Hle. lia. }
      exists ((c :: d) :: ls). econstructor; eauto. split; [exact Heq|split; [discriminate|]].
      destruct Hd as [(l & H1 & H2 & _)|[H1 H2]].
      * left. exists l. auto.
      * right. split; auto. destruct H2 as [H2|[H2 _]]; auto.
        apply (f_equal (@length _)) in Heq. rewrite app_length in Heq. simpl in *.
        destruct r; auto. simpl in Heq. lia.
Qed.
