(** Timeout_Proofs.v *)
From Coq Require Import Reals Lra.
From Flocq Require Import Core.Core IEEE754.BinarySingleNaN.
From Verif Require Import Base Lex StrLib_Model StrLib_Spec StrLib_Proofs Path_Proofs Expand_Model Args_Model Args_Spec Args_Proofs Params_Spec Params_Proofs
  Prompt_Proofs Timeout_Model Timeout_Spec.

#[local] Existing Instance prec_pos.
#[local] Existing Instance prec_small.
Notation fx := (SpecFloat.fexp 53 1024).
Notation rnd x := (round radix2 fx (round_mode mode_NE) x).
Notation V := (@B2R 53 1024).

Lemma vexp : Valid_exp fx. Proof. apply fexp_correct. exact prec_pos. Qed.
#[local] Existing Instance vexp.
Lemma mexp : Monotone_exp fx. Proof. apply fexp_monotone. Qed.
#[local] Existing Instance mexp.

Open Scope R_scope.

Lemma bpow_IZR n : (0 <= n)%Z -> bpow radix2 n = IZR (2 ^ n).
Proof. intros H. rewrite <- (IZR_Zpower radix2) by auto. reflexivity. Qed.

Lemma round_near x : Rabs x <= 131072 -> Rabs (rnd x - x) <= / 68719476736.
Proof.
  intros H. eapply Rle_trans; [apply error_le_half_ulp; exact vexp|].
  assert (U : ulp radix2 fx x <= ulp radix2 fx (bpow radix2 17)).
  { apply ulp_le; [exact vexp|exact mexp|]. rewrite (Rabs_pos_eq (bpow radix2 17)) by apply bpow_ge_0. rewrite bpow_IZR by lia. exact H. }
  rewrite ulp_bpow in U. change (fx (17 + 1)) with (-35)%Z in U.
  replace (bpow radix2 (-35)) with (/ 34359738368) in U. lra.
  change (-35)%Z with (- (35))%Z. rewrite bpow_opp, bpow_IZR by lia. reflexivity.
Qed.
Lemma fmt x : generic_format radix2 fx (V x). Proof. apply generic_format_B2R. Qed.

(** The double next to 1/10 *)
Lemma gran_val : V granularity = 7205759403792794 / 72057594037927936.
Proof.
  unfold granularity, B2R, F2R. cbn [Fnum Fexp]. change (cond_Zopp false 7205759403792794) with 7205759403792794%Z.
  change (-56)%Z with (- (56))%Z. rewrite bpow_opp, bpow_IZR by lia. reflexivity.
Qed.
Lemma gran_fin : is_finite granularity = true. Proof. reflexivity. Qed.
Lemma d1000_val : V d1000 = 1000.
Proof.
  unfold d1000, B2R, F2R. cbn [Fnum Fexp]. change (cond_Zopp false 8796093022208000) with 8796093022208000%Z.
  change (-43)%Z with (- (43))%Z. rewrite bpow_opp, bpow_IZR by lia. change (2 ^ 43)%Z with 8796093022208%Z. lra.
Qed.
Lemma emax_big x : Rabs x <= 131073 -> Rlt_bool (Rabs x) (bpow radix2 1024) = true.
Proof.
  intros H. apply Rlt_bool_true. eapply Rle_lt_trans; [exact H|]. eapply Rlt_le_trans; [|apply (bpow_le radix2 18 1024); lia].
  rewrite bpow_IZR by lia. change (2 ^ 18)%Z with 262144%Z. lra.
Qed.
Lemma round_bound x : Rabs x <= 131072 -> Rabs (rnd x) <= 131073.
Proof.
  intros H. pose proof (round_near x H) as N. replace (rnd x) with ((rnd x - x) + x) by ring. eapply Rle_trans; [apply Rabs_triang|]. lra.
Qed.

(** One step of the count *)
Lemma sub_ok s : is_finite s = true -> V granularity < V s -> V s <= 100000 ->
  is_finite (dsub s granularity) = true /\ 0 <= V (dsub s granularity) <= V s /\ Rabs (V (dsub s granularity) - (V s - V granularity)) <= / 68719476736.
Proof.
  intros F L B. pose proof gran_val as G.
  assert (A : Rabs (V s - V granularity) <= 131072) by (rewrite Rabs_pos_eq; lra).
  pose proof (Bminus_correct 53 1024 prec_pos prec_small mode_NE s granularity F gran_fin) as M.
  rewrite (emax_big _ (round_bound _ A)) in M. destruct M as (M1 & M2 & _). unfold dsub. rewrite M1. split; [exact M2|]. split; [|apply round_near; exact A].
  split.
  - apply round_ge_generic; [exact vexp|apply valid_rnd_round_mode|apply generic_format_0|lra].
  - apply round_le_generic; [exact vexp|apply valid_rnd_round_mode|apply fmt|lra].
Qed.

Lemma mul_ok s : is_finite s = true -> 0 <= V s -> V s <= V granularity ->
  is_finite (dmul s d1000) = true /\ 0 <= V (dmul s d1000) <= 101 /\ Rabs (V (dmul s d1000) - 1000 * V s) <= / 68719476736.
Proof.
  intros F P L. pose proof gran_val as G. pose proof d1000_val as K.
  assert (A : Rabs (V s * V d1000) <= 131072) by (rewrite K, Rabs_pos_eq; lra).
  pose proof (Bmult_correct 53 1024 prec_pos prec_small mode_NE s d1000) as M.
  rewrite (emax_big _ (round_bound _ A)) in M. destruct M as (M1 & M2 & _). unfold dmul. rewrite M1, M2, F. split; [reflexivity|].
  pose proof (round_near _ A) as N. rewrite K in *. replace (1000 * V s) with (V s * 1000) by ring. split; [|exact N].
  split.
  - apply round_ge_generic; [exact vexp|apply valid_rnd_round_mode|apply generic_format_0|lra].
  - apply Rabs_le_inv in N. lra.
Qed.

Lemma uint_ok x : is_finite x = true -> 0 <= V x <= 101 -> exists z, to_uint x = Ret z /\ (0 <= z <= 101)%Z /\ V x - 1 < IZR z <= V x.
Proof.
  intros F B. unfold to_uint. rewrite F. pose proof (Btrunc_correct 53 1024 prec_small x) as T. rewrite round_FIX_IZR in T. apply eq_IZR in T. rewrite T.
  rewrite (Ztrunc_floor (V x)) by lra. pose proof (Zfloor_lb (V x)) as L. pose proof (Zfloor_ub (V x)) as U.
  assert (Z0 : (0 <= Zfloor (V x))%Z) by (apply Zfloor_lub; lra).
  assert (Z1 : (Zfloor (V x) <= 101)%Z) by (apply le_IZR; lra).
  exists (Zfloor (V x)). replace ((0 <=? Zfloor (V x))%Z) with true by (symmetry; apply Z.leb_le; lia).
  replace ((Zfloor (V x) <? 2 ^ 32)%Z) with true by (symmetry; apply Z.ltb_lt; lia). cbn [andb]. split; [reflexivity|]. split; [lia|lra].
Qed.
Lemma tick : to_uint (dmul granularity d1000) = Ret 100%Z. Proof. vm_compute. reflexivity. Qed.

Definition eps : R := / 50000000000.
Lemma rab x e : - e <= x <= e -> Rabs x <= e. Proof. apply Rabs_le. Qed.
Lemma lt_b x y : is_finite x = true -> is_finite y = true -> dlt x y = Rlt_bool (V x) (V y).
Proof. apply Bltb_correct. Qed.
Lemma zero_val : V dzero = 0. Proof. reflexivity. Qed.

Lemma slept_app a b : (slept (a ++ b) = slept a + slept b)%Z.
Proof. induction a as [|[x|x y|x] a IH]; cbn [app slept]; lia. Qed.

Lemma minus1_stops key fuel nb i : (0 < fuel)%nat -> count_down key fuel nb i dminus1 = Ret [].
Proof. intros H. destruct fuel as [|f]; [lia|]. cbn [count_down]. change (dlt dzero dminus1) with false. reflexivity. Qed.

Lemma app_case {A} (p q : list A) (a : list A) x b : p ++ q = a ++ x :: b ->
  (exists b', p = a ++ x :: b') \/ exists a', a = p ++ a' /\ q = a' ++ x :: b.
Proof.
  revert a. induction p as [|y p IH]; intros a H; [right; exists a; auto|]. destruct a as [|z a]; cbn in H; injection H as -> H.
  - left. exists p. reflexivity.
  - destruct (IH _ H) as [(b' & ->)|(a' & -> & H')]; [left; exists b'; reflexivity|right; exists a'; auto].
Qed.

Lemma count_ok key nb : forall n s fuel i, is_finite s = true -> 0 <= V s <= 100000 -> V s <= 999 / 10000 * INR n -> (S n < fuel)%nat ->
  exists l, count_down key fuel nb i s = Ret l /\
    ((nb = true \/ (forall j, (i <= j)%nat -> key j = false)) -> near (seconds (slept l)) (V s) (11 / 10000 + INR n * eps)) /\
    (forall k, nb = false -> key (i + k)%nat = true -> (forall j, (j < k)%nat -> key (i + j)%nat = false) ->
       near (seconds (slept l)) (Rmin (V s) (look k)) (11 / 10000 + INR n * eps)) /\
    (forall a b nb' v, l = a ++ TShow nb' v :: b -> nb' = nb /\ is_finite v = true /\ near (V v) (V s - seconds (slept a)) (INR n * eps)).
Proof.
  assert (E0 : 0 < eps) by (unfold eps; lra). pose proof gran_val as G.
  induction n as [|n IH]; intros s fuel i F B M Hf; (destruct fuel as [|f]; [lia|]); cbn [count_down]; rewrite (lt_b dzero s eq_refl F), zero_val.
  - cbn [INR] in M. rewrite Rlt_bool_false by lra. exists []. split; [reflexivity|]. cbn [INR slept]. unfold near, seconds.
    split; [intros _; apply rab; lra|]. split; [|intros [|] b nb' v H; discriminate H].
    intros k _ _ _. unfold look. rewrite S_INR. pose proof (pos_INR k). rewrite Rmin_left by lra. apply rab; lra.
  - rewrite S_INR in *. pose proof (pos_INR n) as Pn.
    destruct (Rlt_bool_spec 0 (V s)) as [Ps|Ps].
    2:{ exists []. split; [reflexivity|]. cbn [slept]. unfold near, seconds. split; [intros _; apply rab; nra|]. split; [|intros [|] b nb' v H; discriminate H].
        intros k _ _ _. unfold look. rewrite S_INR. pose proof (pos_INR k). rewrite Rmin_left by lra. apply rab; nra. }
    rewrite (lt_b granularity s eq_refl F). destruct (Rlt_bool_spec (V granularity) (V s)) as [Lg|Lg].
    + rewrite tick. cbn [bind]. destruct (sub_ok s F Lg) as (F' & B' & A'); [lra|].
      set (s' := dsub s granularity) in *. apply Rabs_le_inv in A'.
      assert (D : - eps <= V s' - (V s - / 10) <= eps) by (unfold eps; lra).
      assert (M' : V s' <= 999 / 10000 * INR n) by (unfold eps in D; lra).
      destruct (IH s' f (S i) F') as (l & El & H1 & H2 & H3); [lra|exact M'|lia|].
      destruct (negb nb && key i) eqn:K.
      * apply andb_prop in K. destruct K as [K1 K2]. apply Bool.negb_true_iff in K1. exists [TSleep 100; TShow nb s']. split; [reflexivity|].
        change (slept [TSleep 100; TShow nb s']) with 100%Z. unfold near, seconds. split; [intros [Q|Q]; [congruence|rewrite Q in K2 by lia; discriminate]|].
        split.
        -- intros k _ _ Q. assert (k = 0)%nat as -> by (destruct k; auto; specialize (Q 0%nat ltac:(lia)); rewrite Nat.add_0_r in Q; congruence).
           unfold look. cbn [INR]. rewrite Rmin_right by lra. apply rab; nra.
        -- intros a b nb' v E. destruct a as [|x [|y a]]; try discriminate E. { injection E as <- <- <- <-. cbn [slept].
           split; [reflexivity|split; [exact F'|]]. apply rab. change (IZR (100 + 0)) with 100. nra. }
           exfalso. injection E as <- <- E. destruct a; discriminate E.
      * fold s'. rewrite El. cbn [bind]. exists ([TSleep 100; TShow nb s'] ++ l). split; [reflexivity|].
        rewrite slept_app. change (slept [TSleep 100; TShow nb s']) with 100%Z. unfold near, seconds in *. rewrite plus_IZR. split; [|split].
        -- intros Q. assert (Q' : nb = true \/ (forall j, (S i <= j)%nat -> key j = false)) by (destruct Q as [Q|Q]; [left; auto|right; intros; apply Q; lia]).
           specialize (H1 Q'). apply Rabs_le_inv in H1. apply rab. lra.
        -- intros k N Kk Q. destruct k as [|k]; [exfalso; rewrite Nat.add_0_r in Kk; rewrite N, Kk in K; discriminate|].
           specialize (H2 k N). replace (S i + k)%nat with (i + S k)%nat in H2 by lia. specialize (H2 Kk).
           assert (Q' : forall j, (j < k)%nat -> key (S i + j)%nat = false) by (intros j Hj; specialize (Q (S j) ltac:(lia)); replace (S i + j)%nat with (i + S j)%nat by lia; exact Q).
           specialize (H2 Q'). apply Rabs_le_inv in H2. apply rab.
           assert (Lk : look (S k) = look k + / 10) by (unfold look; rewrite (S_INR (S k)); field). rewrite Lk.
           unfold Rmin in *. destruct (Rle_dec (V s') (look k)), (Rle_dec (V s) (look k + / 10)); lra.
        -- intros a b nb' v E. apply app_case in E. destruct E as [(b' & E)|(a' & -> & E)].
           ++ destruct a as [|x [|y a]]; try discriminate E. { injection E as <- <- <- <-. cbn [slept].
              split; [reflexivity|split; [exact F'|]]. apply rab. change (IZR (100 + 0)) with 100. nra. }
              exfalso. injection E as <- <- E. destruct a; discriminate E.
           ++ destruct (H3 _ _ _ _ E) as (X1 & X2 & X3). split; [exact X1|split; [exact X2|]]. rewrite slept_app. change (slept [TSleep 100; TShow nb s']) with 100%Z.
              rewrite plus_IZR. apply Rabs_le_inv in X3. apply rab. lra.
    + destruct (mul_ok s F) as (F' & B' & A'); [lra|exact Lg|]. destruct (uint_ok _ F' B') as (z & Ez & Bz & Uz). rewrite Ez. cbn [bind].
      apply Rabs_le_inv in A'. rewrite minus1_stops by lia. cbn [bind].
      exists [TSleep z]. split; [destruct (negb nb && key i); reflexivity|]. change (slept [TSleep z]) with (z + 0)%Z. rewrite Z.add_0_r. unfold near, seconds.
      assert (0 <= (INR n + 1) * eps) by nra.
      split; [intros _; apply rab; lra|]. split.
      * intros k _ _ _. unfold look. rewrite S_INR. pose proof (pos_INR k). apply rab. unfold Rmin. destruct (Rle_dec (V s) ((INR k + 1) / 10)); lra.
      * intros a b nb' v E. destruct a as [|x a]; [discriminate|]. injection E as _ E. destruct a; discriminate E.
Qed.
Close Scope R_scope.

Fixpoint decide (strtod : cstr -> dbl * nat) (ps : list cstr) (nb : bool) (s : dbl) : tparams :=
  match ps with
  | [] => TWait nb s
  | p :: r =>
      if (stricmp p (s2l "/?") =? 0)%Z then THelp
      else if (stricmp p (s2l "/T") =? 0)%Z then decide strtod r nb s
      else if (stricmp p (s2l "/NOBREAK") =? 0)%Z then decide strtod r true s
      else if nonzero s then TBad
      else let '(d, k) := strtod p in match skipn k p with _ :: _ => TBad | [] => decide strtod r nb d end
  end.
Lemma params_ok strtod w line ps : written w line ps -> forall fuel old nb s, length line < fuel ->
  timeout_params strtod fuel w old line nb s = Ret (decide strtod ps nb s, w).
Proof.
  induction 1 as [s B|a raw rest t v l A N F P Bt C D W IH]; intros fuel old nb sec L; (destruct fuel as [|f]; [lia|]); cbn [timeout_params decide].
  - rewrite next_end by auto. reflexivity.
  - rewrite (next_written w old a raw rest t v) by auto. cbn [bind].
    assert (length rest < f). { rewrite !app_length in L. destruct raw; [congruence|]. cbn [length] in L. lia. }
    destruct (stricmp v (s2l "/?") =? 0)%Z; [reflexivity|]. destruct (stricmp v (s2l "/T") =? 0)%Z; [apply IH; lia|].
    destruct (stricmp v (s2l "/NOBREAK") =? 0)%Z; [apply IH; lia|]. destruct (nonzero sec); [reflexivity|]. destruct (strtod v) as [d k].
    destruct (skipn k v); [apply IH; lia|reflexivity].
Qed.

Lemma nn s : forallb (fun c => negb (ceq c "000"%char)) s = true -> nonul s.
Proof. intros H Hc. rewrite forallb_forall in H. specialize (H _ Hc). rewrite ceq_refl in H. discriminate. Qed.
Lemma tests p : nonul p ->
  (stricmp p (s2l "/?") =? 0)%Z = true <-> help p.
Proof. intros H. apply stricmp_name; [exact H|]. apply nn. reflexivity. Qed.
Lemma tests2 p : nonul p -> (stricmp p (s2l "/T") =? 0)%Z = true <-> quiet p.
Proof. intros H. apply stricmp_name; [exact H|]. apply nn. reflexivity. Qed.
Lemma tests3 p : nonul p -> (stricmp p (s2l "/NOBREAK") =? 0)%Z = true <-> no_key p.
Proof. intros H. apply stricmp_name; [exact H|]. apply nn. reflexivity. Qed.
Lemma quiet_only p : quiet p -> ~ help p /\ ~ no_key p.
Proof. unfold quiet, help, no_key, same_name. intros ->. split; discriminate. Qed.
Lemma nokey_only p : no_key p -> ~ help p /\ ~ quiet p.
Proof. unfold quiet, help, no_key, same_name. intros ->. split; discriminate. Qed.
Lemma falsy b : ~ b = true -> b = false. Proof. destruct b; congruence. Qed.

Lemma decide_quiet st p r nb s : nonul p -> quiet p -> decide st (p :: r) nb s = decide st r nb s.
Proof.
  intros N Q. cbn [decide]. destruct (quiet_only p Q) as [H1 H2]. rewrite (falsy _ (fun e => H1 (proj1 (tests p N) e))). rewrite (proj2 (tests2 p N) Q). reflexivity.
Qed.
Lemma decide_nokey st p r nb s : nonul p -> no_key p -> decide st (p :: r) nb s = decide st r true s.
Proof.
  intros N Q. cbn [decide]. destruct (nokey_only p Q) as [H1 H2]. rewrite (falsy _ (fun e => H1 (proj1 (tests p N) e))).
  rewrite (falsy _ (fun e => H2 (proj1 (tests2 p N) e))), (proj2 (tests3 p N) Q). reflexivity.
Qed.
Lemma decide_help st p r nb s : nonul p -> help p -> decide st (p :: r) nb s = THelp.
Proof. intros N Q. cbn [decide]. rewrite (proj2 (tests p N) Q). reflexivity. Qed.
Lemma decide_other st p r nb s : nonul p -> other p -> decide st (p :: r) nb s =
  if nonzero s then TBad else let '(d, k) := st p in match skipn k p with _ :: _ => TBad | [] => decide st r nb d end.
Proof.
  intros N (Q1 & Q2 & Q3). cbn [decide]. rewrite (falsy _ (fun e => Q3 (proj1 (tests p N) e))), (falsy _ (fun e => Q1 (proj1 (tests2 p N) e))), (falsy _ (fun e => Q2 (proj1 (tests3 p N) e))). reflexivity.
Qed.
Lemma decide_reads st p d r nb s : nonul p -> reads st p d -> nonzero s = false -> decide st (p :: r) nb s = decide st r nb d.
Proof. intros N (O & k & E & L) Z. rewrite decide_other, Z, E by auto. rewrite skipn_all2 by lia. reflexivity. Qed.
(** Options before anything else *)
Lemma decide_options st : forall a r nb s, Forall nonul a -> Forall (fun q => quiet q \/ no_key q) a ->
  exists nb', decide st (a ++ r) nb s = decide st r nb' s /\ (nb' = true <-> nb = true \/ Exists no_key a).
Proof.
  induction a as [|p a IH]; intros r nb s N Q; [exists nb; split; [reflexivity|]; split; [auto|intros [H|H]; [auto|inversion H]]|].
  inversion N; subst. inversion Q as [|? ? Qp Qa]; subst. cbn [app]. destruct Qp as [Qp|Qp].
  - rewrite decide_quiet by auto. destruct (IH r nb s) as (nb' & E & I); auto. exists nb'. split; [exact E|]. rewrite I. split; intros [H|H]; auto.
    inversion H; subst; auto. exfalso. eapply quiet_only; eauto.
  - rewrite decide_nokey by auto. destruct (IH r true s) as (nb' & E & I); auto. exists nb'. split; [exact E|]. rewrite I. split; intros [H|H]; auto.
Qed.
Lemma decide_asked st ps nb d : Forall nonul ps -> asked st ps nb d -> decide st ps false dzero = TWait nb d.
Proof.
  intros N (a & p & b & -> & Q & R & K). apply Forall_app in N. destruct N as [Na Nb]. inversion Nb; subst. apply Forall_app in Q. destruct Q as [Qa Qb].
  destruct (decide_options st a (p :: b) false dzero Na Qa) as (n1 & -> & I1). rewrite (decide_reads st p d b n1 dzero) by auto.
  destruct (decide_options st b [] n1 d) as (n2 & E & I2); auto. rewrite app_nil_r in E. rewrite E. cbn [decide]. f_equal.
  assert (X : n2 = true <-> nb = true).
  { rewrite I2, I1, K, Exists_app, Exists_cons. split; [intuition discriminate|]. intros [H|[H|H]]; auto. exfalso. destruct R as [(_ & R & _) _]. auto. }
  destruct n2, nb; intuition.
Qed.
Lemma decide_unasked st ps nb : Forall nonul ps -> unasked ps nb -> decide st ps false dzero = TWait nb dzero.
Proof.
  intros N (Q & K). destruct (decide_options st ps [] false dzero N Q) as (n1 & E & I1). rewrite app_nil_r in E. rewrite E. cbn [decide]. f_equal.
  destruct n1, nb; auto; exfalso; intuition congruence.
Qed.

Open Scope R_scope.
Lemma count_bound x : 0 <= x <= 100000 -> exists n, x <= 999 / 10000 * INR n /\ INR n * eps <= / 10000.
Proof.
  intros B. exists (Z.to_nat (up (x * (10000 / 999)))). destruct (archimed (x * (10000 / 999))) as [U1 U2].
  assert (P : (0 <= up (x * (10000 / 999)))%Z) by (apply le_IZR; lra). rewrite INR_IZR_INZ, Z2Nat.id by exact P. unfold eps. lra.
Qed.
Close Scope R_scope.

Lemma run_wait key strtod fuel w line ps nb d : written w line ps -> Forall nonul ps -> decide strtod ps false dzero = TWait nb d ->
  pBat_CmdTimeout key strtod fuel w line = do l <- wait key fuel nb d; Ret (0%Z, l, w).
Proof. intros W N D. unfold pBat_CmdTimeout. rewrite (params_ok strtod w line ps W) by lia. rewrite D. reflexivity. Qed.

Lemma wait_ok key nb s : is_finite s = true -> (0 <= V s <= 100000)%R -> exists n, forall fuel, n <= fuel ->
  exists l, wait key fuel nb s = Ret (TShow nb s :: l) /\
    ((nb = true \/ (forall j, key j = false)) -> near (seconds (slept l)) (V s) (2 / 1000)) /\
    (forall k, nb = false -> first_key key k -> near (seconds (slept l)) (Rmin (V s) (look k)) (2 / 1000)) /\
    (forall a b nb' v, l = a ++ TShow nb' v :: b -> nb' = nb /\ is_finite v = true /\ near (V v) (V s - seconds (slept a)) (1 / 10000)).
Proof.
  intros F B. destruct (count_bound _ B) as (n & N1 & N2). exists (S (S n)). intros fuel L.
  destruct (count_ok key nb n s fuel 0 F B N1) as (l & E & H1 & H2 & H3); [lia|].
  unfold wait. rewrite (lt_b s dzero F eq_refl), zero_val, Rlt_bool_false by lra. rewrite E. cbn [bind]. exists l. split; [reflexivity|]. unfold near in *. split; [|split].
  - intros Q. eapply Rle_trans; [apply H1; destruct Q as [Q|Q]; auto|]. lra.
  - intros k Nb [K1 K2]. eapply Rle_trans; [apply (H2 k Nb); auto|]. lra.
  - intros a b nb' v E'. destruct (H3 _ _ _ _ E') as (X1 & X2 & X3). split; [exact X1|split; [exact X2|]]. eapply Rle_trans; [exact X3|]. lra.
Qed.

Lemma key_ok key : forall k i fuel, key (i + k) = true -> (forall j, j < k -> key (i + j) = false) -> k < fuel ->
  wait_key key fuel false i = Ret (repeat (TSleep 100) k).
Proof.
  induction k as [|k IH]; intros i fuel K Q L; (destruct fuel as [|f]; [lia|]); cbn [wait_key orb].
  - rewrite Nat.add_0_r in K. rewrite K. reflexivity.
  - pose proof (Q 0 ltac:(lia)) as Q0. rewrite Nat.add_0_r in Q0. rewrite Q0. cbn [negb]. rewrite tick. cbn [bind]. rewrite (IH (S i) f).
    + reflexivity.
    + rewrite <- K. f_equal. lia.
    + intros j Hj. rewrite <- (Q (S j)) by lia. f_equal. lia.
    + lia.
Qed.
Lemma key_never key nb : forall fuel i, nb = true \/ (forall j, i <= j -> key j = false) -> wait_key key fuel nb i = OutOfFuel.
Proof.
  induction fuel as [|f IH]; intros i Q; [reflexivity|]. cbn [wait_key].
  replace (nb || negb (key i)) with true by (destruct Q as [->|Q]; [reflexivity|rewrite Q by lia; destruct nb; reflexivity]).
  rewrite tick. cbn [bind]. rewrite IH; [reflexivity|]. destruct Q as [Q|Q]; [auto|right; intros; apply Q; lia].
Qed.

(** 2 ^ 52 seconds *)
Definition long_time : dbl := @B754_finite 53 1024 false 4503599627370496 0 eq_refl.
Lemma long_sub : dsub long_time granularity = long_time. Proof. apply B2SF_inj. vm_compute. reflexivity. Qed.
Lemma inf_sub : dsub (B754_infinity false) granularity = B754_infinity false. Proof. reflexivity. Qed.
Lemma count_never key nb s : dlt dzero s = true -> dlt granularity s = true -> dsub s granularity = s ->
  forall fuel i, nb = true \/ (forall j, i <= j -> key j = false) -> count_down key fuel nb i s = OutOfFuel.
Proof.
  intros Z G Sb. induction fuel as [|f IH]; intros i Q; [reflexivity|]. cbn [count_down]. rewrite Z, G, tick. cbn [bind]. rewrite Sb.
  replace (negb nb && key i) with false by (destruct Q as [->|Q]; [reflexivity|rewrite Q by lia; destruct nb; reflexivity]).
  rewrite IH; [reflexivity|]. destruct Q as [Q|Q]; [auto|right; intros; apply Q; lia].
Qed.
