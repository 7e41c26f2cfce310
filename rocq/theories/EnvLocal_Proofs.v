(** EnvLocal_Proofs.v -- proofs about the local variables of procedures. *)

From Coq Require Import Sorted Permutation.
From Verif Require Import Base Lex Env_Model Env_Spec Env_Proofs.

(** ** Finding the local variables *)

Lemma upper_lower_code c : is_upper c = true -> (97 <= code (tolower c))%Z.
Proof.
  intros H. assert (A : forall c, implb (is_upper c) (97 <=? code (tolower c))%Z = true).
  { apply (ascii_forall (fun c => implb (is_upper c) (97 <=? code (tolower c))%Z)). vm_compute. reflexivity. }
  specialize (A c). rewrite H in A. simpl in A. lia.
Qed.
Lemma high_lower_code c : (128 <= code c)%Z -> (97 <= code (tolower c))%Z.
Proof.
  intros H. assert (A : forall c, implb (128 <=? code c)%Z (97 <=? code (tolower c))%Z = true).
  { apply (ascii_forall (fun c => implb (128 <=? code c)%Z (97 <=? code (tolower c))%Z)). vm_compute. reflexivity. }
  specialize (A c). apply Z.leb_le in H. rewrite H in A. simpl in A. lia.
Qed.
Lemma schar_neg c : is_upper c = true \/ (128 <= code c)%Z -> (schar c < 95)%Z.
Proof.
  assert (A : forall c, implb (is_upper c || (128 <=? code c)%Z) (schar c <? 95)%Z = true).
  { apply (ascii_forall (fun c => implb (is_upper c || (128 <=? code c)%Z) (schar c <? 95)%Z)). vm_compute. reflexivity. }
  specialize (A c). intros H.
  assert (E : is_upper c || (128 <=? code c)%Z = true).
  { apply orb_true_iff. destruct H; auto. right. lia. }
  rewrite E in A. simpl in A. lia.
Qed.
Lemma lower_underscore c : tolower c = "_"%char <-> c = "_"%char.
Proof.
  assert (A : forall c, Bool.eqb (ceq (tolower c) "_"%char) (ceq c "_"%char) = true).
  { apply (ascii_forall (fun c => Bool.eqb (ceq (tolower c) "_"%char) (ceq c "_"%char))). vm_compute. reflexivity. }
  specialize (A c). apply eqb_prop in A. rewrite <- !ceq_true, A. reflexivity.
Qed.
Lemma not_local_upper c : is_upper c = true \/ (128 <= code c)%Z -> c <> "_"%char.
Proof. intros H E. apply schar_neg in H. subst. vm_compute in H. discriminate. Qed.

Definition var_good (v : var) : Prop := match v_name v with Some (n, _) => good_name n | None => True end.

Lemma local_first v w : var_good v -> is_local v = false -> is_local w = true -> ~ ahead true v w.
Proof.
  unfold var_good, is_local, ahead. destruct (v_name v) as [[a p]|]; [|intros _ _].
  - destruct a as [|c a]; [intros []|]. destruct (v_name w) as [[b q]|]; [|discriminate].
    destruct b as [|d b]; [discriminate|]. intros Hg Hc Hd H. apply ceq_true in Hd. apply ceq_false in Hc.
    unfold PBAT_ENV_LOCAL_PREFIX in *. subst d. destruct Hg as [Hg|Hg]; [contradiction|].
    cbn [key map lex] in H.
    assert (97 <= code (tolower c))%Z by (destruct Hg; auto using upper_lower_code, high_lower_code).
    change (code (tolower "_"%char)) with 95%Z in H.
    destruct (Z.compare_spec (code (tolower c)) 95); try lia; discriminate.
  - destruct (v_name w) as [[b q]|]; discriminate.
Qed.

Lemma comp_local v : var_good v ->
  if is_local v then pBat_EnvCompLocal v = 0%Z else (pBat_EnvCompLocal v < 0)%Z.
Proof.
  unfold var_good, is_local, pBat_EnvCompLocal. destruct (v_name v) as [[[|c a] p]|]; try reflexivity.
  intros Hg. destruct (ceq c PBAT_ENV_LOCAL_PREFIX) eqn:E.
  - apply ceq_true in E. subst. reflexivity.
  - apply ceq_false in E. destruct Hg as [Hg|Hg]; [contradiction|]. apply schar_neg in Hg.
    change (code PBAT_ENV_LOCAL_PREFIX) with 95%Z. lia.
Qed.

Lemma find_local_ok e : table_ok true e -> table_good e ->
  exists r, find_local e = Ret r /\
    match r with
    | Some i => exists v, nth_error (e_buf e) i = Some v /\ is_local v = true
    | None => forall v, In v (e_buf e) -> is_local v = false
    end.
Proof.
  intros (Hs & _) Hg. unfold find_local.
  assert (HG : forall v, In v (e_buf e) -> var_good v) by (unfold table_good in Hg; rewrite Forall_forall in Hg; auto).
  destruct (bsearch_spec pBat_EnvCompLocal (e_buf e)) as (r & Hr & H).
  - intros i j x y Hij Hx Hy. pose proof (ss_nth _ _ Hs i j x y Hij Hx Hy) as Hxy.
    pose proof (comp_local x (HG x (nth_error_In _ _ Hx))) as Cx.
    pose proof (comp_local y (HG y (nth_error_In _ _ Hy))) as Cy.
    destruct (is_local x) eqn:Lx, (is_local y) eqn:Ly; try lia.
    exfalso. apply (local_first x y); auto. apply HG. eapply nth_error_In; eauto.
  - exists r. split; auto. destruct r as [i|].
    + destruct H as (x & Hx & Hk). exists x. split; auto.
      pose proof (comp_local x (HG x (nth_error_In _ _ Hx))) as Cx. destruct (is_local x); auto. lia.
    + intros v Hv. specialize (H v Hv). pose proof (comp_local v (HG v Hv)) as Cv.
      destruct (is_local v); auto. contradiction.
Qed.

Lemma split_locals l : StronglySorted (ahead true) l -> Forall var_good l ->
  exists L B, l = L ++ B /\ Forall (fun v => is_local v = true) L /\ Forall (fun v => is_local v = false) B.
Proof.
  induction 1 as [|x l Hs IH Hf]; intros Hg.
  - exists [], []. auto.
  - inversion Hg; subst. destruct (IH H2) as (L & B & -> & HL & HB). destruct (is_local x) eqn:Lx.
    + exists (x :: L), B. auto.
    + exists [], (x :: L ++ B). split; auto. split; auto. constructor; auto.
      rewrite Forall_forall in *. intros y Hy. destruct (is_local y) eqn:Ly; auto.
      exfalso. apply (local_first x y); auto.
Qed.

(** ** Walking over them *)

Lemma walk_left_all f rl : Forall (fun v => is_local v = true) rl -> forall i,
  Forall2 (fun v v' => exists j, v' = f j v) rl (walk_left f i rl).
Proof. induction 1 as [|v rl Hv _ IH]; intros i; simpl; [constructor|]. rewrite Hv. constructor; eauto. Qed.

Lemma walk_right_all f L : Forall (fun v => is_local v = true) L -> forall B i,
  Forall (fun v => is_local v = false) B ->
  exists L', walk_right f i (L ++ B) = L' ++ B /\ Forall2 (fun v v' => exists j, v' = f j v) L L'.
Proof.
  induction 1 as [|v L Hv _ IH]; intros B i HB; simpl.
  - exists []. split; auto. destruct B as [|b B]; auto. simpl. inversion HB as [|? ? Hb ?]; subst. rewrite Hb. auto.
  - rewrite Hv. destruct (IH B (S i) HB) as (L' & -> & H). exists (f i v :: L'). split; auto. constructor; eauto.
Qed.

Lemma Forall2_rev {A B} (R : A -> B -> Prop) l l' : Forall2 R l l' -> Forall2 R (rev l) (rev l').
Proof. induction 1; simpl; auto. apply Forall2_app; auto. Qed.

Lemma walk_ok f buf i v L B :
  buf = L ++ B -> Forall (fun v => is_local v = true) L -> Forall (fun v => is_local v = false) B ->
  nth_error buf i = Some v -> is_local v = true ->
  exists L', walk f buf i = L' ++ B /\ Forall2 (fun v v' => exists j, v' = f j v) L L'.
Proof.
  intros -> HL HB Hi Hv.
  assert (Hlt : i < length L).
  { destruct (Nat.lt_ge_cases i (length L)) as [|Hge]; auto. exfalso.
    rewrite nth_error_app2 in Hi by auto. apply nth_error_In in Hi. rewrite Forall_forall in HB.
    rewrite HB in Hv; auto. discriminate. }
  unfold walk.
  assert (E1 : firstn (S i) (L ++ B) = firstn (S i) L).
  { rewrite firstn_app. replace (S i - length L) with 0 by lia. simpl. apply app_nil_r. }
  assert (E2 : skipn (S i) (L ++ B) = skipn (S i) L ++ B).
  { rewrite skipn_app. replace (S i - length L) with 0 by lia. reflexivity. }
  rewrite E1, E2.
  assert (H1 : Forall (fun v => is_local v = true) (firstn (S i) L)).
  { rewrite Forall_forall in *. intros x Hx. apply HL. rewrite <- (firstn_skipn (S i) L). apply in_or_app. auto. }
  assert (H2 : Forall (fun v => is_local v = true) (skipn (S i) L)).
  { rewrite Forall_forall in *. intros x Hx. apply HL. rewrite <- (firstn_skipn (S i) L). apply in_or_app. auto. }
  destruct (walk_right_all f _ H2 B (S i) HB) as (L2 & -> & F2).
  assert (F1 := walk_left_all f _ (Forall_rev H1) i). apply Forall2_rev in F1. rewrite rev_involutive in F1.
  exists (rev (walk_left f i (rev (firstn (S i) L))) ++ L2). split; [apply app_assoc|].
  rewrite <- (firstn_skipn (S i) L) at 1. apply Forall2_app; auto.
Qed.

(** ** Related tables *)

(** [v'] bears the same name as [v]. *)
Definition same_key (v v' : var) : Prop :=
  match v_name v, v_name v' with
  | Some (a, _), Some (b, _) => key a = key b
  | None, None => True
  | _, _ => False
  end.
Lemma same_key_refl v : same_key v v.
Proof. unfold same_key. destruct (v_name v) as [[a ?]|]; auto. Qed.

Lemma same_key_ahead sg v v' w w' : same_key v v' -> same_key w w' -> ahead sg v w -> ahead sg v' w'.
Proof.
  unfold same_key, ahead. destruct (v_name v) as [[a ?]|], (v_name v') as [[a' ?]|], (v_name w) as [[b ?]|],
    (v_name w') as [[b' ?]|]; intros; try contradiction; auto. congruence.
Qed.
Lemma same_key_sorted sg l l' : Forall2 same_key l l' -> StronglySorted (ahead sg) l -> StronglySorted (ahead sg) l'.
Proof.
  induction 1 as [|v v' l l' Hv H IH]; intros Hs; [constructor|]. inversion Hs as [|? ? Ss Sf]; subst. constructor; auto.
  clear -H Hv Sf. induction H as [|w w' l l' Hw H IH]; constructor.
  - inversion Sf; subst. eapply same_key_ahead; eauto.
  - inversion Sf; subst. auto.
Qed.
Lemma same_key_named n v v' : same_key v v' -> named n v = named n v'.
Proof.
  unfold same_key, named. destruct (v_name v) as [[a ?]|], (v_name v') as [[b ?]|]; try contradiction; auto.
  intros E. apply key_lower in E. unfold same_nameb, same_name in *. rewrite E. auto.
Qed.

Lemma lookup_rel (R : var -> var -> Prop) l l' n :
  Forall2 R l l' -> (forall v v', R v v' -> named n v = named n v') ->
  match lookup l n, lookup l' n with
  | Some v, Some v' => R v v' | None, None => True | _, _ => False
  end.
Proof.
  intros H HR. unfold lookup. induction H as [|v v' l l' Hv H IH]; simpl; auto.
  rewrite <- (HR v v' Hv). destruct (named n v); auto.
Qed.

Lemma local_named v : is_local v = true -> exists n a, v_name v = Some ("_"%char :: n, a).
Proof.
  unfold is_local. destruct (v_name v) as [[[|c n] a]|]; try discriminate. intros H. apply ceq_true in H. subst.
  eauto.
Qed.

Lemma lookup_local l n v : lookup l n = Some v -> (is_local v = true <-> local_name n).
Proof.
  intros H. apply find_some in H as [_ H]. unfold named in H. unfold is_local, local_name.
  destruct (v_name v) as [[m a]|]; [|discriminate]. apply same_nameb_iff in H. unfold same_name in H.
  destruct m as [|c m], n as [|d n]; try discriminate; simpl in H.
  - split; [discriminate|]. intros (r & X). discriminate.
  - injection H as H _. rewrite ceq_true. unfold PBAT_ENV_LOCAL_PREFIX. split.
    + intros ->. exists n. f_equal. apply (proj1 (lower_underscore d)). rewrite <- H. reflexivity.
    + intros (r & X). injection X as -> _. apply (proj1 (lower_underscore c)). rewrite H. reflexivity.
Qed.

(** ** Push *)

Lemma push_ok addr e : (forall i, addr_ok true (addr i)) -> table_ok true e -> table_good e ->
  exists e', pBat_PushEnvLocals addr e = Ret e' /\ table_ok true e' /\ table_good e' /\
    (forall n, match lookup (e_buf e) n with
               | None => lookup (e_buf e') n = None
               | Some v => if is_local v then exists a, lookup (e_buf e') n = Some (push_var a v)
                           else lookup (e_buf e') n = Some v
               end) /\
    (forall P : var -> Prop, (forall v a, P v -> P (push_var a v)) -> Forall P (e_buf e) -> Forall P (e_buf e')).
Proof.
  intros Ha He Hg. unfold pBat_PushEnvLocals. destruct (find_local_ok e He Hg) as (r & -> & H). cbn [bind].
  destruct r as [i|].
  - destruct H as (v & Hi & Hv). destruct He as (Hs & Hvo & Hnb).
    destruct (split_locals (e_buf e) Hs Hg) as (L & B & EB & HL & HB).
    destruct (walk_ok (fun j => push_var (addr j)) (e_buf e) i v L B EB HL HB Hi Hv) as (L' & -> & F).
    eexists. split; [reflexivity|]. cbn [e_buf].
    set (R := fun v v' => if is_local v then exists a, addr_ok true a /\ v' = push_var a v else v' = v).
    assert (FR : Forall2 R (e_buf e) (L' ++ B)).
    { rewrite EB. apply Forall2_app.
      - clear -F HL Ha. revert HL. induction F as [|x y L L' (j & ->) F IH]; intros HL; constructor.
        + inversion HL as [|? ? Hx ?]; subst. unfold R. rewrite Hx. exists (addr j). auto.
        + inversion HL; subst. auto.
      - clear -HB. induction HB as [|x B Hx HB IH]; constructor; auto. unfold R. rewrite Hx. auto. }
    assert (RK : forall x y, R x y -> same_key x y).
    { unfold R. intros x y H. destruct (is_local x) eqn:Lx.
      - destruct H as (a & _ & ->). destruct (local_named x Lx) as (m & b & E). unfold same_key, push_var. rewrite E. reflexivity.
      - subst. apply same_key_refl. }
    assert (Lnb : length (L' ++ B) = length (e_buf e)) by (clear -FR; induction FR; simpl; auto).
    split; [|split; [|split]].
    + split; [|split]; cbn [e_buf].
      * apply same_key_sorted with (l := e_buf e); auto.
        clear -FR RK. induction FR; constructor; auto.
      * clear -FR Hvo. induction FR as [|x y l l' Hxy FR IH]; constructor.
        -- inversion Hvo as [|? ? Vx ?]; subst. unfold R in Hxy. destruct (is_local x) eqn:Lx; [|subst; auto].
           destruct Hxy as (a & Haa & ->). destruct (local_named x Lx) as (m & b & E).
           unfold var_ok, push_var in *. rewrite E in *. cbn [v_name v_prev]. destruct Vx as (V1 & V2 & V3).
           split; auto. split; auto. constructor; auto. simpl. repeat split; auto.
        -- inversion Hvo; subst. auto.
      * unfold e_index in *. cbn [e_buf e_nb]. congruence.
    + unfold table_good in *. cbn [e_buf]. clear -FR Hg. induction FR as [|x y l l' Hxy FR IH]; constructor.
      * inversion Hg as [|? ? Gx ?]; subst. unfold R in Hxy. destruct (is_local x) eqn:Lx; [|subst; auto].
        destruct Hxy as (a & _ & ->). destruct (local_named x Lx) as (m & b & E). unfold push_var.
        rewrite E in *. cbn [v_name]. auto.
      * inversion Hg; subst. auto.
    + intros n. pose proof (lookup_rel R (e_buf e) (L' ++ B) n FR (fun x y H => same_key_named n x y (RK x y H))) as H.
      destruct (lookup (e_buf e) n) as [x|], (lookup (L' ++ B) n) as [y|]; try contradiction; auto.
      unfold R in H. destruct (is_local x); [|congruence]. destruct H as (a & _ & ->). eauto.
    + intros P HP HF. clear -FR HP HF. induction FR as [|x y l l' Hxy FR IH]; constructor.
      * inversion HF; subst. unfold R in Hxy. destruct (is_local x); [|congruence].
        destruct Hxy as (a & _ & ->). auto.
      * inversion HF; subst. auto.
  - exists e. split; auto. split; auto. split; auto. split; auto. intros n.
    destruct (lookup (e_buf e) n) as [v|] eqn:E; auto. rewrite H; auto. apply find_some in E. tauto.
Qed.

(** ** Pop *)

Lemma pop_ok e : table_ok true e -> table_good e ->
  exists e', pBat_PopEnvLocals e = Ret e' /\ table_ok true e' /\ table_good e' /\
    (forall n, lookup (e_buf e') n =
               match lookup (e_buf e) n with
               | None => None
               | Some v => if is_local v
                           then match v_name (pop_var v) with Some _ => Some (pop_var v) | None => None end
                           else Some v
               end) /\
    (forall P : var -> Prop, (forall v, P v -> P (pop_var v)) -> Forall P (e_buf e) -> Forall P (e_buf e')).
Proof.
  intros He Hg. unfold pBat_PopEnvLocals. destruct (find_local_ok e He Hg) as (r & -> & H). cbn [bind].
  destruct r as [i|].
  - destruct H as (v & Hi & Hv). destruct He as (Hs & Hvo & Hnb).
    destruct (split_locals (e_buf e) Hs Hg) as (L & B & EB & HL & HB).
    destruct (walk_ok (fun _ => pop_var) (e_buf e) i v L B EB HL HB Hi Hv) as (L' & -> & F).
    set (R := fun v v' => if is_local v then v' = pop_var v else v' = v).
    assert (FR : Forall2 R (e_buf e) (L' ++ B)).
    { rewrite EB. apply Forall2_app.
      - clear -F HL. revert HL. induction F as [|x y L L' (j & ->) F IH]; intros HL; constructor.
        + inversion HL as [|? ? Hx ?]; subst. unfold R. rewrite Hx. auto.
        + inversion HL; subst. auto.
      - clear -HB. induction HB as [|x B Hx HB IH]; constructor; auto. unfold R. rewrite Hx. auto. }
    (* the name is kept or dropped *)
    assert (RK : forall x y, var_ok true x -> R x y -> same_key x y \/ v_name y = None).
    { unfold R. intros x y Vx H. destruct (is_local x) eqn:Lx; [|subst; left; apply same_key_refl].
      subst y. destruct (local_named x Lx) as (m & b & E). unfold pop_var, same_key, var_ok in *. rewrite E in *.
      destruct Vx as (_ & _ & Vp).
      destruct (v_prev x) as [|s p].
      - destruct (v_inherit x); cbn [v_name]; auto. rewrite E. auto.
      - destruct (v_inherit x); cbn [v_name]; auto. left. inversion Vp as [|? ? (_ & V2 & _) ?]; subst.
        destruct (s_name s) as [t q]. change (key ("_"%char :: m) = key t). apply key_lower. auto. }
    assert (RV : forall x y, var_ok true x -> R x y -> var_ok true y).
    { unfold R. intros x y Vx H. destruct (is_local x) eqn:Lx; [|subst; auto].
      subst y. destruct (local_named x Lx) as (m & b & E). unfold pop_var, var_ok in *. rewrite E in *.
      destruct Vx as (V0 & V1 & Vp).
      destruct (v_prev x) as [|s p] eqn:Ep.
      - destruct (v_inherit x); cbn [v_name v_prev]; auto. rewrite E, Ep. auto.
      - inversion Vp as [|? ? (W1 & W2 & W3) Vp']; subst. destruct (v_inherit x); cbn [v_name v_prev]; auto.
        destruct (s_name s) as [t q]. simpl in *. split; auto. split; auto.
        eapply Forall_impl; [|exact Vp']. intros z (Z1 & Z2 & Z3). repeat split; auto. unfold same_name in *. congruence. }
    assert (Lnb : length (L' ++ B) = length (e_buf e)) by (clear -FR; induction FR; simpl; auto).
    assert (VA : Forall (var_ok true) (L' ++ B)).
    { clear -FR Hvo RV. induction FR as [|x y l l' Hxy FR IH]; constructor; inversion Hvo; subst; eauto. }
    assert (DA : ForallOrdPairs differ (L' ++ B)).
    { clear -FR Hvo RK Hs. induction FR as [|x y l l' Hxy FR IH]; constructor; inversion Hvo as [|? ? Vx Vl]; subst;
        inversion Hs as [|? ? Ss Sf]; subst; auto.
      destruct (RK x y Vx Hxy) as [K|K].
      2:{ rewrite Forall_forall. intros z _. unfold differ. rewrite K. auto. }
      clear -K FR Vl Sf RK. induction FR as [|z z' l l' Hz FR IH]; constructor; inversion Vl; subst; inversion Sf; subst; auto.
      destruct (RK z z') as [K2|K2]; auto.
      - pose proof (ahead_differ _ _ _ H3) as D. unfold differ, same_key in *.
        destruct (v_name x) as [[a ?]|], (v_name y) as [[b ?]|], (v_name z) as [[c ?]|], (v_name z') as [[d ?]|];
          try contradiction; auto. congruence.
      - unfold differ. rewrite K2. destruct (v_name y) as [[? ?]|]; auto. }
    set (buf := if count_null (L' ++ B) =? count_null (e_buf e) then L' ++ B else qsort (L' ++ B)).
    assert (PB : Permutation (L' ++ B) buf) by (unfold buf; destruct (_ =? _); [auto|apply qsort_perm]).
    assert (SB : StronglySorted (ahead true) buf).
    { unfold buf. destruct (Nat.eqb_spec (count_null (L' ++ B)) (count_null (e_buf e))) as [E|E].
      - (* nothing was dropped *)
        assert (K : forall x y, R x y -> v_name x = None -> v_name y = None).
        { unfold R. intros x y H Hx. destruct (is_local x) eqn:Lx; [|congruence].
          destruct (local_named x Lx) as (? & ? & E'). congruence. }
        assert (SK : Forall2 same_key (e_buf e) (L' ++ B)).
        { assert (LE : forall l l', Forall2 R l l' -> count_null l <= count_null l').
          { clear -K. induction 1 as [|x y l l' Hxy FR IH]; auto. unfold count_null in *. simpl.
            specialize (K x y Hxy). destruct (v_name x); [|rewrite K by auto; simpl; lia].
            destruct (v_name y); simpl; lia. }
          clear -FR E K LE Hvo RK. induction FR as [|x y l l' Hxy FR IH]; constructor.
          - inversion Hvo as [|? ? Vx ?]; subst. destruct (RK x y Vx Hxy) as [|N]; auto.
            specialize (LE l l' FR). unfold count_null in *. simpl in E. rewrite N in E.
            unfold same_key. rewrite N. destruct (v_name x) as [[? ?]|]; auto. simpl in E. exfalso. lia.
          - inversion Hvo; subst. apply IH; auto. specialize (LE l l' FR). unfold count_null in *. simpl in E.
            specialize (K x y Hxy). destruct (v_name x); destruct (v_name y); simpl in E; try lia.
            specialize (K eq_refl). discriminate. }
        eapply same_key_sorted; eauto.
      - apply qsort_sorted; auto. }
    assert (DB : ForallOrdPairs differ buf) by (eapply FOP_perm; eauto).
    exists (mkEnv buf (e_nb e)). split; [reflexivity|]. cbn [e_buf]. split; [|split; [|split]].
    + split; [|split]; cbn [e_buf]; auto.
      * eapply Permutation_Forall; eauto.
      * unfold e_index in *. cbn [e_buf e_nb]. rewrite <- (Permutation_length PB). congruence.
    + unfold table_good in *. cbn [e_buf]. eapply Permutation_Forall; [exact PB|].
      clear -FR Hg RK Hvo. induction FR as [|x y l l' Hxy FR IH]; constructor;
        inversion Hg as [|? ? Gx Gl]; subst; inversion Hvo as [|? ? Vx Vl]; subst; auto.
      destruct (is_local x) eqn:Lx.
      * destruct (RK x y Vx Hxy) as [K|K]; [|rewrite K; auto].
        destruct (local_named x Lx) as (m & b & E). unfold same_key in K. rewrite E in K.
        destruct (v_name y) as [[t q]|]; auto. destruct t as [|c t]; [discriminate|].
        left. apply key_lower in K. unfold same_name in K. cbn [map] in K. injection K as K _.
        apply lower_underscore. symmetry. exact K.
      * unfold R in Hxy. rewrite Lx in Hxy. subst y. auto.
    + intros n. rewrite <- (lookup_perm (L' ++ B)) by auto.
      assert (HR : forall x, In x (e_buf e) -> exists y, In y (L' ++ B) /\ R x y).
      { clear -FR. induction FR as [|x y l l' Hxy FR IH]; intros z []; subst.
        - exists y. split; auto. left; auto.
        - destruct (IH z H) as (w & W1 & W2). exists w. split; auto. right; auto. }
      assert (HR' : forall y, In y (L' ++ B) -> exists x, In x (e_buf e) /\ R x y).
      { clear -FR. induction FR as [|x y l l' Hxy FR IH]; intros z []; subst.
        - exists x. split; auto. left; auto.
        - destruct (IH z H) as (w & W1 & W2). exists w. split; auto. right; auto. }
      assert (HF := sorted_FOP true _ Hs). rewrite Forall_forall in Hvo.
      destruct (lookup (e_buf e) n) as [x|] eqn:El.
      * apply lookup_Some in El as [El1 El2]; auto. destruct (HR x El1) as (y & Hy & Hxy).
        assert (Hk := RK x y (Hvo x El1) Hxy).
        assert (G : match v_name y with Some _ => lookup (L' ++ B) n = Some y | None => lookup (L' ++ B) n = None end).
        { destruct (v_name y) eqn:Ey.
          - apply lookup_Some; auto. split; auto. destruct Hk as [Hk|Hk]; [|congruence].
            rewrite <- (same_key_named n x y); auto.
          - apply lookup_None. intros z Hz. destruct (HR' z Hz) as (w & Hw & Hwz).
            destruct (named n z) eqn:Ez; auto. exfalso.
            assert (Kz := RK w z (Hvo w Hw) Hwz). destruct Kz as [Kz|Kz]; [|unfold named in Ez; rewrite Kz in Ez; discriminate].
            assert (named n w = true) by (rewrite (same_key_named n w z); auto).
            assert (w = x).
            { assert (lookup (e_buf e) n = Some w) by (apply lookup_Some; auto).
              assert (lookup (e_buf e) n = Some x) by (apply lookup_Some; auto). congruence. }
            subst w. unfold R in Hxy, Hwz. destruct (is_local x); subst; unfold named in Ez; rewrite Ey in Ez; discriminate. }
        unfold R in Hxy. destruct (is_local x) eqn:Lx.
        -- subst y. destruct (v_name (pop_var x)); auto.
        -- subst y. unfold named in El2. destruct (v_name x); [auto|discriminate].
      * rewrite lookup_None in *. intros z Hz. destruct (HR' z Hz) as (w & Hw & Hwz).
        destruct (RK w z (Hvo w Hw) Hwz) as [Kz|Kz].
        -- rewrite <- (same_key_named n w z); auto.
        -- unfold named. rewrite Kz. auto.
    + intros P HP HF. eapply Permutation_Forall; [exact PB|].
      clear -FR HP HF. induction FR as [|x y l l' Hxy FR IH]; constructor; inversion HF; subst; auto.
      unfold R in Hxy. destruct (is_local x); subst; auto.
  - exists e. split; auto. split; auto. split; auto. split; auto. intros n.
    destruct (lookup (e_buf e) n) as [v|] eqn:E; auto. rewrite H; auto. apply find_some in E. tauto.
Qed.

(** ** Running procedures *)

Lemma act_ind' (P : act -> Prop) :
  (forall n ka na c i, P (ASet n ka na c i)) -> (forall n ka, P (AUnset n ka)) ->
  (forall addr body, Forall P body -> P (ACall addr body)) -> forall a, P a.
Proof.
  intros H1 H2 H3. fix IH 1. intros [n ka na c i|n ka|addr body]; [apply H1|apply H2|].
  apply H3. induction body as [|a body IHb]; constructor; [apply IH|exact IHb].
Qed.

Lemma call_run addr body e :
  act_run (ACall addr body) e =
  (do e1 <- pBat_PushEnvLocals addr e; do e2 <- acts_run body e1; pBat_PopEnvLocals e2).
Proof. reflexivity. Qed.
Lemma call_ok trim addr body :
  act_ok trim (ACall addr body) <-> (forall i, addr_ok true (addr i)) /\ Forall (act_ok trim) body.
Proof.
  simpl. split; intros [H1 H2]; split; auto.
  - induction body; constructor; tauto.
  - induction H2; auto.
Qed.
Lemma call_marks trim n addr body : marks trim n (ACall addr body) = existsb (marks trim n) body.
Proof. reflexivity. Qed.
Lemma call_uses addr body : uses_x (ACall addr body) = existsb uses_x body.
Proof. reflexivity. Qed.
Lemma call_sem trim prot addr body s n :
  sem trim prot (ACall addr body) s n =
  if localb n then s n else sems trim (fun n => localb n && present (s n)) body s n.
Proof.
  cbn [sem]. destruct (localb n); auto. generalize (fun n => localb n && present (s n)). intros p.
  revert s. induction body as [|a body IH]; intros s0; [reflexivity|]. cbn [sems]. apply IH.
Qed.

Definition pv (e : env) (n : cstr) : list saved := match lookup (e_buf e) n with Some v => v_prev v | None => [] end.
Definition inh (e : env) (n : cstr) : bool := match lookup (e_buf e) n with Some v => v_inherit v | None => false end.

Lemma good_lookup e : table_ok true e ->
  (table_good e <-> forall n v, lookup (e_buf e) n = Some v -> var_good v).
Proof.
  intros (Hs & Hv & _). unfold table_good. rewrite Forall_forall in *. split.
  - intros H n v Hl. apply find_some in Hl. apply H. tauto.
  - intros H v Hin. destruct (v_name v) as [[n a]|] eqn:E; auto.
    assert (G : var_good v).
    { apply (H n). apply lookup_Some; [eapply sorted_FOP; eauto|]. split; auto.
      unfold named. rewrite E. apply same_nameb_iff. reflexivity. }
    unfold var_good in G. rewrite E in G. auto.
Qed.

Lemma named_self v n a : v_name v = Some (n, a) -> named n v = true.
Proof. intros E. unfold named. rewrite E. apply same_nameb_iff. reflexivity. Qed.

(** One assignment or removal. *)
Lemma set_step trim e n ka na c i :
  (forall n, trim n = pBat_AdjustVarName n) ->
  table_ok true e -> table_good e -> act_ok trim (ASet n ka na c i) ->
  exists e', pBat_SetEnvEx e n ka na (Some c) i = Ret e' /\ table_ok true e' /\ table_good e' /\
    (forall m, pv e' m = pv e m) /\
    (forall m, marks trim m (ASet n ka na c i) = false -> pv e m <> [] -> inh e' m = inh e m) /\
    (forall m, marks trim m (ASet n ka na c i) = true -> inh e' m = true) /\
    (forall m, pv e m <> [] -> inh e m = true -> inh e' m = true) /\
    (forall m, option_map v_content (lookup (e_buf e') m) =
       match c with
       | [] => if same_nameb n m && match pv e m with [] => true | _ => false end then None
               else option_map v_content (lookup (e_buf e) m)
       | _ => if same_nameb (trim n) m then Some c else option_map v_content (lookup (e_buf e) m)
       end).
Proof.
  intros Ht He Hg (Hn & Hka & Hna & Hgn). destruct c as [|c t].
  - destruct (unset_ok true e n ka He Hn Hka) as (e' & R & He' & Hl). exists e'. split; [exact R|]. split; auto.
    unfold pv, inh. split; [|split; [|split; [|split; [|split]]]].
    + apply good_lookup; auto. intros m v. rewrite Hl. pose proof (proj1 (good_lookup e He) Hg) as G.
      destruct (lookup (e_buf e) m) eqn:E; [|discriminate]. intros X. apply (G m).
      destruct (same_nameb n m); [destruct (v_prev v0); congruence|congruence].
    + intros m. rewrite Hl. destruct (lookup (e_buf e) m) as [v|]; auto. destruct (same_nameb n m); auto.
      destruct (v_prev v) eqn:E; auto.
    + intros m _. rewrite Hl. destruct (lookup (e_buf e) m) as [v|]; auto. destruct (same_nameb n m); auto.
      destruct (v_prev v) eqn:E; auto; try congruence.
    + discriminate.
    + intros m. rewrite Hl. destruct (lookup (e_buf e) m) as [v|]; auto. destruct (same_nameb n m); auto.
      destruct (v_prev v) eqn:E; auto; try congruence.
    + intros m. rewrite Hl. destruct (lookup (e_buf e) m) as [v|]; [|destruct (_ && _); auto].
      destruct (same_nameb n m); auto. destruct (v_prev v) eqn:E; auto.
  - destruct (set_ok true e n ka na c t i He Hn Hna) as (e' & v' & R & He' & HA & Hl).
    exists e'. split; [exact R|]. split; auto. rewrite <- Ht in *. set (tn := trim n) in *.
    assert (LS : forall m, same_nameb tn m = true -> lookup (e_buf e) m = lookup (e_buf e) tn).
    { intros m Hm. unfold lookup.
      assert (X : forall v, named m v = named tn v).
      { intros v. unfold named. destruct (v_name v) as [[a ?]|]; auto. apply same_nameb_iff in Hm.
        unfold same_nameb, same_name in *. rewrite Hm. auto. }
      generalize (e_buf e). induction l as [|x l IH]; simpl; auto. rewrite X, IH. auto. }
    unfold pv, inh. split; [|split; [|split; [|split; [|split]]]].
    + apply good_lookup; auto. pose proof (proj1 (good_lookup e He) Hg) as G.
      intros m v. rewrite Hl. destruct (same_nameb tn m) eqn:S; [|apply G].
      intros X. injection X as <-. unfold assigned in HA. destruct (lookup (e_buf e) tn) as [w|] eqn:E.
      * apply G in E. subst v'. exact E.
      * destruct HA as (st & -> & _). exact Hgn.
    + intros m. rewrite Hl. destruct (same_nameb tn m) eqn:S; auto. rewrite (LS m S).
      unfold assigned in HA. destruct (lookup (e_buf e) tn) as [w|] eqn:E.
      * subst v'. auto.
      * destruct HA as (st & -> & _). auto.
    + intros m Hm. rewrite Hl. destruct (same_nameb tn m) eqn:S; auto. rewrite (LS m S).
      unfold assigned in HA. destruct (lookup (e_buf e) tn) as [w|] eqn:E.
      * subst v'. cbn [v_inherit]. cbn [marks] in Hm. fold tn in Hm. destruct i; [congruence|].
        intros _. apply orb_false_r.
      * congruence.
    + intros m Hm. rewrite Hl. cbn [marks] in Hm. fold tn in Hm. destruct i; [|discriminate]. rewrite Hm.
      unfold assigned in HA. destruct (lookup (e_buf e) tn) as [w|] eqn:E.
      * subst v'. cbn [v_inherit]. apply orb_true_r.
      * destruct HA as (st & -> & _). apply orb_true_r.
    + intros m. rewrite Hl. destruct (same_nameb tn m) eqn:S; auto. rewrite (LS m S).
      unfold assigned in HA. destruct (lookup (e_buf e) tn) as [w|] eqn:E; [|congruence].
      subst v'. cbn [v_inherit]. intros _ ->. auto.
    + intros m. rewrite Hl. destruct (same_nameb tn m) eqn:S; auto.
      unfold assigned in HA. destruct (lookup (e_buf e) tn) as [w|] eqn:E.
      * subst v'. auto.
      * destruct HA as (st & -> & _). auto.
Qed.

(** What every action, and every sequence of actions, preserves. *)
Definition balanced (trim : cstr -> cstr) (marked : cstr -> bool) (e e' : env) : Prop :=
  table_ok true e' /\ table_good e' /\ (forall n, pv e' n = pv e n) /\
  (forall n, marked n = false -> pv e n <> [] -> inh e n = false -> inh e' n = false) /\
  (forall n, pv e n <> [] -> inh e n = true -> inh e' n = true).

Lemma acts_balanced trim body :
  Forall (fun a => forall e, table_ok true e -> table_good e -> act_ok trim a ->
            exists e', act_run a e = Ret e' /\ balanced trim (fun n => marks trim n a) e e') body ->
  forall e, table_ok true e -> table_good e -> Forall (act_ok trim) body ->
  exists e', acts_run body e = Ret e' /\ balanced trim (fun n => existsb (marks trim n) body) e e'.
Proof.
  induction 1 as [|a body Ha _ IH]; intros e He Hg Hok.
  - exists e. split; auto. repeat split; auto; apply He.
  - inversion Hok; subst. destruct (Ha e) as (e1 & R1 & T1 & G1 & P1 & N1 & Y1); auto.
    destruct (IH e1) as (e2 & R2 & T2 & G2 & P2 & N2 & Y2); auto.
    exists e2. cbn [acts_run]. rewrite R1. cbn [bind]. split; auto. split; auto. split; auto. split; [|split].
    + intros n. rewrite P2. auto.
    + intros n Hm Hp Hi. cbn [existsb] in Hm. apply orb_false_iff in Hm as [M1 M2].
      apply N2; auto. rewrite P1. auto.
    + intros n Hp Hi. apply Y2; auto. rewrite P1. auto.
Qed.

Lemma local_iff n : local_name n <-> localb n = true.
Proof.
  unfold local_name, localb. destruct n as [|c n].
  - split; [intros (r & X); discriminate|discriminate].
  - rewrite ceq_true. split; [intros (r & X); congruence|intros ->; eauto].
Qed.
Lemma lookup_localb l n v : lookup l n = Some v -> is_local v = localb n.
Proof.
  intros H. apply lookup_local in H. rewrite local_iff in H. destruct (is_local v), (localb n); intuition congruence.
Qed.

(** A call, given what its body does. *)
Lemma call_facts addr e body e1 e2 e3 trim marked :
  table_ok true e -> table_good e -> (forall i, addr_ok true (addr i)) ->
  pBat_PushEnvLocals addr e = Ret e1 -> acts_run body e1 = Ret e2 -> pBat_PopEnvLocals e2 = Ret e3 ->
  balanced trim marked e1 e2 ->
  (* non local variables *)
  (forall n, localb n = false -> lookup (e_buf e1) n = lookup (e_buf e) n /\ lookup (e_buf e3) n = lookup (e_buf e2) n) /\
  (* local variables of the caller *)
  (forall n v, localb n = true -> lookup (e_buf e) n = Some v ->
     (exists a v1, lookup (e_buf e1) n = Some v1 /\ v1 = push_var a v) /\
     (marked n = false -> lookup (e_buf e3) n = Some v) /\
     (inh e2 n = true -> option_map v_content (lookup (e_buf e3) n) = option_map v_content (lookup (e_buf e2) n) /\
                         inh e3 n = true) /\
     pv e3 n = v_prev v /\ lookup (e_buf e3) n <> None) /\
  (* new local variables *)
  (forall n, localb n = true -> lookup (e_buf e) n = None ->
     lookup (e_buf e1) n = None /\ pv e3 n = [] /\
     (inh e2 n = false -> lookup (e_buf e3) n = None) /\
     (inh e2 n = true -> lookup (e_buf e3) n = lookup (e_buf e2) n)).
Proof.
  intros He Hg Ha R1 R2 R3 (T2 & G2 & P2 & N2 & Y2).
  destruct (push_ok addr e Ha He Hg) as (x1 & X1 & T1 & G1 & L1 & _). rewrite R1 in X1. injection X1 as <-.
  destruct (pop_ok e2 T2 G2) as (x3 & X3 & T3 & G3 & L3 & _). rewrite R3 in X3. injection X3 as <-.
  split; [|split].
  - intros n Hn. specialize (L1 n). specialize (L3 n). split.
    + destruct (lookup (e_buf e) n) as [v|] eqn:E; auto. rewrite (lookup_localb _ _ _ E), Hn in L1. auto.
    + destruct (lookup (e_buf e2) n) as [v|] eqn:E; auto. rewrite (lookup_localb _ _ _ E), Hn in L3. auto.
  - intros n v Hn E. specialize (L1 n). specialize (L3 n). rewrite E, (lookup_localb _ _ _ E), Hn in L1.
    destruct L1 as (a & L1).
    assert (Nv : exists m b, v_name v = Some (m, b)).
    { apply find_some in E as [_ E]. unfold named in E. destruct (v_name v) as [[m b]|]; [eauto|discriminate]. }
    destruct Nv as (m & b & Nv).
    assert (PV1 : pv e1 n = mkSaved (m, b) (v_content v) (v_inherit v) :: v_prev v).
    { unfold pv. rewrite L1. unfold push_var. rewrite Nv. auto. }
    assert (I1 : inh e1 n = false) by (unfold inh; rewrite L1; unfold push_var; rewrite Nv; auto).
    assert (PV2 := P2 n). rewrite PV1 in PV2. assert (PV2' := PV2). unfold pv in PV2.
    destruct (lookup (e_buf e2) n) as [v2|] eqn:E2; [|discriminate].
    rewrite (lookup_localb _ _ _ E2), Hn in L3. unfold pop_var in L3. rewrite PV2 in L3.
    assert (EI : inh e2 n = v_inherit v2) by (unfold inh; rewrite E2; auto).
    assert (Nv2 : exists p, v_name v2 = Some p).
    { apply find_some in E2 as [_ E2]. unfold named in E2. destruct (v_name v2); [eauto|discriminate]. }
    destruct Nv2 as (p & Nv2).
    split; [|split; [|split; [|split]]].
    + exists a, (push_var a v). auto.
    + intros Hm. rewrite <- EI, N2 in L3; auto; [|congruence]. cbn [v_name s_name s_content s_inherit] in L3.
      rewrite L3. destruct v; cbn in *. rewrite Nv; reflexivity.
    + intros Hi. rewrite <- EI, Hi in L3. cbn [v_name] in L3. rewrite Nv2 in L3. unfold inh.
      rewrite L3. auto.
    + unfold pv. destruct (v_inherit v2); cbn [v_name] in L3; rewrite ?Nv2 in L3; rewrite L3; auto.
    + destruct (v_inherit v2); cbn [v_name] in L3; rewrite ?Nv2 in L3; rewrite L3; discriminate.
  - intros n Hn E. specialize (L1 n). specialize (L3 n). rewrite E in L1. split; auto.
    assert (PV2 := P2 n). unfold pv in *. rewrite L1 in PV2. unfold inh.
    destruct (lookup (e_buf e2) n) as [v2|] eqn:E2.
    + rewrite (lookup_localb _ _ _ E2), Hn in L3. unfold pop_var in L3. rewrite PV2 in L3.
      assert (Nv2 : exists p, v_name v2 = Some p).
      { apply find_some in E2 as [_ E2]. unfold named in E2. destruct (v_name v2); [eauto|discriminate]. }
      destruct Nv2 as (p & Nv2).
      destruct (v_inherit v2); cbn [v_name] in L3; rewrite ?Nv2 in L3; rewrite L3; repeat split; auto; discriminate.
    + rewrite L3. auto.
Qed.

Lemma act_balanced trim a : (forall n, trim n = pBat_AdjustVarName n) ->
  forall e, table_ok true e -> table_good e -> act_ok trim a ->
  exists e', act_run a e = Ret e' /\ balanced trim (fun n => marks trim n a) e e'.
Proof.
  intros Ht. induction a as [n ka na c i|n ka|addr body IH] using act_ind'; intros e He Hg Hok.
  - destruct (set_step trim e n ka na c i Ht He Hg Hok) as (e' & R & T & G & P & N & Y & Z & _).
    exists e'. split; auto. split; auto. split; auto. split; auto. split; auto.
    intros m Hm Hp Hi. rewrite N; auto.
  - destruct Hok as [Hn Hka]. destruct (unset_ok true e n ka He Hn Hka) as (e' & R & He' & Hl).
    exists e'. split; auto. split; auto. unfold pv, inh. split; [|split; [|split]].
    + apply good_lookup; auto. intros m v. rewrite Hl. pose proof (proj1 (good_lookup e He) Hg) as G.
      destruct (lookup (e_buf e) m) eqn:E; [|discriminate]. intros X. apply (G m).
      destruct (same_nameb n m); [destruct (v_prev v0); congruence|congruence].
    + intros m. rewrite Hl. destruct (lookup (e_buf e) m) as [v|]; auto. destruct (same_nameb n m); auto.
      destruct (v_prev v) eqn:E; auto.
    + intros m _. rewrite Hl. destruct (lookup (e_buf e) m) as [v|]; auto. destruct (same_nameb n m); auto.
      destruct (v_prev v) eqn:E; auto.
    + intros m. rewrite Hl. destruct (lookup (e_buf e) m) as [v|]; auto. destruct (same_nameb n m); auto.
      destruct (v_prev v) eqn:E; auto; try congruence.
  - apply call_ok in Hok as [Ha Hb]. rewrite call_run.
    destruct (push_ok addr e Ha He Hg) as (e1 & R1 & T1 & G1 & L1 & _). rewrite R1. cbn [bind].
    destruct (acts_balanced trim body IH e1 T1 G1 Hb) as (e2 & R2 & B2). rewrite R2. cbn [bind].
    assert (B2' := B2). destruct B2 as (T2 & G2 & P2 & N2 & Y2).
    destruct (pop_ok e2 T2 G2) as (e3 & R3 & T3 & G3 & L3 & _). exists e3. split; auto.
    destruct (call_facts addr e body e1 e2 e3 trim _ He Hg Ha R1 R2 R3 B2') as (C1 & C2 & C3).
    assert (EQ : forall n, localb n = false -> pv e3 n = pv e2 n /\ inh e3 n = inh e2 n /\ pv e1 n = pv e n /\ inh e1 n = inh e n).
    { intros n Hn. destruct (C1 n Hn) as [X Y]. unfold pv, inh. rewrite X, Y. auto. }
    split; auto. split; auto. split; [|split].
    + intros n. destruct (localb n) eqn:Ln.
      * destruct (lookup (e_buf e) n) as [v|] eqn:E.
        -- destruct (C2 n v Ln E) as (_ & _ & _ & K & _). rewrite K. unfold pv. rewrite E. auto.
        -- destruct (C3 n Ln E) as (_ & K & _). rewrite K. unfold pv. rewrite E. auto.
      * destruct (EQ n Ln) as (-> & _ & <- & _). auto.
    + intros n Hm Hp Hi. rewrite call_marks in Hm. destruct (localb n) eqn:Ln.
      * unfold pv in Hp. destruct (lookup (e_buf e) n) as [v|] eqn:E; [|congruence].
        destruct (C2 n v Ln E) as (_ & K & _). unfold inh. rewrite K; auto. unfold inh in Hi. rewrite E in Hi. auto.
      * destruct (EQ n Ln) as (E1 & E2 & E3 & E4). rewrite E2. apply N2; auto; congruence.
    + intros n Hp Hi. destruct (localb n) eqn:Ln.
      * unfold pv in Hp. destruct (lookup (e_buf e) n) as [v|] eqn:E; [|congruence].
        destruct (C2 n v Ln E) as (_ & K & K2 & K3 & K4).
        destruct (inh e2 n) eqn:I2; [apply K2; auto|].
        (* restored with its saved flag *)
        specialize (L3 n). specialize (L1 n). rewrite E, (lookup_localb _ _ _ E), Ln in L1. destruct L1 as (a & L1).
        assert (PV2 := P2 n). unfold pv in PV2. rewrite L1 in PV2.
        assert (Nv : exists m b, v_name v = Some (m, b)).
        { apply find_some in E as [_ E]. unfold named in E. destruct (v_name v) as [[m b]|]; [eauto|discriminate]. }
        destruct Nv as (m & b & Nv). unfold push_var in PV2. rewrite Nv in PV2. cbn [v_prev] in PV2.
        destruct (lookup (e_buf e2) n) as [v2|] eqn:E2; [|discriminate].
        rewrite (lookup_localb _ _ _ E2), Ln in L3. unfold pop_var in L3. rewrite PV2 in L3.
        unfold inh in I2. rewrite E2 in I2. rewrite I2 in L3. cbn [v_name] in L3. unfold inh. rewrite L3. cbn [v_inherit s_inherit].
        unfold inh in Hi. rewrite E in Hi. auto.
      * destruct (EQ n Ln) as (E1 & E2 & E3 & E4). rewrite E2. apply Y2; auto; congruence.
Qed.

(** *** Without SET /X: dynamic scoping *)

Lemma update_Forall {A} (P : A -> Prop) l : forall i x, Forall P l -> P x -> Forall P (update l i x).
Proof. induction l as [|y l IH]; intros [|i] x Hl Hx; simpl; auto; inversion Hl; subst; constructor; auto. Qed.

Lemma unmarked_qsort l : Forall (fun v => v_inherit v = false /\ Forall (fun s => s_inherit s = false) (v_prev v)) l ->
  Forall (fun v => v_inherit v = false /\ Forall (fun s => s_inherit s = false) (v_prev v)) (qsort l).
Proof. intros H. eapply Permutation_Forall; [apply qsort_perm|]. auto. Qed.

Lemma unset_unmarked e n ka e' : unmarked e -> pBat_UnSetEnv e n ka = Ret e' -> unmarked e'.
Proof.
  unfold unmarked, pBat_UnSetEnv. intros H. destruct (find_name e n ka) as [[i|]| |]; simpl; try discriminate.
  - destruct (nth_error (e_buf e) i) as [v|] eqn:E; [|discriminate].
    assert (Hv : v_inherit v = false) by (apply nth_error_In in E; rewrite Forall_forall in H; apply (H v E)).
    destruct (v_prev v); intros X; injection X as <-; auto. cbn [e_buf].
    apply unmarked_qsort, update_Forall; auto. cbn [v_inherit v_prev]. auto.
  - intros X; injection X as <-; auto.
Qed.
Lemma set_unmarked e n ka na c e' : unmarked e -> pBat_SetEnvEx e n ka na (Some c) false = Ret e' -> unmarked e'.
Proof.
  intros H. unfold pBat_SetEnvEx. destruct c as [|c t]; [apply unset_unmarked; auto|].
  unfold unmarked in *.
  destruct (find_name e (pBat_AdjustVarName n) na) as [[i|]| |]; simpl; try discriminate.
  - destruct (nth_error (e_buf e) i) as [v|] eqn:E; [|discriminate]. intros X; injection X as <-. cbn [e_buf].
    apply nth_error_In in E. assert (Hv := H). rewrite Forall_forall in Hv. specialize (Hv v E).
    apply update_Forall; auto. cbn [v_inherit v_prev]. rewrite orb_false_r. auto.
  - destruct (find_free e) as [[i|]| |]; simpl; try discriminate.
    + destruct (nth_error (e_buf e) i) as [v|] eqn:E; [|discriminate]. intros X; injection X as <-. cbn [e_buf].
      apply nth_error_In in E. assert (Hv := H). rewrite Forall_forall in Hv. specialize (Hv v E).
      apply unmarked_qsort, update_Forall; auto. cbn [v_inherit v_prev]. rewrite orb_false_r. split; auto. apply Hv.
    + intros X; injection X as <-. cbn [e_buf]. apply unmarked_qsort. apply Forall_app. split; auto.
      constructor; auto. cbn [v_inherit v_prev]. auto.
Qed.

Definition abs (prot : cstr -> bool) (s : cstr -> option cstr) (e : env) : Prop :=
  (forall n, option_map v_content (lookup (e_buf e) n) = s n) /\
  (forall n, prot n = match pv e n with [] => false | _ => true end) /\
  (forall n, localb n = false -> pv e n = []).

Definition scoped trim a := forall prot s e e',
  table_ok true e -> table_good e -> act_ok trim a -> unmarked e -> uses_x a = false ->
  abs prot s e -> act_run a e = Ret e' -> unmarked e' /\ abs prot (sem trim prot a s) e'.

Lemma acts_scoped trim body : (forall n, trim n = pBat_AdjustVarName n) -> Forall (scoped trim) body ->
  forall prot s e e', table_ok true e -> table_good e -> Forall (act_ok trim) body -> unmarked e ->
  existsb uses_x body = false -> abs prot s e -> acts_run body e = Ret e' ->
  unmarked e' /\ abs prot (sems trim prot body s) e'.
Proof.
  intros Ht. induction 1 as [|a body Ha _ IH]; intros prot s e e' He Hg Hok Hu Hx HA R.
  - injection R as <-. auto.
  - cbn [acts_run] in R. inversion Hok; subst. cbn [existsb] in Hx. apply orb_false_iff in Hx as [X1 X2].
    destruct (act_balanced trim a Ht e He Hg H1) as (e1 & R1 & T1 & G1 & _). rewrite R1 in R. cbn [bind] in R.
    destruct (Ha prot s e e1) as [U1 A1]; auto. cbn [sems]. apply (IH prot _ e1 e'); auto.
Qed.

Lemma act_scoped trim a : (forall n, trim n = pBat_AdjustVarName n) -> scoped trim a.
Proof.
  intros Ht. induction a as [n ka na c i|n ka|addr body IH] using act_ind'; intros prot s e e' He Hg Hok Hu Hx (A1 & A2 & A3) R.
  - cbn [uses_x] in Hx. subst i. destruct (set_step trim e n ka na c false Ht He Hg Hok) as (x & R' & T & G & P & _ & _ & _ & V).
    cbn [act_run] in R. split; [eapply set_unmarked; eauto|]. rewrite R in R'. injection R' as <-.
    split; [|split].
    + intros m. rewrite V. cbn [sem]. destruct c as [|c t]; rewrite A1; auto.
      rewrite A2. destruct (pv e m); auto.
    + intros m. rewrite P. auto.
    + intros m Hm. rewrite P. auto.
  - cbn [act_run] in R. split; [eapply unset_unmarked; eauto|]. destruct Hok as [Hn Hka].
    destruct (unset_ok true e n ka He Hn Hka) as (x & R' & T & V). rewrite R in R'. injection R' as <-.
    assert (P : forall m, pv e' m = pv e m).
    { intros m. unfold pv. rewrite V. destruct (lookup (e_buf e) m) as [v|]; auto. destruct (same_nameb n m); auto.
      destruct (v_prev v) eqn:E; auto. }
    split; [|split].
    + intros m. rewrite V. cbn [sem]. rewrite A2. specialize (A1 m). unfold pv.
      destruct (lookup (e_buf e) m) as [v|]; simpl in A1; rewrite <- A1.
      * destruct (same_nameb n m); auto. destruct (v_prev v); auto.
      * destruct (_ && _); auto.
    + intros m. rewrite P. auto.
    + intros m Hm. rewrite P. auto.
  - apply call_ok in Hok as [Ha Hb]. rewrite call_uses in Hx. rewrite call_run in R.
    destruct (push_ok addr e Ha He Hg) as (e1 & R1 & T1 & G1 & L1 & F1). rewrite R1 in R. cbn [bind] in R.
    destruct (acts_balanced trim body) with (e := e1) as (e2 & R2 & B2); auto.
    { apply Forall_forall. intros a _. apply act_balanced. auto. }
    rewrite R2 in R. cbn [bind] in R. assert (B2' := B2). destruct B2 as (T2 & G2 & P2 & N2 & Y2).
    destruct (pop_ok e2 T2 G2) as (x & R3 & T3 & G3 & L3 & F3). rewrite R in R3. injection R3 as <-.
    destruct (call_facts addr e body e1 e2 e' trim _ He Hg Ha R1 R2 R B2') as (C1 & C2 & C3).
    assert (U1 : unmarked e1).
    { apply F1; auto. intros v a [V1 V2]. unfold push_var. destruct (v_name v) as [[m b]|]; auto.
      cbn [v_inherit v_prev]. auto. }
    assert (AB : abs (fun n => localb n && present (s n)) s e1).
    { split; [|split].
      - intros n. specialize (L1 n). rewrite <- A1. destruct (lookup (e_buf e) n) as [v|] eqn:E; [|rewrite L1; auto].
        destruct (is_local v) eqn:Lv; [|rewrite L1; auto]. destruct L1 as (a & ->). unfold push_var.
        destruct (v_name v) as [[m b]|]; auto.
      - intros n. rewrite <- A1. destruct (localb n) eqn:Ln.
        + destruct (lookup (e_buf e) n) as [v|] eqn:E.
          * destruct (C2 n v Ln E) as ((a & v1 & X & ->) & _). unfold pv. rewrite X. simpl. unfold push_var.
            apply find_some in E as [_ E]. unfold named in E. destruct (v_name v) as [[m b]|]; [auto|discriminate].
          * destruct (C3 n Ln E) as (X & _). unfold pv. rewrite X. auto.
        + destruct (C1 n Ln) as [X _]. unfold pv. rewrite X. specialize (A3 n Ln). unfold pv in A3. rewrite A3. auto.
      - intros n Ln. destruct (C1 n Ln) as [X _]. unfold pv. rewrite X. apply A3. auto. }
    destruct (acts_scoped trim body Ht IH _ _ e1 e2 T1 G1 Hb U1 Hx AB R2) as (U2 & AB2 & _ & _).
    assert (I2 : forall n, inh e2 n = false).
    { intros n. unfold inh. destruct (lookup (e_buf e2) n) as [v|] eqn:E; auto. apply find_some in E as [E _].
      unfold unmarked in U2. rewrite Forall_forall in U2. apply U2. auto. }
    split; [|split; [|split]].
    + apply F3; auto. intros v [V1 V2]. unfold pop_var. destruct (v_prev v) as [|sv p] eqn:Ep; rewrite V1.
      * split; auto.
      * inversion V2; subst. split; auto.
    + intros n. rewrite call_sem. destruct (localb n) eqn:Ln.
      * destruct (lookup (e_buf e) n) as [v|] eqn:E.
        -- destruct (C2 n v Ln E) as (_ & K & _). rewrite K; [rewrite <- A1, E; auto|].
           clear -Hx. induction body as [|a body IHb]; auto. cbn [existsb] in *. apply orb_false_iff in Hx as [X1 X2].
           rewrite IHb by auto. rewrite orb_false_r. clear IHb X2. revert X1.
           induction a as [m ka na c i|m ka|ad bd IHa] using act_ind'; intros X1; auto.
           ++ cbn [uses_x] in X1. subst i. cbn [marks]. destruct c; auto.
           ++ rewrite call_marks. rewrite call_uses in X1. clear -IHa X1. induction IHa; auto. cbn [existsb] in *.
              apply orb_false_iff in X1 as [Y1 Y2]. rewrite H, IHIHa; auto.
        -- destruct (C3 n Ln E) as (_ & _ & K & _). rewrite K; auto. rewrite <- A1, E. auto.
      * destruct (C1 n Ln) as [_ X]. rewrite X. apply AB2.
    + intros n. rewrite A2. f_equal. destruct (localb n) eqn:Ln.
      * unfold pv at 1. destruct (lookup (e_buf e) n) as [v|] eqn:E.
        -- destruct (C2 n v Ln E) as (_ & _ & _ & K & _). rewrite K. auto.
        -- destruct (C3 n Ln E) as (_ & K & _). rewrite K. auto.
      * rewrite (A3 n Ln). destruct (C1 n Ln) as [X Y]. unfold pv at 1. rewrite Y.
        assert (Z := P2 n). unfold pv in Z. rewrite Z, X. specialize (A3 n Ln). unfold pv in A3. rewrite A3. auto.
    + intros n Ln. destruct (C1 n Ln) as [X Y]. unfold pv. rewrite Y.
      assert (Z := P2 n). unfold pv in Z. rewrite Z, X. apply A3. auto.
Qed.
