(** Path_Proofs.v -- lemmas on paths. *)

From Verif Require Import Base Lex Num_Model Num_Proofs StrLib_Model StrLib_Spec StrLib_Proofs
  Estr_Proofs Path_Model Path_Spec.

Lemma streqb_iff a b : streqb a b = true <-> a = b.
Proof. apply streqb_true. Qed.

Lemma is_sep_iff c : is_sep c = true <-> c = "/"%char.
Proof. unfold is_sep. apply ceq_true. Qed.
Lemma is_sep_false c : is_sep c = false <-> c <> "/"%char.
Proof. unfold is_sep. apply ceq_neq. Qed.

Lemma split_at_nil d s : split_at d s <> [].
Proof. destruct s as [|c s]; simpl; try discriminate. destruct (ceq c d); try discriminate. destruct (split_at d s); discriminate. Qed.

Lemma split_at_app d z s : ~ In d z ->
  split_at d (z ++ s) = match split_at d s with x :: l => (z ++ x) :: l | [] => [] end.
Proof.
  induction z as [|c z IH]; simpl; intros H.
  - destruct (split_at d s); auto.
  - assert (E : ceq c d = false) by (apply ceq_neq; intros X; apply H; auto). rewrite E, IH by tauto.
    destruct (split_at d s) eqn:X; auto. destruct (split_at_nil d s); auto.
Qed.

Lemma split_at_sep d s : split_at d (d :: s) = [] :: split_at d s.
Proof. simpl. rewrite ceq_refl. auto. Qed.

Lemma split_at_none d z : ~ In d z -> split_at d z = [z].
Proof. intros H. rewrite <- (app_nil_r z) at 1. rewrite split_at_app by auto. simpl. rewrite app_nil_r. auto. Qed.

Lemma split_at_cons d z s : ~ In d z -> split_at d (z ++ d :: s) = z :: split_at d s.
Proof. intros H. rewrite split_at_app, split_at_sep by auto. rewrite app_nil_r. auto. Qed.

(** *** comps *)
Lemma comps_nil : comps [] = [].
Proof. reflexivity. Qed.
Lemma comps_sep s : comps ("/"%char :: s) = comps s.
Proof. unfold comps. rewrite split_at_sep. reflexivity. Qed.

Lemma matters_iff x : matters x = true <-> x <> [] /\ x <> s2l ".".
Proof.
  unfold matters. rewrite Bool.andb_true_iff, !Bool.negb_true_iff. split; intros [A B]; split.
  - intros ->. discriminate.
  - intros ->. discriminate.
  - destruct (streqb x []) eqn:E; auto. apply streqb_iff in E. congruence.
  - destruct (streqb x (s2l ".")) eqn:E; auto. apply streqb_iff in E. congruence.
Qed.

Lemma comps_cons z tail : ~ In "/"%char z -> z <> [] -> z <> s2l "." -> (tail = [] \/ exists t, tail = "/"%char :: t) ->
  comps (z ++ tail) = z :: comps tail.
Proof.
  intros Hz H1 H2 [-> |[t ->]].
  - rewrite app_nil_r. unfold comps. rewrite split_at_none by auto. simpl.
    assert (M : matters z = true) by (apply matters_iff; auto). rewrite M. auto.
  - rewrite comps_sep. unfold comps. rewrite split_at_cons by auto. simpl.
    assert (M : matters z = true) by (apply matters_iff; auto). rewrite M. auto.
Qed.

(** *** swallow *)
Lemma swallow_len s : length (swallow s) <= length s.
Proof.
  induction s as [|c s IH]; simpl; auto. destruct (is_sep c); [lia|]. destruct (ceq c "."%char); [|simpl; lia].
  destruct s as [|d s']; [simpl; lia|]. destruct (is_sep d); [lia|simpl; lia].
Qed.

Lemma swallow_comps s : comps (swallow s) = comps s.
Proof.
  induction s as [|c s IH]; auto. cbn [swallow]. destruct (is_sep c) eqn:E.
  - apply is_sep_iff in E. subst. rewrite comps_sep. auto.
  - destruct (ceq c "."%char) eqn:E2; auto. apply ceq_true in E2. subst.
    destruct s as [|d s']; [reflexivity|]. destruct (is_sep d) eqn:E3; auto.
    apply is_sep_iff in E3. subst. rewrite IH. unfold comps at 2.
    change ("."%char :: "/"%char :: s') with (s2l "." ++ "/"%char :: s'). rewrite split_at_cons by (cbv; intuition discriminate).
    rewrite comps_sep. reflexivity.
Qed.

(** What is left is empty or starts with a component. *)
Lemma swallow_head s : swallow s = [] \/
  exists z tail, swallow s = z ++ tail /\ ~ In "/"%char z /\ z <> [] /\ z <> s2l "." /\
                 (tail = [] \/ exists t, tail = "/"%char :: t).
Proof.
  assert (Z : forall s : cstr, (exists z tail, s = z ++ tail /\ ~ In "/"%char z /\
                 (tail = [] \/ exists t, tail = "/"%char :: t))).
  { induction s0 as [|c s0 (z & tail & -> & Hz & Ht)]; [exists [], []; auto|].
    destruct (ascii_dec c "/"%char) as [->|N].
    - exists [], ("/"%char :: z ++ tail). repeat split; eauto.
    - exists (c :: z), tail. repeat split; auto. intros [X|X]; congruence || tauto. }
  induction s as [|c s IH]; auto. cbn [swallow]. destruct (is_sep c) eqn:E; auto.
  apply is_sep_false in E.
  assert (G : c <> "."%char \/ (exists d s', s = d :: s' /\ d <> "/"%char) ->
     exists z tail, c :: s = z ++ tail /\ ~ In "/"%char z /\ z <> [] /\ z <> s2l "." /\
                 (tail = [] \/ exists t, tail = "/"%char :: t)).
  { intros Hc. destruct (Z s) as (z & tail & -> & Hz & Ht). exists (c :: z), tail.
    repeat split; auto; try discriminate.
    - intros [X|X]; auto.
    - intros X. cbv in X. injection X as -> ->. destruct Hc as [Hc|(d & s' & Hc & Hd)]; [congruence|].
      destruct Ht as [-> |(t & ->)]; [discriminate|]. simpl in Hc; congruence. }
  destruct (ceq c "."%char) eqn:E2.
  - destruct s as [|d s']; auto. destruct (is_sep d) eqn:E3; auto. right. apply G. right.
    exists d, s'. split; auto. apply is_sep_false; auto.
  - right. apply G. left. apply ceq_neq; auto.
Qed.

Lemma dotdot_iff z tail : ~ In "/"%char z -> z <> [] -> (tail = [] \/ exists t, tail = "/"%char :: t) ->
  dotdot (z ++ tail) = if streqb z (s2l "..") then Some tail else None.
Proof.
  intros Hz Hn Ht.
  assert (T : (test_sep tail || match tail with [] => true | _ => false end) = true).
  { destruct Ht as [-> |(t & ->)]; reflexivity. }
  destruct z as [|a z]; [congruence|]. destruct z as [|b z].
  - destruct Ht as [-> |(t & ->)]; unfold s2l; simpl; destruct (ceq a "."%char); reflexivity.
  - destruct z as [|e z].
    + cbn [app dotdot]. rewrite T, Bool.andb_true_r. cbv [s2l list_ascii_of_string]. cbn [streqb].
      rewrite Bool.andb_true_r. destruct (ceq a "."%char && ceq b "."%char); reflexivity.
    + cbn [app dotdot test_sep]. assert (is_sep e = false) by (apply is_sep_false; intros ->; apply Hz; simpl; auto).
      rewrite H. cbn [orb]. rewrite Bool.andb_false_r.
      cbv [s2l list_ascii_of_string]. cbn [streqb]. rewrite !Bool.andb_false_r. auto.
Qed.

(** *** Canonicalize *)
Definition comp_ok (x : cstr) : Prop := x <> [] /\ ~ In "/"%char x.

Lemma render_app a b : render (a ++ b) = render a ++ render b.
Proof. unfold render. rewrite map_app, concat_app. auto. Qed.
Lemma render_one x : render [x] = "/"%char :: x.
Proof. unfold render. simpl. rewrite app_nil_r. auto. Qed.

Lemma previous_sep_comp x r : ~ In "/"%char x -> previous_sep (rev x ++ "/"%char :: r) = Some r.
Proof.
  intros H. assert (H' : ~ In "/"%char (rev x)) by (rewrite <- in_rev; auto). revert H'. generalize (rev x).
  induction l as [|c l IH]; simpl; intros Hc; auto.
  assert (E : is_sep c = false) by (apply is_sep_false; intros ->; auto). rewrite E. auto.
Qed.

Lemma canon_comp z : forall fuel rpre tail, ~ In "/"%char z -> length z <= fuel ->
  canon_loop fuel rpre (z ++ tail) = canon_loop (fuel - length z) (rev z ++ rpre) tail.
Proof.
  induction z as [|c z IH]; intros fuel rpre tail Hz Hf.
  - simpl. rewrite Nat.sub_0_r. auto.
  - destruct fuel as [|f]; simpl in Hf; [lia|]. cbn [app canon_loop].
    assert (E : is_sep c = false) by (apply is_sep_false; intros ->; apply Hz; simpl; auto). rewrite E.
    rewrite IH by (simpl in Hz; tauto || lia). simpl. rewrite <- app_assoc. auto.
Qed.

Lemma exists_last_dec {A} (l : list A) : l = [] \/ exists l' x, l = l' ++ [x].
Proof. destruct l as [|a l]; auto. right. destruct (exists_last (l := a :: l)) as (l' & x & E); [discriminate|]. eauto. Qed.

Lemma canon_ok fuel : forall A rest,
  Forall comp_ok A -> (rest = [] \/ exists r, rest = "/"%char :: r) -> length rest < fuel ->
  exists t, canon_loop fuel (rev (render A)) rest = Ret t /\
    let L := rev (walk (rev A) (comps rest)) in t = render L \/ (L = [] /\ t = s2l "/").
Proof.
  induction fuel as [fuel IH] using lt_wf_ind. intros A rest HA Hr Hf.
  destruct fuel as [|f]; [lia|]. destruct Hr as [-> |(r & ->)].
  - exists (render A). cbn [canon_loop]. rewrite rev_involutive. split; auto. simpl. rewrite rev_involutive. auto.
  - cbn [canon_loop]. replace (is_sep "/"%char) with true by reflexivity. cbv zeta.
    rewrite comps_sep, <- swallow_comps. simpl in Hf.
    assert (Hsl := swallow_len r).
    destruct (swallow_head r) as [E|(z & tail & E & Hz & Hn & Hd & Ht)].
    + rewrite E. cbn [dotdot]. destruct (rev (render A)) as [|c p] eqn:ER.
      * destruct f as [|f']; [|].
        { assert (length r = 0) by lia. destruct r; [|discriminate]. simpl in Hf. lia. }
        exists (s2l "/"). split; [reflexivity|]. simpl. rewrite rev_involutive.
        right. split; auto. destruct A as [|x A]; auto. exfalso.
        apply (f_equal (@length _)) in ER. rewrite rev_length in ER. simpl in ER. discriminate.
      * exists (render A). rewrite <- ER, rev_involutive. split; auto. simpl. rewrite rev_involutive. auto.
    + rewrite E, dotdot_iff by auto. rewrite (comps_cons z tail) by auto.
      assert (Hlen : length z + length tail <= length r) by (rewrite E, app_length in Hsl; auto).
      destruct (streqb z (s2l "..")) eqn:EZ; cbn [walk]; rewrite EZ.
      * destruct (exists_last_dec A) as [-> |(A' & x & ->)].
        -- simpl. exists (s2l "/"). split; auto.
        -- apply Forall_app in HA. destruct HA as [HA' Hx]. inversion Hx as [|? ? [Hx1 Hx2] _]; subst.
           rewrite render_app, render_one, rev_app_distr. cbn [rev]. rewrite <- app_assoc. cbn [app].
           rewrite previous_sep_comp by auto. rewrite rev_app_distr. cbn [rev app].
           apply IH; auto. lia. 
      * destruct z as [|c z'] eqn:Ez; [congruence|]. rewrite <- Ez in *.
        assert (M : match z ++ tail, rev (render A) with [], _ :: _ => Ret (rev (rev (render A)))
                    | _, _ => canon_loop f ("/"%char :: rev (render A)) (z ++ tail) end
                    = canon_loop f ("/"%char :: rev (render A)) (z ++ tail)).
        { rewrite Ez. simpl. destruct (rev (render A)); auto. }
        rewrite M. rewrite canon_comp by (auto; lia).
        replace (rev z ++ "/"%char :: rev (render A)) with (rev (render (A ++ [z]))).
        2:{ rewrite render_app, render_one, rev_app_distr. cbn [rev]. rewrite <- app_assoc. auto. }
        assert (length z <> 0) by (rewrite Ez; discriminate).
        destruct (IH (f - length z) ltac:(lia) (A ++ [z]) tail) as (t & T1 & T2); auto; try lia.
        -- apply Forall_app. split; auto. constructor; auto. split; auto.
        -- exists t. split; auto. cbv zeta in T2. rewrite rev_app_distr in T2. exact T2.
Qed.

Lemma Canonicalize_ok r :
  exists t, pBat_Canonicalize ("/"%char :: r) = Ret t /\
    let L := rev (walk [] (comps r)) in t = render L \/ (L = [] /\ t = s2l "/").
Proof.
  destruct (canon_ok (S (length ("/"%char :: r))) [] ("/"%char :: r)) as (t & E & H); [constructor|eauto|auto|].
  exists t. split; [exact E|]. rewrite comps_sep in H. exact H.
Qed.

Lemma canon_total fuel : forall rpre rest, length rest < fuel -> exists t, canon_loop fuel rpre rest = Ret t.
Proof.
  induction fuel as [|f IH]; intros rpre rest Hf; [lia|]. cbn [canon_loop].
  destruct rest as [|c r]; eauto. simpl in Hf. destruct (is_sep c); [|apply IH; lia].
  cbv zeta. pose proof (swallow_len r) as Hs.
  assert (D : forall s r3, dotdot s = Some r3 -> length r3 < length s).
  { intros s r3. destruct s as [|a [|b t]]; simpl; try discriminate. destruct (_ && _); [|discriminate].
    intros [= <-]. lia. }
  destruct (dotdot (swallow r)) as [r3|] eqn:E.
  - apply D in E. destruct (previous_sep rpre); [apply IH; lia|]. destruct rpre; eauto.
  - destruct (swallow r) as [|x y] eqn:ES; destruct rpre; eauto; apply IH; simpl in *; lia.
Qed.
Lemma Canonicalize_total s : exists t, pBat_Canonicalize s = Ret t.
Proof. apply canon_total. auto. Qed.

(** Components are sound. *)
Lemma split_at_In d s : Forall (fun x => ~ In d x) (split_at d s).
Proof.
  induction s as [|c s IH]; simpl; auto. destruct (ceq c d) eqn:E.
  - constructor; auto.
  - destruct (split_at d s) as [|x l]; inversion IH; subst; constructor; auto.
    + intros [X|[]]. subst. rewrite ceq_refl in E. discriminate.
    + intros [X|X]; auto. subst. rewrite ceq_refl in E. discriminate.
Qed.

Lemma comps_ok s : Forall (fun x => x <> [] /\ x <> s2l "." /\ ~ In "/"%char x) (comps s).
Proof.
  unfold comps. apply Forall_forall. intros x Hx. apply filter_In in Hx. destruct Hx as [Hx Hm].
  apply matters_iff in Hm. pose proof (split_at_In "/"%char s) as F. rewrite Forall_forall in F. intuition.
Qed.

Lemma walk_normal l : forall up, Forall (fun x => x <> [] /\ x <> s2l "." /\ ~ In "/"%char x) l ->
  Forall normal_comp up -> Forall normal_comp (walk up l).
Proof.
  induction l as [|x l IH]; intros up Hl Hu; cbn [walk]; auto. inversion Hl as [|? ? (H1 & H2 & H3) Hl']; subst.
  destruct (streqb x (s2l "..")) eqn:E.
  - destruct up as [|y u]; auto. inversion Hu; subst. apply IH; auto.
  - apply IH; auto. constructor; auto. repeat split; auto. apply streqb_false in E. auto.
Qed.

Lemma walk_posix l : forall up, above_root up l = false -> walk up l = posix_walk up l.
Proof.
  induction l as [|x l IH]; intros up; cbn [walk posix_walk above_root]; auto. destruct (streqb x (s2l "..")); auto.
  destruct up; [discriminate|]. auto.
Qed.

Lemma comps_render L : Forall normal_comp L -> comps (render L) = L.
Proof.
  induction 1 as [|x L (H1 & H2 & H3 & H4) _ IH]; auto.
  change (x :: L) with ([x] ++ L) at 1. rewrite render_app, render_one. simpl. rewrite comps_sep.
  rewrite comps_cons; auto.
  - f_equal. auto.
  - destruct L as [|y L]; auto. right. unfold render. simpl. eauto.
Qed.

Lemma walk_normal_id l : forall up, Forall normal_comp l -> walk up l = rev l ++ up.
Proof.
  induction l as [|x l IH]; intros up H; cbn [walk rev]; auto. inversion H as [|? ? (H1 & H2 & H3 & H4) H']; subst.
  apply streqb_false in H3. rewrite H3, IH by auto. rewrite <- app_assoc. auto.
Qed.

Lemma Canonicalize_normal t : normal_dir t -> pBat_Canonicalize t = Ret t.
Proof.
  intros [-> |(l & Hn & Hl & ->)]; [reflexivity|].
  assert (E : exists r, render l = "/"%char :: r).
  { destruct l as [|x l]; [congruence|]. unfold render. simpl. eauto. }
  destruct E as (r & E). destruct (Canonicalize_ok r) as (t & C & H). rewrite E, C. f_equal. cbv zeta in H.
  rewrite <- comps_sep, <- E, comps_render, walk_normal_id, app_nil_r, rev_involutive in H by auto.
  destruct H as [->|[H _]]; congruence.
Qed.

Lemma normal_abs t : normal_dir t -> PBAT_TEST_ABSOLUTE_PATH t = true.
Proof.
  intros [-> |(l & Hn & Hl & ->)]; [reflexivity|].
  destruct Hl as [|x l (H1 & H2 & H3 & H4) _]; [congruence|]. unfold render. simpl.
  destruct x as [|c x]; [congruence|]. unfold PBAT_TEST_ABSOLUTE_PATH. simpl.
  assert (E : is_sep c = false) by (apply is_sep_false; intros ->; apply H4; simpl; auto). rewrite E. auto.
Qed.

(** *** Changing directory *)
Lemma SetCurrentDir_total ex cur line : exists st c, pBat_SetCurrentDir ex cur line = Ret (st, c).
Proof.
  unfold pBat_SetCurrentDir. destruct (_ && _).
  - destruct (Canonicalize_total (firstn (FILENAME_MAX - 1) line)) as (t & ->). cbn [bind]. eauto.
  - cbv zeta. destruct (_ && _); eauto.
    destruct (Canonicalize_total (firstn (FILENAME_MAX - 1) (cur ++ "/"%char :: line))) as (t & ->). cbn [bind]. eauto.
Qed.

Lemma SetCurrentDir_normal ex cur line :
  normal_dir line -> ex line = true -> length line < FILENAME_MAX -> pBat_SetCurrentDir ex cur line = Ret (0%Z, line).
Proof.
  intros Hn He Hl. unfold pBat_SetCurrentDir. rewrite normal_abs, He by auto. cbn [andb].
  rewrite firstn_all2 by lia. rewrite Canonicalize_normal by auto. auto.
Qed.

Lemma dact_ind' (P : dact -> Prop) :
  (forall d, P (DCd d)) -> (forall d body, Forall P body -> P (DBlock d body)) -> forall a, P a.
Proof.
  intros H1 H2. fix IH 1. intros [d|d body]; [apply H1|]. apply H2.
  induction body as [|a body IHb]; constructor; [apply IH|exact IHb].
Qed.

Lemma dact_block ex d body w :
  dact_run ex (DBlock d body) w =
  do (ok, w1) <- pBat_CmdPushd ex [d] w;
  if (ok : bool) then
    do w2 <- dacts_run ex body w1; do (_, w3) <- pBat_CmdPopd ex w2; Ret w3
  else Ret w1.
Proof. reflexivity. Qed.

Lemma dacts_stack ex body :
  Forall (fun a => forall w, exists c, dact_run ex a w = Ret (mkDW c (d_stack w))) body ->
  forall w, exists c, dacts_run ex body w = Ret (mkDW c (d_stack w)).
Proof.
  induction 1 as [|a body Ha _ IH]; intros w; cbn [dacts_run].
  - exists (d_cur w). destruct w; auto.
  - destruct (Ha w) as (c & ->). cbn [bind]. apply (IH (mkDW c (d_stack w))).
Qed.

Lemma dact_stack ex a : forall w, exists c, dact_run ex a w = Ret (mkDW c (d_stack w)).
Proof.
  induction a as [d|d body IH] using dact_ind'; intros w.
  - simpl. destruct (SetCurrentDir_total ex (d_cur w) d) as (st & c & ->). cbn [bind]. eauto.
  - rewrite dact_block. unfold pBat_CmdPushd. cbn [pushd_loop].
    destruct (SetCurrentDir_total ex (d_cur w) d) as (st & c & ->). cbn [bind].
    destruct (st =? 0)%Z; cbn [bind]; eauto.
    destruct (dacts_stack ex body IH (pBat_PushDir (mkDW c (d_stack w)) (d_cur w))) as (c2 & ->). cbn [bind].
    unfold pBat_CmdPopd, pBat_PopDir. cbn [d_stack pBat_PushDir d_cur].
    destruct (SetCurrentDir_total ex c2 (d_cur w)) as (st3 & c3 & ->). cbn [bind]. eauto.
Qed.

Lemma block_restores ex d body w :
  normal_dir (d_cur w) -> ex (d_cur w) = true -> length (d_cur w) < FILENAME_MAX ->
  dact_run ex (DBlock d body) w = Ret w \/
  (exists st c, pBat_SetCurrentDir ex (d_cur w) d = Ret (st, c) /\ st <> 0%Z /\
                dact_run ex (DBlock d body) w = Ret (mkDW c (d_stack w))).
Proof.
  intros Hn He Hl. rewrite dact_block. unfold pBat_CmdPushd. cbn [pushd_loop].
  destruct (SetCurrentDir_total ex (d_cur w) d) as (st & c & E). rewrite E. cbn [bind].
  destruct (Z.eqb_spec st 0) as [->|Hst]; cbn [bind]; [left|right; exists st, c; auto].
  assert (F : Forall (fun a => forall w, exists c, dact_run ex a w = Ret (mkDW c (d_stack w))) body).
  { apply Forall_forall. intros a _. apply dact_stack. }
  destruct (dacts_stack ex body F (pBat_PushDir (mkDW c (d_stack w)) (d_cur w))) as (c2 & ->). cbn [bind].
  unfold pBat_CmdPopd, pBat_PopDir. cbn [d_stack pBat_PushDir d_cur].
  rewrite SetCurrentDir_normal by auto. cbn [bind]. destruct w; auto.
Qed.

Lemma SetCurrentDir_fail ex cur line st c : pBat_SetCurrentDir ex cur line = Ret (st, c) ->
  (st = 0%Z) \/ (st = (-1)%Z /\ c = cur).
Proof.
  unfold pBat_SetCurrentDir. destruct (_ && _).
  - destruct (pBat_Canonicalize _); cbn [bind]; try discriminate. intros [= <- <-]. auto.
  - cbv zeta. destruct (_ && _).
    + destruct (pBat_Canonicalize _); cbn [bind]; try discriminate. intros [= <- <-]. auto.
    + intros [= <- <-]. auto.
Qed.

(** *** Search paths *)
Lemma entries_nil : entries [] = [].
Proof. reflexivity. Qed.
Lemma entries_last z : ~ In ":"%char z -> z <> [] -> entries z = [z].
Proof. intros H N. unfold entries. rewrite split_at_none by auto. simpl. destruct z; congruence. Qed.
Lemma entries_cons z r : ~ In ":"%char z -> entries (z ++ ":"%char :: r) = z :: entries r.
Proof.
  intros H. unfold entries. rewrite split_at_cons by auto. cbv zeta.
  pose proof (split_at_nil ":"%char r) as N. set (l := split_at ":"%char r) in *. clearbody l.
  destruct (exists_last_dec l) as [->|(l' & x & ->)]; [congruence|].
  cbn [rev]. rewrite rev_app_distr. cbn [rev app]. destruct x; auto.
  rewrite rev_app_distr. cbn [rev app]. auto.
Qed.

Lemma next_part (s : cstr) : match pBat_GetPathNextPart (Some s) with
  | None => s = []
  | Some (z, r) => entries s = z :: entries r /\ length r < length s
  end.
Proof.
  unfold pBat_GetPathNextPart. destruct s as [|c s]; auto.
  destruct (strchr (c :: s) ":"%char) as [k|] eqn:E.
  - unfold strchr in E. apply find_idx_Some in E. destruct E as (d & E1 & E2 & E3). apply ceq_true in E2. subst d.
    destruct (nth_error_split _ _ E1) as (a & b & Hs & Hk). rewrite Hs. subst k.
    rewrite firstn_app_len by auto.
    replace (skipn (S (length a)) (a ++ ":"%char :: b)) with b.
    2:{ replace (a ++ ":"%char :: b) with ((a ++ [":"%char]) ++ b) by (rewrite <- app_assoc; auto).
        symmetry. apply skipn_app_len. rewrite app_length. simpl. lia. }
    split; [|rewrite app_length; simpl; lia]. apply entries_cons. intros I.
    apply In_nth_error in I. destruct I as (m & Hm).
    assert (Hl : m < length a) by (apply nth_error_Some; congruence).
    specialize (E3 m ":"%char Hl). rewrite Hs, nth_error_app1 in E3 by auto. specialize (E3 Hm).
    rewrite ceq_refl in E3. discriminate.
  - split; [|simpl; lia]. rewrite entries_nil. apply entries_last; [|discriminate].
    intros I. unfold strchr in E. rewrite find_idx_None in E. apply E in I. rewrite ceq_refl in I. discriminate.
Qed.

Lemma first_existing_cons ex x l r : ex x = false -> first_existing ex l r -> first_existing ex (x :: l) r.
Proof.
  intros H. destruct r as [y|]; simpl; auto. intros (a & b & -> & H1 & H2). exists (x :: a), b. repeat split; auto.
Qed.
Lemma first_existing_app ex a b r : first_existing ex a None -> first_existing ex b r -> first_existing ex (a ++ b) r.
Proof. simpl. induction 1; simpl; auto. intros. apply first_existing_cons; auto. Qed.
Lemma first_existing_app1 ex a b x : first_existing ex a (Some x) -> first_existing ex (a ++ b) (Some x).
Proof. intros (p & q & -> & H1 & H2). exists p, (q ++ b). rewrite <- app_assoc. auto. Qed.

Lemma try_exts_ok ex fuel : forall tmp (s : cstr), length s < fuel ->
  exists r, try_exts ex fuel tmp (Some s) = Ret r /\ first_existing ex (tried (entries s) tmp) r.
Proof.
  induction fuel as [|f IH]; intros tmp s Hf; [lia|]. cbn [try_exts]. generalize (next_part s).
  destruct (pBat_GetPathNextPart (Some s)) as [[z r]|]; intros H.
  - destruct H as (H & Hl). rewrite H. unfold tried. cbn [map app]. destruct (ex (tmp ++ z)) eqn:E.
    + eexists. split; [reflexivity|]. exists [], (map (app tmp) (entries r) ++ [tmp]). auto.
    + destruct (IH tmp r) as (x & -> & Hx); [lia|]. exists x. split; auto. apply first_existing_cons; auto.
  - subst s. unfold tried. cbn [entries split_at rev map app]. destruct (ex tmp) eqn:E.
    + eexists. split; [reflexivity|]. exists [], []. auto.
    + eexists. split; [reflexivity|]. simpl. auto.
Qed.

Lemma try_path_ok ex ext fuel : forall partial (s : cstr), length s < fuel ->
  exists r, try_path ex fuel partial (Some s) ext true = Ret r /\
    first_existing ex (flat_map (tried (entries ext)) (map (fun d => pBat_MakePath d partial) (entries s))) r.
Proof.
  induction fuel as [|f IH]; intros partial s Hf; [lia|]. cbn [try_path]. generalize (next_part s).
  destruct (pBat_GetPathNextPart (Some s)) as [[z r]|]; intros H.
  - destruct H as (H & Hl). rewrite H. cbn [map flat_map].
    destruct (try_exts_ok ex (S (length ext)) (pBat_MakePath z partial) ext) as (x & -> & Hx); [lia|]. cbn [bind].
    destruct x as [x|].
    + eexists. split; [reflexivity|]. apply first_existing_app1; auto.
    + destruct (IH partial r) as (y & -> & Hy); [lia|]. exists y. split; auto. apply first_existing_app; auto.
  - subst s. eexists. split; [reflexivity|]. simpl. auto.
Qed.

Lemma MakePath_joins d n : joins d n (pBat_MakePath d n).
Proof.
  unfold joins, pBat_MakePath. destruct (exists_last_dec d) as [->|(d' & c & ->)]; [left; auto|].
  rewrite rev_app_distr. cbn [rev app]. destruct (is_sep c) eqn:E.
  - apply is_sep_iff in E. subst. right. left. eauto.
  - right. right. apply is_sep_false in E. repeat split.
    + destruct d'; discriminate.
    + intros d'' X. apply app_inj_tail in X. destruct X. congruence.
Qed.

(** *** Splitting *)
Lemma live_ext p q s i : (forall c, p c = q c) -> live p s i <-> live q s i.
Proof. intros H. unfold live. split; intros [H1 (c & H2 & H3)]; split; eauto; exists c; split; auto; congruence. Qed.

Lemma seps_inset c : inset (s2l "\/") c = seps c.
Proof. unfold seps, inset. simpl. rewrite Bool.orb_false_r. apply Bool.orb_comm. Qed.

Lemma search_last_seps s : last_pos (live seps s) (pBat_SearchLastToken s (s2l "\/")).
Proof.
  unfold pBat_SearchLastToken.
  pose proof (search_last_pred_spec (inset (s2l "\/")) s eq_refl) as H.
  destruct (search_last_pred _ s) as [k|]; simpl in *.
  - destruct H as [H1 H2]. split; [apply (live_ext _ _ _ _ seps_inset); auto|]. intros j Hj X.
    apply (H2 j Hj). apply (live_ext _ _ _ _ seps_inset); auto.
  - intros j X. apply (H j). apply (live_ext _ _ _ _ seps_inset); auto.
Qed.

Lemma live_after p s k : p "^"%char = false -> live p s k -> E s (S k) = false.
Proof.
  intros Hp H. apply live_iff in H. destruct H as (H1 & c & H2 & H3). rewrite (E_S _ _ _ H2), H1.
  destruct (Ascii.eqb c "^"%char) eqn:X; auto. apply Ascii.eqb_eq in X. congruence.
Qed.

Lemma split_ok (disk tok : cstr) : length tok < FILENAME_MAX ->
  exists dir name ext,
    (do (dir, tok) <-
       match pBat_SearchLastToken tok (s2l "\/") with
       | Some k => do d <- buf_strncpy (firstn (S k) tok); Ret (d, skipn (S k) tok)
       | None => Ret ([], tok)
       end;
     match pBat_SearchLastChar tok "."%char with
     | Some k => do n <- buf_strncpy (firstn k tok);
                 Ret (disk, dir, n, firstn (FILENAME_MAX - 1) ("."%char :: skipn (S k) tok))
     | None => do n <- buf_strncpy tok; Ret (disk, dir, n, [])
     end) = Ret (disk, dir, name, ext) /\ parts_of tok dir name ext.
Proof.
  intros Hl.
  assert (B : forall s : cstr, length s <= length tok -> buf_strncpy s = Ret s).
  { intros s Hs. unfold buf_strncpy. destruct (Nat.ltb_spec (length s) FILENAME_MAX); auto. lia. }
  assert (G : forall t : cstr, length t <= length tok ->
    exists name ext, (forall dir, match pBat_SearchLastChar t "."%char with
     | Some k => do n <- buf_strncpy (firstn k t);
                 Ret (disk, dir, n, firstn (FILENAME_MAX - 1) ("."%char :: skipn (S k) t))
     | None => do n <- buf_strncpy t; Ret (disk, dir, n, [])
     end = Ret (disk, dir : cstr, name, ext)) /\ t = name ++ ext /\
     ((ext = [] /\ no_live dot name) \/
      (exists e, ext = "."%char :: e /\ live dot (name ++ ext) (length name) /\ no_live dot e))).
  { intros t Ht. pose proof (search_last_pred_spec (fun x => ceq x "."%char) t eq_refl) as H.
    unfold pBat_SearchLastChar. destruct (search_last_pred _ t) as [k|]; simpl in H.
    - destruct H as [H1 H2]. pose proof (live_lt _ _ _ H1) as Hk.
      exists (firstn k t), ("."%char :: skipn (S k) t).
      assert (E1 : t = firstn k t ++ "."%char :: skipn (S k) t).
      { assert (Hn : nth_error t k = Some "."%char).
        { destruct H1 as [_ (c & Hc & Hd)]. apply ceq_true in Hd. subst. auto. }
        apply nth_error_split in Hn. destruct Hn as (l1 & l2 & -> & <-). rewrite firstn_app_len by auto. f_equal. f_equal.
        replace (l1 ++ "."%char :: l2) with ((l1 ++ ["."%char]) ++ l2) by (rewrite <- app_assoc; auto).
        symmetry. apply skipn_app_len. rewrite app_length. simpl. lia. }
      split; [|split; auto].
      + intros dir. rewrite B by (rewrite firstn_length; lia). cbn [bind]. f_equal. f_equal.
        apply firstn_all2. pose proof (skipn_length (S k) t) as X. change (S (length (skipn (S k) t)) <= FILENAME_MAX - 1). rewrite X. lia.
      + right. exists (skipn (S k) t). split; auto. rewrite <- E1. rewrite firstn_length, Nat.min_l by lia. split; auto.
        intros j X. apply (live_skipn _ _ (S k) j) in X; [|apply (live_after dot); auto]. apply (H2 (S k + j)); auto. lia.
    - exists t, []. split; [|split].
      + intros dir. rewrite B by auto. auto.
      + rewrite app_nil_r. auto.
      + left. split; auto. }
  pose proof (search_last_seps tok) as H. destruct (pBat_SearchLastToken tok (s2l "\/")) as [k|]; simpl in H.
  - destruct H as [H1 H2]. pose proof (live_lt _ _ _ H1) as Hk.
    rewrite B by (rewrite firstn_length; lia). cbn [bind].
    destruct (G (skipn (S k) tok)) as (n & e & G1 & G2 & G3); [rewrite skipn_length; lia|].
    exists (firstn (S k) tok), n, e. split; [apply G1|]. split; [|split; [|split; auto]].
    + rewrite <- G2. symmetry. apply firstn_skipn.
    + right. exists k. split; auto. rewrite firstn_length. lia.
    + rewrite <- G2. intros j X. apply (live_skipn _ _ (S k) j) in X; [|apply (live_after seps); auto].
      apply (H2 (S k + j)); auto. lia.
  - cbn [bind]. destruct (G tok) as (n & e & G1 & G2 & G3); [lia|].
    exists [], n, e. split; [apply G1|]. split; [|split; [|split; auto]]; auto.
    rewrite <- G2. auto.
Qed.

(** *** Devices *)
Lemma stricmp_eq_lower a b : nonul a -> nonul b -> (stricmp a b =? 0)%Z = true <-> map tolower a = map tolower b.
Proof. intros Ha Hb. rewrite Z.eqb_eq, stricmp_0 by auto. apply key_lower. Qed.

Lemma strnicmp_prefix a b : nonul b -> map tolower (firstn (length b) a) = map tolower b ->
  strnicmp a b (length b) = 0%Z.
Proof.
  revert a. induction b as [|y b IH]; intros [|x a] Hb E; simpl in *; try discriminate; auto.
  injection E as E1 E2. apply nonul_cons in Hb. destruct Hb as [Hy Hb].
  assert (X : ceq (tolower x) (tolower y) = true) by (apply ceq_true; auto). rewrite X. auto.
Qed.

Lemma strnicmp3 a b : nonul a -> nonul b -> length b = 3 ->
  (strnicmp a b 3 =? 0)%Z = true <-> map tolower (firstn 3 a) = map tolower b.
Proof.
  intros Ha Hb Hl. split; intros H.
  - apply Z.eqb_eq in H. revert a H Ha. destruct b as [|b1 [|b2 [|b3 [|]]]]; try discriminate.
    apply nonul_cons in Hb. destruct Hb as [Hb1 Hb]. apply nonul_cons in Hb. destruct Hb as [Hb2 Hb].
    apply nonul_cons in Hb. destruct Hb as [Hb3 _].
    assert (T : forall c, c <> "000"%char -> code (tolower c) <> 0%Z).
    { intros c Hc. apply tolower_nonul in Hc. lia. }
    assert (D : forall x y, ceq (tolower x) (tolower y) = false -> (code (tolower x) - code (tolower y))%Z <> 0%Z).
    { intros x y X Y. apply ceq_false in X. apply X. apply code_inj. lia. }
    intros a H _. destruct a as [|a1 a]; cbn [strnicmp] in H; [apply T in Hb1; lia|].
    destruct (ceq (tolower a1) (tolower b1)) eqn:X1; [|apply D in X1; lia]. apply ceq_true in X1.
    destruct a as [|a2 a]; cbn [strnicmp] in H; [apply T in Hb2; lia|].
    destruct (ceq (tolower a2) (tolower b2)) eqn:X2; [|apply D in X2; lia]. apply ceq_true in X2.
    destruct a as [|a3 a]; cbn [strnicmp] in H; [apply T in Hb3; lia|].
    destruct (ceq (tolower a3) (tolower b3)) eqn:X3; [|apply D in X3; lia]. apply ceq_true in X3.
    cbn [firstn map]. congruence.
  - apply Z.eqb_eq. rewrite <- Hl. apply strnicmp_prefix; auto. rewrite Hl. auto.
Qed.

Lemma skip_digits_all s : Forall (fun c => is_digit c = true) s -> skip_digits s = [].
Proof. induction 1 as [|c s Hc _ IH]; simpl; auto. rewrite Hc. auto. Qed.

Lemma strtol_dec n : (0 <= n <= INT_MAX)%Z -> strtol (dec n) = (n, []).
Proof.
  unfold INT_MAX. intros H. assert (Hd : dec n = udec n) by (unfold dec; destruct (Z.ltb_spec n 0); auto; lia).
  destruct (udec_spec n ltac:(lia)) as (F & V & N). rewrite <- Hd in F, V, N.
  pose proof (num_signed_dec n [] ltac:(discriminate)) as S. rewrite app_nil_r in S.
  unfold strtol. destruct (dec n) as [|c r]; [congruence|].
  pose proof (Forall_inv F) as Fc. destruct (is_digit_facts _ Fc) as (F1 & F2 & F3).
  cbn [skip_space] in *. rewrite F1 in *.
  assert (X : ceq c "-"%char || ceq c "+"%char = false).
  { apply Bool.orb_false_iff. split; apply ceq_neq; intros ->; apply F2; simpl; auto. }
  rewrite X. cbn [starts_digit]. rewrite Fc, S, skip_digits_all by auto. f_equal. unfold clamp_long. lia.
Qed.

Lemma map_tolower_len a b : map tolower a = map tolower b -> length a = length b.
Proof. intros H. rewrite <- (map_length tolower a), H, map_length. auto. Qed.

Lemma numbered_port prefix base n name : nonul name -> length (s2l prefix) = 3 -> nonul (s2l prefix) ->
  (0 <= n <= INT_MAX)%Z -> port_name prefix n name ->
  numbered name (s2l prefix) base = choose_stream base (n - 1).
Proof.
  intros Hn Hl Hp H (p & P & ->). unfold numbered. pose proof (map_tolower_len _ _ P) as Lp.
  assert (X : (strnicmp (p ++ dec n) (s2l prefix) 3 =? 0)%Z = true).
  { apply strnicmp3; auto. rewrite firstn_app_len by lia. auto. }
  rewrite X, skipn_app_len by lia. rewrite strtol_dec by auto. f_equal. apply to_int_id. unfold INT_MIN, INT_MAX in *. lia.
Qed.

Lemma numbered_other name prefix base : nonul name -> length (s2l prefix) = 3 -> nonul (s2l prefix) ->
  map tolower (firstn 3 name) <> map tolower (s2l prefix) -> numbered name (s2l prefix) base = None.
Proof.
  intros Hn Hl Hp H. unfold numbered. destruct (_ =? 0)%Z eqn:X; auto. apply strnicmp3 in X; auto. tauto.
Qed.

Lemma nonul_s2l s : forallb (fun c => negb (ceq c "000"%char)) (s2l s) = true -> nonul (s2l s).
Proof.
  intros H I. rewrite forallb_forall in H. apply H in I. rewrite ceq_refl in I. discriminate.
Qed.

Lemma stricmp_not name w : nonul name -> nonul (s2l w) -> map tolower name <> map tolower (s2l w) ->
  (stricmp name (s2l w) =? 0)%Z = false.
Proof. intros Hn Hw H. destruct (_ =? 0)%Z eqn:X; auto. apply stricmp_eq_lower in X; auto. tauto. Qed.

Lemma TRANS_ordinary name : nonul name -> ordinary name -> TRANS name = name.
Proof.
  intros Hn [H1 H2]. unfold TRANS.
  rewrite !stricmp_not; [|auto|apply nonul_s2l; reflexivity|apply H1; simpl; auto
    |auto|apply nonul_s2l; reflexivity|apply H1; simpl; auto
    |auto|apply nonul_s2l; reflexivity|apply H1; simpl; auto].
  rewrite !numbered_other; auto; try (apply nonul_s2l; reflexivity); apply H2; simpl; auto.
Qed.

Lemma map_firstn_lower n name w : map tolower name = map tolower w -> map tolower (firstn n name) = map tolower (firstn n w).
Proof. intros H. rewrite <- !firstn_map, H. auto. Qed.

Lemma TRANS_named name dev : nonul name -> device_of name dev -> TRANS name = dev.
Proof.
  intros Hn H. unfold TRANS. destruct H as [[H ->]|[[H ->]|[H ->]]].
  - rewrite (proj2 (stricmp_eq_lower name (s2l "NUL") Hn (nonul_s2l "NUL" eq_refl))) by auto. auto.
  - rewrite stricmp_not; [|auto|apply nonul_s2l; reflexivity|rewrite H; intros Q; vm_compute in Q; discriminate Q].
    rewrite (proj2 (stricmp_eq_lower name (s2l "CON") Hn (nonul_s2l "CON" eq_refl))) by auto. auto.
  - rewrite 2!stricmp_not; [|auto|apply nonul_s2l; reflexivity|rewrite H; intros Q; vm_compute in Q; discriminate Q
      |auto|apply nonul_s2l; reflexivity|rewrite H; intros Q; vm_compute in Q; discriminate Q].
    rewrite (proj2 (stricmp_eq_lower name (s2l "PRN") Hn (nonul_s2l "PRN" eq_refl))) by auto. auto.
Qed.

Lemma port_first prefix n name : length (s2l prefix) = 3 -> port_name prefix n name ->
  map tolower (firstn 3 name) = map tolower (s2l prefix) /\ 3 < length name.
Proof.
  intros Hl (p & P & ->). pose proof (map_tolower_len _ _ P) as Lp. rewrite firstn_app_len by lia. split; auto.
  rewrite app_length. assert (dec n <> []).
  { unfold dec. destruct (n <? 0)%Z eqn:X; [discriminate|]. apply udec_spec. apply Z.ltb_ge in X. auto. }
  destruct (dec n); simpl; [congruence|lia].
Qed.

Lemma TRANS_lpt name n : nonul name -> (0 <= n <= INT_MAX)%Z -> port_name "LPT" n name ->
  TRANS name = match choose_stream (s2l "/dev/lpt") (n - 1) with Some d => d | None => name end.
Proof.
  intros Hn H P. unfold TRANS. destruct (port_first "LPT" _ _ eq_refl P) as [F L].
  assert (X : forall w, length (s2l w) = 3 -> nonul (s2l w) -> (stricmp name (s2l w) =? 0)%Z = false).
  { intros w Hw Hz. apply stricmp_not; auto. intros Y. apply map_tolower_len in Y. lia. }
  rewrite !X by (reflexivity || (apply nonul_s2l; reflexivity)).
  rewrite (numbered_port _ _ n) by (auto; apply nonul_s2l; reflexivity).
  destruct (choose_stream _ _); auto. rewrite numbered_other; auto; [apply nonul_s2l; reflexivity|].
  rewrite F. intros Q. vm_compute in Q. discriminate Q.
Qed.

Lemma TRANS_com name n : nonul name -> (0 <= n <= INT_MAX)%Z -> port_name "COM" n name ->
  TRANS name = match choose_stream (s2l "/dev/ttyS") (n - 1) with Some d => d | None => name end.
Proof.
  intros Hn H P. unfold TRANS. destruct (port_first "COM" _ _ eq_refl P) as [F L].
  assert (X : forall w, length (s2l w) = 3 -> nonul (s2l w) -> (stricmp name (s2l w) =? 0)%Z = false).
  { intros w Hw Hz. apply stricmp_not; auto. intros Y. apply map_tolower_len in Y. lia. }
  rewrite !X by (reflexivity || (apply nonul_s2l; reflexivity)).
  rewrite (numbered_other _ "LPT"); auto; [|apply nonul_s2l; reflexivity|rewrite F; intros Q; vm_compute in Q; discriminate Q].
  rewrite (numbered_port _ _ n) by (auto; apply nonul_s2l; reflexivity). auto.
Qed.

(** A character that cannot be part of a number. *)
Lemma skip_digits_in c s : is_digit c = false -> In c s -> skip_digits s <> [].
Proof.
  intros Hc. induction s as [|x s IH]; simpl; [tauto|]. destruct (is_digit x) eqn:X; [|discriminate].
  intros [->|I]; auto. congruence.
Qed.
Lemma skip_space_in c s : is_space c = false -> In c s -> In c (skip_space s).
Proof.
  intros Hc. induction s as [|x s IH]; simpl; [tauto|]. destruct (is_space x) eqn:X; [|simpl; auto].
  intros [->|I]; auto. congruence.
Qed.
Lemma strtol_junk c s : is_digit c = false -> is_space c = false -> c <> "-"%char -> c <> "+"%char ->
  In c s -> snd (strtol s) <> [].
Proof.
  intros H1 H2 H3 H4 I. unfold strtol. set (t := skip_space s).
  assert (It : In c t) by (apply skip_space_in; auto). clearbody t.
  destruct t as [|x t]; [destruct It|].
  destruct (ceq x "-"%char || ceq x "+"%char) eqn:X.
  - assert (I2 : In c t).
    { destruct It as [->|It]; auto. apply Bool.orb_true_iff in X. destruct X as [X|X]; apply ceq_true in X; congruence. }
    destruct (starts_digit t); simpl.
    + apply (skip_digits_in c); auto.
    + intros ->. destruct I.
  - destruct (starts_digit (x :: t)); cbn [snd].
    + apply (skip_digits_in c); auto.
    + intros ->. destruct I.
Qed.

Lemma TRANS_junk name c : nonul name -> 3 < length name -> In c (skipn 3 name) ->
  is_digit c = false -> is_space c = false -> c <> "-"%char -> c <> "+"%char -> TRANS name = name.
Proof.
  intros Hn L I H1 H2 H3 H4. unfold TRANS.
  assert (X : forall w, length (s2l w) = 3 -> nonul (s2l w) -> (stricmp name (s2l w) =? 0)%Z = false).
  { intros w Hw Hz. apply stricmp_not; auto. intros Y. apply map_tolower_len in Y. lia. }
  rewrite !X by (reflexivity || (apply nonul_s2l; reflexivity)).
  assert (Y : forall w b, numbered name w b = None).
  { intros w b. unfold numbered. destruct (_ =? 0)%Z; auto. pose proof (strtol_junk c _ H1 H2 H3 H4 I) as J.
    destruct (strtol (skipn 3 name)) as [v e]. simpl in J. destruct e; congruence. }
  rewrite !Y. auto.
Qed.

Lemma absolute_iff p : PBAT_TEST_ABSOLUTE_PATH p = true <-> absolute p.
Proof.
  unfold PBAT_TEST_ABSOLUTE_PATH, absolute. split.
  - intros H. apply Bool.andb_true_iff in H. destruct H as [H1 H2]. destruct p as [|c r]; [discriminate|].
    cbn [test_sep skipn] in *. apply is_sep_iff in H1. subst. exists r. split; auto. intros r' ->. discriminate.
  - intros (r & -> & H). cbn [test_sep skipn]. destruct r as [|d r]; auto. cbn [test_sep].
    destruct (is_sep d) eqn:X; auto. apply is_sep_iff in X. subst. exfalso. eapply H. eauto.
Qed.

Lemma from_dir_ok cur p : TRANS p = p -> from_dir cur p (pBat_MakeFullPathEs cur p).
Proof.
  intros T. unfold from_dir, pBat_MakeFullPathEs. rewrite T. destruct (PBAT_TEST_ABSOLUTE_PATH p) eqn:X.
  - left. split; auto. apply absolute_iff. auto.
  - right. split; auto. intros A. apply absolute_iff in A. congruence.
Qed.

Lemma comps_app a b : comps (a ++ "/"%char :: b) = comps a ++ comps b.
Proof.
  unfold comps. rewrite <- filter_app. f_equal. induction a as [|c a IH].
  - rewrite app_nil_l, split_at_sep. auto.
  - simpl. destruct (ceq c "/"%char); [rewrite IH; auto|].
    change (split_at "/"%char (a ++ "/"%char :: b)) with (split_at "/"%char (a ++ "/"%char :: b)) in IH. rewrite IH.
    destruct (split_at "/"%char a) eqn:X; [exfalso; revert X; apply split_at_nil|]. auto.
Qed.

Lemma walk_app l1 : forall up l2, above_root up l1 = false -> walk up (l1 ++ l2) = walk (walk up l1) l2.
Proof.
  induction l1 as [|x l1 IH]; intros up l2 H; cbn [walk app above_root] in *; auto.
  destruct (streqb x (s2l "..")); auto. destruct up; [discriminate|]. auto.
Qed.

Lemma above_normal l : forall up, Forall normal_comp l -> above_root up l = false.
Proof.
  induction l as [|x l IH]; intros up H; cbn [above_root]; auto. inversion H as [|? ? (H1 & H2 & H3 & H4) H']; subst.
  apply streqb_false in H3. rewrite H3. auto.
Qed.

Lemma canonical r : exists t, pBat_Canonicalize ("/"%char :: r) = Ret t /\
  ((t = [] /\ walk [] (comps r) = []) \/ normal_dir t) /\ comps t = rev (walk [] (comps r)).
Proof.
  destruct (Canonicalize_ok r) as (t & E & H). exists t. split; auto. cbv zeta in H.
  set (L := rev (walk [] (comps r))) in *.
  assert (N : Forall normal_comp L).
  { unfold L. apply Forall_rev. apply walk_normal; auto. apply comps_ok. }
  destruct H as [->|[EL ->]].
  - split; [|apply comps_render; auto]. destruct L as [|x L'] eqn:X.
    + left. split; auto. unfold L in X. apply (f_equal (@rev _)) in X. rewrite rev_involutive in X. auto.
    + right. right. exists (x :: L'). repeat split; auto. discriminate.
  - split; [|rewrite EL; reflexivity]. right. left. auto.
Qed.

Lemma normal_comps t : normal_dir t -> Forall normal_comp (comps t).
Proof.
  intros [->|(l & H1 & H2 & ->)]; [constructor|]. rewrite comps_render; auto.
Qed.

Lemma normal_head t : normal_dir t -> exists r, t = "/"%char :: r.
Proof.
  intros [->|(l & H1 & H2 & ->)]; [exists []; reflexivity|].
  destruct l as [|x l]; [congruence|]. exists (x ++ render l). reflexivity.
Qed.
