(** Cd_Proofs.v *)
From Verif Require Import Base Lex StrLib_Model StrLib_Spec StrLib_Proofs Path_Model Path_Spec Path_Proofs Var_Model Expand_Model Args_Model Args_Spec Args_Proofs
  Prompt_Spec Prompt_Proofs Set_Spec Set_Proofs Params_Proofs Call_Proofs Def_Proofs Cd_Model Cd_Spec.

Lemma swallow_len s : length (swallow s) <= length s.
Proof.
  induction s as [|c r IH]; cbn; [lia|]. destruct (is_sep c); [lia|]. destruct (ceq c "."%char); [|cbn; lia]. destruct r as [|d r']; [cbn; lia|].
  destruct (is_sep d); [lia|cbn; lia].
Qed.
Lemma prev_len s p : previous_sep s = Some p -> length p < length s.
Proof. induction s as [|c r IH]; cbn; [discriminate|]. destruct (is_sep c); [intros [= ->]; lia|]. intros H. apply IH in H. lia. Qed.
Lemma dotdot_len s r : dotdot s = Some r -> length r <= length s.
Proof. destruct s as [|a [|b s]]; cbn; try discriminate. destruct (_ && _); intros H; inversion H; subst; lia. Qed.
Lemma canon_len f : forall rpre rest t, canon_loop f rpre rest = Ret t -> length t <= length rpre + length rest.
Proof.
  induction f as [|f IH]; intros rpre rest t; cbn; [discriminate|]. destruct rest as [|c r]; [intros [= <-]; rewrite rev_length; cbn; lia|].
  destruct (is_sep c).
  - pose proof (swallow_len r) as S1. destruct (dotdot (swallow r)) as [r3|] eqn:D.
    + apply dotdot_len in D. destruct (previous_sep rpre) as [p|] eqn:P.
      * intros H. apply IH in H. apply prev_len in P. cbn. lia.
      * destruct rpre as [|u v]; intros [= <-]; [cbn; lia|]. change (rev v ++ [u]) with (rev (u :: v)). rewrite rev_length. cbn. lia.
    + destruct (swallow r) as [|x y] eqn:W, rpre as [|u v]; intros H.
      1,3,4: apply IH in H; cbn in *; lia. injection H as <-. change (rev v ++ [u]) with (rev (u :: v)). rewrite rev_length. cbn. lia.
  - intros H. apply IH in H. cbn in *. lia.
Qed.
Lemma set_len ex cur d st c : length cur < FILENAME_MAX -> length cur + 1 + length d < FILENAME_MAX -> pBat_SetCurrentDir ex cur d = Ret (st, c) -> length c <= length cur + 1 + length d.
Proof.
  intros L1 L2. unfold pBat_SetCurrentDir. destruct (_ && ex d).
  - destruct (pBat_Canonicalize _) as [t| |] eqn:E; try discriminate. cbn [bind]. intros [= <- <-]. apply canon_len in E. rewrite firstn_length in E. cbn [length] in E. lia.
  - cbv zeta. match goal with |- context [if ?b then _ else _] => destruct b end.
    + destruct (pBat_Canonicalize _) as [t| |] eqn:E; try discriminate. cbn [bind]. intros [= <- <-]. apply canon_len in E. rewrite firstn_length, app_length in E. cbn [length] in E. lia.
    + intros [= <- <-]. lia.
Qed.

Lemma absolute_dec d : absolute d \/ ~ absolute d.
Proof. destruct (PBAT_TEST_ABSOLUTE_PATH d) eqn:E; [left; apply absolute_iff; auto|right; intros H; apply absolute_iff in H; congruence]. Qed.

(** The directory is found, or there is none. *)
Lemma set_ok ex cur d : current cur -> length cur + 1 + length d < FILENAME_MAX ->
  exists st c, pBat_SetCurrentDir ex cur d = Ret (st, c) /\
    (st = 0%Z /\ arrives ex cur d c /\ current c \/ st = (-1)%Z /\ c = cur /\ nowhere ex cur d).
Proof.
  intros C L. unfold pBat_SetCurrentDir. destruct (PBAT_TEST_ABSOLUTE_PATH d && ex d) eqn:X.
  - apply andb_prop in X. destruct X as [A E]. apply absolute_iff in A. rewrite firstn_all2 by lia. pose proof A as (r & -> & _).
    destruct (canonical r) as (t & Ec & H1 & H2). rewrite Ec. cbn [bind]. exists 0%Z, t. split; auto. left. split; auto.
    assert (P : current t) by (destruct H1 as [[-> _]|H1]; [left|right]; auto). split; auto. apply ar_root; auto. split; auto.
  - assert (Na : absolute d -> ex d = false).
    { intros A. apply absolute_iff in A. rewrite A in X. exact X. }
    cbv zeta. assert (Le : length (cur ++ "/"%char :: d) = length cur + 1 + length d) by (rewrite app_length; cbn; lia).
    rewrite firstn_all2 by (rewrite Le; lia). destruct (Nat.ltb_spec 0 (FILENAME_MAX - (length cur + 1))); [|lia]. cbn [andb].
    destruct (ex (cur ++ "/"%char :: d)) eqn:E; [|exists (-1)%Z, cur; split; auto; right; repeat split; auto].
    assert (Y : exists t, pBat_Canonicalize (cur ++ "/"%char :: d) = Ret t /\ current t /\ comps t = rev (walk (rev (comps cur)) (comps d))).
    { destruct C as [->|N].
      - destruct (canonical d) as (t & Ec & H1 & H2). exists t. split; auto. split; [destruct H1 as [[-> _]|H1]; [left|right]; auto|]. exact H2.
      - pose proof (normal_comps _ N) as NC. destruct (normal_head _ N) as (r & ->).
        destruct (canonical (r ++ "/"%char :: d)) as (t & Ec & H1 & H2).
        change (("/"%char :: r) ++ "/"%char :: d) with ("/"%char :: r ++ "/"%char :: d). exists t. split; auto.
        split; [destruct H1 as [[-> _]|H1]; [left|right]; auto|]. rewrite comps_sep in NC |- *. rewrite H2. f_equal.
        rewrite comps_app, walk_app by (apply above_normal; exact NC). rewrite (walk_normal_id (comps r)), app_nil_r by exact NC. auto. }
    destruct Y as (t & Ec & H1 & H2). rewrite Ec. cbn [bind]. exists 0%Z, t. split; auto. left. split; auto. split; auto. apply ar_below; auto. split; auto.
Qed.

Lemma at_end_space c : at_end false c = true <-> space c.
Proof. unfold at_end, space. rewrite andb_false_l, orb_false_r, orb_true_iff, !ceq_true. reflexivity. Qed.
Lemma at_end_quote c : at_end true c = true <-> space c \/ c = dquote.
Proof. unfold at_end, space. rewrite andb_true_l, !orb_true_iff, !ceq_true. reflexivity. Qed.
Lemma cut_ok q c e : at_end q c = false -> forallb (at_end q) e = true -> forall d, cut q ((d ++ [c]) ++ e) = d ++ [c].
Proof.
  intros N E. induction d as [|x d IH]; cbn.
  - rewrite N. cbn. f_equal. destruct e as [|y e]; auto. cbn in E |- *. rewrite E. reflexivity.
  - replace (forallb (at_end q) ((d ++ [c]) ++ e)) with false; [rewrite andb_false_r; f_equal; exact IH|].
    rewrite !forallb_app. cbn. rewrite N, andb_false_r. reflexivity.
Qed.
Lemma cut_end_ok q c e d : at_end q c = false -> forallb (at_end q) e = true -> cut_end q ((d ++ [c]) ++ e) = d ++ [c].
Proof.
  intros N E. unfold cut_end. replace (forallb (at_end q) ((d ++ [c]) ++ e)) with false; [apply cut_ok; auto|].
  rewrite !forallb_app. cbn. rewrite N, andb_false_r. reflexivity.
Qed.
Lemma names_ok t d : names t d -> cd_dir t = d.
Proof.
  intros N. unfold cd_dir. destruct N as [a d c e A E S H|a d c e A E S Q|a A].
  - rewrite (skip_behind (a ++ (d ++ [c]) ++ e) ((d ++ [c]) ++ e)).
    + destruct (d ++ [c]) as [|x r] eqn:X; [destruct d; discriminate|]. destruct (H x r eq_refl) as [H1 H2]. cbn [app].
      replace (ceq x dquote) with false by (symmetry; apply not_true_iff_false; intros Y; apply ceq_true in Y; auto).
      change (x :: r ++ e) with ((x :: r) ++ e). rewrite <- X. apply cut_end_ok.
      * apply not_true_iff_false. rewrite at_end_space. auto.
      * apply forallb_forall. intros y Y. apply at_end_space. rewrite Forall_forall in E. auto.
    + exists a. split; auto. split; auto. intros y r Y. destruct (d ++ [c]) as [|x r'] eqn:X; [destruct d; discriminate|]. injection Y as <- <-. apply (H x r' eq_refl).
  - rewrite (skip_behind _ (dquote :: (d ++ [c]) ++ e)).
    + rewrite ceq_refl. apply cut_end_ok.
      * apply not_true_iff_false. rewrite at_end_quote. intuition.
      * apply forallb_forall. intros y Y. apply at_end_quote. rewrite Forall_forall in E. auto.
    + exists a. split; auto. split; auto. intros y r [= <- <-] B. cbn in B. repeat destruct B as [B|B]; try discriminate B. exact B.
  - rewrite skip_nil; auto.
Qed.

Lemma set_cd_same w : set_cd w (vw_cd (x_var w)) = w.
Proof. destruct w as [v ka a l s st cp d]. destruct v. reflexivity. Qed.
Lemma set_cd_twice w c d : set_cd (set_cd w c) d = set_cd w d. Proof. reflexivity. Qed.

Lemma go_ok ex w d : current (vw_cd (x_var w)) -> length (vw_cd (x_var w)) + 1 + length d < FILENAME_MAX ->
  (exists c, go_to ex w d = Ret (0%Z, set_cd w c) /\ arrives ex (vw_cd (x_var w)) d c /\ current c /\ length c <= length (vw_cd (x_var w)) + 1 + length d) \/
  go_to ex w d = Ret ((-1)%Z, w) /\ nowhere ex (vw_cd (x_var w)) d.
Proof.
  intros C L. destruct (set_ok ex _ d C L) as (st & c & E & H). unfold go_to. rewrite E. cbn [bind].
  destruct H as [(-> & H1 & H2)|(-> & -> & H)]; [left|right; rewrite set_cd_same; auto].
  exists c. repeat split; auto. eapply set_len; eauto. lia.
Qed.

Lemma spelled_shorter w line ps : spelled w line ps -> length ps <= length line.
Proof. induction 1 as [|line p rest ps H _ IH]; cbn; [lia|]. specialize (H []). apply leads_shorter in H. lia. Qed.

Lemma pushd_ok ex w0 : forall rest ps, spelled w0 rest ps -> forall fuel w stack d, length rest < fuel -> w = set_cd w0 (vw_cd (x_var w)) ->
  current (vw_cd (x_var w)) -> length (vw_cd (x_var w)) + total (d :: ps) < FILENAME_MAX ->
  exists z c stack', pushd_params ex fuel w stack d rest = Ret (z, set_cd w0 c, stack') /\ pushes ex (vw_cd (x_var w)) stack (d :: ps) z c stack'.
Proof.
  intros rest ps W. induction W as [s B|line p rest ps H W IH]; intros fuel w stack d F E C T; (destruct fuel as [|fuel]; [lia|]); cbn [pushd_params]; cbn [total] in T;
    (destruct (go_ok ex w d C) as [(c & G & A & Cc & Lc)|[G N]]; [lia| |]; rewrite G; cbn [bind]);
    try (change (-1 =? 0)%Z with false; cbn iota; exists PBAT_DIRECTORY_ERROR, (vw_cd (x_var w)), stack; rewrite <- E; split; [reflexivity|apply pu_fail; auto]);
    change (0 =? 0)%Z with true; cbn iota; rewrite E, set_cd_twice.
  - rewrite next_end by auto. cbn [bind]. exists 0%Z, c, (vw_cd (x_var w) :: stack). split; [reflexivity|]. eapply pu_next; [exact A|apply pu_end].
  - rewrite (leads_any _ _ _ _ _ (H c)). cbn [bind]. pose proof (leads_shorter _ _ _ _ (H c)) as Ls.
    destruct (IH fuel (set_cd w0 c) (vw_cd (x_var w) :: stack) p) as (z & c' & st' & P1 & P2); [lia|reflexivity|exact Cc|cbn; cbn in Lc, T; lia|].
    exists z, c', st'. split; [exact P1|]. eapply pu_next; [exact A|exact P2].
Qed.

Lemma prefix_of p : forall s, prefixb p s = true -> exists r, s = p ++ r.
Proof.
  induction p as [|a p IH]; intros s H; [exists s; reflexivity|]. destruct s as [|b s]; [discriminate|]. cbn [prefixb] in H. apply andb_prop in H. destruct H as [H1 H2].
  apply ceq_true in H1. subst b. destruct (IH _ H2) as (r & ->). exists r. reflexivity.
Qed.
