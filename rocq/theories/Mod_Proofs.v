(** Mod_Proofs.v -- MOD meets Mod_Spec. *)

From Coq Require Import Lia.
From Verif Require Import Base Lex Path_Model Path_Spec Path_Proofs Env_Model Var_Model Expand_Model Args_Model Args_Spec Args_Proofs Params_Spec Params_Proofs Prompt_Proofs Mod_Model Mod_Spec.

Lemma under_ok d p : under d p (pBat_MakePath d p).
Proof.
  unfold pBat_MakePath, under. destruct (rev d) as [|c r] eqn:E.
  - left. assert (d = []) as -> by (rewrite <- (rev_involutive d), E; reflexivity). auto.
  - right. assert (X : d = rev r ++ [c]) by (rewrite <- (rev_involutive d), E; reflexivity). unfold is_sep. destruct (ceq c "/"%char) eqn:C.
    + apply ceq_true in C. subst c. left. exists (rev r). auto.
    + apply ceq_false in C. right. split; eauto.
Qed.
Lemma under_fun d p q q' : under d p q -> under d p q' -> q = q'.
Proof.
  intros [[-> ->]|[(e & -> & ->)|[(e & c & -> & C) ->]]] [[D ->]|[(e' & D & ->)|[(e' & c' & D & C') ->]]]; auto;
    try (destruct e; discriminate D); try (destruct e'; discriminate D); exfalso; apply app_inj_tail in D; destruct D; congruence.
Qed.
Lemma place_fun h p q q' : place h p q -> place h p q' -> q = q'.
Proof.
  intros [[A ->]|[A (d & U & V)]] [[A' ->]|[A' (d' & U' & V')]]; try contradiction; auto.
  rewrite (under_fun _ _ _ _ U U') in V. eapply under_fun; eauto.
Qed.
Lemma under_nonul d p q : under d p q -> nonul d -> nonul p -> nonul q.
Proof.
  intros [[-> ->]|[(e & -> & ->)|[(e & c & -> & C) ->]]] D P; auto.
  - intros H. apply in_app_or in H. destruct H; auto.
  - intros H. apply in_app_or in H. destruct H as [H|[H|H]]; auto. discriminate H.
Qed.
Lemma place_nonul h p q : place h p q -> nonul h -> nonul p -> nonul q.
Proof.
  intros [[_ ->]|[_ (d & U & V)]] H P; auto. eapply under_nonul; eauto. eapply under_nonul; eauto. apply nonul_s2l. reflexivity.
Qed.

Section P.
Variables (exists_file : cstr -> bool) (load : list cstr -> cstr -> answer) (ka : Z).
Lemma mod_path_ok w h p : pBat_GetEnv (vw_env (x_var w)) (s2l "PBAT_PATH") ka = Ret (Some h) -> exists q, mod_path ka w p = Ret q /\ place h p q.
Proof.
  intros H. unfold mod_path. destruct (PBAT_TEST_ABSOLUTE_PATH p) eqn:A.
  - exists p. split; auto. left. split; auto. apply absolute_iff. auto.
  - rewrite H. cbn [bind]. eexists. split; [reflexivity|]. right. split; [rewrite <- absolute_iff; congruence|].
    eexists. split; apply under_ok.
Qed.
Lemma loaded_ok m mods : nonul m -> Forall nonul mods -> pBat_CheckLoadedMods m mods = true <-> loaded m mods.
Proof.
  intros N F. induction F as [|x mods X F IH]; cbn [pBat_CheckLoadedMods].
  - split; [discriminate|intros H; inversion H].
  - destruct (stricmp m x =? 0)%Z eqn:E.
    + apply stricmp_name in E; auto. split; auto. intros _. left. exact E.
    + rewrite IH. split; intros H; [right; exact H|]. inversion H; subst; auto. apply stricmp_name in H1; auto. congruence.
Qed.
Lemma loop_ok w h line ps : pBat_GetEnv (vw_env (x_var w)) (s2l "PBAT_PATH") ka = Ret (Some h) -> nonul h ->
  written w line ps -> Forall nonul ps -> forall fuel old q mods, length line < fuel -> Forall nonul mods ->
  exists z l mods', mod_loop exists_file load ka fuel w old line q mods = Ret (z, l, mods', w) /\ goes exists_file load h q mods ps z l mods'.
Proof.
  intros H Nh. induction 1 as [s B|a raw rest t v l A N F P Bt C D W IH]; intros Np fuel old q mods L Nm; (destruct fuel as [|f]; [lia|]); cbn [mod_loop].
  - rewrite next_end by auto. cbn [bind]. eexists _, _, _. split; [reflexivity|constructor].
  - rewrite (next_written w old a raw rest t v) by auto. cbn [bind]. inversion Np as [|? ? Nv Nl]; subst.
    assert (Lr : length rest < f). { rewrite !app_length in L. destruct raw; [congruence|]. cbn [length] in L. lia. }
    specialize (IH Nl).
    assert (NN : forall s, forallb (fun c => negb (ceq c "000"%char)) (s2l s) = true -> nonul (s2l s)) by (intros; apply nonul_s2l; auto).
    destruct (stricmp v (s2l "/l") =? 0)%Z eqn:E1.
    { apply stricmp_name in E1; auto; try (apply NN; reflexivity). eexists _, _, _. split; [reflexivity|]. apply g_list. exact E1. }
    destruct (streqb v (s2l "/?")) eqn:E2.
    { apply streqb_true in E2. subst v. eexists _, _, _. split; [reflexivity|]. apply g_help. }
    destruct (stricmp v (s2l "/q") =? 0)%Z eqn:E3.
    { apply stricmp_name in E3; auto; try (apply NN; reflexivity). destruct (IH f v true mods Lr Nm) as (z & e & m' & E & G). eexists _, _, _. split; [exact E|]. apply g_quiet; auto. }
    assert (Wd : word v).
    { repeat split.
      - intros X. apply stricmp_name in X; auto; try (apply NN; reflexivity). congruence.
      - intros ->. discriminate E2.
      - intros X. apply stricmp_name in X; auto; try (apply NN; reflexivity). congruence. }
    destruct (mod_path_ok w h v H) as (path & Ep & Pl). rewrite Ep. cbn [bind].
    pose proof (place_nonul _ _ _ Pl Nh Nv) as Npath.
    destruct (exists_file path) eqn:Ex; cbn [negb].
    2: { eexists _, _, _. split; [reflexivity|]. eapply g_missing; eauto. }
    destruct (pBat_CheckLoadedMods path mods) eqn:Ec.
    { apply loaded_ok in Ec; auto. destruct q.
      - destruct (IH f path true mods Lr Nm) as (z & e & m' & E & G). eexists _, _, _. split; [exact E|]. eapply g_again; eauto.
      - eexists _, _, _. split; [reflexivity|]. eapply g_twice; eauto. }
    assert (Nl' : ~ loaded path mods) by (intros X; apply loaded_ok in X; auto; congruence).
    unfold pBat_LoadMod. destruct (load mods path) eqn:El.
    + cbn [Z.eqb negb]. destruct (IH f path q (path :: mods) Lr ltac:(constructor; auto)) as (z & e & m' & E & G). rewrite E. cbn [bind app].
      eexists _, _, _. split; [reflexivity|]. eapply g_load; eauto.
    + eexists _, _, _. split; [reflexivity|]. eapply g_cannot; eauto.
    + eexists _, _, _. split; [reflexivity|]. eapply g_bad; eauto.
Qed.

Lemma goes_apart h q mods ps z l mods' : goes exists_file load h q mods ps z l mods' -> apart mods -> apart mods'.
Proof. induction 1; auto. intros A. apply IHgoes. constructor; auto. Qed.
Lemma grown_trans a b c : grown exists_file load a b -> grown exists_file load b c -> grown exists_file load a c.
Proof. intros H. induction 1; auto. constructor; auto. Qed.
Lemma goes_grown h q mods ps z l mods' : goes exists_file load h q mods ps z l mods' -> grown exists_file load mods mods'.
Proof. induction 1; try constructor; auto. eapply grown_trans; [|exact IHgoes]. constructor; auto. constructor. Qed.
Lemma goes_called h q mods ps z l mods' : goes exists_file load h q mods ps z l mods' ->
  exists new bad, mods' = rev new ++ mods /\ called l = new ++ bad /\ length bad <= 1 /\ (z <> 60%Z -> bad = []).
Proof.
  induction 1; try (exists [], []; cbn; repeat split; auto; fail); auto.
  - destruct IHgoes as (new & bad & -> & E & L & Z0). exists (f :: new), bad. cbn [called rev]. rewrite E, <- app_assoc. repeat split; auto.
  - exists [], [f]. cbn. repeat split; auto. intros X. congruence.
Qed.
Lemma goes_fun h q mods ps z l mods' : goes exists_file load h q mods ps z l mods' -> forall z2 l2 m2, goes exists_file load h q mods ps z2 l2 m2 -> z2 = z /\ l2 = l /\ m2 = mods'.
Proof.
  induction 1; intros z2 l2 m2 G; inversion G; subst; clear G;
    repeat match goal with
    | [H : word _ |- _] => destruct H as (? & ? & ?)
    | [H1 : place ?h ?p ?a, H2 : place ?h ?p ?b |- _] => pose proof (place_fun _ _ _ _ H1 H2); subst; clear H2
    end; try contradiction; try congruence; auto;
    try (match goal with [IH : forall z2 l2 m2, _ -> _ |- _] => match goal with [G : goes _ _ _ _ _ _ _ _ _ |- _] => destruct (IH _ _ _ G) as (-> & -> & ->); auto end end; fail).
  all: try match goal with [H : option_of _ _ |- _] => discriminate H end.
  all: try match goal with [H1 : option_of ?a ?p, H2 : option_of ?b ?p |- _] => unfold option_of, same_name in H1, H2; rewrite H1 in H2; discriminate H2 end.
Qed.
End P.
