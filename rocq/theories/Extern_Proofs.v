(** Extern_Proofs.v -- the search for commands meets Extern_Spec. *)

From Verif Require ForTok_Proofs.
From Verif Require Import Base Lex StrLib_Model StrLib_Spec Path_Model Env_Model Env_Spec Env_Proofs Var_Model LocalVar_Model LocalVar_Proofs Expand_Model Args_Model Args_Spec
  Args_Proofs CmdList_Model For_Model Run_Model Script_Model Params_Model Params_Spec Params_Proofs Prompt_Spec Prompt_Proofs
  Set_Model Set_Spec Set_Proofs Call_Model Call_Spec Call_Proofs Def_Spec Def_Proofs Start_Proofs Extern_Model Extern_Spec.

Section E.
Variable ex : cstr -> bool.
Variable table : tree.
Variables ka na : Z.
Variable result : list launched -> launched -> Z.

Lemma split_b f : is_batch f -> exists d dir n e, pBat_SplitPath f = Ret (d, dir, n, e) /\ ((stricmp (s2l ".bat") e =? 0)%Z || (stricmp (s2l ".cmd") e =? 0)%Z) = true.
Proof.
  intros (e & (d & dir & n & E) & N & H). exists d, dir, n, e. split; auto. apply orb_true_iff.
  destruct H as [H|H]; [left|right]; apply stricmp_name; auto; try (apply nonul_b; reflexivity); unfold same_name in *; congruence.
Qed.
Lemma split_n f : not_batch f -> exists d dir n e, pBat_SplitPath f = Ret (d, dir, n, e) /\ ((stricmp (s2l ".bat") e =? 0)%Z || (stricmp (s2l ".cmd") e =? 0)%Z) = false.
Proof.
  intros (e & (d & dir & n & E) & N & H1 & H2). exists d, dir, n, e. split; auto.
  rewrite !name_b; auto; try (apply nonul_b; reflexivity); unfold same_name in *; congruence.
Qed.
Lemma external_missing ran w line p args text k : words w line p args text -> finds ex ka w p None ->
  run_external ex ka na result ran w line k = Ret (None, (-1)%Z, S k, w).
Proof.
  intros (W & E & T) (PATH & PATHEXT & F1 & F2 & F3). unfold run_external, pBat_GetParamList. rewrite (list_written ex w line (p :: args) W E) by lia. cbn [bind].
  unfold pBat_GetEndOfLine. rewrite T. cbn [bind]. rewrite F1. cbn [bind]. rewrite F2. cbn [bind]. rewrite F3. reflexivity.
Qed.
Lemma external_program ran w line p args text f k : words w line p args text -> finds ex ka w p (Some f) -> not_batch f ->
  run_external ex ka na result ran w line k =
  let x := Program f text (p :: args) (vw_cd (x_var w)) in Ret (Some x, result ran x, k, w).
Proof.
  intros (W & E & T) (PATH & PATHEXT & F1 & F2 & F3) B. unfold run_external, pBat_GetParamList. rewrite (list_written ex w line (p :: args) W E) by lia. cbn [bind].
  unfold pBat_GetEndOfLine. rewrite T. cbn [bind]. rewrite F1. cbn [bind]. rewrite F2. cbn [bind]. rewrite F3. cbn [bind].
  destruct (split_n f B) as (d & dir & n & e & -> & H). cbn [bind]. rewrite H. reflexivity.
Qed.
Lemma external_script ran w line p args text f k c : words w line p args text -> finds ex ka w p (Some f) -> is_batch f ->
  launch ka na w f text (p :: args) = Ret c ->
  run_external ex ka na result ran w line k = Ret (Some (Script f c), result ran (Script f c), k, w).
Proof.
  intros (W & E & T) (PATH & PATHEXT & F1 & F2 & F3) B L. unfold run_external, pBat_GetParamList. rewrite (list_written ex w line (p :: args) W E) by lia. cbn [bind].
  unfold pBat_GetEndOfLine. rewrite T. cbn [bind]. rewrite F1. cbn [bind]. rewrite F2. cbn [bind]. rewrite F3. cbn [bind].
  destruct (split_b f B) as (d & dir & n & e & -> & H). cbn [bind]. rewrite H. rewrite L. reflexivity.
Qed.
Lemma external_none ran w line k : Forall blank line -> run_external ex ka na result ran w line k = Ret (None, 0%Z, k, w).
Proof. intros B. unfold run_external, pBat_GetParamList. cbn [param_list]. rewrite next_end by auto. reflexivity. Qed.

(** ** The state a script begins with *)
Lemma launch_ok sg w f text p args r :
  table_ok sg (vw_env (x_var w)) -> addr_ok sg ka -> addr_ok sg na -> tail_of w text r -> Forall sturdy (skipn 9 args) -> length f < FILENAME_MAX ->
  exists w1 c, launch ka na w f text (p :: args) = Ret c /\ same_but_env w w1 /\
    changed (vw_env (x_var w)) (s2l "PBAT_IS_SCRIPT") (s2l "true") (vw_env (x_var w1)) /\ begins w1 c f f args r.
Proof.
  intros T K N L S Lf. unfold launch. destruct (argv_first_ok 9 1 args pBat_GetLocalBlock) as (H1 & H2 & H3); [lia|]. cbn [tl].
  destruct (argv_first 9 1 args pBat_GetLocalBlock) as [b rest]. cbn [fst snd] in *. subst rest.
  destruct (Params_Proofs.assign_ok (skipn 9 args)) as (s & -> & Ws). cbn [bind].
  set (b1 := pBat_SetLocalVar b "+"%char (Some s)). destruct (L b1) as (q & rest & Ld & Bh).
  change (set_args (set_locals (set_args w pBat_GetLocalBlock) pBat_GetLocalBlock) b1) with (inside w b1).
  rewrite (leads_any _ _ _ _ _ Ld). cbn [bind]. rewrite (skip_behind _ _ Bh).
  set (b2 := pBat_SetLocalVar (pBat_SetLocalVar b1 "*"%char (Some r)) "0"%char (Some f)).
  destruct (assign_ok ka na sg w (s2l "PBAT_IS_SCRIPT") (s2l "true") false) as (w1 & A & SB & _ & C); auto. { apply nonul_b. reflexivity. } { left. discriminate. }
  unfold assign in *. match goal with |- context [pBat_SetEnvEx (vw_env (x_var (set_args ?A ?B))) ?m ka na ?v false] =>
    change (pBat_SetEnvEx (vw_env (x_var (set_args A B))) m ka na v false) with (pBat_SetEnvEx (vw_env (x_var w)) (s2l "PBAT_IS_SCRIPT") ka na (Some (s2l "true")) false) end.
  destruct (pBat_SetEnvEx (vw_env (x_var w)) (s2l "PBAT_IS_SCRIPT") ka na (Some (s2l "true")) false) as [e| |]; try discriminate A. cbn [bind] in *. injection A as <-.
  rewrite firstn_all2 by lia. exists (set_env w e). eexists. split; [reflexivity|]. split; [exact SB|]. split; [exact C|].
  split; [|repeat split].
  - set (w2 := set_script (set_env (set_locals w pBat_GetLocalBlock) e) f).
    change (holds (set_args w2 b2) (f :: args)). apply (holds_of w2 _ _ s).
    + intros j Hj. unfold b2, b1. rewrite !set_local by reflexivity. change "0"%char with (dchar 0). rewrite ceq_digit by lia.
      destruct (Nat.eqb_spec j 0) as [->|Nj]; [reflexivity|]. rewrite dchar_plus by auto.
      destruct (ceq (dchar j) "*"%char) eqn:X. { apply ceq_true in X. apply dchar_ok in Hj. intuition congruence. }
      rewrite H2 by auto. destruct (Nat.leb_spec 1 j), (Nat.ltb_spec j (1 + 9)); try lia. cbn [andb].
      destruct j as [|j]; [lia|]. cbn [nth]. do 2 f_equal. lia.
    + unfold b2, b1. rewrite !set_local by reflexivity. reflexivity.
    + apply Ws; auto.
Qed.

(** ** The rounds of the search *)
Notation SEARCH := (search ex table ka na result).
Lemma round_internal n ran w cmd line e k : from cmd line -> pBat_GetCommandProc line table = Ret (Some e) -> SEARCH (S n) ran w cmd k = Ret (ran, Internal e line, w).
Proof. intros F G. cbn [search]. rewrite (from_skip _ _ F), G. reflexivity. Qed.
Lemma level_set w z : x_set_err w z = with_level w z. Proof. reflexivity. Qed.
Lemma round_missing n ran w cmd line cmd' : missing ex table ka w cmd line -> expands (with_level w (-1)) cmd cmd' ->
  SEARCH (S n) ran w cmd 0 = SEARCH n ran (with_level w (-1)) cmd' 1.
Proof.
  intros (p & args & text & F & G & W & L) E. cbn [search]. rewrite (from_skip _ _ F), G. cbn [bind].
  rewrite (external_missing _ _ _ _ _ _ _ W L). cbn [bind]. rewrite level_set. rewrite E. reflexivity.
Qed.
Lemma space_b line name : up_to_space line name -> match strpbrk line (s2l " " ++ "009"%char :: [nl]) with Some k => firstn k line | None => line end = name.
Proof.
  intros (r & -> & N & R). rewrite ForTok_Proofs.pbrk_word.
  2:{ apply Forall_forall. intros c I J. apply (N c I). cbn in J |- *. tauto. }
  destruct r as [|c r]. { cbn. rewrite app_nil_r. reflexivity. }
  assert (I := R c r eq_refl). assert (E : strpbrk (c :: r) (s2l " " ++ "009"%char :: [nl]) = Some 0) by (cbn in I; destruct I as [<-|[<-|[<-|[]]]]; reflexivity).
  rewrite E. cbn [option_map]. rewrite Nat.add_0_r, firstn_app, firstn_all, Nat.sub_diag. cbn [firstn]. apply app_nil_r.
Qed.
Lemma round_unknown n ran w cmd line name : missing ex table ka w cmd line -> up_to_space line name ->
  SEARCH (S n) ran w cmd 1 = Ret (ran, Unknown name, with_level w (-1)).
Proof.
  intros (p & args & text & F & G & W & L) U. cbn [search]. rewrite (from_skip _ _ F), G. cbn [bind].
  rewrite (external_missing _ _ _ _ _ _ _ W L). cbn [bind]. rewrite <- (space_b _ _ U). reflexivity.
Qed.
Lemma round_again n ran w cmd line p args text f cmd' : names ex table ka w cmd line p args text (Some f) -> not_batch f ->
  let x := Program f text (p :: args) (vw_cd (x_var w)) in
  expands (with_level w (result ran x)) cmd cmd' ->
  SEARCH (S n) ran w cmd 1 = SEARCH n (ran ++ [x]) (with_level w (result ran x)) cmd' 1.
Proof.
  intros (F & G & W & L) B x E. cbn [search]. rewrite (from_skip _ _ F), G. cbn [bind].
  rewrite (external_program _ _ _ _ _ _ _ _ W L B). cbn [bind]. fold x. rewrite level_set. rewrite E. reflexivity.
Qed.
Lemma round_empty n ran w cmd : Forall skipped cmd -> pBat_GetCommandProc [] table = Ret None -> expands (with_level w 0) cmd cmd ->
  SEARCH (S n) ran w cmd 1 = SEARCH n ran (with_level w 0) cmd 1.
Proof.
  intros S G E. assert (F : from cmd []). { exists cmd. rewrite app_nil_r. split; auto. split; auto. discriminate. }
  cbn [search]. rewrite (from_skip _ _ F), G. cbn [bind]. rewrite external_none by constructor. cbn [bind]. rewrite level_set, E. reflexivity.
Qed.
End E.
