(** Call_Proofs.v -- CALL meets Call_Spec. *)

From Verif Require Import Base Lex Num_Model StrLib_Model StrLib_Spec Path_Model Env_Model Var_Model Var_Proofs LocalVar_Model Expand_Model Args_Model Args_Spec
  Args_Proofs Path_Proofs Block_Model CmdList_Model Stream_Model If_Model Body_Model For_Model Run_Model Script_Model Script_Spec Script_Proofs Params_Model Params_Spec Params_Proofs Prompt_Spec Prompt_Proofs
  Set_Spec Set_Proofs Call_Model Call_Spec Script_Props.

Lemma leads_any w old line p rest : leads w line p rest -> pBat_GetNextParameterEs w old line = Ret (p, Some rest, w).
Proof. intros (a & raw & t & -> & A & N & F & P & B & C & D). eapply next_written; eauto. Qed.
Lemma leads_skip w line p rest : leads w line p rest -> leads w (pBat_SkipBlanks line) p rest.
Proof.
  intros (a & raw & t & -> & A & N & F & P & B & C & D). exists [], raw, t. split; [|repeat (split; auto)].
  apply skip_blanks; auto. intros c r X. destruct raw as [|d raw]; [congruence|]. injection X as <- _. eapply F; eauto.
Qed.
Lemma leads_shorter w line p rest : leads w line p rest -> length rest < length line.
Proof. intros (a & raw & t & -> & A & N & _). rewrite !app_length. destruct raw; [congruence|]. cbn [length]. lia. Qed.
Lemma skip_nil s : Forall blank s -> pBat_SkipBlanks s = [].
Proof. intros H. rewrite <- (app_nil_r s) at 1. apply skip_blanks; auto. discriminate. Qed.

Lemma name_b p o : nonul p -> nonul o -> ~ same_name p o -> (stricmp p o =? 0)%Z = false.
Proof. intros N M H. destruct (stricmp p o =? 0)%Z eqn:E; auto. exfalso. apply H. apply stricmp_name in E; auto. Qed.
Lemma nn_help : nonul (s2l "/?"). Proof. apply nonul_b. reflexivity. Qed.
Lemma nn_e : nonul (s2l "/E"). Proof. apply nonul_b. reflexivity. Qed.
Lemma role_nonul p f l : role p f l -> nonul p.
Proof. intros [t H|c t _ H _ _]; auto. intros [X|X]; [discriminate|auto]. Qed.
Lemma role_help p f l : role p f l -> (stricmp p (s2l "/?") =? 0)%Z = false.
Proof.
  intros R. apply name_b; [eapply role_nonul; eauto|apply nn_help|]. destruct R as [t H|c t _ H X Y]; auto. unfold same_name. cbn. discriminate.
Qed.
Lemma role_e p f l : role p f l -> (stricmp p (s2l "/E") =? 0)%Z = false.
Proof.
  intros R. apply name_b; [eapply role_nonul; eauto|apply nn_e|]. destruct R as [t H|c t _ H X Y]; auto. unfold same_name. cbn. discriminate.
Qed.

Section O.
Variable w : xworld.
Lemma opt_end fuel cm old line ext n f l : Forall blank line -> 0 < fuel -> call_options fuel cm w old line ext n f l = Ret (Calls f l line, w).
Proof. intros B F. destruct fuel; [lia|]. cbn [call_options]. rewrite next_end; auto. Qed.
Lemma opt_stop fuel cm old line (ext : bool) n f l : no_help w line -> 0 < fuel -> n = 2 \/ n = 1 /\ ext = false ->
  call_options fuel cm w old line ext n f l = Ret (Calls f l line, w).
Proof.
  intros [B|(q & r & L & N & H)] F E; [apply opt_end; auto|]. destruct fuel; [lia|]. cbn [call_options]. rewrite (leads_any _ _ _ _ _ L). cbn [bind].
  rewrite (name_b q (s2l "/?") N nn_help H). replace (n =? 0) with false by (destruct E as [->|[-> _]]; reflexivity). rewrite andb_false_r.
  replace ((negb false && negb ext) || (n =? 2)) with true; auto. destruct E as [->|[-> ->]]; [|reflexivity]. destruct ext; reflexivity.
Qed.
Lemma opt_role fuel cm old line rest ext n p f l f0 l0 : leads w line p rest -> role p f l -> n = 0 \/ n = 1 /\ ext = true -> 
  call_options (S fuel) cm w old line ext n f0 l0 =
  call_options fuel cm w p rest ext (S n) (match f0 with [] => f | _ => f0 end) (match l0 with [] => l | _ => l0 end).
Proof.
  intros L R E. cbn [call_options]. rewrite (leads_any _ _ _ _ _ L). cbn [bind]. rewrite (role_e _ _ _ R), (role_help _ _ _ R). cbn [andb].
  replace ((negb (n =? 0) && negb ext) || (n =? 2)) with false by (destruct E as [->|[-> ->]]; reflexivity).
  destruct R as [t H|c t C H X Y].
  - rewrite ceq_refl. destruct f0; reflexivity.
  - destruct (ceq c ":"%char) eqn:Q; [apply ceq_true in Q; contradiction|]. destruct l0; reflexivity.
Qed.
Lemma opt_ext fuel old line rest f0 l0 ext : extended w line rest -> exists o,
  call_options (S fuel) false w old line ext 0 f0 l0 = call_options fuel false w o rest true 0 f0 l0.
Proof.
  intros (o & L & N & H). exists o. cbn [call_options]. rewrite (leads_any _ _ _ _ _ L). cbn [bind].
  assert (E : (stricmp o (s2l "/E") =? 0)%Z = true) by (apply stricmp_name; auto; apply nn_e). rewrite E. reflexivity.
Qed.
End O.

Lemma asks_ok w line file label rest cm : asks w line file label rest -> cm = false \/ (exists p, leads w line p rest) ->
  call_options (S (length (pBat_SkipBlanks line))) cm w [] (pBat_SkipBlanks line) false 0 [] [] = Ret (Calls file label rest, w).
Proof.
  intros A C. destruct A as [p rest file label L R N|r0 p rest file label E L R N|r0 p1 r1 p2 rest file label E L1 L2 R N].
  - apply leads_skip in L. rewrite (opt_role w _ _ _ _ _ _ _ _ _ _ _ _ L R); [|auto]. pose proof (leads_shorter _ _ _ _ L). apply opt_stop; auto. lia.
  - assert (E' : extended w (pBat_SkipBlanks line) r0) by (destruct E as (o & X & Y); exists o; split; auto; apply leads_skip; auto).
    assert (cm = false) as ->.
    { destruct C as [C|(p' & C)]; auto. exfalso. destruct E as (o & X & _). pose proof (leads_any _ [] _ _ _ X) as X1. rewrite (leads_any _ [] _ _ _ C) in X1.
      injection X1 as _ ->. apply leads_shorter in L. lia. }
    destruct (opt_ext w (length (pBat_SkipBlanks line)) [] _ _ [] [] false E') as (o & ->).
    destruct E' as (o' & E' & _). pose proof (leads_shorter _ _ _ _ E') as X1. pose proof (leads_shorter _ _ _ _ L) as X2.
    destruct (length (pBat_SkipBlanks line)) as [|k]; [lia|]. rewrite (opt_role w _ _ _ _ _ _ _ _ _ _ _ _ L R); auto. apply opt_end; auto. lia.
  - assert (E' : extended w (pBat_SkipBlanks line) r0) by (destruct E as (o & X & Y); exists o; split; auto; apply leads_skip; auto).
    assert (cm = false) as ->.
    { destruct C as [C|(p' & C)]; auto. exfalso. destruct E as (o & X & _). pose proof (leads_any _ [] _ _ _ X) as X1. rewrite (leads_any _ [] _ _ _ C) in X1.
      injection X1 as _ ->. apply leads_shorter in L1, L2. lia. }
    destruct (opt_ext w (length (pBat_SkipBlanks line)) [] _ _ [] [] false E') as (o & ->).
    destruct E' as (o' & E' & _). pose proof (leads_shorter _ _ _ _ E') as X1. pose proof (leads_shorter _ _ _ _ L1) as X2. pose proof (leads_shorter _ _ _ _ L2) as X3.
    destruct (length (pBat_SkipBlanks line)) as [|[|k]]; try lia. destruct R as [[R1 R2]|[R1 R2]].
    + rewrite (opt_role w _ _ _ _ _ _ _ _ _ _ _ _ L1 R1); auto. rewrite (opt_role w _ _ _ _ _ _ _ _ _ _ _ _ L2 R2); auto.
      rewrite opt_stop; auto; [|lia]. destruct file; reflexivity.
    + rewrite (opt_role w _ _ _ _ _ _ _ _ _ _ _ _ L1 R1); auto. rewrite (opt_role w _ _ _ _ _ _ _ _ _ _ _ _ L2 R2); auto.
      rewrite opt_stop; auto; [|lia]. destruct label; reflexivity.
Qed.
Lemma asks_some w line file label rest : asks w line file label rest -> file <> [] \/ label <> [].
Proof.
  intros A. destruct A as [p rest file label L R N|r0 p rest file label E L R N|r0 p1 r1 p2 rest file label E L1 L2 R N].
  - destruct R; [right|left]; discriminate.
  - destruct R; [right|left]; discriminate.
  - destruct R as [[R1 R2]|[R1 R2]]; inversion R1; inversion R2; subst; left + right; discriminate.
Qed.

Lemma full_ok ex w f p : f <> [] -> locates ex w f p -> pBat_GetFileFullPath ex (vw_cd (x_var w)) f FILENAME_MAX = Some p.
Proof.
  intros N [[(A & T & X & L) ->]|(A & T & -> & X & L)]; unfold pBat_GetFileFullPath; rewrite T, A.
  - rewrite X. f_equal. apply firstn_all2. lia.
  - rewrite (firstn_all2 (vw_cd (x_var w) ++ "/"%char :: f)) by lia. rewrite X. reflexivity.
Qed.

Section C.
Variable sio : scriptio.
Variable log : list event.
Variable ex : cstr -> bool.
Variable run : input -> xworld -> outcome xworld.
Variable block : xworld -> cstr -> outcome xworld.
Variable cmdly : bool.
Variable ka : Z.

(** A call that starts. *)
Lemma starts_ok i w file label path rest ps text j zero :
  match file with [] => path = None | _ => exists p, pBat_GetFileFullPath ex (vw_cd (x_var w)) file FILENAME_MAX = Some p /\ path = Some p end ->
  match label with
  | [] => exists p, path = Some p /\ j = mkIn p (in_name i) (in_script i) (in_size i) (in_curr i) false /\ zero = p
  | _ => pBat_JumpToLabel sio log i label path = Ret (true, j) /\ zero = label
  end ->
  written w rest ps -> expands w rest text -> Forall sturdy (skipn 9 ps) ->
  exists w0, begins w w0 (in_file j) zero ps text /\
    forall w', run j w0 = Ret w' -> exists w'', pBat_CmdCallFile sio log ex run i w file label rest = Ret (vw_err (x_var w'), i, w'') /\ resumes w w' w''.
Proof.
  intros P J W E S. destruct (call_ok w zero rest ps text W E S) as (b & C & B1 & B2 & B3).
  exists (set_script (set_locals (set_args w b) pBat_GetLocalBlock) (in_file j)). split.
  - split; [|repeat split; auto].
    destruct (B3 (set_script (set_locals w pBat_GetLocalBlock) (in_file j))) as [H1 (s & H2 & H3)]. split; [exact H1|]. exists s. split; [exact H2|exact H3].
  - intros w' R. unfold pBat_CmdCallFile.
    replace (match file with [] => Some None | _ => match pBat_GetFileFullPath ex (vw_cd (x_var w)) file FILENAME_MAX with Some p => Some (Some p) | None => None end end)
      with (Some path) by (destruct file; [subst; auto|destruct P as (p & -> & ->); auto]).
    destruct label as [|lc lr].
    + destruct J as (p & -> & Hj & ->). rewrite <- Hj. cbn [bind]. rewrite C. cbn [bind]. rewrite R. cbn [bind].
      eexists. split; [reflexivity|]. repeat split.
    + destruct J as [J ->]. rewrite J. cbn [bind]. rewrite C. cbn [bind]. rewrite R. cbn [bind]. eexists. split; [reflexivity|]. repeat split.
Qed.
End C.
