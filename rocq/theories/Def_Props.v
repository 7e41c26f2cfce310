(** Def_Props.v -- C70: procedures.  [run] is what running a command does (any function). *)

From Verif Require Import Base Lex StrLib_Model StrLib_Spec StrLib_Props Estr_Spec Env_Model Env_Spec Env_Proofs EnvLocal_Proofs Var_Model LocalVar_Model Expand_Model Args_Model Args_Spec Args_Proofs Args_Props
  Params_Model Params_Spec Params_Proofs CmdList_Model CmdList_Spec CmdList_Proofs CmdList_Props Path_Proofs Block_Proofs Prompt_Spec Prompt_Proofs For_Model Set_Model Set_Spec Set_Proofs Set_Props Find_Proofs Find_Props
  Call_Proofs Def_Model Def_Spec Def_Proofs.

(** The text that runs is the text of the procedure with the references filled in, all at
    once, if no dollar sign comes in with the parameters. *)
Theorem C70_expand : forall w args text ps l,
  behind args text -> written w args ps -> template l -> ~ In "$"%char text -> (forall p, In p (firstn 10 ps) -> ~ In "$"%char p) ->
  pBat_ExpandDef w args (render l) = Ret (filled text ps l, w).
Proof. exact expand_ok. Qed.
Print Assumptions C70_expand.

(** Every text is made of such pieces, in one way, unless it has two dollar signs in front
    of one of the characters of a reference. *)
Theorem C70_template : forall body, (forall c k, In c refs -> ~ occurs_at ["$"%char; "$"%char; c] body k) ->
  exists l, template l /\ render l = body /\ forall l', template l' -> render l' = body -> l' = l.
Proof.
  intros body H. destruct (template_exists (length body) body (le_n _) H) as (l & T & R & _). exists l. split; [exact T|]. split; [exact R|].
  intros l' T' R'. apply template_one; auto. congruence.
Qed.
Print Assumptions C70_template.

(** Otherwise what is filled in may be taken for references: a parameter, the whole text,
    or a parameter behind a dollar sign. *)
Theorem C70_injection_refuted :
  ~ (forall w args text ps l, behind args text -> written w args ps -> template l -> pBat_ExpandDef w args (render l) = Ret (filled text ps l, w)) /\
  pBat_ExpandDef ex_w (s2l " $2 b") (s2l "echo $1") = Ret (s2l "echo b", ex_w) /\
  pBat_ExpandDef ex_w (s2l " a $1") (s2l "echo $*") = Ret (s2l "echo a a", ex_w) /\
  pBat_ExpandDef ex_w (s2l " 2 b") (s2l "echo $$1") = Ret (s2l "echo b", ex_w).
Proof.
  split; [|repeat split; vm_compute; reflexivity]. intros H.
  assert (X : pBat_ExpandDef ex_w (s2l " $2 b") (render [Par "1"%char]) = Ret (filled (s2l "$2 b") [s2l "$2"; s2l "b"] [Par "1"%char], ex_w)).
  { apply H.
    - exists [" "%char]. split; [reflexivity|]. split; [repeat constructor; apply space_blank|]. intros c r [= <- _]. cbv. intuition discriminate.
    - do 2 lw. constructor. constructor.
    - constructor; [cbv; tauto|constructor]. }
  vm_compute in X. discriminate.
Qed.
Print Assumptions C70_injection_refuted.

(** DEF name=text defines a procedure, unless a command answers to the name; the other
    commands stay. *)
Theorem C70_define : forall w table line force rest name body,
  def_line w line force false rest -> defines rest name body -> nonul name -> name <> [] -> wf table -> ordered table -> 3 <= length (entries table) ->
  exists found, pBat_GetCommandProc name table = Ret found /\
    match found with
    | None => exists t, pBat_CmdDef w table line = Ret (0%Z, [], t, w) /\ wf t /\ ordered t /\ Permutation (entries t) (procedure name body :: entries table)
    | Some e => In e (entries table) /\ answers e name /\ (force = false -> pBat_CmdDef w table line = Ret (37%Z, [], table, w))
    end /\
    (registered table name -> found <> None).
Proof.
  intros w table line force rest name body D F N Ne W O L. destruct (C09_lookup_sound name table N W) as (found & G & S). exists found. split; [exact G|].
  unfold pBat_CmdDef. rewrite (options_ok _ _ _ _ _ D) by lia. cbn [bind orb]. destruct (defines_ok _ _ _ F) as (E1 & E2 & E3). rewrite E1, E2, E3, G. cbn [bind].
  unfold cmd_def. rewrite G. cbn [bind]. split; [|intros X ->; apply lookup_exact_found in X; auto; destruct X; congruence]. destruct found as [e|].
  - destruct (S e eq_refl) as [I A]. split; [exact I|]. split; [exact A|]. intros ->. reflexivity.
  - fold (procedure name body). set (x := procedure name body). assert (Wx : wf_entry x) by (unfold x; split; [auto|split; cbn; auto]).
    assert (Hf : ~ registered table (e_name x)). { intros H. apply lookup_exact_found in H; auto. destruct H as [e H]. cbn in H. congruence. }
    destruct (add_fresh x table Wx W O Hf) as (P & W1 & O1). pose proof (Permutation_length P) as PL. cbn [length] in PL.
    destruct (remap_ok _ W1 O1) as (t' & E & W' & O' & En); try lia. rewrite E. cbn [bind].
    destruct t' as [|e l0 r0]; [exfalso; cbn in En; rewrite <- En in PL; discriminate|]. exists (Node e l0 r0). split; [reflexivity|]. split; [auto|]. split; [auto|]. rewrite En. auto.
Qed.
Print Assumptions C70_define.

(** The procedure is what a line finds that starts with the name in any case and a
    delimiter, or that is the name, when no other name starts like this one or is the
    start of it. *)
Theorem C70_found : forall table t name body n,
  wf t -> ordered t -> Permutation (entries t) (procedure name body :: entries table) -> delim_free name -> nonul n -> same_name n name ->
  (forall e, In e (entries table) -> (forall rest, ~ starts_with name (e_name e) rest) /\ (forall rest, ~ starts_with (e_name e) name rest)) ->
  pBat_GetCommandProc n t = Ret (Some (procedure name body)) /\
  forall d rest, delimiter d -> nonul rest -> pBat_GetCommandProc (n ++ d :: rest) t = Ret (Some (procedure name body)).
Proof.
  intros table t name body n W O P Df N Sn H.
  assert (I : In (procedure name body) (entries t)) by (eapply Permutation_in; [apply Permutation_sym; eauto|left; auto]).
  assert (J : forall e, In e (entries t) -> e = procedure name body \/ In e (entries table)).
  { intros e X. eapply Permutation_in in X; [|exact P]. destruct X; auto. }
  assert (Kl : forall a b : cstr, key a = key b -> same_name a b) by (intros a b; apply key_lower).
  split.
  - destruct (C09_lookup_alone t (procedure name body) n N W O I Df Sn) as [X|(e' & X & I' & Z & c & y & K)]; auto. exfalso. cbn [e_name procedure] in K.
    destruct (J e' I') as [->|I2].
    + cbn [e_name procedure] in K. apply (f_equal (@length _)) in K. unfold key in K. rewrite !map_length, app_length in K. cbn in K. lia.
    + destruct (H e' I2) as [H1 _]. apply Kl in K. unfold same_name in K. rewrite map_app in K.
      apply (H1 (skipn (length (e_name e')) name)). exists (firstn (length (e_name e')) name). split; [rewrite firstn_skipn; auto|].
      unfold same_name. rewrite <- firstn_map, K, firstn_app, map_length, Nat.sub_diag. cbn [firstn]. rewrite app_nil_r. apply firstn_all2. rewrite map_length. lia.
  - intros d rest Hd Nr.
    assert (Nn : nonul (n ++ d :: rest)).
    { intros X. apply in_app_or in X. destruct X as [X|[X|X]]; auto. subst. revert Hd. unfold delimiter. intuition discriminate. }
    destruct (C09_lookup_complete t (procedure name body) n d rest Nn W O I Df Sn Hd) as [X|(e' & X & I' & Z & c & y & St)]; auto.
    + intros e' c x I' S'. cbn [e_name procedure] in S'. exfalso. destruct (J e' I') as [->|I2].
      * cbn [e_name procedure] in S'. apply (f_equal (@length _)) in S'. rewrite !map_length, app_length in S'. cbn in S'. lia.
      * destruct (H e' I2) as [_ H2]. unfold same_name in S'. rewrite map_app in S'.
        apply (H2 (skipn (length name) (e_name e'))). exists (firstn (length name) (e_name e')). split; [rewrite firstn_skipn; auto|].
        unfold same_name. rewrite <- firstn_map, S', firstn_app, map_length, Nat.sub_diag. cbn [firstn]. rewrite app_nil_r. apply firstn_all2. rewrite map_length. lia.
    + exfalso. cbn [e_name procedure] in St. destruct (J e' I') as [->|I2].
      * cbn in Z. destruct St as (m & E & S'). cbn [e_name procedure] in *. apply (f_equal (@length _)) in S'. rewrite !map_length in S'. apply (f_equal (@length _)) in E. rewrite app_length in E. cbn in E. lia.
      * destruct (H e' I2) as [H1 _]. eapply H1; eauto.
Qed.
Print Assumptions C70_found.

(** DEF /f changes the text of what has the name, if no other name is the start of it (C44). *)
Theorem C70_redefine : forall w table line rest name body,
  def_line w line true false rest -> defines rest name body -> nonul name -> name <> [] -> wf table -> ordered table -> registered table name ->
  (forall e, In e (entries table) -> ~ same_name (e_name e) name -> ~ exists y, starts_with name (e_name e) y) ->
  exists l1 e l2 t, entries table = l1 ++ e :: l2 /\ same_name (e_name e) name /\
    pBat_CmdDef w table line = Ret (0%Z, [], t, w) /\ entries t = l1 ++ mkEntry (e_name e) body (length name) true false :: l2.
Proof.
  intros w table line rest name body D F N Ne W O R H. destruct (lookup_exact_found name table) as [e0 G]; auto.
  destruct (C44_replace_right_one (procedure name body) table) as (l1 & e & l2 & t & E1 & Sn & E2 & E3); auto.
  { split; [auto|split; cbn; auto]. }
  exists l1, e, l2, t. split; [exact E1|]. split; [exact Sn|]. split; [|exact E3].
  unfold pBat_CmdDef. rewrite (options_ok _ _ _ _ _ D) by lia. cbn [bind orb]. destruct (defines_ok _ _ _ F) as (X1 & X2 & X3). rewrite X1, X2, X3, G. cbn [bind].
  unfold cmd_def. rewrite G. cbn [bind]. fold (procedure name body). rewrite E2. reflexivity.
Qed.
Print Assumptions C70_redefine.

(** DEF /l lists the procedures; without '=' nothing changes; /? shows the help. *)
Theorem C70_list : forall w table line force rest,
  def_line w line force true rest -> nonul rest -> ordered table ->
  exists out, pBat_CmdDef w table line = Ret (0%Z, out, table, w) /\ lists table rest out.
Proof.
  intros w table line force rest D N O. exists (pBat_ListDefs rest table). split; [|apply lists_ok; auto].
  unfold pBat_CmdDef. rewrite (options_ok _ _ _ _ _ D) by lia. reflexivity.
Qed.
Print Assumptions C70_list.
Theorem C70_error : forall w table line force rest,
  def_line w line force false rest -> (forall i, ~ live (fun c => Ascii.eqb c "="%char) rest i) -> pBat_CmdDef w table line = Ret (4%Z, [], table, w).
Proof.
  intros w table line force rest D H. unfold pBat_CmdDef. rewrite (options_ok _ _ _ _ _ D) by lia. cbn [bind orb].
  pose proof (StrLib_Proofs.search_pred_spec (fun x => ceq x "="%char) rest) as G. unfold pBat_SearchChar.
  destruct (search_pred _ rest) as [i|]; [|reflexivity]. destruct G as [G _]. destruct (H i G).
Qed.
Print Assumptions C70_error.
Theorem C70_help : forall w table line next, leads w line (s2l "/?") next -> pBat_CmdDef w table line = Ret (0%Z, [], table, w).
Proof. intros w table line next L. unfold pBat_CmdDef. cbn [def_options]. rewrite (leads_any _ _ _ _ _ L). reflexivity. Qed.
Print Assumptions C70_help.

(** A line that names the procedure: its text runs with the references filled in, without
    variables of loops and with the underscore variables saved; afterwards the variables
    of loops are back, and the environment is that of a call in the sense of C20. *)
Theorem C70_call : forall run addr w name n args text ps l trim,
  length n = length name -> behind args text -> written w args ps -> template l -> ~ In "$"%char text -> (forall p, In p (firstn 10 ps) -> ~ In "$"%char p) ->
  table_ok true (vw_env (x_var w)) -> table_good (vw_env (x_var w)) -> (forall n, is_trimmed n (trim n)) ->
  exists w1, inside addr w w1 /\
    forall w' acts, run w1 (filled text ps l) = Ret w' -> act_ok trim (ACall addr acts) -> acts_run acts (vw_env (x_var w1)) = Ret (vw_env (x_var w')) ->
      exists w'', run_procedure run addr w (procedure name (render l)) (n ++ args) = Ret w'' /\ outside w w' w'' /\
        act_run (ACall addr acts) (vw_env (x_var w)) = Ret (vw_env (x_var w'')).
Proof.
  intros run addr w name n args text ps l trim Ln B W T Dt Dp Tk Tg Tr.
  assert (Tr' : forall n, trim n = pBat_AdjustVarName n) by (intros m; apply (trimmed_unique m); auto using adjust_trimmed).
  assert (P : exists e1, pBat_PushEnvLocals addr (vw_env (x_var w)) = Ret e1).
  { unfold pBat_PushEnvLocals. destruct (find_local_ok _ Tk Tg) as (r & -> & _). cbn [bind]. destruct r; eauto. }
  destruct P as (e1 & P). exists (set_env (set_locals w pBat_GetLocalBlock) e1). split; [repeat (split; auto)|].
  intros w' acts R A Ac. change (vw_env (x_var (set_env (set_locals w pBat_GetLocalBlock) e1))) with e1 in Ac.
  destruct (act_balanced trim (ACall addr acts) Tr' _ Tk Tg A) as (e3 & R3 & _). assert (R4 := R3). rewrite call_run, P in R4. cbn [bind] in R4. rewrite Ac in R4. cbn [bind] in R4.
  exists (set_locals (set_env w' e3) (x_locals w)). unfold run_procedure. cbn [procedure e_limit e_proc]. rewrite <- Ln, skipn_app, skipn_all, Nat.sub_diag. cbn [app skipn].
  rewrite (expand_ok w args text ps l) by auto. cbn [bind]. rewrite P. cbn [bind]. rewrite R. cbn [bind]. rewrite R4. cbn [bind]. split; [reflexivity|]. split; [repeat (split; auto)|]. exact R3.
Qed.
Print Assumptions C70_call.

(** DEF /l with a blank behind it lists nothing. *)
Definition ex_table : tree := match cmd_def false (s2l "greet") (s2l "echo hello $1, $2$:!") builtin_table with Ret (t, _) => t | _ => Leaf end.
Theorem C70_list_blank_refuted :
  pBat_CmdDef ex_w ex_table (s2l " /l") = Ret (0%Z, s2l "greet=echo hello $1, $2$:!" ++ [nl], ex_table, ex_w) /\
  pBat_CmdDef ex_w ex_table (s2l " /l ") = Ret (0%Z, [], ex_table, ex_w).
Proof. split; vm_compute; reflexivity. Qed.
Print Assumptions C70_list_blank_refuted.

(** def greet=echo hello $1, $2$:! and then: greet "you all" *)
Lemma builtin_ok : wf builtin_table /\ ordered builtin_table /\ 3 <= length (entries builtin_table).
Proof. split; [exact builtin_wf|]. split; [exact builtin_ordered|]. apply Nat.leb_le. vm_compute. reflexivity. Qed.
Local Opaque builtin_table.
Definition ex_body : cstr := s2l "echo hello $1, $2$:!".
Definition ex_pieces : list piece :=
  map Lit (s2l "echo hello ") ++ [Par "1"%char; Lit ","%char; Lit " "%char; Par "2"%char; Par ":"%char; Lit "!"%char].
Lemma ex_line : def_line ex_w (s2l " greet=echo hello $1, $2$:!") false false (s2l "greet=echo hello $1, $2$:!").
Proof.
  eapply dl_rest; [apply leads_of; vm_compute; reflexivity|apply nonul_b; reflexivity|discriminate|discriminate|discriminate|].
  exists [" "%char]. split; [reflexivity|]. split; [repeat constructor; apply space_blank|]. intros c r [= <- _] [X|X]; [revert X; cbv; intuition discriminate|discriminate].
Qed.
Lemma ex_defines : defines (s2l "greet=echo hello $1, $2$:!") (s2l "greet") ex_body.
Proof.
  split; [reflexivity|]. pose proof (C01_SearchChar_first_live (s2l "greet=echo hello $1, $2$:!") "="%char) as H.
  change (pBat_SearchChar (s2l "greet=echo hello $1, $2$:!") "="%char) with (Some (length (s2l "greet"))) in H. exact H.
Qed.
Lemma ex_template : template ex_pieces.
Proof. unfold ex_pieces. apply template_lits; [cbv; intuition discriminate|]. repeat first [apply tm_nil|apply tm_par; [cbv; tauto|]|apply tm_lit; [discriminate|]]. Qed.
Example C70_ex :
  (exists t, pBat_CmdDef ex_w builtin_table (s2l " greet=echo hello $1, $2$:!") = Ret (0%Z, [], t, ex_w) /\ Permutation (entries t) (procedure (s2l "greet") ex_body :: entries builtin_table) /\
     pBat_GetCommandProc (s2l "GREET ""you all""") t = Ret (Some (procedure (s2l "greet") ex_body))) /\
  ex_body = render ex_pieces /\ pBat_ExpandDef ex_w (s2l " ""you all""") ex_body = Ret (s2l "echo hello you all, !", ex_w).
Proof.
  destruct builtin_ok as (W & O & L). split; [|split; [reflexivity|]].
  - destruct (C70_define ex_w builtin_table _ _ _ _ _ ex_line ex_defines) as (found & G & H & _); auto; [apply nonul_b; reflexivity|discriminate|].
    assert (X : pBat_GetCommandProc (s2l "greet") builtin_table = Ret None) by (vm_compute; reflexivity). rewrite X in G. injection G as <-. destruct H as (t & E & Wt & Ot & P).
    exists t. split; [exact E|]. split; [exact P|].
    destruct (C70_found builtin_table t (s2l "greet") ex_body (s2l "GREET") Wt Ot P) as [_ K].
    + repeat constructor; cbv; intuition discriminate.
    + apply nonul_b. reflexivity.
    + reflexivity.
    + intros e I.
      assert (C : forallb (fun e => negb (strnicmp (s2l "greet") (e_name e) (length (e_name e)) =? 0)%Z && negb (strnicmp (e_name e) (s2l "greet") 5 =? 0)%Z) (entries builtin_table) = true)
        by (vm_compute; reflexivity).
      rewrite forallb_forall in C. specialize (C e I). apply andb_true_iff in C. destruct C as [C1 C2]. apply negb_true_iff in C1, C2. apply Z.eqb_neq in C1, C2.
      assert (Ne : nonul (e_name e)) by (unfold wf in W; rewrite Forall_forall in W; apply (W e I)).
      split; intros rest (m & E1 & E2).
      * clear - C1 Ne E1 E2. apply C1. apply (strnicmp_kw (e_name e)); [exact Ne|]. exists m, rest. split; assumption.
      * clear - C2 E1 E2. apply C2. apply (strnicmp_kw (s2l "greet")); [apply nonul_b; reflexivity|]. exists m, rest. split; assumption.
    + apply (K " "%char (s2l """you all""")); [left; auto|apply nonul_b; reflexivity].
  - change ex_body with (render ex_pieces). rewrite (C70_expand ex_w _ (s2l """you all""") [s2l "you all"]).
    + reflexivity.
    + exists [" "%char]. split; [reflexivity|]. split; [repeat constructor; apply space_blank|]. intros c r [= <- _]. cbv. intuition discriminate.
    + lw. constructor. constructor.
    + apply ex_template.
    + cbv. intuition discriminate.
    + intros p [<-|[]]. cbv. intuition discriminate.
Qed.
(** def /F echo=..., def set=..., def /l gr, def nothing *)
Example C70_ex_more :
  (exists l1 e l2 t, entries builtin_table = l1 ++ e :: l2 /\ pBat_CmdDef ex_w builtin_table (s2l " /F ver=echo 1") = Ret (0%Z, [], t, ex_w) /\
     entries t = l1 ++ mkEntry (s2l "VER") (s2l "echo 1") 3 true false :: l2) /\
  pBat_CmdDef ex_w builtin_table (s2l " set=echo 1") = Ret (37%Z, [], builtin_table, ex_w) /\
  lists ex_table (s2l "GR") (s2l "greet=echo hello $1, $2$:!" ++ [nl]) /\
  pBat_CmdDef ex_w builtin_table (s2l " x^=y") = Ret (4%Z, [], builtin_table, ex_w).
Proof.
  destruct builtin_ok as (W & O & L). split; [|split; [|split]].
  - destruct (C70_redefine ex_w builtin_table (s2l " /F ver=echo 1") (s2l "ver=echo 1") (s2l "ver") (s2l "echo 1")) as (l1 & e & l2 & t & E1 & Sn & E2 & E3); try assumption.
    + eapply dl_force; [apply leads_of; vm_compute; reflexivity|apply nonul_b; reflexivity|reflexivity|].
      eapply dl_rest; [apply leads_of; vm_compute; reflexivity|apply nonul_b; reflexivity|discriminate|discriminate|discriminate|].
      exists [" "%char]. split; [reflexivity|]. split; [repeat constructor; apply space_blank|]. intros c r [= <- _] [X|X]; [revert X; cbv; intuition discriminate|discriminate].
    + split; [reflexivity|]. exact (C01_SearchChar_first_live (s2l "ver=echo 1") "="%char).
    + apply nonul_b. reflexivity.
    + discriminate.
    + exists (mkEntry (s2l "VER") (s2l "CmdVer") 3 false false). split; [|reflexivity].
      apply (subset_check_ok [mkEntry (s2l "VER") (s2l "CmdVer") 3 false false]); [vm_compute; reflexivity|left; reflexivity].
    + intros e I Ns (y & m & E1 & E2).
      assert (C : forallb (fun e => negb (strnicmp (s2l "ver") (e_name e) (length (e_name e)) =? 0)%Z || (stricmp (e_name e) (s2l "ver") =? 0)%Z) (entries builtin_table) = true)
        by (vm_compute; reflexivity).
      rewrite forallb_forall in C. specialize (C e I). apply orb_true_iff in C.
      assert (Ne : nonul (e_name e)) by (unfold wf in W; rewrite Forall_forall in W; apply (W e I)).
      destruct C as [C|C].
      * apply negb_true_iff, Z.eqb_neq in C. clear - C Ne E1 E2. apply C. apply (strnicmp_kw (e_name e)); [exact Ne|]. exists m, y. split; assumption.
      * apply Ns. apply stricmp_name in C; auto. apply nonul_b. reflexivity.
    + exists l1, e, l2, t. split; [exact E1|]. split; [exact E2|]. rewrite E3. do 3 f_equal.
      assert (C : forallb (fun e => negb (stricmp (e_name e) (s2l "ver") =? 0)%Z || streqb (e_name e) (s2l "VER")) (entries builtin_table) = true) by (vm_compute; reflexivity).
      rewrite forallb_forall in C. specialize (C e). rewrite E1 in C. specialize (C ltac:(apply in_or_app; right; left; auto)). apply orb_true_iff in C. destruct C as [C|C]; [|apply streqb_true; auto].
      exfalso. apply negb_true_iff, Z.eqb_neq in C. apply C. apply Z.eqb_eq. apply stricmp_name; auto; [|apply nonul_b; reflexivity].
      unfold wf in W. rewrite Forall_forall in W. apply (W e). rewrite E1. apply in_or_app. right. left. auto.
  - destruct (C70_define ex_w builtin_table (s2l " set=echo 1") false (s2l "set=echo 1") (s2l "set") (s2l "echo 1")) as (found & G & H & R); try assumption.
    + eapply dl_rest; [apply leads_of; vm_compute; reflexivity|apply nonul_b; reflexivity|discriminate|discriminate|discriminate|].
      exists [" "%char]. split; [reflexivity|]. split; [repeat constructor; apply space_blank|]. intros c r [= <- _] [X|X]; [revert X; cbv; intuition discriminate|discriminate].
    + split; [reflexivity|]. exact (C01_SearchChar_first_live (s2l "set=echo 1") "="%char).
    + apply nonul_b. reflexivity.
    + discriminate.
    + destruct found as [e|]; [destruct H as (_ & _ & H); auto|]. exfalso. apply R; auto. exists (mkEntry (s2l "SET") (s2l "CmdSet") 3 false false). split; [|reflexivity].
      apply (subset_check_ok [mkEntry (s2l "SET") (s2l "CmdSet") 3 false false]); [vm_compute; reflexivity|left; reflexivity].
  - destruct (C70_list ex_w ex_table (s2l " /l @GR") false (s2l "GR")) as (out & E & H).
    + eapply dl_list; [apply leads_of; vm_compute; reflexivity|apply nonul_b; reflexivity|reflexivity|].
      eapply dl_rest; [apply leads_of; vm_compute; reflexivity|apply nonul_b; reflexivity|discriminate|discriminate|discriminate|].
      exists (s2l " @"). split; [reflexivity|]. split; [constructor; [left; apply space_blank|repeat constructor; right; reflexivity]|].
      intros c r [= <- _] [X|X]; [revert X; cbv; intuition discriminate|discriminate].
    + apply nonul_b. reflexivity.
    + destruct (C10_define (s2l "greet") ex_body builtin_table) as (t & ok & E & Wt & Ot & _); try assumption; [apply nonul_b; reflexivity|discriminate|].
      unfold ex_table. fold ex_body. rewrite E. exact Ot.
    + assert (X : pBat_CmdDef ex_w ex_table (s2l " /l @GR") = Ret (0%Z, s2l "greet=echo hello $1, $2$:!" ++ [nl], ex_table, ex_w)) by (vm_compute; reflexivity).
      rewrite X in E. apply (f_equal (fun o => match o with Ret (_, x, _, _) => x | _ => [] end)) in E. cbv beta iota in E. rewrite E. exact H.
  - apply (C70_error ex_w builtin_table (s2l " x^=y") false (s2l "x^=y")).
    + eapply dl_rest; [apply leads_of; vm_compute; reflexivity|apply nonul_b; reflexivity|discriminate|discriminate|discriminate|].
      exists [" "%char]. split; [reflexivity|]. split; [repeat constructor; apply space_blank|]. intros c r [= <- _] [X|X]; [revert X; cbv; intuition discriminate|discriminate].
    + pose proof (C01_SearchChar_first_live (s2l "x^=y") "="%char) as H. exact H.
Qed.
