(** Call_Props.v -- C68: CALL.  [run] is what running a script does, [block] what running
    commands does (C61, C62 and C26 say what that is); the theorems hold for all of them. *)

From Verif Require Import Base Lex Num_Model StrLib_Model StrLib_Spec Path_Model Env_Model Var_Model Var_Props LocalVar_Model Expand_Model Args_Model Args_Spec
  Args_Proofs Args_Props Path_Proofs Block_Model CmdList_Model Stream_Model If_Model Body_Model For_Model Run_Model Script_Model Script_Spec Script_Proofs Params_Model Params_Spec
  Params_Proofs Prompt_Spec Prompt_Proofs Set_Spec Set_Proofs Set_Props Call_Model Call_Spec Script_Props Call_Proofs.

(** A label of the running script: what is behind it is run, with the parameters of the
    line.  Afterwards the script goes on behind the CALL, with its own parameters and
    variables of loops; everything else is as the called commands left it. *)
Theorem C68_label : forall sio log ex run block ka file ls size n i es w line label rest ps text l,
  steady sio file ls size -> reads file ls size n i -> is_script true ls es ->
  asks w line [] label rest -> after_label label es l -> nonul label ->
  written w rest ps -> expands w rest text -> Forall sturdy (skipn 9 ps) ->
  exists j w0, reads file ls size (in_curr j) j /\ skipn (in_curr j) (s_cmds (pBat_LoadBatchScript ls)) = l /\
    begins w w0 file label ps text /\
    forall w', run j w0 = Ret w' ->
      exists w'', pBat_CmdCall sio log ex run block false ka i w line = Ret (vw_err (x_var w'), i, w'') /\ resumes w w' w''.
Proof.
  intros sio log ex run block ka file ls size n i es w line label rest ps text l St R Sc A Al Nn W E S.
  destruct (jump_ok sio _ _ _ _ _ log _ _ _ St R Sc Nn Al) as (k & J & K).
  assert (Ne : label <> []) by (destruct (asks_some _ _ _ _ _ A) as [H|H]; [contradiction|auto]).
  destruct (starts_ok sio log ex run i w [] label None rest ps text (loaded file ls size k false) label) as (w0 & B & H); auto.
  { destruct label; [contradiction|]. auto. }
  exists (loaded file ls size k false), w0. split; [left; reflexivity|]. split; [exact K|]. split; [exact B|]. intros w' Rn. destruct (H w' Rn) as (w'' & C & Q).
  exists w''. split; auto. unfold pBat_CmdCall. rewrite (asks_ok _ _ _ _ _ false A); auto. cbn [bind]. destruct label; [contradiction|exact C].
Qed.
Print Assumptions C68_label.

(** A label that the running script does not have: what happens is undefined. *)
Theorem C68_label_missing_refuted : forall sio log ex run block ka file ls size n i es w line label rest,
  steady sio file ls size -> reads file ls size n i -> is_script true ls es ->
  asks w line [] label rest -> (forall l, ~ after_label label es l) -> nonul label ->
  pBat_CmdCall sio log ex run block false ka i w line = Undef.
Proof.
  intros sio log ex run block ka file ls size n i es w line label rest St R Sc A Al Nn.
  assert (Ne : label <> []) by (destruct (asks_some _ _ _ _ _ A) as [H|H]; [contradiction|auto]).
  unfold pBat_CmdCall. rewrite (asks_ok _ _ _ _ _ false A); auto. cbn [bind]. destruct label as [|c t]; [contradiction|].
  unfold pBat_CmdCallFile. rewrite (C28_missing_undefined _ _ _ _ _ _ log _ _ St R Sc Nn Al). reflexivity.
Qed.
Print Assumptions C68_label_missing_refuted.

(** A script: it is looked up as programs are (C36), and run from its beginning.  It must
    not be the running one. *)
Theorem C68_file : forall sio log ex run block cm ka p ls size i w line f rest ps text,
  asks w line f [] rest -> cm = false \/ (exists q, leads w line q rest) -> finds ex ka w f (Some p) -> is_batch p -> existing ex p ->
  steady sio p ls size -> in_name i <> p ->
  written w rest ps -> expands w rest text -> Forall sturdy (skipn 9 ps) ->
  exists j w0, (forall log', pBat_UpdateScript sio log' j = (true, loaded p ls size 0 false)) /\ begins w w0 p p ps text /\
    forall w', run j w0 = Ret w' ->
      exists w'', pBat_CmdCall sio log ex run block cm ka i w line = Ret (vw_err (x_var w'), i, w'') /\ resumes w w' w''.
Proof.
  intros sio log ex run block cm ka p ls size i w line f rest ps text A Cm (PATH & PATHEXT & F1 & F2 & F3) (e & (d & dir & nm & Sp) & Ne & Be) X St D W E S.
  assert (Nf : f <> []) by (destruct (asks_some _ _ _ _ _ A) as [H|H]; [auto|contradiction]).
  assert (Np : p <> []) by (apply St).
  destruct (starts_ok sio log ex run i w p [] (Some p) rest ps text (mkIn p (in_name i) (in_script i) (in_size i) (in_curr i) false) p) as (w0 & B & H); auto.
  { assert (Fp := full_ok ex w p p Np (or_introl (conj X eq_refl))). destruct p; [contradiction|]. eauto. }
  { eauto. }
  exists (mkIn p (in_name i) (in_script i) (in_size i) (in_curr i) false), w0. split; [|split; [exact B|]].
  - intros log'. unfold pBat_UpdateScript, open_input. cbn [in_file in_name in_eof]. destruct St as [_ St]. rewrite St. destruct p as [|c q]; [contradiction|].
    destruct (in_name i) as [|c' q'] eqn:N; [reflexivity|]. destruct (streqb (c :: q) (c' :: q')) eqn:Q; [|reflexivity]. apply streqb_true in Q. congruence.
  - intros w' Rn. destruct (H w' Rn) as (w'' & C & Q). exists w''. split; auto. unfold pBat_CmdCall. rewrite (asks_ok _ _ _ _ _ cm A); auto. cbn [bind].
    destruct f as [|fc fr]; [contradiction|]. rewrite F1. cbn [bind]. rewrite F2. cbn [bind]. rewrite F3. cbn [bind]. rewrite Sp. cbn [bind].
    replace ((stricmp e (s2l ".bat") =? 0)%Z || (stricmp e (s2l ".cmd") =? 0)%Z) with true; [exact C|]. symmetry. apply orb_true_iff.
    destruct Be as [Be|Be]; [left|right]; apply stricmp_name; auto; apply nonul_b; reflexivity.
Qed.
Print Assumptions C68_file.

(** A label of another script.  Other means with a name which differs in more than case. *)
Theorem C68_extended : forall sio log ex run block ka p ls size es i w line f label rest ps text l,
  asks w line f label rest -> f <> [] -> label <> [] -> locates ex w f p -> sio_file sio log p = Some (ls, size) -> stricmp (in_name i) p <> 0%Z ->
  is_script true ls es -> nonul label -> after_label label es l ->
  written w rest ps -> expands w rest text -> Forall sturdy (skipn 9 ps) ->
  exists j w0, j = loaded p ls size (in_curr j) (in_eof i) /\ skipn (in_curr j) (s_cmds (pBat_LoadBatchScript ls)) = l /\
    begins w w0 p label ps text /\
    forall w', run j w0 = Ret w' ->
      exists w'', pBat_CmdCall sio log ex run block false ka i w line = Ret (vw_err (x_var w'), i, w'') /\ resumes w w' w''.
Proof.
  intros sio log ex run block ka p ls size es i w line f label rest ps text l A Nf Nl Lo F N Sc Nn Al W E S.
  assert (J : exists k, pBat_JumpToLabel sio log i label (Some p) = Ret (true, loaded p ls size k (in_eof i)) /\ skipn k (s_cmds (pBat_LoadBatchScript ls)) = l).
  { destruct (C28_file sio i log label es l p ls size F N Sc Nn Al) as (j & Hj & Hs & _). unfold pBat_JumpToLabel in *. apply Z.eqb_neq in N.
    rewrite N in Hj |- *. rewrite F in Hj |- *. destruct (find_label label (s_lbls (pBat_LoadBatchScript ls))) as [k|]; destruct (in_file i); try discriminate Hj;
      (injection Hj as <-; exists k; split; [reflexivity|exact Hs]). }
  destruct J as (k & J & K).
  destruct (starts_ok sio log ex run i w f label (Some p) rest ps text (loaded p ls size k (in_eof i)) label) as (w0 & B & H); auto.
  { pose proof (full_ok ex w f p Nf Lo). destruct f; [contradiction|]. eauto. }
  { destruct label; [contradiction|]. auto. }
  exists (loaded p ls size k (in_eof i)), w0. split; [reflexivity|]. split; [exact K|]. split; [exact B|]. intros w' Rn. destruct (H w' Rn) as (w'' & C & Q).
  exists w''. split; auto. unfold pBat_CmdCall. rewrite (asks_ok _ _ _ _ _ false A); auto. cbn [bind]. destruct f; [contradiction|]. destruct label; [contradiction|exact C].
Qed.
Print Assumptions C68_extended.

(** Any other program: its name and the parameters are replaced once more, and run as a
    command line. *)
Theorem C68_program : forall sio log ex run block cm ka p e i w line f rest text t,
  asks w line f [] rest -> cm = false \/ (exists q, leads w line q rest) -> finds ex ka w f (Some p) ->
  has_extension p e -> nonul e -> ~ same_name e (s2l ".bat") -> ~ same_name e (s2l ".cmd") ->
  expands w rest text -> pBat_ReplaceVars w (p ++ " "%char :: text) = Ret (t, w) ->
  forall w', block w t = Ret w' -> pBat_CmdCall sio log ex run block cm ka i w line = Ret (vw_err (x_var w'), i, w').
Proof.
  intros sio log ex run block cm ka p e i w line f rest text t A Cm (PATH & PATHEXT & F1 & F2 & F3) (d & dir & nm & Sp) Ne N1 N2 E R w' B.
  assert (Nf : f <> []) by (destruct (asks_some _ _ _ _ _ A) as [H|H]; [auto|contradiction]).
  unfold pBat_CmdCall. rewrite (asks_ok _ _ _ _ _ cm A); auto. cbn [bind].
  destruct f as [|fc fr]; [contradiction|]. rewrite F1. cbn [bind]. rewrite F2. cbn [bind]. rewrite F3. cbn [bind]. rewrite Sp. cbn [bind].
  rewrite (name_b e (s2l ".bat")), (name_b e (s2l ".cmd")); auto; try (apply nonul_b; reflexivity). cbn [orb]. unfold pBat_GetEndOfLine. rewrite E. cbn [bind].
  unfold pBat_CmdCallExternal. change (s2l " " ++ text) with (" "%char :: text). rewrite R. cbn [bind]. rewrite B. reflexivity.
Qed.
Print Assumptions C68_program.

(** Errors change nothing: no target, a program that is not found, a file or a label of
    another file that does not exist, /E under CMDLYCORRECT. *)
Theorem C68_errors : forall sio log ex run block cm ka i w line,
  (Forall blank line \/ cm = false /\ (exists r, extended w line r /\ Forall blank r) ->
     pBat_CmdCall sio log ex run block cm ka i w line = Ret (8%Z, i, w)) /\
  (forall r, cm = true -> extended w line r -> pBat_CmdCall sio log ex run block cm ka i w line = Ret (7%Z, i, w)) /\
  (forall f rest, asks w line f [] rest -> cm = false -> finds ex ka w f None -> pBat_CmdCall sio log ex run block cm ka i w line = Ret (3%Z, i, w)) /\
  (forall f label rest, asks w line f label rest -> cm = false -> f <> [] -> label <> [] -> TRANS f = f ->
     ex f = false -> ex (firstn (FILENAME_MAX - 1) (vw_cd (x_var w) ++ "/"%char :: f)) = false ->
     pBat_CmdCall sio log ex run block cm ka i w line = Ret (1%Z, i, w)) /\
  (forall f label rest p ls size es, asks w line f label rest -> cm = false -> f <> [] -> label <> [] -> locates ex w f p -> stricmp (in_name i) p <> 0%Z ->
     sio_file sio log p = Some (ls, size) -> is_script true ls es -> nonul label -> (forall l, ~ after_label label es l) ->
     pBat_CmdCall sio log ex run block cm ka i w line = Ret (6%Z, i, w)).
Proof.
  intros sio log ex run block cm ka i w line. split; [|split; [|split; [|split]]].
  - intros [B|[-> (r & E & B)]]; unfold pBat_CmdCall.
    + rewrite skip_nil, opt_end; auto.
    + destruct E as (o & L & N & H). apply leads_skip in L. assert (E : extended w (pBat_SkipBlanks line) r) by (exists o; auto).
      destruct (opt_ext w (length (pBat_SkipBlanks line)) [] _ _ [] [] false E) as (o' & ->). apply leads_shorter in L. rewrite opt_end; auto. lia.
  - intros r -> (o & L & N & H). unfold pBat_CmdCall. apply leads_skip in L. cbn [call_options]. rewrite (leads_any _ _ _ _ _ L). cbn [bind].
    assert (E : (stricmp o (s2l "/E") =? 0)%Z = true) by (apply stricmp_name; auto; apply nn_e). rewrite E. reflexivity.
  - intros f rest A -> (PATH & PATHEXT & F1 & F2 & F3). assert (Nf : f <> []) by (destruct (asks_some _ _ _ _ _ A) as [H|H]; [auto|contradiction]).
    unfold pBat_CmdCall. rewrite (asks_ok _ _ _ _ _ false A); auto. cbn [bind].
    destruct f as [|fc fr]; [contradiction|]. rewrite F1. cbn [bind]. rewrite F2. cbn [bind]. rewrite F3. reflexivity.
  - intros f label rest A -> Nf Nl T X1 X2. unfold pBat_CmdCall. rewrite (asks_ok _ _ _ _ _ false A); auto. cbn [bind].
    unfold pBat_CmdCallFile. destruct f as [|fc fr]; [contradiction|]. destruct label; [contradiction|].
    unfold pBat_GetFileFullPath. rewrite T, X1, X2. destruct (PBAT_TEST_ABSOLUTE_PATH (fc :: fr)); reflexivity.
  - intros f label rest p ls size es A -> Nf Nl Lo D F Sc Nn Al. unfold pBat_CmdCall. rewrite (asks_ok _ _ _ _ _ false A); auto. cbn [bind].
    pose proof (full_ok ex w f p Nf Lo) as Fp. destruct f as [|fc fr]; [contradiction|]. destruct label; [contradiction|]. unfold pBat_CmdCallFile. rewrite Fp.
    rewrite (C28_file_missing sio i log _ es p ls size); auto.
Qed.
Print Assumptions C68_errors.

(** "/?" behind the name asks for help instead of being passed to what is called. *)
Theorem C68_help_refuted : forall sio log ex run block cm ka i w line p f label r q rest,
  leads w line p r -> role p f label -> leads w r q rest -> nonul q -> same_name q (s2l "/?") ->
  pBat_CmdCall sio log ex run block cm ka i w line = Ret (vw_err (x_var w), i, w).
Proof.
  intros sio log ex run block cm ka i w line p f label r q rest L R L2 N H. unfold pBat_CmdCall. apply leads_skip in L.
  rewrite (opt_role w _ _ _ _ _ _ _ _ _ _ _ _ L R); auto. apply leads_shorter in L. destruct (length (pBat_SkipBlanks line)) as [|k]; [lia|].
  cbn [call_options]. rewrite (leads_any _ _ _ _ _ L2). cbn [bind]. rewrite andb_false_r.
  assert (E : (stricmp q (s2l "/?") =? 0)%Z = true) by (apply stricmp_name; auto; apply nn_help). rewrite E. reflexivity.
Qed.
Print Assumptions C68_help_refuted.

(** CALL /E with a file and no label loses the first parameter: what is run is the same
    as without /E and without that parameter. *)
Theorem C68_lost_refuted : forall sio log ex run block ka i w line r0 f r1 a rest line',
  extended w line r0 -> leads w r0 f r1 -> role f f [] -> leads w r1 a rest -> role a a [] -> no_help w rest ->
  asks w line' f [] rest ->
  pBat_CmdCall sio log ex run block false ka i w line = pBat_CmdCall sio log ex run block false ka i w line'.
Proof.
  intros sio log ex run block ka i w line r0 f r1 a rest line' (o & L0 & N & H) L1 R1 L2 R2 Nh A. unfold pBat_CmdCall.
  rewrite (asks_ok _ _ _ _ _ false A); auto. apply leads_skip in L0. assert (E : extended w (pBat_SkipBlanks line) r0) by (exists o; auto).
  destruct (opt_ext w (length (pBat_SkipBlanks line)) [] _ _ [] [] false E) as (o' & ->). apply leads_shorter in L0.
  pose proof (leads_shorter _ _ _ _ L1) as X1. pose proof (leads_shorter _ _ _ _ L2) as X2. destruct (length (pBat_SkipBlanks line)) as [|[|k]]; try lia.
  rewrite (opt_role w _ _ _ _ _ _ _ _ _ _ _ _ L1 R1); auto. rewrite (opt_role w _ _ _ _ _ _ _ _ _ _ _ _ L2 R2); auto. rewrite opt_stop; auto; [|lia].
  inversion R1; subst; reflexivity.
Qed.
Print Assumptions C68_lost_refuted.

(** A script that calls itself does not start from its beginning: it goes on at the
    command behind the CALL. *)
Theorem C68_self_refuted : forall sio log ex run block cm ka p ls size n i w line f rest ps text,
  asks w line f [] rest -> cm = false \/ (exists q, leads w line q rest) -> finds ex ka w f (Some p) -> is_batch p -> existing ex p ->
  steady sio p ls size -> i = loaded p ls size n false ->
  written w rest ps -> expands w rest text -> Forall sturdy (skipn 9 ps) ->
  exists w0, begins w w0 p p ps text /\
    forall w', run i w0 = Ret w' ->
      exists w'', pBat_CmdCall sio log ex run block cm ka i w line = Ret (vw_err (x_var w'), i, w'') /\ resumes w w' w''.
Proof.
  intros sio log ex run block cm ka p ls size n i w line f rest ps text A Cm (PATH & PATHEXT & F1 & F2 & F3) (e & (d & dir & nm & Sp) & Ne & Be) X St D W E S.
  assert (Nf : f <> []) by (destruct (asks_some _ _ _ _ _ A) as [H|H]; [auto|contradiction]).
  assert (Np : p <> []) by (apply St).
  destruct (starts_ok sio log ex run i w p [] (Some p) rest ps text i p) as (w0 & B & H); auto.
  { assert (Fp := full_ok ex w p p Np (or_introl (conj X eq_refl))). destruct p; [contradiction|]. eauto. }
  { exists p. subst i. auto. }
  exists w0. split; [subst i; exact B|]. intros w' Rn. destruct (H w' Rn) as (w'' & C & Q). exists w''. split; auto. unfold pBat_CmdCall. rewrite (asks_ok _ _ _ _ _ cm A); auto. cbn [bind].
  destruct f as [|fc fr]; [contradiction|]. rewrite F1. cbn [bind]. rewrite F2. cbn [bind]. rewrite F3. cbn [bind]. rewrite Sp. cbn [bind].
  replace ((stricmp e (s2l ".bat") =? 0)%Z || (stricmp e (s2l ".cmd") =? 0)%Z) with true; [exact C|]. symmetry. apply orb_true_iff.
  destruct Be as [Be|Be]; [left|right]; apply stricmp_name; auto; apply nonul_b; reflexivity.
Qed.
Print Assumptions C68_self_refuted.

(** *** The hypotheses are met *)
Definition ex_names (p : cstr) : bool := existsb (streqb p) [s2l "/s.bat"; s2l "/d/a.CMD"; s2l "/bin/ls"; s2l "/tmp/b.bat"].
Definition ex_files : scriptio :=
  mkSio (fun _ p => if streqb p (s2l "/s.bat") then Some (ex_script, 60%Z) else if ex_names p then Some ([s2l "echo hi" ++ [nl]; s2l ":L" ++ [nl]; s2l "exit /b"], 20%Z) else None) (fun _ => false).
Definition ex_run (j : input) (w : xworld) : outcome xworld :=
  Ret (set_args (mkX (mkVW (vw_env (x_var w)) (s2l "/new") (Z.of_nat (in_curr j)) 42 [] []) (x_ka w) (x_args w) (x_locals w) (x_script w) (x_stat w) (x_cap w) true) (fun _ => None)).
Definition ex_block (w : xworld) (t : cstr) : outcome xworld := if streqb t (s2l "/bin/ls  a b") then Ret w else Undef.
Definition ex_caller : input := loaded (s2l "/s.bat") ex_script 60 3 false.
Definition CALL := pBat_CmdCall ex_files [] ex_names ex_run ex_block false 16 ex_caller ex_w.
Definition back_w (n : Z) : xworld := mkX (mkVW (vw_env (x_var ex_w)) (s2l "/new") n 42 [] []) (x_ka ex_w) (x_args ex_w) (x_locals ex_w) (x_script ex_w) (x_stat ex_w) (x_cap ex_w) true.
Example C68_ex :
  CALL (s2l " :x one two") = Ret (5%Z, ex_caller, back_w 5) /\
  CALL (s2l " /d/a.CMD one") = Ret (3%Z, ex_caller, back_w 3) /\
  CALL (s2l " /e b.bat :l") = Ret (1%Z, ex_caller, back_w 1) /\
  CALL (s2l " /E :l b.bat") = Ret (1%Z, ex_caller, back_w 1) /\
  CALL (s2l " /bin/ls a b") = Ret (3%Z, ex_caller, ex_w) /\
  CALL (s2l " nothing") = Ret (3%Z, ex_caller, ex_w) /\
  CALL (s2l " /e none.bat :l") = Ret (1%Z, ex_caller, ex_w) /\
  CALL (s2l " /e b.bat :m") = Ret (6%Z, ex_caller, ex_w) /\
  CALL (s2l " /d/a.CMD /?") = Ret (3%Z, ex_caller, ex_w) /\
  CALL (s2l " :nolabel") = Undef.
Proof. repeat split; vm_compute; reflexivity. Qed.

Lemma wr_one w v : v <> [] -> (forall c, In c v -> ~ In c (dquote :: blanks ++ s2l "^%!")) -> written w (" "%char :: v) [v].
Proof.
  intros N H. apply written_blank; [apply space_blank|]. rewrite <- (app_nil_r v) at 1. apply written_plain; auto; [intros ? ? X; discriminate|]. constructor. constructor.
Qed.
Ltac calm := intros ? Hc Hb; revert Hc Hb; cbv; intuition (subst; discriminate).
Definition ex_entries : list entry :=
  map Cmd (ex_nl (["a "; "(b"; "c)"; "goto X"; "d"]%string)) ++ [Label (s2l ":x ,y"); Cmd (s2l "e" ++ [nl]); Label (s2l ":x"); Cmd (s2l "f" ++ [nl])].
Example C68_ex_label :
  exists j w0, skipn (in_curr j) (s_cmds (pBat_LoadBatchScript ex_script)) = [s2l "e" ++ [nl]; s2l "f" ++ [nl]] /\
    begins ex_w w0 (s2l "/s.bat") (s2l ":X") [s2l "one"] (s2l " one") /\
    exists w'', CALL (s2l " :X one") = Ret (5%Z, ex_caller, w'') /\ resumes ex_w (match ex_run j w0 with Ret w' => w' | _ => w0 end) w''.
Proof.
  destruct (C68_label ex_files [] ex_names ex_run ex_block 16 (s2l "/s.bat") ex_script 60 3 ex_caller ex_entries ex_w (s2l " :X one") (s2l ":X") (s2l " one") [s2l "one"] (s2l " one")
    [s2l "e" ++ [nl]; s2l "f" ++ [nl]]) as (j & w0 & R & S & B & H).
  - split; [discriminate|reflexivity].
  - left. reflexivity.
  - exact (proj1 C29_ex).
  - apply (as_one _ _ (s2l ":X")); [apply leads_of; vm_compute; reflexivity|apply role_label; apply nonul_b; reflexivity|].
    right. exists (s2l "one"), []. split; [apply leads_of; vm_compute; reflexivity|]. split; [apply nonul_b; reflexivity|discriminate].
  - do 5 apply al_cmd. apply (al_here (s2l ":X") (s2l ":x ,y")). exists (s2l ":x"), (s2l " ,y"). repeat split. right. exists " "%char, (s2l ",y"). split; [reflexivity|apply space_blank].
  - apply nonul_b. reflexivity.
  - apply wr_one; [discriminate|calm].
  - vm_compute. reflexivity.
  - constructor.
  - exists j, w0. split; [exact S|]. split; [exact B|]. destruct (H _ eq_refl) as (w'' & E & Q). exists w''. split; [|exact Q]. change (CALL (s2l " :X one") = Ret (vw_err (x_var (match ex_run j w0 with Ret w' => w' | _ => w0 end)), ex_caller, w'')) in E. rewrite E.
    assert (X : CALL (s2l " :X one") = Ret (5%Z, ex_caller, back_w 5)) by (vm_compute; reflexivity). rewrite X in E. injection E as E _. rewrite E. reflexivity.
Qed.
Lemma ex_finds : finds ex_names 16 ex_w (s2l "/d/a.CMD") (Some (s2l "/d/a.CMD")).
Proof. exists None, None. repeat split; vm_compute; reflexivity. Qed.
Lemma ex_is_batch : is_batch (s2l "/d/a.CMD").
Proof. exists (s2l ".CMD"). split; [eexists _, _, _; vm_compute; reflexivity|]. split; [apply nonul_b; reflexivity|]. right. reflexivity. Qed.
Lemma ex_existing : existing ex_names (s2l "/d/a.CMD").
Proof. repeat split; try (vm_compute; reflexivity). apply Nat.ltb_lt. vm_compute. reflexivity. Qed.
Lemma ex_asks : asks ex_w (s2l " /d/a.CMD one") (s2l "/d/a.CMD") [] (s2l " one").
Proof.
  apply (as_one _ _ (s2l "/d/a.CMD")); [apply leads_of; vm_compute; reflexivity|apply role_file; try discriminate; apply nonul_b; reflexivity|].
  right. exists (s2l "one"), []. split; [apply leads_of; vm_compute; reflexivity|]. split; [apply nonul_b; reflexivity|discriminate].
Qed.
Example C68_ex_file :
  exists j w0, begins ex_w w0 (s2l "/d/a.CMD") (s2l "/d/a.CMD") [s2l "one"] (s2l " one") /\
    exists w'', CALL (s2l " /d/a.CMD one") = Ret (vw_err (x_var w''), ex_caller, w'') /\ resumes ex_w (match ex_run j w0 with Ret w' => w' | _ => w0 end) w''.
Proof.
  destruct (C68_file ex_files [] ex_names ex_run ex_block false 16 (s2l "/d/a.CMD") [s2l "echo hi" ++ [nl]; s2l ":L" ++ [nl]; s2l "exit /b"] 20 ex_caller ex_w (s2l " /d/a.CMD one")
    (s2l "/d/a.CMD") (s2l " one") [s2l "one"] (s2l " one")) as (j & w0 & _ & B & H).
  - apply ex_asks.
  - auto.
  - apply ex_finds.
  - apply ex_is_batch.
  - apply ex_existing.
  - split; [discriminate|reflexivity].
  - discriminate.
  - apply wr_one; [discriminate|calm].
  - vm_compute. reflexivity.
  - constructor.
  - exists j, w0. split; [exact B|]. destruct (H _ eq_refl) as (w'' & E & Q). exists w''. split; [|exact Q]. fold CALL in E. rewrite E. destruct Q as (_ & _ & _ & -> & _). reflexivity.
Qed.
Lemma ex_two : asks ex_w (s2l " /E :l b.bat one") (s2l "b.bat") (s2l ":l") (s2l " one").
Proof.
  apply (as_two _ _ (s2l " :l b.bat one") (s2l ":l") (s2l " b.bat one") (s2l "b.bat")).
  - exists (s2l "/E"). split; [apply leads_of; vm_compute; reflexivity|]. split; [apply nonul_b; reflexivity|reflexivity].
  - apply leads_of; vm_compute; reflexivity.
  - apply leads_of; vm_compute; reflexivity.
  - right. split; [apply role_label; apply nonul_b; reflexivity|apply role_file; try discriminate; apply nonul_b; reflexivity].
  - right. exists (s2l "one"), []. split; [apply leads_of; vm_compute; reflexivity|]. split; [apply nonul_b; reflexivity|discriminate].
Qed.
Lemma ex_locates : locates ex_names ex_w (s2l "b.bat") (s2l "/tmp/b.bat").
Proof. right. repeat split; try (vm_compute; reflexivity). apply Nat.ltb_lt. vm_compute. reflexivity. Qed.
Example C68_ex_extended :
  exists j w0, skipn (in_curr j) (s_cmds (in_script j)) = [s2l "exit /b" ++ [nl]] /\ begins ex_w w0 (s2l "/tmp/b.bat") (s2l ":l") [s2l "one"] (s2l " one").
Proof.
  destruct (C68_extended ex_files [] ex_names ex_run ex_block 16 (s2l "/tmp/b.bat") [s2l "echo hi" ++ [nl]; s2l ":L" ++ [nl]; s2l "exit /b"] 20
    [Cmd (s2l "echo hi" ++ [nl]); Label (s2l ":L"); Cmd (s2l "exit /b" ++ [nl])] ex_caller ex_w (s2l " /E :l b.bat one") (s2l "b.bat") (s2l ":l") (s2l " one")
    [s2l "one"] (s2l " one") [s2l "exit /b" ++ [nl]]) as (j & w0 & J & S & B & H).
  - apply ex_two.
  - discriminate.
  - discriminate.
  - apply ex_locates.
  - reflexivity.
  - vm_compute. discriminate.
  - assert (N : forall c r, ~ In c blanks -> not_blank (c :: r)) by (intros c r X; exists c, r; auto).
    apply is_cons. { apply (il_cmd true [] (s2l "echo hi" ++ [nl])); [constructor|apply N; cbv; intuition discriminate|discriminate|discriminate|cbv; tauto]. }
    apply is_cons. { apply (il_label false [] (s2l "L") [nl]); [constructor|apply all_blank; reflexivity|discriminate|].
      intros u c X. change (s2l "L") with ([] ++ ["L"%char]) in X. apply app_inj_tail in X. destruct X as [_ <-]. cbv. intuition discriminate. }
    apply is_cons. { apply (il_last false [] (s2l "exit /b")); [constructor|apply N; cbv; intuition discriminate|discriminate|discriminate|cbv; intuition discriminate]. }
    constructor.
  - apply nonul_b. reflexivity.
  - apply al_cmd. apply (al_here (s2l ":l") (s2l ":L")). exists (s2l ":L"), []. repeat split. left. reflexivity.
  - apply wr_one; [discriminate|calm].
  - vm_compute. reflexivity.
  - constructor.
  - exists j, w0. split; [|exact B]. rewrite J. exact S.
Qed.
