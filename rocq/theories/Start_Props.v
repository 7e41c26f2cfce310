(** Start_Props.v -- C90: what START runs. *)

From Verif Require Import Base Lex Num_Model StrLib_Model StrLib_Spec Path_Model Path_Spec Env_Model Var_Model LocalVar_Model Expand_Model Expand_Props Args_Model Args_Spec Args_Props
  Args_Proofs Block_Model CmdList_Model CmdList_Spec Stream_Model If_Model Body_Model For_Model Run_Model Script_Model Params_Model Params_Spec Params_Proofs Prompt_Spec Prompt_Proofs
  Set_Spec Call_Model Call_Spec Call_Proofs Copy_Spec Find_Props Start_Model Start_Spec Start_Proofs Set_Props.

(** C90: a program: the options before it decide about waiting, window, directory and title; it
    is found as C36 says, and given its name as written and everything behind it. *)
Theorem C90_program :
  forall ex table pb echo correct ka w line q l p rest file e args cmdline,
    start_asked w no_option line q l -> leads w l p rest -> a_program q l p ->
    pBat_GetCommandProc p table = Ret None -> ~ uri p -> stands_for ex ka w p file ->
    has_extension file e -> nonul e -> ~ same_name e (s2l ".bat") -> ~ same_name e (s2l ".cmd") ->
    gives w l args cmdline ->
    pBat_CmdStart ex table pb echo correct ka w line = Ret (SExec (execution w q file args cmdline), w).
Proof.
  intros ex table pb echo correct ka w line q l p rest file e args cmdline A L P T U F X N E1 E2 G.
  apply (start_file ex table pb echo correct ka w line q l p rest false file l args cmdline A L P); auto.
  rewrite (what_file ex table pb echo correct ka w p l (s_window q) file T U F e X N).
  destruct (is e ".bat" || is e ".cmd") eqn:B; auto. apply batch_b in B; auto. tauto.
Qed.
Print Assumptions C90_program.

(** C90: a batch file is run by another interpreter, that gets the name of the file and everything
    behind it. *)
Theorem C90_script :
  forall ex table pb echo correct ka w line q l p rest file ps t cmdline,
    start_asked w no_option line q l -> leads w l p rest -> a_program q l p ->
    pBat_GetCommandProc p table = Ret None -> ~ uri p -> stands_for ex ka w p file -> is_batch file ->
    simple_name pb -> written w l ps -> Forall (fun v => expands w v v) (pb :: same_state echo correct :: ps) ->
    expands w (pb ++ " "%char :: same_state echo correct ++ " "%char :: l) t -> behind t cmdline ->
    pBat_CmdStart ex table pb echo correct ka w line = Ret (SExec (execution w q pb (pb :: same_state echo correct :: ps) cmdline), w).
Proof.
  intros ex table pb echo correct ka w line q l p rest file ps t cmdline A L P T U F (e & X & N & B) S W E T1 T2.
  assert (I : interpreter pb echo correct ++ s2l " " ++ l = pb ++ " "%char :: same_state echo correct ++ " "%char :: l) by (unfold interpreter, same_state; rewrite <- !app_assoc; reflexivity).
  apply (start_file ex table pb echo correct ka w line q l p rest false pb (interpreter pb echo correct ++ s2l " " ++ l) _ cmdline A L P).
  - rewrite (what_file ex table pb echo correct ka w p l (s_window q) file T U F e X N). apply batch_b in B; auto. rewrite B. reflexivity.
  - split; [|split; [discriminate|split; [exact E|]]].
    + apply written_interpreter; auto. intros c r [= <- _]. apply space_blank. cbn. apply written_blank; auto. apply space_blank.
    + rewrite I. eauto.
Qed.
Print Assumptions C90_script.

(** C90: a built-in command gets another interpreter with /C ... *)
Theorem C90_builtin :
  forall ex table pb echo correct ka w line q l p rest en ps t cmdline,
    start_asked w no_option line q l -> leads w l p rest -> a_program q l p ->
    pBat_GetCommandProc p table = Ret (Some en) -> s_window q = true ->
    simple_name pb -> written w l ps -> Forall (fun v => expands w v v) (pb :: same_state echo correct :: s2l "/C" :: ps) ->
    expands w (pb ++ " "%char :: same_state echo correct ++ s2l " /C " ++ l) t -> behind t cmdline ->
    pBat_CmdStart ex table pb echo correct ka w line = Ret (SExec (execution w q pb (pb :: same_state echo correct :: s2l "/C" :: ps) cmdline), w).
Proof.
  intros ex table pb echo correct ka w line q l p rest en ps t cmdline A L P T Q S W E T1 T2.
  assert (I : interpreter pb echo correct ++ s2l " /C " ++ l = pb ++ " "%char :: same_state echo correct ++ s2l " /C " ++ l) by (unfold interpreter, same_state; rewrite <- !app_assoc; reflexivity).
  apply (start_file ex table pb echo correct ka w line q l p rest false pb (interpreter pb echo correct ++ s2l " /C " ++ l) _ cmdline A L P).
  - unfold start_what. rewrite T, Q. reflexivity.
  - split; [|split; [discriminate|split; [exact E|]]].
    + apply written_interpreter; auto. intros c r [= <- _]. apply space_blank.
      change (s2l " /C " ++ l) with (" "%char :: s2l "/C" ++ " "%char :: l). apply written_blank; [apply space_blank|]. apply written_plain; [discriminate| | |apply written_blank; auto; apply space_blank].
      * intros c [<-|[<-|[]]]; cbn; intros X; repeat (destruct X as [X|X]; [discriminate|]); auto.
      * intros c r [= <- _]. apply space_blank.
    + rewrite I. eauto.
Qed.
Print Assumptions C90_builtin.

(** ... or, with /B, is run by a thread of this one, with everything behind it. *)
Theorem C90_thread :
  forall ex table pb echo correct ka w line q l p rest en args cmdline,
    start_asked w no_option line q l -> leads w l p rest -> a_program q l p ->
    pBat_GetCommandProc p table = Ret (Some en) -> s_window q = false -> gives w l args cmdline ->
    pBat_CmdStart ex table pb echo correct ka w line = Ret (SThread cmdline (s_wait q), w).
Proof.
  intros ex table pb echo correct ka w line q l p rest en args cmdline A L P T Q G.
  apply (start_file ex table pb echo correct ka w line q l p rest true (firstn (FILENAME_MAX - 1) p) l args cmdline A L P); auto.
  unfold start_what. rewrite T, Q. reflexivity.
Qed.
Print Assumptions C90_thread.

(** C90: an URI is left as it is. *)
Theorem C90_uri :
  forall ex table pb echo correct ka w line q l p rest args cmdline,
    start_asked w no_option line q l -> leads w l p rest -> a_program q l p ->
    pBat_GetCommandProc p table = Ret None -> uri p -> length p < FILENAME_MAX -> gives w l args cmdline ->
    pBat_CmdStart ex table pb echo correct ka w line = Ret (SExec (execution w q p args cmdline), w).
Proof.
  intros ex table pb echo correct ka w line q l p rest args cmdline A L P T U N G.
  apply (start_file ex table pb echo correct ka w line q l p rest false p l args cmdline A L P); auto.
  unfold start_what. rewrite T. cbn [bind]. apply uri_b in U. rewrite U. rewrite firstn_all2 by lia. reflexivity.
Qed.
Print Assumptions C90_uri.

(** C90: with a title and nothing to run, another interpreter is run; without, it is an error. *)
Theorem C90_nothing :
  forall ex table pb echo correct ka w line q l,
    start_asked w no_option line q l -> Forall blank l ->
    (s_title q = None -> pBat_CmdStart ex table pb echo correct ka w line = Ret (SFail 8, w)) /\
    (s_title q <> None -> simple_name pb -> Forall (fun v => expands w v v) [pb; same_state echo correct] ->
     forall t cmdline, expands w (pb ++ " "%char :: same_state echo correct) t -> behind t cmdline ->
     pBat_CmdStart ex table pb echo correct ka w line = Ret (SExec (execution w q pb [pb; same_state echo correct] cmdline), w)).
Proof.
  intros ex table pb echo correct ka w line q l A B.
  assert (X : start_params ex table pb echo correct ka (S (length line)) w [] line false true None None = Ret (GNone, s_wait q, s_window q, s_dir q, s_title q, w)).
  { destruct (asked_ok ex table pb echo correct ka _ _ _ _ _ A (S (length line)) []) as (fuel & old & F & E); [lia|].
    cbn [no_option s_wait s_window s_dir s_title] in E. rewrite E. apply params_end; auto. lia. }
  unfold pBat_CmdStart. rewrite X. cbn [bind]. split.
  - intros ->. reflexivity.
  - intros N S E t cmdline T1 T2. destruct (s_title q) as [ti|] eqn:Ti; [|congruence].
    rewrite (run_ok ex w false pb _ _ _ _ _ [pb; same_state echo correct] cmdline).
    + unfold execution. rewrite Ti. reflexivity.
    + split; [|split; [discriminate|split; [exact E|]]].
      * rewrite <- (app_nil_r (interpreter _ _ _)). apply written_interpreter; auto; [intros c r [=]|constructor; constructor].
      * exists t. split; auto.
Qed.
Print Assumptions C90_nothing.

(** C90: /? asks for the help; a second /D, or one without a directory, are errors. *)
Theorem C90_errors :
  forall ex table pb echo correct ka w line q l p rest,
    start_asked w no_option line q l -> leads w l p rest ->
    (one_of p ["/?"]%string -> pBat_CmdStart ex table pb echo correct ka w line = Ret (SHelp, w)) /\
    (one_of p ["/d"]%string -> s_dir q <> None -> pBat_CmdStart ex table pb echo correct ka w line = Ret (SFail 4, w)) /\
    (one_of p ["/d"]%string -> s_dir q = None -> Forall blank rest -> pBat_CmdStart ex table pb echo correct ka w line = Ret (SFail 8, w)) /\
    (one_of p ["/node"; "/affinity"]%string -> Forall blank rest -> pBat_CmdStart ex table pb echo correct ka w line = Undef).
Proof.
  intros ex table pb echo correct ka w line q l p rest A L. unfold pBat_CmdStart.
  destruct (asked_ok ex table pb echo correct ka _ _ _ _ _ A (S (length line)) []) as (fuel & old & F & E); [lia|].
  cbn [no_option s_wait s_window s_dir s_title] in E. rewrite E. clear E. destruct fuel as [|fuel]; [lia|]. cbn [start_params].
  rewrite (leads_any _ _ _ _ _ L). cbn [bind]. split; [|split; [|split]].
  - intros O. kinds O. opts p "/?"%string O. reflexivity.
  - intros O D. kinds O. opts p "/d"%string O. destruct (s_dir q); [reflexivity|congruence].
  - intros O D B. kinds O. opts p "/d"%string O. rewrite D, next_end by auto. reflexivity.
  - intros O B. kinds O; [opts p "/node"%string O|opts p "/affinity"%string O]; rewrite next_end by auto; reflexivity.
Qed.
Print Assumptions C90_errors.

(** no option, no double quote, a text behind a blank *)
Ltac no_option := let o := fresh in let I := fresh in let X := fresh in intros (o & I & _ & X); cbn [In app ignored] in I; repeat (destruct I as [<-|I]; [discriminate X|]); destruct I.
Ltac no_quote := let Q := fresh in intros Q; apply quoted_b in Q; vm_compute in Q; discriminate Q.
Ltac behind_space := eexists [_]; split; [reflexivity|]; split; [repeat constructor; left; reflexivity|]; let c := fresh in let r := fresh in let E := fresh in intros c r [= <- <-] E; cbv in E; intuition discriminate.
Definition ex_there (p : cstr) : bool := existsb (fun q => streqb p (s2l q)) ["/tmp/prog"; "/tmp/a.bat"; "/tmp/echotool"]%string.
Definition START := pBat_CmdStart ex_there builtin_table (s2l "/usr/bin/pbat") false true 16 ex_w.

(** C90, what does not hold: that a file can be started whatever its name; one whose name begins
    with ECHO is taken for the command. *)
Theorem C90_name_refuted :
  ~ (forall ex table pb echo correct ka w line p rest file args cmdline,
      leads w line p rest -> a_program no_option line p ->
      ~ (exists en, In en (CmdList_Spec.entries table) /\ same_name p (e_name en)) -> ~ uri p -> stands_for ex ka w p file -> ex file = true -> has_extension file [] ->
      gives w line args cmdline ->
      pBat_CmdStart ex table pb echo correct ka w line = Ret (SExec (execution w no_option file args cmdline), w)).
Proof.
  intros H.
  assert (X := H ex_there builtin_table (s2l "/usr/bin/pbat") false true 16%Z ex_w (s2l " echotool") (s2l "echotool") [] (s2l "/tmp/echotool") [s2l "echotool"] (s2l "echotool")).
  assert (Y : START (s2l " echotool") = Ret (SExec (execution ex_w no_option (s2l "/tmp/echotool") [s2l "echotool"] (s2l "echotool")), ex_w)).
  { apply X; clear X H.
    - apply leads_of. vm_compute. reflexivity.
    - split; [apply nonul_b; reflexivity|]. split; [no_option|no_quote].
    - intros (en & I & E). cbv in I. repeat (destruct I as [<-|I]; [discriminate E|]). destruct I.
    - intros [I _]. cbn in I. repeat (destruct I as [I|I]; [discriminate I|]). destruct I.
    - exists (Some (s2l "/tmp/echotool")). split; auto. exists None, None. repeat split; vm_compute; reflexivity.
    - reflexivity.
    - eexists _, _, _. vm_compute. reflexivity.
    - split; [do 1 lw; do 2 constructor|]. split; [discriminate|]. split; [repeat (constructor; [vm_compute; reflexivity|]); constructor|].
      exists (s2l " echotool"). split; [vm_compute; reflexivity|]. behind_space. }
  vm_compute in Y. discriminate Y.
Qed.
Print Assumptions C90_name_refuted.

(** C90, what does not hold: that the interpreter is found wherever it is; the name of its file is
    split at blanks. *)
Theorem C90_blank_refuted :
  ~ (forall ex table pb echo correct ka w line q l,
      start_asked w no_option line q l -> Forall blank l -> s_title q <> None -> nonul pb -> pb <> [] -> (forall c, In c pb -> ~ In c (dquote :: s2l "^%!")) ->
      exists cmdline, pBat_CmdStart ex table pb echo correct ka w line = Ret (SExec (execution w q pb [pb; same_state echo correct] cmdline), w)).
Proof.
  intros H.
  destruct (H ex_there builtin_table (s2l "/my bin/pbat") false true 16%Z ex_w (s2l " ""t""") (mkS false true None (Some (s2l "t"))) []) as (c & X).
  - apply (sa_title ex_w no_option (s2l " ""t""") (s2l "t") []); [apply leads_of; vm_compute; reflexivity| |apply sa_end].
    split; [apply nonul_b; reflexivity|]. split; [no_option|]. split; [|reflexivity]. apply quoted_b. vm_compute. reflexivity.
  - constructor.
  - discriminate.
  - apply nonul_b. reflexivity.
  - discriminate.
  - intros a I J. cbn in I, J. repeat (destruct I as [<-|I]; [repeat (destruct J as [J|J]; [discriminate J|]); destruct J|]). destruct I.
  - vm_compute in X. discriminate X.
Qed.
Print Assumptions C90_blank_refuted.

(** start "a title" /W /node 1 /D x prog a "b c" /b *)
Definition ex_line : cstr := s2l " ""a title"" /W /node 1 /D x prog a ""b c"" /b".
Definition ex_q : srequest := mkS true true (Some (s2l "/tmp/x")) (Some (s2l "a title")).
Example C90_ex_program :
  START ex_line = Ret (SExec (mkE (Some (s2l "a title")) (s2l "/tmp/x") (s2l "/tmp/prog") [s2l "prog"; s2l "a"; s2l "b c"; s2l "/b"] (s2l "prog a ""b c"" /b") true true), ex_w) /\
  exists l p rest file e args cmdline,
    start_asked ex_w no_option ex_line ex_q l /\ leads ex_w l p rest /\ a_program ex_q l p /\
    pBat_GetCommandProc p builtin_table = Ret None /\ ~ uri p /\ stands_for ex_there 16 ex_w p file /\
    has_extension file e /\ nonul e /\ ~ same_name e (s2l ".bat") /\ ~ same_name e (s2l ".cmd") /\ gives ex_w l args cmdline.
Proof.
  split; [vm_compute; reflexivity|].
  exists (s2l " prog a ""b c"" /b"), (s2l "prog"), (s2l " a ""b c"" /b"), (s2l "/tmp/prog"), [], [s2l "prog"; s2l "a"; s2l "b c"; s2l "/b"], (s2l "prog a ""b c"" /b").
  split.
  { eapply sa_title; [apply leads_of; vm_compute; reflexivity| |].
    { split; [apply nonul_b; reflexivity|]. split; [no_option|]. split; [|reflexivity]. apply quoted_b. vm_compute. reflexivity. }
    eapply sa_wait; [apply leads_of; vm_compute; reflexivity|exists "/w"%string; split; [cbn; tauto|split; [apply nonul_b; reflexivity|reflexivity]]|].
    eapply sa_ignored_two; [apply leads_of; vm_compute; reflexivity|exists "/node"%string; split; [cbn; tauto|split; [apply nonul_b; reflexivity|reflexivity]]|apply leads_of; vm_compute; reflexivity|].
    eapply (sa_dir _ _ _ _ _ _ _ (s2l "/tmp/x")); [apply leads_of; vm_compute; reflexivity|exists "/d"%string; split; [cbn; tauto|split; [apply nonul_b; reflexivity|reflexivity]]|reflexivity|apply leads_of; vm_compute; reflexivity| |apply sa_end].
    split; [apply nonul_b; reflexivity|]. split; [split; intros y Y; cbn in Y; intuition (subst; discriminate)|]. split; [right; split; [intros (r & X & _); discriminate X|reflexivity]|].
    apply Nat.ltb_lt. vm_compute. reflexivity. }
  split; [apply leads_of; vm_compute; reflexivity|].
  split; [split; [apply nonul_b; reflexivity|]; split; [no_option|discriminate]|].
  split; [vm_compute; reflexivity|].
  split; [intros [I _]; cbn in I; repeat (destruct I as [I|I]; [discriminate I|]); destruct I|].
  split; [exists (Some (s2l "/tmp/prog")); split; auto; exists None, None; repeat split; vm_compute; reflexivity|].
  split; [eexists _, _, _; vm_compute; reflexivity|]. split; [apply nonul_b; reflexivity|]. split; [discriminate|]. split; [discriminate|].
  split; [do 4 lw; do 2 constructor|]. split; [discriminate|]. split; [repeat (constructor; [vm_compute; reflexivity|]); constructor|].
  exists (s2l " prog a ""b c"" /b"). split; [vm_compute; reflexivity|]. behind_space.
Qed.

(** start a.bat x *)
Example C90_ex_script :
  START (s2l " a.bat x") = Ret (SExec (execution ex_w no_option (s2l "/usr/bin/pbat") [s2l "/usr/bin/pbat"; s2l "/a:qec"; s2l "a.bat"; s2l "x"] (s2l "/usr/bin/pbat /a:qec  a.bat x")), ex_w).
Proof.
  apply (C90_script ex_there builtin_table (s2l "/usr/bin/pbat") false true 16%Z ex_w (s2l " a.bat x") no_option (s2l " a.bat x") (s2l "a.bat") (s2l " x") (s2l "/tmp/a.bat") [s2l "a.bat"; s2l "x"] (s2l "/usr/bin/pbat /a:qec  a.bat x")).
  - apply sa_end.
  - apply leads_of. vm_compute. reflexivity.
  - split; [apply nonul_b; reflexivity|]. split; [no_option|no_quote].
  - vm_compute. reflexivity.
  - intros [I _]. cbn in I. repeat (destruct I as [I|I]; [discriminate I|]). destruct I.
  - exists (Some (s2l "/tmp/a.bat")). split; auto. exists None, None. repeat split; vm_compute; reflexivity.
  - exists (s2l ".bat"). split; [eexists _, _, _; vm_compute; reflexivity|]. split; [apply nonul_b; reflexivity|]. left. reflexivity.
  - split; [discriminate|]. intros c I J. cbn in I, J. repeat (destruct I as [<-|I]; [repeat (destruct J as [J|J]; [discriminate J|]); destruct J|]). destruct I.
  - do 2 lw. do 2 constructor.
  - repeat (constructor; [vm_compute; reflexivity|]). constructor.
  - vm_compute. reflexivity.
  - exists []. split; [reflexivity|]. split; [constructor|]. intros c r [= <- <-] E. cbv in E. intuition discriminate.
Qed.

Example C90_ex :
  START (s2l " a.bat x y") = Ret (SExec (mkE None (s2l "/tmp") (s2l "/usr/bin/pbat") [s2l "/usr/bin/pbat"; s2l "/a:qec"; s2l "a.bat"; s2l "x"; s2l "y"] (s2l "/usr/bin/pbat /a:qec  a.bat x y") false true), ex_w) /\
  START (s2l " echo x y") = Ret (SExec (mkE None (s2l "/tmp") (s2l "/usr/bin/pbat") [s2l "/usr/bin/pbat"; s2l "/a:qec"; s2l "/C"; s2l "echo"; s2l "x"; s2l "y"] (s2l "/usr/bin/pbat /a:qec /C  echo x y") false true), ex_w) /\
  START (s2l " /b /wait echo x  y") = Ret (SThread (s2l "echo x  y") true, ex_w) /\
  START (s2l " http://x y") = Ret (SExec (mkE None (s2l "/tmp") (s2l "http://x") [s2l "http://x"; s2l "y"] (s2l "http://x y") false true), ex_w) /\
  START (s2l " ""t""") = Ret (SExec (mkE (Some (s2l "t")) (s2l "/tmp") (s2l "/usr/bin/pbat") [s2l "/usr/bin/pbat"; s2l "/a:qec"] (s2l "/usr/bin/pbat /a:qec") false true), ex_w) /\
  START (s2l " ""t"" ""/tmp/prog""") = Ret (SExec (mkE (Some (s2l "t")) (s2l "/tmp") (s2l "/tmp/prog") [s2l "/tmp/prog"] (s2l """/tmp/prog""") false true), ex_w) /\
  START (s2l " /b") = Ret (SFail 8, ex_w) /\ START (s2l " /d a /D b prog") = Ret (SFail 4, ex_w) /\ START (s2l " /w /d") = Ret (SFail 8, ex_w) /\
  START (s2l " /high /?") = Ret (SHelp, ex_w) /\ START (s2l " /node") = Undef.
Proof. vm_compute. repeat split. Qed.
