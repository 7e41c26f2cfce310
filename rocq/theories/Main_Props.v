(** Main_Props.v -- C91: the command line of the interpreter. *)

From Verif Require Import Base Lex Num_Model StrLib_Model StrLib_Spec Path_Model Env_Model Var_Model LocalVar_Model Expand_Model Args_Model Args_Spec Args_Props Args_Proofs Block_Model CmdList_Model
  Params_Model Params_Spec Params_Proofs Prompt_Spec Prompt_Proofs Set_Spec Set_Props Call_Spec Find_Props Start_Model Start_Spec Start_Proofs Start_Props Main_Model Main_Spec Main_Proofs.

Definition or_empty (v : option cstr) : cstr := match v with Some v => v | None => [] end.

(** C91: a script is run with the parameters behind its name, whatever they look like. *)
Theorem C91_script :
  forall var ex cur PATH PATHEXT argv q rest file args p,
    told (or_empty var) nothing_asked argv q rest -> names_script rest file args ->
    pBat_GetFilePath ex cur PATH PATHEXT file FILENAME_MAX = Ret (Some p) -> p <> [] ->
    exists b t, main var ex cur PATH PATHEXT argv = Ret (LRun (tasks q (Batch p)) (a_modes q) (a_quiet q) b) /\
      b "*"%char = Some t /\ (Forall sturdy args -> forall w, written w t args) /\
      (Forall sturdy (skipn 9 args) -> forall w, holds (set_args w b) (p :: args)).
Proof.
  intros var ex cur PATH PATHEXT argv q rest file args p T N F Np. rewrite (main_told _ _ _ _ _ _ _ _ T), (script_step _ _ _ _ _ _ _ _ N).
  destruct (script_holds args) as (all & b & E1 & E2 & H). rewrite E1. cbn [bind]. rewrite E2. cbn [bind].
  assert (Nf : file <> []) by (inversion N; auto). destruct file as [|f0 fr]; [congruence|]. rewrite F. cbn [bind]. destruct p as [|p0 pr]; [congruence|].
  specialize (H (p0 :: pr)). cbn zeta in H. rewrite tasks_eq. eexists _, all. split; [reflexivity|]. exact H.
Qed.
Print Assumptions C91_script.

(** C91: a script that is not found is an error, and nothing is run. *)
Theorem C91_missing :
  forall var ex cur PATH PATHEXT argv q rest file args,
    told (or_empty var) nothing_asked argv q rest -> names_script rest file args ->
    pBat_GetFilePath ex cur PATH PATHEXT file FILENAME_MAX = Ret None ->
    main var ex cur PATH PATHEXT argv = Ret (LFail 1).
Proof.
  intros var ex cur PATH PATHEXT argv q rest file args T N F. rewrite (main_told _ _ _ _ _ _ _ _ T), (script_step _ _ _ _ _ _ _ _ N).
  destruct (script_holds args) as (all & b & E1 & E2 & H). rewrite E1. cbn [bind]. rewrite E2. cbn [bind].
  assert (Nf : file <> []) by (inversion N; auto). destruct file as [|f0 fr]; [congruence|]. rewrite F. reflexivity.
Qed.
Print Assumptions C91_missing.

(** C91: without a script, the lines of the standard input are run; %0 ... %9 are empty. *)
Theorem C91_prompt :
  forall var ex cur PATH PATHEXT argv q,
    told (or_empty var) nothing_asked argv q [] ->
    exists b, main var ex cur PATH PATHEXT argv = Ret (LRun (tasks q Prompt) (a_modes q) (a_quiet q) b) /\ forall w, holds (set_args w b) [].
Proof.
  intros var ex cur PATH PATHEXT argv q T. rewrite (main_told _ _ _ _ _ _ _ _ T). cbn [get_parameters bind]. rewrite tasks_eq. eexists. split; [reflexivity|].
  intros w. destruct (block_empty_ok (10 - 0) 0 pBat_GetLocalBlock) as (E1 & E2); [lia|]. split.
  - intros i c D. apply digit_iff in D. destruct D as (Li & ->). cbn [set_args x_args]. rewrite set_local by reflexivity. change "0"%char with (dchar 0). rewrite ceq_digit by lia.
    destruct (Nat.eqb_spec i 0) as [->|Ni]; [reflexivity|]. rewrite E1 by lia. destruct (Nat.leb_spec 0 i), (Nat.ltb_spec i (0 + (10 - 0))); try lia. destruct i; reflexivity.
  - exists []. cbn [set_args x_args]. split; [|constructor; constructor]. rewrite set_local by reflexivity. change (ceq "+" "0") with false. cbn iota. rewrite E2 by apply plus_not_digit. reflexivity.
Qed.
Print Assumptions C91_prompt.

(** C91: /C runs the words behind it as one line, and /K goes on with the standard input then. *)
Theorem C91_command :
  forall var ex cur PATH PATHEXT argv q a c r words,
    told (or_empty var) nothing_asked argv q (a :: words) -> is_switch a c r -> c = "c"%char \/ c = "k"%char -> a_cmd q = None ->
    words <> [] -> hd [] words <> s2l "@" ->
    exists t b, main var ex cur PATH PATHEXT argv = Ret (LRun (if ceq c "k"%char || a_stay q then [Line t; Prompt] else [Line t]) (a_modes q) (a_quiet q) b) /\
      (Forall sound words -> forall w, written w t words).
Proof.
  intros var ex cur PATH PATHEXT argv q a c r words T S C N W A. rewrite (main_told _ _ _ _ _ _ _ _ T), (switch_step _ _ _ _ _ _ _ _ _ _ _ S), N.
  destruct words as [|x words]; [congruence|]. cbn [hd] in A. apply streqb_false in A. exists (join (x :: words)).
  destruct C as [->| ->]; rewrite A; cbn [ceq]; eexists; (split; [|intros F w; apply join_written; auto]).
  - change (ceq "c" "a") with false. change (ceq "c" "k") with false. change (ceq "c" "c") with true. cbn [orb bind]. destruct (a_stay q); reflexivity.
  - change (ceq "k" "a") with false. change (ceq "k" "k") with true. cbn [orb bind]. reflexivity.
Qed.
Print Assumptions C91_command.

(** C91: /?, and what is an error; a switch that there is not makes the message print NULL. *)
Theorem C91_errors :
  forall var ex cur PATH PATHEXT argv q a c r rest,
    told (or_empty var) nothing_asked argv q (a :: rest) -> is_switch a c r ->
    (c = "?"%char -> main var ex cur PATH PATHEXT argv = Ret LHelp) /\
    (c = "c"%char \/ c = "k"%char -> a_cmd q <> None \/ rest = [] -> main var ex cur PATH PATHEXT argv = Ret (LFail 5)) /\
    (~ In c (s2l "ack?/") -> main var ex cur PATH PATHEXT argv = Undef).
Proof.
  intros var ex cur PATH PATHEXT argv q a c r rest T S. rewrite (main_told _ _ _ _ _ _ _ _ T), (switch_step _ _ _ _ _ _ _ _ _ _ _ S). split; [|split].
  - intros ->. reflexivity.
  - intros C E. destruct C as [->| ->]; destruct (a_cmd q), rest; try reflexivity; intuition congruence.
  - intros N. assert (X : forall k, In k (s2l "ack?/") -> ceq c k = false) by (intros k I; apply not_true_iff_false; intros E; apply ceq_true in E; subst; auto).
    rewrite !X by (cbn; tauto). reflexivity.
Qed.
Print Assumptions C91_errors.

(** *** What START hands to another interpreter (C90) *)
Lemma told_state var echo correct rest :
  told var nothing_asked (same_state echo correct :: rest) (mkA (mkM true echo correct) true None false) rest.
Proof.
  apply (to_modes var nothing_asked (same_state echo correct) (skipn 2 (same_state echo correct)) (skipn 3 (same_state echo correct)) rest (mkM true echo correct) true); [| | | | | |apply to_end].
  - exists "a"%char. split; destruct echo, correct; reflexivity.
  - left. destruct echo, correct; reflexivity.
  - cbn. split; auto.
  - cbn. split; [|intros [_ H]]; destruct echo, correct; try discriminate; auto.
    1, 2: intros _; split; auto; intros (k & I & E); cbn in I; repeat (destruct I as [<-|I]; [discriminate E|]); destruct I.
    1, 2: exfalso; apply H; exists "e"%char; split; [cbn; tauto|reflexivity].
  - cbn. split; [|intros [H|(k & I & E)]]; try discriminate; destruct echo, correct; try discriminate; auto.
    1, 2: intros _; right; exists "c"%char; split; [cbn; tauto|reflexivity].
    all: cbn in I; repeat (destruct I as [<-|I]; [discriminate E|]); destruct I.
  - cbn. split; auto. intros _. exists "q"%char. split; [destruct echo, correct; cbn; tauto|reflexivity].
Qed.

(** C91 with C90: START of a batch file by a name that does not begin with a slash makes another
    interpreter run the script that it finds by that name in the directory where it starts, with
    the same parameters, and with echo as here. *)
Theorem C91_started_script :
  forall ex table pb echo correct ka w line q l p rest file ps t cmdline PATH PATHEXT p',
    start_asked w no_option line q l -> leads w l p rest -> a_program q l p ->
    pBat_GetCommandProc p table = Ret None -> ~ uri p -> stands_for ex ka w p file -> is_batch file ->
    simple_name pb -> written w l (p :: ps) -> Forall (fun v => expands w v v) (pb :: same_state echo correct :: p :: ps) ->
    expands w (pb ++ " "%char :: same_state echo correct ++ " "%char :: l) t -> behind t cmdline ->
    p <> [] -> (forall r, p <> "/"%char :: r) -> p' <> [] -> Forall sturdy (skipn 9 ps) ->
    pBat_GetFilePath ex (match s_dir q with Some d => d | None => vw_cd (x_var w) end) PATH PATHEXT p FILENAME_MAX = Ret (Some p') ->
    exists e b, pBat_CmdStart ex table pb echo correct ka w line = Ret (SExec e, w) /\ x_file e = pb /\
      main None ex (x_dir e) PATH PATHEXT (tl (x_argv e)) = Ret (LRun [Batch p'] (mkM true echo correct) true b) /\
      forall w', holds (set_args w' b) (p' :: ps).
Proof.
  intros ex table pb echo correct ka w line q l p rest file ps t cmdline PATH PATHEXT p' A L P T U F B S W E T1 T2 Np Sl Np' St G.
  destruct (C91_script None ex (match s_dir q with Some d => d | None => vw_cd (x_var w) end) PATH PATHEXT (same_state echo correct :: p :: ps) _ (p :: ps) p ps p'
    (told_state _ echo correct (p :: ps)) (ns_plain p ps Np Sl) G Np') as (b & t' & M & _ & _ & H).
  eexists _, b. split; [eapply C90_script; eauto|]. split; [reflexivity|]. split; [exact M|]. auto.
Qed.
Print Assumptions C91_started_script.

(** C91 with C90: START of a built-in command makes another interpreter run it, with the same
    parameters. *)
Theorem C91_started_command :
  forall ex table pb echo correct ka w line q l p rest en ps t cmdline PATH PATHEXT,
    start_asked w no_option line q l -> leads w l p rest -> a_program q l p ->
    pBat_GetCommandProc p table = Ret (Some en) -> s_window q = true ->
    simple_name pb -> written w l (p :: ps) -> Forall (fun v => expands w v v) (pb :: same_state echo correct :: s2l "/C" :: p :: ps) ->
    expands w (pb ++ " "%char :: same_state echo correct ++ s2l " /C " ++ l) t -> behind t cmdline ->
    p <> s2l "@" -> Forall sound (p :: ps) ->
    exists e b t', pBat_CmdStart ex table pb echo correct ka w line = Ret (SExec e, w) /\ x_file e = pb /\
      main None ex (x_dir e) PATH PATHEXT (tl (x_argv e)) = Ret (LRun [Line t'] (mkM true echo correct) true b) /\
      forall w', written w' t' (p :: ps).
Proof.
  intros ex table pb echo correct ka w line q l p rest en ps t cmdline PATH PATHEXT A L P T Q S W E T1 T2 Np So.
  destruct (C91_command None ex (match s_dir q with Some d => d | None => vw_cd (x_var w) end) PATH PATHEXT (same_state echo correct :: s2l "/C" :: p :: ps) _ (s2l "/C") "c"%char [] (p :: ps)
    (told_state _ echo correct (s2l "/C" :: p :: ps))) as (t' & b & M & H); auto; try discriminate.
  { exists "C"%char. split; reflexivity. }
  eexists _, b, t'. split; [eapply C90_builtin; eauto|]. split; [reflexivity|]. split; [exact M|]. auto.
Qed.
Print Assumptions C91_started_command.

(** C91, what does not hold: that a script can be given by its absolute name. *)
Theorem C91_absolute_refuted :
  ~ (forall var ex cur PATH PATHEXT p, PBAT_TEST_ABSOLUTE_PATH p = true -> ex p = true ->
      pBat_GetFilePath ex cur PATH PATHEXT p FILENAME_MAX = Ret (Some p) ->
      exists m quiet b, main var ex cur PATH PATHEXT [p] = Ret (LRun [Batch p] m quiet b)).
Proof.
  intros H. destruct (H None (fun _ => true) (s2l "/tmp") None None (s2l "/usr/a.bat")) as (m & quiet & b & X); try (vm_compute; reflexivity).
  vm_compute in X. discriminate X.
Qed.
Print Assumptions C91_absolute_refuted.

(** C91 with C90, what does not hold: that START of an existing batch file runs it. *)
Theorem C91_started_absolute_refuted :
  ~ (forall ex table pb echo correct ka w line p rest PATH PATHEXT e, simple_name pb ->
      leads w line p rest -> a_program no_option line p -> stands_for ex ka w p p -> ex p = true -> is_batch p -> x_delayed w = false ->
      pBat_CmdStart ex table pb echo correct ka w line = Ret (SExec e, w) ->
      exists m quiet b, main None ex (x_dir e) PATH PATHEXT (tl (x_argv e)) = Ret (LRun [Batch p] m quiet b)).
Proof.
  intros H. set (ex := fun p => streqb p (s2l "/usr/a.bat")).
  destruct (pBat_CmdStart ex builtin_table (s2l "pbat") true false 16 ex_w (s2l " /usr/a.bat")) as [[r w']| |] eqn:E; [|vm_compute in E; discriminate E..].
  assert (X : r = SExec (mkE None (s2l "/tmp") (s2l "pbat") [s2l "pbat"; s2l "/a:q"; s2l "/usr/a.bat"] (s2l "pbat /a:q  /usr/a.bat") false true) /\ w' = ex_w) by (vm_compute in E; injection E as <- <-; split; reflexivity).
  destruct X as [-> ->].
  destruct (H ex builtin_table (s2l "pbat") true false 16%Z ex_w (s2l " /usr/a.bat") (s2l "/usr/a.bat") [] None None (mkE None (s2l "/tmp") (s2l "pbat") [s2l "pbat"; s2l "/a:q"; s2l "/usr/a.bat"] (s2l "pbat /a:q  /usr/a.bat") false true)) as (m & quiet & b & X).
  - split; [discriminate|]. intros c I J. cbn in I, J. repeat (destruct I as [<-|I]; [repeat (destruct J as [J|J]; [discriminate J|]); destruct J|]). destruct I.
  - apply leads_of. vm_compute. reflexivity.
  - split; [apply nonul_b; reflexivity|]. split; [no_option|no_quote].
  - exists (Some (s2l "/usr/a.bat")). split; auto. exists None, None. repeat split; vm_compute; reflexivity.
  - reflexivity.
  - exists (s2l ".bat"). split; [eexists _, _, _; vm_compute; reflexivity|]. split; [apply nonul_b; reflexivity|]. left. reflexivity.
  - reflexivity.
  - exact E.
  - vm_compute in X. discriminate X.
Qed.
Print Assumptions C91_started_absolute_refuted.

(** C91, what does not hold: that the words behind /C are the parameters; a comma cuts them. *)
Theorem C91_comma_refuted :
  ~ (forall var ex cur PATH PATHEXT words t m quiet b w,
      main var ex cur PATH PATHEXT (s2l "/C" :: words) = Ret (LRun [Line t] m quiet b) ->
      Forall (fun v => v <> [] /\ forall c, In c v -> ~ In c (dquote :: s2l "^%!")) words -> pBat_GetParamList w t = Ret (words, w)).
Proof.
  intros H. assert (X := H None (fun _ => false) [] None None [s2l "echo"; s2l "a,b"] (s2l "echo a,b ") first_modes false _ ex_w eq_refl).
  assert (Y : pBat_GetParamList ex_w (s2l "echo a,b ") = Ret ([s2l "echo"; s2l "a,b"], ex_w)).
  { apply X. repeat constructor; try discriminate; intros c I J; cbn in I, J; repeat (destruct I as [<-|I]; [repeat (destruct J as [J|J]; [discriminate J|]); destruct J|]); destruct I. }
  vm_compute in Y. discriminate Y.
Qed.
Print Assumptions C91_comma_refuted.

Definition MAIN argv := match main (Some (s2l "ver")) (fun p => streqb p (s2l "/d/a.bat")) (s2l "/d") None None (map s2l argv) with
  Ret (LRun l m q b) => Ret (l, m, q, map b (s2l "0123")) | Ret LHelp => Ret ([], first_modes, false, []) | Ret (LFail e) => Ret ([], first_modes, true, []) | Undef => Undef | OutOfFuel => OutOfFuel end.
Example C91_ex :
  MAIN ["/a:QE"; "a.bat"; "/c"; "x y"]%string = Ret ([Batch (s2l "/d/a.bat")], mkM true false false, true, [Some (s2l "/d/a.bat"); Some (s2l "/c"); Some (s2l "x y"); Some []]) /\
  MAIN ["/aqc"; "/A"; "//"; "/d/a.bat"]%string = Ret ([Batch (s2l "/d/a.bat")], mkM true true true, false, [Some (s2l "/d/a.bat"); Some []; Some []; Some []]) /\
  MAIN ["/c"; "echo"; "a b"; "c"]%string = Ret ([Line (s2l "echo ""a b"" c ")], first_modes, false, [Some []; Some []; Some []; Some []]) /\
  MAIN ["/K"; "dir"]%string = Ret ([Line (s2l "dir "); Prompt], first_modes, false, [Some []; Some []; Some []; Some []]) /\
  MAIN ["/k"; "@"; "a.bat"; "1"]%string = Ret ([Line (s2l "ver"); Batch (s2l "/d/a.bat")], first_modes, false, [Some (s2l "/d/a.bat"); Some (s2l "1"); Some []; Some []]) /\
  MAIN []%string = Ret ([Prompt], first_modes, false, [Some []; Some []; Some []; Some []]) /\
  MAIN ["/c"; "@"; "/c"; "x"]%string = Ret ([], first_modes, true, []) /\ MAIN ["b.bat"]%string = Ret ([], first_modes, true, []) /\
  MAIN ["/c/a.bat"; "echo"]%string = Ret ([Line (s2l "echo ")], first_modes, false, [Some []; Some []; Some []; Some []]) /\
  MAIN ["/d/a.bat"]%string = Undef.
Proof. vm_compute. repeat split. Qed.

(** start a.bat x *)
Example C91_ex_started : exists e b, START (s2l " a.bat x") = Ret (SExec e, ex_w) /\ x_file e = s2l "/usr/bin/pbat" /\
  main None ex_there (x_dir e) None None (tl (x_argv e)) = Ret (LRun [Batch (s2l "/tmp/a.bat")] (mkM true false true) true b) /\
  forall w', holds (set_args w' b) [s2l "/tmp/a.bat"; s2l "x"].
Proof.
  apply (C91_started_script ex_there builtin_table (s2l "/usr/bin/pbat") false true 16%Z ex_w (s2l " a.bat x") no_option (s2l " a.bat x") (s2l "a.bat") (s2l " x") (s2l "/tmp/a.bat") [s2l "x"] (s2l "/usr/bin/pbat /a:qec  a.bat x") (s2l "/usr/bin/pbat /a:qec  a.bat x")).
  - apply sa_end.
  - apply leads_of. vm_compute. reflexivity.
  - split; [apply nonul_b; reflexivity|]. split; [no_option|no_quote].
  - vm_compute. reflexivity.
  - intros [I _]. cbn in I. repeat (destruct I as [I|I]; [discriminate I|]). destruct I.
  - exists (Some (s2l "/tmp/a.bat")). split; auto. exists None, None. repeat split; vm_compute; reflexivity.
  - exists (s2l ".bat"). split; [eexists _, _, _; vm_compute; reflexivity|]. split; [apply nonul_b; reflexivity|]. left. reflexivity.
  - split; [discriminate|]. intros c I J. cbn in I, J. repeat (destruct I as [<-|I]; [repeat (destruct J as [J|J]; [discriminate J|]); destruct J|]). destruct I.
  - do 2 lw. do 2 constructor.
  - repeat (constructor; [vm_compute; reflexivity|]). constructor.
  - vm_compute. reflexivity.
  - exists []. split; [reflexivity|]. split; [constructor|]. intros c r [= <- <-] E. cbv in E. intuition discriminate.
  - discriminate.
  - discriminate.
  - discriminate.
  - constructor.
  - vm_compute. reflexivity.
Qed.
