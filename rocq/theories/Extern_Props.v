(** Extern_Props.v -- C96: a line which names a program or a script runs it once, with the words
    written behind it.  [result] is what programs and scripts return, [ran] what was run. *)

From Verif Require Env_Props.
From Verif Require Import Base Lex StrLib_Model StrLib_Spec Path_Model Env_Model Env_Spec Env_Proofs Var_Model Var_Props LocalVar_Model Expand_Model Expand_Props Args_Model Args_Spec
  Args_Proofs Args_Props CmdList_Model For_Model Run_Model Script_Model Params_Model Params_Spec Params_Proofs Prompt_Spec Prompt_Proofs
  Set_Model Set_Spec Set_Proofs Set_Props Call_Model Call_Spec Call_Proofs Def_Spec Def_Proofs Find_Props Extern_Model Extern_Spec Extern_Proofs.

(** A program is run once, in the current directory, with the words of the line; the error level is
    what it returns, and nothing else is different. *)
Theorem C96_program : forall ex table ka na result n w cmd line p args text f,
  names ex table ka w cmd line p args text (Some f) -> not_batch f ->
  let x := Program f text (p :: args) (vw_cd (x_var w)) in
  pBat_RunCommand ex table ka na result (S n) w cmd = Ret ([x], Ended, with_level w (result [] x)).
Proof.
  intros ex table ka na result n w cmd line p args text f (F & G & W & L) B x. unfold pBat_RunCommand. cbn [search]. rewrite (from_skip _ _ F), G. cbn [bind].
  rewrite (external_program _ _ _ _ _ _ _ _ _ _ _ _ W L B). reflexivity.
Qed.
Print Assumptions C96_program.

(** A script is run once, with its file for %0, the words behind the name for the other parameters, the
    text behind the name for %*, and without variables of loops.  Its environment is the same with
    PBAT_IS_SCRIPT besides.  The one who runs it keeps its own state but for the error level. *)
Theorem C96_script : forall ex table sg ka na result n w cmd line p args text f r,
  names ex table ka w cmd line p args text (Some f) -> is_batch f -> length f < FILENAME_MAX ->
  table_ok sg (vw_env (x_var w)) -> addr_ok sg ka -> addr_ok sg na ->
  tail_of w text r -> Forall sturdy (skipn 9 args) ->
  exists w1 c, pBat_RunCommand ex table ka na result (S n) w cmd = Ret ([Script f c], Ended, with_level w (result [] (Script f c))) /\
    same_but_env w w1 /\ changed (vw_env (x_var w)) (s2l "PBAT_IS_SCRIPT") (s2l "true") (vw_env (x_var w1)) /\
    begins w1 c f f args r.
Proof.
  intros ex table sg ka na result n w cmd line p args text f r (F & G & W & L) B Lf T K N Tl S.
  destruct (launch_ok ex ka na sg w f text p args r T K N Tl S Lf) as (w1 & c & La & SB & C & Bg).
  exists w1, c. split; auto. unfold pBat_RunCommand. cbn [search]. rewrite (from_skip _ _ F), G. cbn [bind].
  rewrite (external_script _ _ _ _ _ _ _ _ _ _ _ _ _ W L B La). reflexivity.
Qed.
Print Assumptions C96_script.

(** An internal command or a DEF comes before files with the same name. *)
Theorem C96_internal : forall ex table ka na result n w cmd line e,
  from cmd line -> pBat_GetCommandProc line table = Ret (Some e) ->
  pBat_RunCommand ex table ka na result (S n) w cmd = Ret ([], Internal e line, w).
Proof. intros. apply round_internal; auto. Qed.
Print Assumptions C96_internal.

(** A name that is neither: nothing is run, and the name is complained about, after the line
    was expanded as a whole and this did not help either. *)
Theorem C96_unknown : forall ex table ka na result n w cmd line cmd' line' name,
  missing ex table ka w cmd line -> expands (with_level w (-1)) cmd cmd' ->
  missing ex table ka (with_level w (-1)) cmd' line' -> up_to_space line' name ->
  pBat_RunCommand ex table ka na result (S (S n)) w cmd = Ret ([], Unknown name, with_level w (-1)).
Proof.
  intros ex table ka na result n w cmd line cmd' line' name M E M' U. unfold pBat_RunCommand.
  rewrite (round_missing ex table ka na result _ _ _ _ _ _ M E), (round_unknown ex table ka na result _ _ _ _ _ _ M' U). reflexivity.
Qed.
Print Assumptions C96_unknown.

(** The expansion as a whole finds an internal command that delayed expansion spells. *)
Theorem C96_later : forall ex table ka na result n w cmd line cmd' line' e,
  missing ex table ka w cmd line -> expands (with_level w (-1)) cmd cmd' ->
  from cmd' line' -> pBat_GetCommandProc line' table = Ret (Some e) ->
  pBat_RunCommand ex table ka na result (S (S n)) w cmd = Ret ([], Internal e line', with_level w (-1)).
Proof.
  intros ex table ka na result n w cmd line cmd' line' e M E F G. unfold pBat_RunCommand.
  rewrite (round_missing ex table ka na result _ _ _ _ _ _ M E). apply round_internal; auto.
Qed.
Print Assumptions C96_later.

(** C96, what does not hold: that a program found this way is run once.  It is run for ever. *)
Theorem C96_again_refuted : forall ex table ka na result w cmd line cmd' line' p args text f,
  missing ex table ka w cmd line -> expands (with_level w (-1)) cmd cmd' ->
  (forall z, names ex table ka (with_level w z) cmd' line' p args text (Some f) /\ expands (with_level w z) cmd' cmd') -> not_batch f ->
  forall n, exists z, pBat_RunCommand ex table ka na result (S n) w cmd = Ret (repeat (Program f text (p :: args) (vw_cd (x_var w))) n, Searching, with_level w z).
Proof.
  intros ex table ka na result w cmd line cmd' line' p args text f M E H B n. unfold pBat_RunCommand.
  rewrite (round_missing ex table ka na result _ _ _ _ _ _ M E).
  change (repeat (Program f text (p :: args) (vw_cd (x_var w))) n) with ([] ++ repeat (Program f text (p :: args) (vw_cd (x_var w))) n).
  generalize (@nil launched) as ran. generalize (-1)%Z as z. induction n as [|n IH]; intros z ran.
  - exists z. rewrite app_nil_r. reflexivity.
  - destruct (H z) as [Nm _]. set (x := Program f text (p :: args) (vw_cd (x_var w))).
    rewrite (round_again ex table ka na result n ran (with_level w z) _ _ _ _ _ _ cmd' Nm B (proj2 (H (result ran x)))).
    destruct (IH (result ran x) (ran ++ [x])) as (z' & X). exists z'. rewrite <- app_assoc in X. exact X.
Qed.
Print Assumptions C96_again_refuted.

(** And that the search ends: when nothing is left of the line it goes on for ever, and runs nothing. *)
Theorem C96_empty_refuted : forall ex table ka na result w cmd line cmd',
  missing ex table ka w cmd line -> expands (with_level w (-1)) cmd cmd' -> Forall skipped cmd' ->
  pBat_GetCommandProc [] table = Ret None -> expands (with_level w 0) cmd' cmd' ->
  forall n, exists z, pBat_RunCommand ex table ka na result n w cmd = Ret ([], Searching, with_level w z).
Proof.
  intros ex table ka na result w cmd line cmd' M E S G E2 n. unfold pBat_RunCommand. destruct n as [|n]. { exists (vw_err (x_var w)). destruct w as [[] ? ? ? ? ? ? ?]. reflexivity. }
  rewrite (round_missing ex table ka na result _ _ _ _ _ _ M E). generalize (-1)%Z as z. induction n as [|n IH]; intros z; [exists z; reflexivity|].
  rewrite (round_empty ex table ka na result n [] (with_level w z) cmd' S G E2). apply (IH 0%Z).
Qed.
Print Assumptions C96_empty_refuted.

(** *** The hypotheses are met.  /tmp, the current directory, has ls and a.bat. *)
Definition ex_has (p : cstr) : bool := existsb (streqb p) [s2l "/tmp/ls"; s2l "/tmp/a.bat"].
Definition ex_result (ran : list launched) (x : launched) : Z := match x with Program _ _ l _ => Z.of_nat (length l + length ran) | Script _ _ => 7 end.
Notation RUN := (pBat_RunCommand ex_has builtin_table 16 80 ex_result).
Ltac ex_from := eexists []; split; [reflexivity|]; split; [constructor|]; intros ? ? [= <- <-] X; unfold skipped, blank in X; cbn in X; intuition discriminate.
Ltac ex_words := split; [repeat lw; do 2 constructor|]; split; [repeat (constructor; [vm_compute; reflexivity|]); constructor|vm_compute; reflexivity].
Ltac ex_finds := eexists _, _; split; [vm_compute; reflexivity|]; split; [vm_compute; reflexivity|vm_compute; reflexivity].

(** @ls a "b c" *)
Example C96_ex_program :
  names ex_has builtin_table 16 ex_w (s2l " @ls a ""b c""") (s2l "ls a ""b c""") (s2l "ls") [s2l "a"; s2l "b c"] (s2l "ls a ""b c""") (Some (s2l "/tmp/ls")) /\
  not_batch (s2l "/tmp/ls") /\
  RUN 1 ex_w (s2l " @ls a ""b c""") = Ret ([Program (s2l "/tmp/ls") (s2l "ls a ""b c""") [s2l "ls"; s2l "a"; s2l "b c"] (s2l "/tmp")], Ended, with_level ex_w 3).
Proof.
  split; [|split; [|vm_compute; reflexivity]].
  - split. { exists (s2l " @"). split; [reflexivity|]. split; [repeat constructor; cbn; tauto|]. intros ? ? [= <- <-] X. unfold skipped, blank in X. cbn in X. intuition discriminate. }
    split; [vm_compute; reflexivity|]. split; [ex_words|ex_finds].
  - exists []. split; [eexists _, _, _; vm_compute; reflexivity|]. split; [apply nonul_b; reflexivity|]. split; intros X; vm_compute in X; discriminate X.
Qed.

(** a.bat x "y z" , in an environment with several variables *)
Example C96_ex_script :
  names ex_has builtin_table 16 ex_set (s2l "a.bat x ""y z""") (s2l "a.bat x ""y z""") (s2l "a.bat") [s2l "x"; s2l "y z"] (s2l "a.bat x ""y z""") (Some (s2l "/tmp/a.bat")) /\
  is_batch (s2l "/tmp/a.bat") /\ table_ok true (vw_env (x_var ex_set)) /\ addr_ok true 16 /\ addr_ok true 80 /\ tail_of ex_set (s2l "a.bat x ""y z""") (s2l "x ""y z""") /\
  match RUN 1 ex_set (s2l "a.bat x ""y z""") with
  | Ret ([Script f c], Ended, w) => map (x_args c) (s2l "0123*") = map (fun s => Some (s2l s)) ["/tmp/a.bat"; "x"; "y z"; ""; "x ""y z"""]%string /\
      pBat_GetEnv (vw_env (x_var c)) (s2l "PBAT_IS_SCRIPT") 16 = Ret (Some (s2l "true")) /\ w = with_level ex_set 7
  | _ => False
  end.
Proof.
  split; [split; [ex_from|]; split; [vm_compute; reflexivity|]; split; [ex_words|ex_finds]|].
  split; [exists (s2l ".bat"); split; [eexists _, _, _; vm_compute; reflexivity|]; split; [apply nonul_b; reflexivity|left; reflexivity]|].
  split; [apply Env_Props.ex_env_ok|]. split; [reflexivity|]. split; [reflexivity|].
  split; [|vm_compute; repeat split; reflexivity].
  intros a. exists (s2l "a.bat"), (s2l " x ""y z"""). split; [apply leads_of; vm_compute; reflexivity|].
  exists (s2l " "). split; [reflexivity|]. split; [repeat constructor; cbn; tauto|]. intros ? ? [= <- <-] X. unfold blank in X. cbn in X. intuition discriminate.
Qed.

(** Delayed expansion is on, and foo is "ls -l", then "echo a". *)
Definition ex_d (v : string) : xworld := ex_xworld true v.
Example C96_ex_unknown :
  missing ex_has builtin_table 16 ex_w (s2l "sl -l") (s2l "sl -l") /\ expands (with_level ex_w (-1)) (s2l "sl -l") (s2l "sl -l") /\
  missing ex_has builtin_table 16 (with_level ex_w (-1)) (s2l "sl -l") (s2l "sl -l") /\ up_to_space (s2l "sl -l") (s2l "sl") /\
  RUN 2 ex_w (s2l "sl -l") = Ret ([], Unknown (s2l "sl"), with_level ex_w (-1)).
Proof.
  split; [|split; [vm_compute; reflexivity|]; split; [|split; [|vm_compute; reflexivity]]].
  1, 2: exists (s2l "sl"), [s2l "-l"], (s2l "sl -l"); split; [ex_from|]; split; [vm_compute; reflexivity|]; split; [ex_words|ex_finds].
  exists (s2l " -l"). split; [reflexivity|]. split; [intros c I J; cbn in I, J; intuition (subst; discriminate)|]. intros c r [= <- <-]. cbn. auto.
Qed.
Example C96_ex_later :
  missing ex_has builtin_table 16 (ex_d "echo a") (s2l "!foo! b") (s2l "!foo! b") /\
  match RUN 2 (ex_d "echo a") (s2l "!foo! b") with Ret ([], Internal e l, _) => e_proc e = s2l "CmdEcho" /\ l = s2l "echo a b" | _ => False end.
Proof.
  split; [|vm_compute; split; reflexivity].
  exists (s2l "echo a"), [s2l "b"], (s2l "echo a b"). split; [ex_from|]. split; [vm_compute; reflexivity|]. split; [ex_words|ex_finds].
Qed.
Example C96_ex_again :
  missing ex_has builtin_table 16 (ex_d "ls -l") (s2l "!foo! b") (s2l "!foo! b") /\ expands (with_level (ex_d "ls -l") (-1)) (s2l "!foo! b") (s2l "ls -l b") /\
  (forall z, names ex_has builtin_table 16 (with_level (ex_d "ls -l") z) (s2l "ls -l b") (s2l "ls -l b") (s2l "ls") [s2l "-l"; s2l "b"] (s2l "ls -l b") (Some (s2l "/tmp/ls")) /\
     expands (with_level (ex_d "ls -l") z) (s2l "ls -l b") (s2l "ls -l b")).
Proof.
  split; [exists (s2l "ls -l"), [s2l "b"], (s2l "ls -l b"); split; [ex_from|]; split; [vm_compute; reflexivity|]; split; [ex_words|ex_finds]|].
  split; [vm_compute; reflexivity|]. intros z. split; [|vm_compute; reflexivity].
  split; [ex_from|]. split; [vm_compute; reflexivity|]. split; [ex_words|ex_finds].
Qed.
(** !bar! , which is not defined *)
Example C96_ex_empty :
  missing ex_has builtin_table 16 (ex_d "v") (s2l "!bar!") (s2l "!bar!") /\ expands (with_level (ex_d "v") (-1)) (s2l "!bar!") [] /\
  pBat_GetCommandProc [] builtin_table = Ret None /\ expands (with_level (ex_d "v") 0) [] [].
Proof.
  split; [exists [], [], []; split; [ex_from|]; split; [vm_compute; reflexivity|]; split; [ex_words|ex_finds]|].
  repeat split; vm_compute; reflexivity.
Qed.
