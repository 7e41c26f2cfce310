(** Start_Proofs.v -- START meets Start_Spec. *)

From Verif Require Import Base Lex Num_Model StrLib_Model StrLib_Spec Path_Model Path_Spec Env_Model Var_Model Var_Proofs LocalVar_Model LocalVar_Proofs Expand_Model Args_Model Args_Spec
  Args_Proofs Path_Proofs Block_Model CmdList_Model Stream_Model If_Model Body_Model For_Model Run_Model Script_Model Params_Model Params_Spec Params_Proofs Prompt_Spec Prompt_Proofs
  Set_Spec Set_Proofs Call_Model Call_Spec Call_Proofs Copy_Spec Del_Proofs Def_Proofs Start_Model Start_Spec.

Lemma is_of p o : option_is p (s2l o) -> nonul (s2l o) -> forall o', nonul (s2l o') -> is p o' = streqb (map tolower (s2l o)) (map tolower (s2l o')).
Proof.
  intros [N H] No o' No'. unfold is. destruct (streqb _ _) eqn:E.
  - apply streqb_true in E. apply stricmp_name; auto. unfold same_name in *. congruence.
  - apply streqb_false in E. apply not_true_iff_false. intros X. apply stricmp_name in X; auto. unfold same_name in *. congruence.
Qed.
Lemma is_not p o : nonul p -> nonul (s2l o) -> ~ option_is p (s2l o) -> is p o = false.
Proof. intros N M H. apply not_true_iff_false. intros X. apply H. split; auto. apply stricmp_name in X; auto. Qed.
Lemma is_up p o o' : nonul p -> nonul (s2l o') -> map tolower (s2l o) = map tolower (s2l o') -> ~ option_is p (s2l o) -> is p o' = false.
Proof. intros N M E H. apply is_not; auto. intros [_ X]. apply H. split; auto. unfold same_name in *. congruence. Qed.

(** all the tests of a parameter that is, or is no, option *)
Ltac opts p o O :=
  cbn [existsb];
  repeat match goal with |- context [is p ?o'] =>
    let b := eval vm_compute in (streqb (map tolower (s2l o)) (map tolower (s2l o'))) in
    let X := fresh "X" in
    assert (X : is p o' = b) by (rewrite (is_of p o O) by (apply nonul_b; reflexivity); reflexivity); rewrite X; clear X
  end; cbn [orb].
Ltac no_opts p N H :=
  cbn [existsb];
  repeat match goal with |- context [is p ?o'] =>
    let X := fresh "X" in
    assert (X : is p o' = false) by (let Z := fresh in apply is_not; [exact N|apply nonul_b; reflexivity|intros Z; apply H; unfold start_option, one_of; cbn [In app ignored];
      first [exists "/?"%string; split; [solve [auto 20]|split; [exact N|exact (proj2 Z)]]
            |exists "/wait"%string; split; [solve [auto 20]|split; [exact N|exact (proj2 Z)]]
            |exists "/w"%string; split; [solve [auto 20]|split; [exact N|exact (proj2 Z)]]
            |exists "/b"%string; split; [solve [auto 20]|split; [exact N|exact (proj2 Z)]]
            |exists "/node"%string; split; [solve [auto 20]|split; [exact N|exact (proj2 Z)]]
            |exists "/affinity"%string; split; [solve [auto 20]|split; [exact N|exact (proj2 Z)]]
            |exists "/d"%string; split; [solve [auto 20]|split; [exact N|exact (proj2 Z)]]
            |exists "/normal"%string; split; [solve [auto 20]|split; [exact N|exact (proj2 Z)]]
            |exists "/shared"%string; split; [solve [auto 20]|split; [exact N|exact (proj2 Z)]]
            |exists "/separate"%string; split; [solve [auto 20]|split; [exact N|exact (proj2 Z)]]
            |exists "/high"%string; split; [solve [auto 20]|split; [exact N|exact (proj2 Z)]]
            |exists "/low"%string; split; [solve [auto 20]|split; [exact N|exact (proj2 Z)]]
            |exists "/realtime"%string; split; [solve [auto 20]|split; [exact N|exact (proj2 Z)]]
            |exists "/abovenormal"%string; split; [solve [auto 20]|split; [exact N|exact (proj2 Z)]]
            |exists "/belownormal"%string; split; [solve [auto 20]|split; [exact N|exact (proj2 Z)]]]]);
    rewrite X; clear X
  end; cbn [orb].
Ltac kinds O := let o := fresh "o" in let I := fresh "I" in destruct O as (o & I & O); cbn [In ignored] in I; repeat (destruct I as [I|I]; [subst o|]); try (destruct I; fail).

Section P.
Variable ex : cstr -> bool.
Variables (table : tree) (pb : cstr) (echo correct : bool) (ka : Z).
Notation run := (start_params ex table pb echo correct ka).

Lemma quoted_b line : (match pBat_SkipBlanks line with c :: _ => ceq c dquote | [] => false end) = true <-> quoted line.
Proof.
  split.
  - intros H. destruct (pBat_SkipBlanks line) as [|c r] eqn:E; [discriminate|]. apply ceq_true in H. subst c.
    exists r. revert E. clear. induction line as [|d l IH]; cbn; [discriminate|]. destruct (pBat_IsDelim d) eqn:D.
    + intros H. destruct (IH H) as (a & -> & A & B). exists (d :: a). split; auto. split; auto. constructor; auto. apply delim_blank. auto.
    + intros [= -> ->]. exists []. split; auto. split; [constructor|]. intros c r' [= <- <-] X. apply delim_blank in X. congruence.
  - intros (r & B). rewrite (skip_behind _ _ B). apply ceq_refl.
Qed.

Lemma asked_ok w q line q' line' : start_asked w q line q' line' -> forall fuel old, length line < fuel ->
  exists fuel' old', length line' < fuel' /\
    run fuel w old line (s_wait q) (s_window q) (s_dir q) (s_title q) = run fuel' w old' line' (s_wait q') (s_window q') (s_dir q') (s_title q').
Proof.
  intros H. induction H as [q line|q line p rest q' line' L O _ IH|q line p rest q' line' L O _ IH|q line p rest q' line' L O _ IH
    |q line p r1 x rest q' line' L O L1 _ IH|q line p r1 x rest d q' line' L O D L1 F _ IH|q line p rest q' line' L O _ IH]; intros fuel old Lf;
    [eauto|..]; pose proof (leads_shorter _ _ _ _ L) as Ls; (destruct fuel as [|fuel]; [lia|]); cbn [start_params]; rewrite (leads_any _ _ _ _ _ L); cbn [bind].
  - kinds O; [opts p "/wait"%string O|opts p "/w"%string O]; apply IH; lia.
  - kinds O. opts p "/b"%string O. apply IH; lia.
  - kinds O; [opts p "/normal"%string O|opts p "/shared"%string O|opts p "/separate"%string O|opts p "/high"%string O|opts p "/low"%string O|opts p "/realtime"%string O|opts p "/abovenormal"%string O|opts p "/belownormal"%string O]; apply IH; lia.
  - pose proof (leads_shorter _ _ _ _ L1) as Ls1.
    kinds O; [opts p "/node"%string O|opts p "/affinity"%string O]; rewrite (leads_any _ _ _ _ _ L1); cbn [bind]; apply IH; lia.
  - pose proof (leads_shorter _ _ _ _ L1) as Ls1. kinds O. opts p "/d"%string O. rewrite D. rewrite (leads_any _ _ _ _ _ L1). cbn [bind].
    destruct F as (F1 & F2 & F3 & F4). rewrite (EsToFullPath_ok (vw_cd (x_var w)) (fun _ => None) (x_cap w) x d F1 F2 F3 F4). cbn [bind]. apply IH; lia.
  - destruct O as (N & O & Q & T). no_opts p N O. apply quoted_b in Q. rewrite Q, T. cbn [andb]. apply IH; lia.
Qed.
Lemma program_ok w q line p rest fuel old : leads w line p rest -> a_program q line p -> length line < fuel ->
  run fuel w old line (s_wait q) (s_window q) (s_dir q) (s_title q) =
  do g <- start_what ex table pb echo correct ka w p line (s_window q); Ret (g, s_wait q, s_window q, s_dir q, s_title q, w).
Proof.
  intros L (N & O & Q) Lf. destruct fuel as [|fuel]; [lia|]. cbn [start_params]. rewrite (leads_any _ _ _ _ _ L). cbn [bind]. no_opts p N O.
  assert (X : (match pBat_SkipBlanks line with c :: _ => ceq c dquote | [] => false end) && match s_title q with None => true | Some _ => false end = false).
  { apply andb_false_iff. destruct (s_title q); [auto|]. left. apply not_true_iff_false. intros X. apply quoted_b in X. apply Q in X. congruence. }
  rewrite X. reflexivity.
Qed.
Lemma params_end w fuel old line wait window dir title : Forall blank line -> 0 < fuel ->
  run fuel w old line wait window dir title = Ret (GNone, wait, window, dir, title, w).
Proof. intros B L. destruct fuel; [lia|]. cbn [start_params]. rewrite next_end by auto. reflexivity. Qed.

(** *** The text that is run *)
Lemma list_written w text args : written w text args -> Forall (fun v => expands w v v) args -> forall fuel, length text < fuel ->
  param_list fuel w text = Ret (args, w).
Proof.
  intros W. induction W as [s B|a raw rest t v l A N F P B C D W IH]; intros E fuel Lf; (destruct fuel as [|fuel]; [lia|]); cbn [param_list].
  - rewrite next_end by auto. reflexivity.
  - rewrite (next_written w [] a raw rest t v) by auto. cbn [bind]. inversion E as [|? ? E1 E2]; subst. unfold expands in E1. rewrite E1. cbn [bind].
    rewrite IH; auto. rewrite !app_length in Lf. destruct raw; [congruence|]. cbn [length] in Lf. lia.
Qed.
Lemma run_ok w command file text wait window dir title args cmdline : gives w text args cmdline ->
  start_run w command file text wait window dir title =
  Ret (if command then SThread cmdline wait
       else SExec (mkE title (match dir with Some d => d | None => vw_cd (x_var w) end) file args cmdline wait window), w).
Proof.
  intros (W & N & E & t & T & B). unfold start_run, pBat_GetEndOfLine. unfold expands in T. rewrite T. cbn [bind].
  unfold pBat_GetParamList. rewrite (list_written _ _ _ W E) by lia. cbn [bind]. rewrite (skip_behind _ _ B).
  destruct args; [congruence|]. destruct command; reflexivity.
Qed.
Lemma uri_b p : is_uri p = true <-> uri p.
Proof.
  assert (S : forall s : cstr, match strchr s ":"%char with Some _ => true | None => false end = true <-> In ":"%char s).
  { intros s. unfold strchr. destruct (find_idx _ s) as [k|] eqn:E.
    - split; auto. intros _. apply find_idx_Some in E. destruct E as (c & H1 & H2 & _). apply ceq_true in H2. subst c. eapply nth_error_In; eauto.
    - split; [discriminate|]. intros I. rewrite find_idx_None in E. apply E in I. discriminate. }
  unfold is_uri, uri. destruct p as [|a p]; [split; [discriminate|intros [[] _]]|]. rewrite andb_true_iff, S, negb_true_iff.
  destruct p as [|b p].
  - split; [intros [_ H]|intros [H _]]; split; auto; discriminate.
  - split; intros [H1 H2].
    + split; auto. intros x r [= <- -> <-]. rewrite ceq_refl in H1. discriminate.
    + split; auto. apply not_true_iff_false. intros Z. apply ceq_true in Z. subst b. eapply H2. reflexivity.
Qed.

(** *** The interpreter *)
Lemma state_simple : simple_name (same_state echo correct).
Proof. split; [destruct echo, correct; discriminate|]. intros c H X. destruct echo, correct; cbn in H; repeat (destruct H as [<-|H]; [cbn in X; repeat (destruct X as [X|X]; [discriminate|]); auto|]); auto. Qed.
Lemma written_interpreter w rest l : simple_name pb -> ends rest -> written w rest l -> written w (interpreter pb echo correct ++ rest) (pb :: same_state echo correct :: l).
Proof.
  intros [N S] E W. unfold interpreter. rewrite <- app_assoc. apply written_plain; auto.
  - intros c r [= <- _]. apply space_blank.
  - replace ((s2l " /a:q" ++ (if echo then [] else s2l "e") ++ (if correct then s2l "c" else [])) ++ rest) with (" "%char :: same_state echo correct ++ rest) by (unfold same_state; rewrite <- !app_assoc; reflexivity).
    apply written_blank; [apply space_blank|]. apply written_plain; auto; apply state_simple.
Qed.

(** *** START *)
Notation start := (pBat_CmdStart ex table pb echo correct ka).
Lemma start_file w line q l p rest command file text args cmdline : start_asked w no_option line q l -> leads w l p rest -> a_program q l p ->
  start_what ex table pb echo correct ka w p l (s_window q) = Ret (GFile command file text) -> gives w text args cmdline ->
  start w line = Ret (if command then SThread cmdline (s_wait q) else SExec (execution w q file args cmdline), w).
Proof.
  intros A L P Wh G. unfold pBat_CmdStart. destruct (asked_ok _ _ _ _ _ A (S (length line)) []) as (fuel & old & F & E); [lia|].
  cbn [no_option s_wait s_window s_dir s_title] in E. rewrite E. rewrite (program_ok _ _ _ _ _ _ _ L P F), Wh. cbn [bind].
  apply (run_ok _ command file text (s_wait q) (s_window q) (s_dir q) (s_title q) _ _ G).
Qed.
Lemma what_file w p l window file : pBat_GetCommandProc p table = Ret None -> ~ uri p -> stands_for ex ka w p file ->
  forall e, has_extension file e -> nonul e ->
  start_what ex table pb echo correct ka w p l window =
  Ret (if is e ".bat" || is e ".cmd" then GFile false pb (interpreter pb echo correct ++ s2l " " ++ l) else GFile false file l).
Proof.
  intros T U (f & (PATH & PATHEXT & E1 & E2 & E3) & ->) e (d & dir & n & X) Ne. unfold start_what. rewrite T. cbn [bind].
  assert (Y : is_uri p = false) by (apply not_true_iff_false; intros Y; apply U, uri_b, Y). rewrite Y, E1. cbn [bind]. rewrite E2. cbn [bind]. rewrite E3. cbn [bind].
  rewrite X. cbn [bind]. destruct (_ || _); reflexivity.
Qed.
Lemma batch_b e : nonul e -> is e ".bat" || is e ".cmd" = true <-> same_name e (s2l ".bat") \/ same_name e (s2l ".cmd").
Proof. intros N. rewrite orb_true_iff. unfold is. rewrite !stricmp_name by (auto; apply nonul_b; reflexivity). tauto. Qed.
End P.
