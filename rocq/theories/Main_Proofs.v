(** Main_Proofs.v -- the command line meets Main_Spec. *)

From Verif Require Import Base Num_Model StrLib_Model StrLib_Spec Path_Model Var_Model LocalVar_Model Expand_Model Args_Model Args_Spec Args_Proofs Params_Model Params_Spec Params_Proofs
  Main_Model Main_Spec.

Lemma has_cons c k l : has c (k :: l) <-> tolower k = c \/ has c l.
Proof.
  unfold has. split.
  - intros (x & [->|I] & E); eauto.
  - intros [E|(x & I & E)]; [exists k|exists x]; cbn; auto.
Qed.
Lemma has_nil c : ~ has c [].
Proof. intros (k & [] & _). Qed.
Lemma set_modes_ok l : forall m q, let '(m', q') := set_modes l m q in
  (m_delayed m' = true <-> m_delayed m = true \/ has "v"%char l) /\ (m_echo m' = true <-> m_echo m = true /\ ~ has "e"%char l) /\
  (m_correct m' = true <-> m_correct m = true \/ has "c"%char l) /\ (q' = true <-> q = true \/ has "q"%char l).
Proof.
  induction l as [|k l IH]; intros m q; cbn [set_modes].
  - pose proof has_nil. repeat split; intros; intuition; exfalso; eapply has_nil; eauto.
  - unfold set_mode.
    destruct (ceq (tolower k) "v"%char) eqn:E1; [apply ceq_true in E1|].
    { specialize (IH (mkM true (m_echo m) (m_correct m)) q). destruct (set_modes l _ q) as [m' q']. cbn [m_delayed m_echo m_correct] in IH. rewrite !has_cons; rewrite ?E1.
      destruct IH as (I1 & I2 & I3 & I4). rewrite I1, I2, I3, I4. intuition discriminate. }
    destruct (ceq (tolower k) "e"%char) eqn:E2; [apply ceq_true in E2|].
    { specialize (IH (mkM (m_delayed m) false (m_correct m)) q). destruct (set_modes l _ q) as [m' q']. cbn [m_delayed m_echo m_correct] in IH. rewrite !has_cons; rewrite ?E2.
      destruct IH as (I1 & I2 & I3 & I4). rewrite I1, I2, I3, I4. intuition discriminate. }
    destruct (ceq (tolower k) "c"%char) eqn:E3; [apply ceq_true in E3|].
    { specialize (IH (mkM (m_delayed m) (m_echo m) true) q). destruct (set_modes l _ q) as [m' q']. cbn [m_delayed m_echo m_correct] in IH. rewrite !has_cons; rewrite ?E3.
      destruct IH as (I1 & I2 & I3 & I4). rewrite I1, I2, I3, I4. intuition discriminate. }
    assert (N : forall c, ceq (tolower k) c = false -> tolower k <> c) by (intros c X Y; rewrite Y, ceq_refl in X; discriminate).
    apply N in E1, E2, E3.
    destruct (ceq (tolower k) "q"%char) eqn:E4; [apply ceq_true in E4|apply N in E4].
    { specialize (IH m true). destruct (set_modes l m true) as [m' q']. rewrite !has_cons, E4. destruct IH as (I1 & I2 & I3 & I4). rewrite I1, I2, I3, I4. intuition discriminate. }
    specialize (IH m q). destruct (set_modes l m q) as [m' q']. rewrite !has_cons. destruct IH as (I1 & I2 & I3 & I4). rewrite I1, I2, I3, I4. intuition.
Qed.
Lemma init_modes r l m : letters r l -> pBat_InitSetModes r m = set_modes l m false.
Proof.
  intros [->|[-> N]]; unfold pBat_InitSetModes; [rewrite ceq_refl; reflexivity|]. destruct l as [|c l]; auto.
  destruct (ceq c ":"%char) eqn:E; auto. apply ceq_true in E. subst c. exfalso. eapply N. reflexivity.
Qed.
Lemma bool_iff a b : (a = true <-> b = true) -> a = b.
Proof. destruct a, b; intuition. Qed.
Lemma same_modes l m q m' q' :
  (m_delayed m' = true <-> m_delayed m = true \/ has "v"%char l) -> (m_echo m' = true <-> m_echo m = true /\ ~ has "e"%char l) ->
  (m_correct m' = true <-> m_correct m = true \/ has "c"%char l) -> (q' = true <-> q = true \/ has "q"%char l) -> set_modes l m q = (m', q').
Proof.
  intros H1 H2 H3 H4. pose proof (set_modes_ok l m q) as S. destruct (set_modes l m q) as [[d e c] q1]. destruct S as (S1 & S2 & S3 & S4). destruct m' as [d' e' c']. cbn [m_delayed m_echo m_correct] in *.
  assert (d = d') by (apply bool_iff; rewrite H1, S1; tauto). assert (e = e') by (apply bool_iff; rewrite H2, S2; tauto).
  assert (c = c') by (apply bool_iff; rewrite H3, S3; tauto). assert (q1 = q') by (apply bool_iff; rewrite H4, S4; tauto). congruence.
Qed.

Section P.
Variable var : option cstr.
Notation get := (get_parameters var).
Definition the_var : cstr := match var with Some v => v | None => [] end.
Lemma switch_step a c r rest cmd exit quiet m n b : is_switch a c r ->
  get (a :: rest) true cmd exit quiet m [] n b =
  if ceq c "a"%char then let '(m, quiet) := pBat_InitSetModes r m in get rest true cmd exit quiet m [] n b
  else if ceq c "k"%char || ceq c "c"%char then
    match cmd, rest with
    | None, x :: rest' => if streqb x (s2l "@") then get rest' true (Some the_var) (if ceq c "k"%char then false else exit) quiet m [] n b
                          else Ret (PGo (Some (join rest)) (if ceq c "k"%char then false else exit) quiet m [] (block_empty (10 - n) n b))
    | _, _ => Ret PBad
    end
  else if ceq c "?"%char then Ret PHelp
  else if ceq c "/"%char then get rest false cmd exit quiet m [] n b
  else Undef.
Proof. intros (k & -> & <-). cbn [get_parameters tl]. rewrite ceq_refl. reflexivity. Qed.
Lemma told_ok q argv q' rest : told the_var q argv q' rest -> forall n b,
  get argv true (a_cmd q) (negb (a_stay q)) (a_quiet q) (a_modes q) [] n b = get rest true (a_cmd q') (negb (a_stay q')) (a_quiet q') (a_modes q') [] n b.
Proof.
  intros H. induction H as [q argv|q a r l rest m quiet q' rest' S L D E C Q _ IH|q a r rest q' rest' S N _ IH|q a r rest q' rest' S N _ IH]; intros n b; auto.
  - rewrite (switch_step _ _ _ _ _ _ _ _ _ _ S). cbn [ceq]. change (ceq "a" "a") with true. cbn iota. rewrite (init_modes _ _ _ L).
    rewrite (same_modes l (a_modes q) false m quiet); [apply IH|auto|auto|auto|rewrite Q; intuition discriminate].
  - rewrite (switch_step _ _ _ _ _ _ _ _ _ _ S), N. change (ceq "c" "a") with false. change (ceq "c" "k" || ceq "c" "c") with true. cbn iota.
    change (streqb (s2l "@") (s2l "@")) with true. cbn iota. change (ceq "c" "k") with false. cbn iota. apply IH.
  - rewrite (switch_step _ _ _ _ _ _ _ _ _ _ S), N. change (ceq "k" "a") with false. change (ceq "k" "k" || ceq "k" "c") with true. cbn iota.
    change (streqb (s2l "@") (s2l "@")) with true. cbn iota. change (ceq "k" "k") with true. cbn iota. apply IH.
Qed.

(** *** The script *)
Definition script_block (args : list cstr) (all : cstr) : outcome block :=
  let b0 := pBat_SetLocalVar (pBat_SetLocalVar pBat_GetLocalBlock "*"%char (Some all)) "+"%char (Some []) in
  match args with
  | [] => Ret (block_empty 9 1 b0)
  | _ => let '(b, rest) := argv_first 9 1 args b0 in do s <- assign_line rest; Ret (pBat_SetLocalVar b "+"%char (Some s))
  end.
Lemma script_step argv file args cmd exit quiet m : names_script argv file args ->
  get argv true cmd exit quiet m [] 0 pBat_GetLocalBlock =
  do all <- assign_line args; do b <- script_block args all; Ret (PGo cmd exit quiet m file b).
Proof.
  assert (X : forall sw, file <> [] -> (sw = true -> forall r, file <> "/"%char :: r) -> get (file :: args) sw cmd exit quiet m [] 0 pBat_GetLocalBlock =
    do all <- assign_line args; do b <- script_block args all; Ret (PGo cmd exit quiet m file b)).
  { intros sw N S. cbn [get_parameters].
    assert (Y : match file with c :: _ => ceq c "/"%char | [] => false end && sw = false).
    { apply andb_false_iff. destruct sw; auto. left. destruct file as [|c r]; auto. apply not_true_iff_false. intros Z. apply ceq_true in Z. subst c. eapply S; auto. }
    rewrite Y. destruct (assign_line args) as [all| |]; cbn [bind]; auto. unfold script_block.
    destruct file as [|f0 fr]; [congruence|]. destruct args as [|x args]; [reflexivity|]. cbn [get_parameters].
    assert (Z : match x with c :: _ => ceq c "/"%char | [] => false end && false = false) by apply andb_false_r. rewrite Z.
    destruct (argv_first 9 1 (x :: args) _) as [b rest]. destruct (assign_line rest); reflexivity. }
  intros H. inversion H as [f l N S|a r f l N S]; subst; [apply (X true); auto|].
  rewrite (switch_step _ _ _ _ _ _ _ _ _ _ S). change (ceq "/" "a") with false. change (ceq "/" "k" || ceq "/" "c") with false. change (ceq "/" "?") with false. change (ceq "/" "/") with true. cbn iota.
  apply (X false); auto. discriminate.
Qed.
Lemma script_holds args : exists all b, assign_line args = Ret all /\ script_block args all = Ret b /\ forall zero,
  let b' := pBat_SetLocalVar b "0"%char (Some zero) in
  b' "*"%char = Some all /\ (Forall sturdy args -> forall w, written w all args) /\
  (Forall sturdy (skipn 9 args) -> forall w, holds (set_args w b') (zero :: args)).
Proof.
  destruct (assign_ok args) as (all & Ea & Wa). destruct (assign_ok (skipn 9 args)) as (s & Es & Ws). exists all.
  set (b0 := pBat_SetLocalVar (pBat_SetLocalVar pBat_GetLocalBlock "*"%char (Some all)) "+"%char (Some [])).
  destruct (argv_first_ok 9 1 args b0) as (H1 & H2 & H3); [lia|].
  assert (B : exists b, script_block args all = Ret b /\ (forall j, 1 <= j < 10 -> b (dchar j) = Some (nth (j - 1) args [])) /\ b "+"%char = Some s /\ b "*"%char = Some all).
  { unfold script_block. fold b0. destruct args as [|x args].
    - exists (block_empty 9 1 b0). destruct (block_empty_ok 9 1 b0) as (E1 & E2); [lia|]. split; auto. split.
      + intros j Hj. rewrite E1 by lia. destruct (Nat.leb_spec 1 j), (Nat.ltb_spec j (1 + 9)); try lia. cbn [andb]. destruct (j - 1); reflexivity.
      + cbn in Es. injection Es as <-. split; [rewrite E2 by apply plus_not_digit|rewrite E2 by apply star_not_digit]; unfold b0; rewrite !set_local by reflexivity; reflexivity.
    - destruct (argv_first 9 1 (x :: args) b0) as [b rest]. cbn [fst snd] in *. subst rest. rewrite Es. cbn [bind]. eexists. split; [reflexivity|]. split.
      + intros j Hj. rewrite set_local by reflexivity. rewrite dchar_plus by lia. rewrite H2 by lia. destruct (Nat.leb_spec 1 j), (Nat.ltb_spec j (1 + 9)); try lia. reflexivity.
      + rewrite !set_local by reflexivity. split; [reflexivity|]. cbn [ceq]. change (ceq "*" "+") with false. cbn iota. rewrite H3 by apply star_not_digit. unfold b0. rewrite !set_local by reflexivity. reflexivity. }
  destruct B as (b & Eb & B1 & B2 & B3). exists b. split; auto. split; auto. intros zero. cbn zeta. split; [rewrite set_local by reflexivity; exact B3|]. split; auto.
  intros S w. apply (holds_of w _ _ s).
  - intros j Hj. rewrite set_local by reflexivity. change "0"%char with (dchar 0). rewrite ceq_digit by lia.
    destruct (Nat.eqb_spec j 0) as [->|N]; [reflexivity|]. rewrite B1 by lia. destruct j as [|j]; [lia|]. cbn [nth]. do 2 f_equal. lia.
  - rewrite set_local by reflexivity. exact B2.
  - apply Ws. auto.
Qed.

(** *** The words behind /C *)
Lemma join_written words : Forall sound words -> forall w, written w (join words) words.
Proof.
  intros F w. induction F as [|v l (N & S & D) F IH]; cbn [join]; [constructor; constructor|].
  assert (V : escaping v v).
  { clear -S. induction v; constructor; [|apply IHv; intros; apply S; right; auto]. intros ->. eapply (S "^"%char); [left; auto|cbn; tauto]. }
  assert (L : forall p, (forall c, In c v -> p c = true -> False) -> forall i, ~ live p v i).
  { intros p H i [_ (c & C1 & C2)]. apply nth_error_In in C1. eauto. }
  destruct (strpbrk v _) eqn:Q.
  - replace ((dquote :: v ++ [dquote]) ++ " "%char :: join l) with ((dquote :: v ++ [dquote]) ++ " "%char :: join l) by reflexivity.
    apply written_quoted; auto.
    + apply L. intros c Hc X. apply ceq_true in X. subst c. apply (S _ Hc). cbn. tauto.
    + apply (L (fun c => ceq c "%"%char)). intros c Hc X. apply ceq_true in X. subst c. apply (S _ Hc). cbn. tauto.
    + apply (L (fun c => ceq c "!"%char)). intros c Hc X. apply ceq_true in X. subst c. apply (S _ Hc). cbn. tauto.
    + apply ends_space.
    + apply written_blank; auto. apply space_blank.
  - apply written_plain; auto.
    + intros c Hc X. pose proof (strpbrk_none _ _ Q) as Z.
      assert (Z' : forall d, In d v -> ~ In d [" "%char; "009"%char; nl]) by (intros d Hd Z'; apply inset_in in Z'; rewrite Z in Z' by auto; discriminate).
      destruct D as [(d & D1 & D2)|D3]; [eapply (Z' d); eauto|]. specialize (S c Hc). specialize (D3 c Hc). specialize (Z' c Hc). revert X S D3 Z'. cbn. intuition.
    + apply ends_space.
    + apply written_blank; auto. apply space_blank.
Qed.

(** *** main *)
Lemma main_told ex cur PATH PATHEXT argv q rest : told the_var nothing_asked argv q rest ->
  main var ex cur PATH PATHEXT argv =
  do p <- get rest true (a_cmd q) (negb (a_stay q)) (a_quiet q) (a_modes q) [] 0 pBat_GetLocalBlock;
  match p with
  | PHelp => Ret LHelp
  | PBad => Ret (LFail 5)
  | PGo cmd exit quiet m file b =>
      let go (abs : cstr) :=
        LRun ((match cmd with Some t => [Line t] | None => [] end) ++
              (if match cmd with Some _ => exit | None => false end then [] else match abs with [] => [Prompt] | _ => [Batch abs] end))
             m quiet (pBat_SetLocalVar b "0"%char (Some abs)) in
      match file with
      | [] => Ret (go [])
      | _ => do f <- pBat_GetFilePath ex cur PATH PATHEXT file FILENAME_MAX;
             match f with Some abs => Ret (go abs) | None => Ret (LFail 1) end
      end
  end.
Proof. intros H. unfold main. pose proof (told_ok _ _ _ _ H 0 pBat_GetLocalBlock) as X. cbn [nothing_asked a_cmd a_stay a_quiet a_modes negb] in X. rewrite X. reflexivity. Qed.
Lemma tasks_eq q last : (match a_cmd q with Some t => [Line t] | None => [] end) ++ (if match a_cmd q with Some _ => negb (a_stay q) | None => false end then [] else [last]) = tasks q last.
Proof. unfold tasks. destruct (a_cmd q), (a_stay q); reflexivity. Qed.
End P.
