(** Set_Props.v -- property C66: SET. *)

From Coq Require Import Sorted.
From Verif Require Import Base Lex Num_Model StrLib_Model StrLib_Spec Env_Model Env_Spec Env_Proofs Env_Props Var_Model Var_Proofs LocalVar_Proofs
  Expand_Model Expand_Props Args_Model Args_Spec Args_Props Args_Proofs Path_Proofs Params_Model Params_Proofs Prompt_Spec Prompt_Proofs Set_Model Set_Spec Set_Proofs.

Section SetProps.
Variables (ka na : Z) (seta : xworld -> cstr -> outcome (Z * cstr * xworld)) (sg : bool).
Hypotheses (KA : addr_ok sg ka) (NA : addr_ok sg na).
Local Notation SET := (pBat_CmdSet ka na seta).
Local Notation env_of w := (vw_env (x_var w)).

(** C66: "SET name=value", the whole optionally between double quotes, gives the variable
    its value, up to the end of the line, and changes nothing else. *)
Theorem C66_assign :
  forall w input line p rest text v t name (value : cstr),
    leads w line p rest -> nonul p -> ~ set_option (firstn 4 p) ->
    behind line text -> expands w text v -> nonul v -> unquoted v t -> assigns t name value ->
    table_ok sg (env_of w) -> (value <> [] \/ toplevel (env_of w)) ->
    exists w', SET w input line = Ret (0%Z, [], w') /\ same_but_env w w' /\
      changed (env_of w) name value (env_of w') /\
      act_run (ASet name ka na value false) (env_of w) = Ret (env_of w').
Proof.
  intros w input line p rest text v t name value L Np NO B E Nv U A T V. unfold pBat_CmdSet, pBat_GetNextParameter.
  rewrite (leads_next _ _ _ _ L). cbn [bind].
  assert (Nf : nonul (firstn 4 p)) by (intros I; apply Np; eapply In_firstn; eauto).
  rewrite !no_option by (auto; cbn; tauto).
  destruct (sets_ok ka na sg w line text v t name value false) as (w' & -> & S & R & C); auto; [eapply leads_text; eauto|].
  cbn [bind Z.eqb]. eauto.
Qed.

(** C66: "SET /x name=value" does the same, and lets the value outlive the procedure that
    is running: it is the assignment [ASet] with a mark, see C18. *)
Theorem C66_exported :
  forall w input line p rest text v t name (value : cstr),
    leads w line p rest -> nonul p -> same_name (firstn 4 p) (s2l "/x") ->
    behind rest text -> text <> [] -> expands w text v -> nonul v -> unquoted v t -> assigns t name value ->
    table_ok sg (env_of w) -> (value <> [] \/ toplevel (env_of w)) ->
    exists w', SET w input line = Ret (0%Z, [], w') /\ same_but_env w w' /\
      changed (env_of w) name value (env_of w') /\
      act_run (ASet name ka na value true) (env_of w) = Ret (env_of w').
Proof.
  intros w input line p rest text v t name value L Np O B NE E Nv U A T V. unfold pBat_CmdSet, pBat_GetNextParameter.
  rewrite (leads_next _ _ _ _ L). cbn [bind].
  assert (Nf : nonul (firstn 4 p)) by (intros I; apply Np; eapply In_firstn; eauto).
  rewrite !(other_option _ _ _ O) by (auto; first [cbn; tauto|discriminate]). rewrite (is_option _ _ O) by (auto; cbn; tauto).
  destruct (sets_ok ka na sg w rest text v t name value true) as (w' & -> & S & R & C); auto.
  cbn [bind Z.eqb]. eauto.
Qed.

(** C66: text without '=' lists exactly the variables whose names start with it, sorted
    by name; it is an error if there are none. *)
Theorem C66_list :
  forall w input line p rest text v t,
    leads w line p rest -> nonul p -> ~ set_option (firstn 4 p) ->
    behind line text -> nonul text -> expands w text v -> unquoted v t -> ~ In "="%char t ->
    table_ok sg (env_of w) ->
    exists out, SET w input line = Ret (match out with [] => PBAT_UNEXPECTED_ELEMENT | _ => 0%Z end, out, w) /\ listing (env_of w) text out.
Proof.
  intros w input line p rest text v t L Np NO B Nt E U N T. unfold pBat_CmdSet, pBat_GetNextParameter.
  rewrite (leads_next _ _ _ _ L). cbn [bind].
  assert (Nf : nonul (firstn 4 p)) by (intros I; apply Np; eapply In_firstn; eauto).
  rewrite !no_option by (auto; cbn; tauto).
  rewrite (sets_none ka na w line text v t false) by (auto; eapply leads_text; eauto). cbn [bind Z.eqb Pos.eqb].
  rewrite (behind_skip _ _ B).
  destruct (listing_ok sg (env_of w) text T Nt) as (out & -> & Li & ->); [left; eapply leads_text; eauto|].
  cbn [bind]. exists out. split; auto. destruct out; auto.
Qed.

(** C66: SET alone lists all variables. *)
Theorem C66_bare :
  forall w input line, Forall blank line -> table_ok sg (env_of w) -> ~ has_hole (env_of w) ->
    exists out, SET w input line = Ret (match out with [] => PBAT_UNEXPECTED_ELEMENT | _ => 0%Z end, out, w) /\ listing (env_of w) [] out.
Proof.
  intros w input line B T H. unfold pBat_CmdSet, pBat_GetNextParameter. rewrite next_end by auto. cbn [bind].
  replace (pBat_SkipBlanks line) with (@nil ascii).
  - destruct (listing_ok sg (env_of w) [] T) as (out & -> & Li & ->); [intros []|auto|]. cbn [bind]. exists out. split; auto. destruct out; auto.
  - symmetry. rewrite <- (app_nil_r line). apply skip_blanks; auto. discriminate.
Qed.

(** C66: after the removal of a variable SET alone is undefined: the name of the entry
    that is not in use is printed. *)
Theorem C66_bare_refuted :
  forall w input line, Forall blank line -> has_hole (env_of w) -> SET w input line = Undef.
Proof.
  intros w input line B (v & I & N). unfold pBat_CmdSet, pBat_GetNextParameter. rewrite next_end by auto. cbn [bind].
  replace (pBat_SkipBlanks line) with (@nil ascii).
  - assert (X : set_list [] (e_buf (env_of w)) = Undef).
    { revert I. generalize (e_buf (env_of w)) as l. induction l as [|x l IH]; intros I; [contradiction|]. cbn [set_list].
      destruct I as [->|I]; [rewrite N; auto|]. destruct (v_name x) as [[n a]|]; auto. rewrite IH; auto. }
    rewrite X. reflexivity.
  - symmetry. rewrite <- (app_nil_r line). apply skip_blanks; auto. discriminate.
Qed.

(** C66: "SET /p name=text", whose argument may be in double quotes, prints the text and
    gives the variable the line that is read, without its end.  The error level is 1 if the
    line is empty. *)
Theorem C66_prompt :
  forall w line p rest text v name shown (value : cstr) input,
    leads w line p rest -> nonul p -> same_name (firstn 4 p) (s2l "/p") -> behind rest text ->
    ((forall r, text <> dquote :: r) /\ expands w text v \/ (exists r rest', text = dquote :: r /\ leads w text v rest')) ->
    nonul v -> assigns v name shown ->
    ~ In nl value -> (input = value \/ exists more, input = value ++ nl :: more) ->
    table_ok sg (env_of w) -> (value <> [] \/ toplevel (env_of w)) ->
    exists w', SET w input line = Ret (match value with [] => 1%Z | _ => 0%Z end, shown, w') /\ same_but_env w w' /\
      changed (env_of w) name value (env_of w') /\ act_run (ASet name ka na value false) (env_of w) = Ret (env_of w').
Proof.
  intros w line p rest text v name shown value input L Np O B X Nv A NV I T V. unfold pBat_CmdSet, pBat_GetNextParameter.
  rewrite (leads_next _ _ _ _ L). cbn [bind].
  assert (Nf : nonul (firstn 4 p)) by (intros J; apply Np; eapply In_firstn; eauto).
  rewrite !(other_option _ _ _ O) by (auto; first [cbn; tauto|discriminate]). rewrite (is_option _ _ O) by (auto; cbn; tauto).
  unfold pBat_CmdSetP. rewrite (behind_skip _ _ B).
  match goal with |- context [bind ?e ?f] => replace e with (Ret (v, w)) end.
  2:{ destruct X as [[NQ E]|(r & rest' & -> & E)].
      - destruct text as [|c text]; [symmetry; exact E|]. replace (ceq c dquote) with false; [symmetry; exact E|].
        symmetry. apply ceq_false. intros ->. eapply NQ; eauto.
      - rewrite ceq_refl, (leads_next _ _ _ _ E). reflexivity. }
  cbn [bind]. destruct (assigns_ok _ _ _ A) as (-> & -> & ->).
  assert (Nn : nonul name). { destruct A as [-> _]. intros J. apply Nv. apply in_or_app. auto. }
  replace (match strchr input nl with Some j => firstn j input | None => input end) with value.
  - destruct (assign_ok ka na sg w name value false T KA NA Nn V) as (w' & -> & S & R & C). cbn [bind]. eauto.
  - destruct I as [->|(more & ->)]; [rewrite strchr_none by auto; auto|]. rewrite strchr_app by auto.
    rewrite firstn_app, firstn_all, Nat.sub_diag. symmetry. apply app_nil_r.
Qed.

(** C66: SET /p without '=' is an error and changes nothing. *)
Theorem C66_prompt_error :
  forall w line p rest text v input,
    leads w line p rest -> nonul p -> same_name (firstn 4 p) (s2l "/p") -> behind rest text ->
    ((forall r, text <> dquote :: r) /\ expands w text v \/ (exists r rest', text = dquote :: r /\ leads w text v rest')) ->
    ~ In "="%char v ->
    SET w input line = Ret (PBAT_UNEXPECTED_ELEMENT, [], w).
Proof.
  intros w line p rest text v input L Np O B X A. unfold pBat_CmdSet, pBat_GetNextParameter.
  rewrite (leads_next _ _ _ _ L). cbn [bind].
  assert (Nf : nonul (firstn 4 p)) by (intros J; apply Np; eapply In_firstn; eauto).
  rewrite !(other_option _ _ _ O) by (auto; first [cbn; tauto|discriminate]). rewrite (is_option _ _ O) by (auto; cbn; tauto).
  unfold pBat_CmdSetP. rewrite (behind_skip _ _ B).
  match goal with |- context [bind ?e ?f] => replace e with (Ret (v, w)) end.
  2:{ destruct X as [[NQ E]|(r & rest' & -> & E)].
      - destruct text as [|c text]; [symmetry; exact E|]. replace (ceq c dquote) with false; [symmetry; exact E|].
        symmetry. apply ceq_false. intros ->. eapply NQ; eauto.
      - rewrite ceq_refl, (leads_next _ _ _ _ E). reflexivity. }
  cbn [bind]. rewrite strchr_none by auto. reflexivity.
Qed.
End SetProps.
Print Assumptions C66_assign.
Print Assumptions C66_exported.
Print Assumptions C66_list.
Print Assumptions C66_bare.
Print Assumptions C66_bare_refuted.
Print Assumptions C66_prompt.
Print Assumptions C66_prompt_error.

Definition ex_set : xworld := set_env ex_w ex_env.

Lemma leads_of w line p rest : pBat_GetNextParameterEs w [] line = Ret (p, Some rest, w) -> leads w line p rest.
Proof.
  intros E. unfold pBat_GetNextParameterEs in E. destruct (next_ok w PBAT_DELIMITERS [] line quote_std) as [[_ H]|(a & raw & r & t & H1 & H2 & H3 & H4 & H5 & H6 & H7)]; [congruence|].
  destruct H7 as [(_ & _ & H7)|[N H7]]; [congruence|].
  rewrite H7 in E. destruct (pBat_DelayedExpand w t) as [[t' w']| |] eqn:X; cbn [bind] in E; [|discriminate|discriminate]. injection E as -> -> ->.
  exists a, raw, t. split; [auto|]. split; [auto|]. split; [eapply raw_nonempty; eauto|].
  split; [intros c r' ->; eapply H3; reflexivity|]. split; [auto|]. split; [destruct rest; exact H6|]. split; [exact N|exact X].
Qed.

Lemma behind_of line a text : line = a ++ text -> Forall blank a -> (match text with c :: _ => inset blanks c = false | [] => True end) -> behind line text.
Proof. intros E B T. exists a. split; auto. split; auto. intros c r ->. intros X. assert (Y : inset blanks c = true) by (apply inset_in; exact X). congruence. Qed.

Definition noseta : xworld -> cstr -> outcome (Z * cstr * xworld) := fun w _ => Ret (0%Z, [], w).
Local Notation RUN := (pBat_CmdSet 8 80 noseta ex_set).
Example C66_ex :
  (exists w, RUN [] (s2l " HOME =""a=b"" c") = Ret (0%Z, [], w) /\ pBat_GetEnv (vw_env (x_var w)) (s2l "home") 8 = Ret (Some (s2l """a=b"" c"))) /\
  (exists w, RUN [] (s2l " ""new=a b"" rest") = Ret (0%Z, [], w) /\ pBat_GetEnv (vw_env (x_var w)) (s2l "NEW") 8 = Ret (Some (s2l "a b"))) /\
  (exists w, RUN [] (s2l " /X _b=1") = Ret (0%Z, [], w) /\ pBat_GetEnv (vw_env (x_var w)) (s2l "_B") 8 = Ret (Some (s2l "1"))) /\
  RUN [] (s2l " h") = Ret (0%Z, s2l "Home=/root" ++ [nl], ex_set) /\
  RUN [] (s2l " x") = Ret (4%Z, [], ex_set) /\
  RUN [] (s2l " ") = Ret (0%Z, s2l "_A=1" ++ nl :: s2l "Home=/root" ++ nl :: s2l "PATH=/bin" ++ [nl], ex_set) /\
  (exists w, RUN [] (s2l " path=") = Ret (0%Z, [], w) /\ has_hole (vw_env (x_var w)) /\ pBat_CmdSet 8 80 noseta w [] [] = Undef) /\
  (exists w, RUN (s2l "me" ++ [nl]) (s2l " /p ""who=Who? """) = Ret (0%Z, s2l "Who? ", w) /\ pBat_GetEnv (vw_env (x_var w)) (s2l "who") 8 = Ret (Some (s2l "me"))) /\
  RUN (s2l "me") (s2l " /P who") = Ret (4%Z, [], ex_set).
Proof.
  split; [eexists; split; vm_compute; reflexivity|]. split; [eexists; split; vm_compute; reflexivity|].
  split; [eexists; split; vm_compute; reflexivity|]. repeat (split; [vm_compute; reflexivity|]).
  split; [eexists; split; [vm_compute; reflexivity|]; split; [|vm_compute; reflexivity]|].
  - eexists. split; [right; right; left; reflexivity|reflexivity].
  - split; [eexists; split; vm_compute; reflexivity|]. vm_compute; reflexivity.
Qed.

(** The hypotheses of the theorems hold in these cases. *)
Example C66_ex_assign :
  exists w', pBat_CmdSet 8 80 noseta ex_set [] (s2l " ""new =a b"" rest") = Ret (0%Z, [], w') /\
    changed ex_env (s2l "new ") (s2l "a b") (vw_env (x_var w')).
Proof.
  destruct (C66_assign 8 80 noseta true eq_refl eq_refl ex_set [] (s2l " ""new =a b"" rest") (s2l "new =a b") (s2l " rest") (s2l """new =a b"" rest")
              (s2l """new =a b"" rest") (s2l "new =a b") (s2l "new ") (s2l "a b")) as (w' & E & _ & C & _).
  - apply leads_of. vm_compute. reflexivity.
  - apply nonul_b. reflexivity.
  - intros (o & I & S). destruct I as [<-|[<-|[<-|[<-|[]]]]]; discriminate.
  - apply (behind_of _ [" "%char]); [reflexivity|repeat constructor; apply space_blank|reflexivity].
  - vm_compute. reflexivity.
  - apply nonul_b. reflexivity.
  - apply (uq_quotes (s2l "new =a b") (s2l " rest")). cbv. intuition discriminate.
  - split; [reflexivity|]. cbv. intuition discriminate.
  - apply ex_env_ok.
  - left. discriminate.
  - exists w'. split; [exact E|exact C].
Qed.
Example C66_ex_list :
  exists out, pBat_CmdSet 8 80 noseta ex_set [] (s2l " h") = Ret (match out with [] => PBAT_UNEXPECTED_ELEMENT | _ => 0%Z end, out, ex_set) /\ listing ex_env (s2l "h") out.
Proof.
  apply (C66_list 8 80 noseta true) with (p := s2l "h") (rest := []) (v := s2l "h") (t := s2l "h").
  - apply leads_of. vm_compute. reflexivity.
  - apply nonul_b. reflexivity.
  - intros (o & I & S). destruct I as [<-|[<-|[<-|[<-|[]]]]]; discriminate.
  - apply (behind_of _ [" "%char]); [reflexivity|repeat constructor; apply space_blank|reflexivity].
  - apply nonul_b. reflexivity.
  - vm_compute. reflexivity.
  - apply uq_plain. intros r X. discriminate.
  - cbv. intuition discriminate.
  - apply ex_env_ok.
Qed.
Example C66_ex_prompt :
  exists w', pBat_CmdSet 8 80 noseta ex_set (s2l "me" ++ [nl]) (s2l " /P ""who=Who? """) = Ret (0%Z, s2l "Who? ", w') /\
    changed ex_env (s2l "who") (s2l "me") (vw_env (x_var w')).
Proof.
  destruct (C66_prompt 8 80 noseta true eq_refl eq_refl ex_set (s2l " /P ""who=Who? """) (s2l "/P") (s2l " ""who=Who? """) (s2l """who=Who? """)
              (s2l "who=Who? ") (s2l "who") (s2l "Who? ") (s2l "me") (s2l "me" ++ [nl])) as (w' & E & _ & C & _).
  - apply leads_of. vm_compute. reflexivity.
  - apply nonul_b. reflexivity.
  - reflexivity.
  - apply (behind_of _ [" "%char]); [reflexivity|repeat constructor; apply space_blank|reflexivity].
  - right. eexists _, []. split; [reflexivity|]. apply leads_of. vm_compute. reflexivity.
  - apply nonul_b. reflexivity.
  - split; [reflexivity|]. cbv. intuition discriminate.
  - cbv. intuition discriminate.
  - right. exists []. reflexivity.
  - apply ex_env_ok.
  - left. discriminate.
  - exists w'. split; [exact E|exact C].
Qed.
