(** SetA_Props.v -- property C67: SET /A. *)

From Verif Require Import Base Lex Num_Model Num_Proofs StrLib_Model StrLib_Spec Env_Model Env_Spec Env_Proofs Env_Props Var_Model Var_Proofs
  Expand_Model Expand_Props Args_Model Args_Spec Args_Props Args_Proofs Params_Model Params_Proofs Prompt_Spec Prompt_Proofs
  Set_Model Set_Spec Set_Proofs Set_Props SetA_Model SetA_Spec SetA_Proofs.

Section SetAProps.
Variables (F : fp) (ka na : Z) (sg : bool) (stale script : bool).
Hypotheses (KA : addr_ok sg ka) (NA : addr_ok sg na).
Local Notation ASSIGN := (pBat_CmdSetEval F ka na stale script).
Local Notation SET := (pBat_CmdSet ka na (pBat_CmdSetA F ka na stale script)).
Local Notation env_of w := (vw_env (x_var w)).

(** C67: SET /A evaluates the expressions of its line from left to right until one fails,
    and has the error level of the last one. *)
Theorem C67_sequence :
  forall w input line p rest z out w',
    leads w line p rest -> nonul p -> same_name (firstn 4 p) (s2l "/a") ->
    evaluates ASSIGN w rest (z, out, w') ->
    SET w input line = Ret (z, out, w').
Proof.
  intros w input line p rest z out w' L Np O E. unfold pBat_CmdSet, pBat_GetNextParameter.
  rewrite (leads_next _ _ _ _ L). cbn [bind].
  assert (Nf : nonul (firstn 4 p)) by (intros J; apply Np; eapply In_firstn; eauto).
  rewrite !(other_option _ _ _ O) by (auto; first [cbn; tauto|discriminate]). rewrite (is_option _ _ O) by (auto; cbn; tauto).
  apply seta_ok. exact E.
Qed.

(** C67: "name=expression" of integers gives the variable the value of the expression,
    with the assignments in it, and prints it unless a script is run. *)
Theorem C67_integer :
  forall is, exact F is ->
  forall w name s e vs z x vs' t,
    plain_name name -> is_trimmed name t -> spells e 0 s ->
    table_ok sg (env_of w) -> holds (env_of w) vs ->
    meaning e vs = Some (z, x, vs') -> fits 99999999999999 z = true ->
    exists w', ASSIGN w (name ++ "="%char :: s) = Ret (0%Z, if script then [] else dec z, w') /\
      same_but_env w w' /\ table_ok sg (env_of w') /\
      value_of (env_of w') t (Some (dec z)) /\ holds (env_of w') (upd vs' t z) /\
      untouched (t :: targets e) (env_of w) (env_of w').
Proof.
  intros is X w name s e vs z x vs' t (Nn & NE & NB & NL) Tr Sp T H M Fz.
  destruct (meaning_ok F ka na is X sg KA NA e (spells_names e 0 s Sp) vs z x vs' (env_of w) T H M) as (d & en & E & _ & _ & T1 & H1 & U1).
  destruct (put_ok ka na sg NA vs' en name t z (dec z) T1 Nn Tr H1 (or_introl eq_refl)) as (en' & E' & T' & H' & U' & V').
  exists (set_env w en'). split.
  - rewrite <- (ex_14 F is X z Fz). eapply (assign_eval F ka na); eauto.
    + rewrite (eval_ok F ka na stale e s (env_of w) Sp), E. reflexivity.
    + apply left_plain. exact NL.
    + unfold as_double. cbn [n_double n_i]. rewrite (ex_14 F is X z Fz). exact E'.
  - split; [split; reflexivity|]. split; [exact T'|]. split; [|split; [exact H'|]].
    + apply V'; [|apply streqb_refl]. destruct Tr as (b & -> & _). intros I. apply Nn. apply in_or_app. auto.
    + change (env_of (set_env w en')) with en'. eapply untouched_le; [|eapply untouched_app; eauto]. intros m I. apply in_app_iff in I. destruct I as [I|[<-|[]]]; cbn; auto.
Qed.

(** C67: "name op= expression" gives the variable the operation of its value and the one
    of the expression. *)
Theorem C67_compound :
  forall is, exact F is ->
  forall w name c s e vs z x vs' t v r,
    before_op c name -> is_trimmed name t -> spells e 0 s ->
    table_ok sg (env_of w) -> holds (env_of w) vs ->
    meaning e vs = Some (z, x, vs') -> vs' t = Some v -> left_operation c v z = Some r ->
    exists w' txt, ASSIGN w (name ++ c :: "="%char :: s) = Ret (0%Z, if script then [] else txt, w') /\ shows txt r /\
      same_but_env w w' /\ table_ok sg (env_of w') /\
      value_of (env_of w') t (Some txt) /\ holds (env_of w') (upd vs' t r) /\
      untouched (t :: targets e) (env_of w) (env_of w').
Proof.
  intros is X w name c s e vs z x vs' t v r (Nn & NE & NB & IC & ND) Tr Sp T H M Vt Op.
  destruct (meaning_ok F ka na is X sg KA NA e (spells_names e 0 s Sp) vs z x vs' (env_of w) T H M) as (d & en & E & _ & _ & T1 & H1 & U1).
  assert (Nt : nonul t) by (destruct Tr as (b & -> & _); intros I; apply Nn; apply in_or_app; auto).
  assert (At : pBat_AdjustVarName name = t) by (apply (trimmed_unique name); [apply adjust_trimmed|exact Tr]).
  assert (L : exists dv, set_left F ka false en (name ++ [c]) (of_Z F z) = Ret (t, dv) /\ shows (show14 F dv) r).
  { unfold set_left. rewrite rev_app_distr. cbn [rev app]. rewrite rev_involutive, At.
    assert (Get : fits B53 v = true -> exists dv, get_var F ka en t = Ret dv /\ is dv v) by (intros; eapply (get_ok_num F ka is X sg KA vs'); eauto).
    assert (Sm : forall q, (if fits B53 v && fits B53 z && fits 99999999999999 q then Some q else None) = Some r -> q = r /\ fits B53 v = true /\ fits B53 z = true /\ fits 99999999999999 r = true).
    { intros q Y. destruct (fits B53 v && fits B53 z && fits 99999999999999 q) eqn:Z0; [|discriminate]. rewrite !andb_true_iff in Z0. injection Y as <-. tauto. }
    assert (F53 : forall q, fits 99999999999999 q = true -> fits B53 q = true) by (intros q; rewrite !fits_iff; unfold B53; lia).
    assert (Bi : forall q, (if in_int v && in_int z then Some q else None) = Some r -> q = r /\ in_int v = true /\ in_int z = true).
    { intros q Y. destruct (in_int v && in_int z) eqn:Z0; [|discriminate]. rewrite andb_true_iff in Z0. injection Y as <-. tauto. }
    assert (Oi : forall o dv, is dv v -> in_int v = true -> in_int z = true -> In o [ODiv; OXor; OAnd; OOr] ->
      (match o with ODiv => if (z =? 0)%Z then Undef else int_op (Z.quot v z) | _ => int_op2 32 o v z end) = Ret r -> operate_int F o dv (of_Z F z) = Ret (of_Z F r)).
    { intros o dv Hd Iv Iz Io Y. unfold operate_int, cast. rewrite (ex_trunc F is X dv v Hd Iv). cbn [bind].
      rewrite (ex_trunc F is X (of_Z F z) z) by (auto; apply (ex_of_Z F is X); apply int_53; auto).
      destruct Io as [<-|[<-|[<-|[<-|[]]]]]; cbn [bind]; rewrite Y; reflexivity. }
    assert (Sr : in_int r = true -> shows (show14 F (of_Z F r)) r).
    { intros I. left. apply (ex_14 F is X). revert I. rewrite in_int_iff, fits_iff. lia. }
    unfold left_operation in Op.
    destruct IC as [<-|[<-|[<-|[<-|[<-|[<-|[<-|[<-|[]]]]]]]]]; cbn [ceq Ascii.eqb Bool.eqb orb] in Op |- *.
    - apply Sm in Op. destruct Op as (<- & A1 & A2 & A3). destruct (Get A1) as (dv & -> & Hd). cbn [bind]. eexists. split; [reflexivity|].
      apply (ex_14' F is X); auto. apply (ex_mul F is X); auto. apply (ex_of_Z F is X); auto.
    - destruct (z =? 0)%Z eqn:Z0; [discriminate|]. cbn [orb] in Op. destruct (in_int (Z.quot v z)) eqn:Iq; [|discriminate]. apply Bi in Op. destruct Op as (<- & A1 & A2).
      destruct (Get (int_53 v A1)) as (dv & -> & Hd). cbn [bind]. rewrite (Oi ODiv dv Hd A1 A2); [|cbn; tauto|unfold int_op; rewrite Iq; reflexivity].
      cbn [bind]. eexists. split; [reflexivity|]. auto.
    - destruct (z =? 0)%Z eqn:Z0; [discriminate|]. apply Sm in Op. destruct Op as (<- & A1 & A2 & A3). destruct (Get A1) as (dv & -> & Hd). cbn [bind]. eexists. split; [reflexivity|].
      apply (ex_14' F is X); auto. apply (ex_mod F is X); auto; [apply (ex_of_Z F is X); auto|apply Z.eqb_neq; auto].
    - apply Sm in Op. destruct Op as (<- & A1 & A2 & A3). destruct (Get A1) as (dv & -> & Hd). cbn [bind]. eexists. split; [reflexivity|].
      apply (ex_14' F is X); auto. apply (ex_add F is X); auto. apply (ex_of_Z F is X); auto.
    - apply Sm in Op. destruct Op as (<- & A1 & A2 & A3). destruct (Get A1) as (dv & -> & Hd). cbn [bind]. eexists. split; [reflexivity|].
      apply (ex_14' F is X); auto. apply (ex_sub F is X); auto. apply (ex_of_Z F is X); auto.
    - apply Bi in Op. destruct Op as (<- & A1 & A2). destruct (Get (int_53 v A1)) as (dv & -> & Hd). cbn [bind]. destruct (int_bits v z A1 A2) as (_ & _ & I3).
      rewrite (Oi OXor dv Hd A1 A2); [|cbn; tauto|reflexivity]. cbn [bind]. eexists. split; [reflexivity|]. auto.
    - apply Bi in Op. destruct Op as (<- & A1 & A2). destruct (Get (int_53 v A1)) as (dv & -> & Hd). cbn [bind]. destruct (int_bits v z A1 A2) as (I1 & _ & _).
      assert (O := Oi OAnd dv Hd A1 A2). cbn [int_op2] in O. rewrite O; [|cbn; tauto|reflexivity]. cbn [bind].
      assert (N2 : forall q l, rev name = q :: l -> ceq q "&"%char = false).
      { intros q l R. apply ceq_false. intros ->. apply (ND (or_introl eq_refl) (rev l)). rewrite <- (rev_involutive name), R. reflexivity. }
      destruct (rev name) as [|q l] eqn:R; [|rewrite (N2 q l eq_refl)]; (eexists; split; [reflexivity|]; auto).
    - apply Bi in Op. destruct Op as (<- & A1 & A2). destruct (Get (int_53 v A1)) as (dv & -> & Hd). cbn [bind]. destruct (int_bits v z A1 A2) as (_ & I2 & _).
      assert (O := Oi OOr dv Hd A1 A2). cbn [int_op2] in O. rewrite O; [|cbn; tauto|reflexivity]. cbn [bind].
      assert (N2 : forall q l, rev name = q :: l -> ceq q "|"%char = false).
      { intros q l R. apply ceq_false. intros ->. apply (ND (or_intror (or_introl eq_refl)) (rev l)). rewrite <- (rev_involutive name), R. reflexivity. }
      destruct (rev name) as [|q l] eqn:R; [|rewrite (N2 q l eq_refl)]; (eexists; split; [reflexivity|]; auto). }
  destruct L as (dv & L & Sh).
  destruct (put_ok ka na sg NA vs' en t t r (show14 F dv) T1 Nt (trimmed_again name t Tr) H1 Sh) as (en' & E' & T' & H' & U' & V').
  exists (set_env w en'), (show14 F dv). split.
  - replace (name ++ c :: "="%char :: s) with ((name ++ [c]) ++ "="%char :: s) by (rewrite <- app_assoc; reflexivity).
    eapply (assign_eval F ka na); eauto.
    + intros I. apply in_app_iff in I. destruct I as [I|[->|[]]]; [auto|]. cbv in IC. intuition discriminate.
    + rewrite (eval_ok F ka na stale e s (env_of w) Sp), E. reflexivity.
  - split; [exact Sh|]. split; [split; reflexivity|]. split; [exact T'|]. split; [apply V'; [auto|apply streqb_refl]|]. split; [exact H'|].
    change (env_of (set_env w en')) with en'. eapply untouched_le; [|eapply untouched_app; eauto]. intros m I. apply in_app_iff in I. destruct I as [I|[<-|[]]]; cbn; auto.
Qed.

(** C67: with numbers that have a '.', constants and functions, the floating point value is
    written with 14 digits. *)
Theorem C67_float :
  forall w name s e d,
    plain_name name -> spells e 0 s -> fvalue F e = Some d -> show14 F d <> [] ->
    table_ok sg (env_of w) ->
    exists w', ASSIGN w (name ++ "="%char :: s) = Ret (0%Z, if script then [] else show14 F d, w') /\
      same_but_env w w' /\ changed (env_of w) name (show14 F d) (env_of w').
Proof.
  intros w name s e d (Nn & NE & NB & NL) Sp V Ne T.
  destruct (fvalue_ok F ka na e d (env_of w) V) as (n & E & Dn & Vn).
  destruct (env_assign ka na sg w name (show14 F d) T KA NA) as (en' & E' & C); auto.
  exists (set_env w en'). split; [|split; [split; reflexivity|exact C]].
  eapply (assign_eval F ka na); eauto.
  - rewrite (eval_ok F ka na stale e s (env_of w) Sp), E. cbn [bind]. unfold as_double. rewrite Dn, Vn. reflexivity.
  - apply left_plain. exact NL.
Qed.

(** C67: "name op= expression" computes in floating point then, with any value of the
    variable. *)
Theorem C67_float_compound :
  forall w name c s e t v x y d,
    before_op c name -> is_trimmed name t -> spells e 0 s -> fvalue F e = Some y ->
    table_ok sg (env_of w) -> value_of (env_of w) t v -> is_number F v x -> left_float F c x y = Some d -> show14 F d <> [] ->
    exists w', ASSIGN w (name ++ c :: "="%char :: s) = Ret (0%Z, if script then [] else show14 F d, w') /\
      same_but_env w w' /\ changed (env_of w) t (show14 F d) (env_of w').
Proof.
  intros w name c s e t v x y d (Nn & NE & NB & IC & ND) Tr Sp Fe T V R L Ne.
  destruct (fvalue_ok F ka na e y (env_of w) Fe) as (n & E & Dn & Vn).
  assert (Nt : nonul t) by (destruct Tr as (b & -> & _); intros I; apply Nn; apply in_or_app; auto).
  assert (At : pBat_AdjustVarName name = t) by (apply (trimmed_unique name); [apply adjust_trimmed|exact Tr]).
  destruct (env_assign ka na sg w t (show14 F d) T KA NA) as (en' & E' & C); auto.
  exists (set_env w en'). split; [|split; [split; reflexivity|exact C]].
  replace (name ++ c :: "="%char :: s) with ((name ++ [c]) ++ "="%char :: s) by (rewrite <- app_assoc; reflexivity).
  eapply (assign_eval F ka na); eauto.
  - intros I. apply in_app_iff in I. destruct I as [I|[->|[]]]; [auto|]. cbv in IC. intuition discriminate.
  - rewrite (eval_ok F ka na stale e s (env_of w) Sp), E. cbn [bind]. unfold as_double. rewrite Dn, Vn. reflexivity.
  - unfold set_left. rewrite rev_app_distr. cbn [rev app]. rewrite rev_involutive, At, (number_ok F ka sg _ t v x T KA Nt V R). cbn [bind].
    unfold left_float in L. revert L.
    destruct IC as [<-|[<-|[<-|[<-|[<-|[<-|[<-|[<-|[]]]]]]]]]; cbn [ceq Ascii.eqb Bool.eqb orb]; intros L; try discriminate; injection L as <-; reflexivity.
Qed.

(** C67: a variable is cut off to an int where no other number has a '.'; with one that
    does not fit, or with "inf" or "nan", that is undefined. *)
Theorem C67_fraction_refuted :
  forall w name n v x,
    plain_name name -> varname n -> table_ok sg (env_of w) -> value_of (env_of w) n v -> is_number F v x ->
    match trunc F x with
    | Some i => show14 F (of_Z F i) <> [] ->
        exists w', ASSIGN w (name ++ "="%char :: n) = Ret (0%Z, if script then [] else show14 F (of_Z F i), w') /\
          same_but_env w w' /\ changed (env_of w) name (show14 F (of_Z F i)) (env_of w')
    | None => ASSIGN w (name ++ "="%char :: n) = Undef
    end.
Proof.
  intros w name n v x (Nn & NE & NB & NL) Nm T V R.
  assert (Ev : fasteval_evaluate F ka na stale (env_of w) n = match trunc F x with Some i => Ret (of_Z F i, false, env_of w) | None => Undef end).
  { assert (Sp : spells (Var n) 0 n) by (do 5 apply sp_tighter; apply sp_var; exact Nm).
    rewrite (eval_ok F ka na stale _ n (env_of w) Sp). cbn [ev]. rewrite (number_ok F ka sg _ n v x T KA (varname_nonul n Nm) V R). cbn [bind]. unfold cast.
    destruct (trunc F x); reflexivity. }
  destruct (trunc F x) as [i|].
  - intros Ne. destruct (env_assign ka na sg w name (show14 F (of_Z F i)) T KA NA) as (en' & E' & C); auto.
    exists (set_env w en'). split; [|split; [split; reflexivity|exact C]].
    eapply (assign_eval F ka na); eauto. apply left_plain. exact NL.
  - unfold pBat_CmdSetEval. rewrite assign_text by auto. destruct (assigns_ok (name ++ "="%char :: n) name n (conj eq_refl NE)) as (S1 & S2 & S3).
    destruct (name ++ "="%char :: n) as [|q l] eqn:Q; [destruct name; discriminate|]. rewrite S1. try rewrite S2. try rewrite S3. rewrite Ev. reflexivity.
Qed.

(** C67: without an expression, or without '=', nothing is changed, and that is reported. *)
Theorem C67_errors :
  forall w t, Forall blank t /\ ASSIGN w t = Ret (PBAT_EXPECTED_MORE, [], w) \/
    ~ Forall blank t /\ ~ In "="%char t /\ ASSIGN w t = Ret (PBAT_INVALID_EXPRESSION, [], w) \/
    In "="%char t /\ forall z out w', ASSIGN w t = Ret (z, out, w') -> z = 0%Z.
Proof.
  intros w t. destruct (behind_exists t) as (s & B). pose proof (behind_skip _ _ B) as K. destruct B as (a & E & A & N).
  unfold pBat_CmdSetEval. rewrite K. destruct s as [|c s].
  - left. rewrite app_nil_r in E. subst t. auto.
  - right. assert (In "="%char t <-> In "="%char (c :: s)).
    { rewrite E, in_app_iff. split; [|auto]. intros [I|I]; auto. exfalso. rewrite Forall_forall in A. specialize (A _ I).
      assert (Y : inset blanks "="%char = true) by (apply inset_in; exact A). discriminate. }
    destruct (in_dec ascii_dec "="%char (c :: s)) as [I|I].
    + right. split; [tauto|]. intros z out w' R. destruct (strchr (c :: s) "="%char) as [i|] eqn:S0.
      * revert R. generalize (fasteval_evaluate F ka na stale (env_of w) (skipn (S i) (c :: s))). intros [[[d fm] en]| |]; cbn [bind]; [|discriminate|discriminate].
        destruct (set_left F ka fm en (firstn i (c :: s)) d) as [[n v]| |]; cbn [bind]; [|discriminate|discriminate].
        match goal with |- context [pBat_SetEnvEx ?a ?b ?c ?d ?e ?f] => destruct (pBat_SetEnvEx a b c d e f) end; cbn [bind]; congruence.
      * exfalso. apply in_split in I. destruct I as (l1 & l2 & I).
        assert (Fi : exists l1 l2, c :: s = l1 ++ "="%char :: l2 /\ ~ In "="%char l1).
        { clear - I. revert l1 l2 I. generalize (c :: s) as l. induction l as [|x l IH]; intros l1 l2 I; [destruct l1; discriminate|].
          destruct (ascii_dec x "="%char) as [->|D]; [exists [], l; auto|]. destruct l1 as [|y l1]; [injection I as -> _; congruence|]. injection I as -> I.
          destruct (IH _ _ I) as (m1 & m2 & -> & Nm). exists (y :: m1), m2. split; auto. intros [J|J]; auto. }
        destruct Fi as (m1 & m2 & J & Nm). rewrite J, strchr_app in S0 by auto. discriminate.
    + left. split; [|split; [tauto|rewrite strchr_none by auto; reflexivity]]. subst t. intros G. apply Forall_app in G. destruct G as [_ G]. apply Forall_inv in G. eapply N; eauto.
Qed.

(** C67: a syntax error is not reported: the variable is set to what NAN looks like. *)
Theorem C67_syntax_refuted :
  show14 F (dnan F) <> [] ->
  forall w s, In s (map s2l ["x="; "x=1+"; "x=(1"; "x=1 2"; "x=)"; "x=sqrt 4"]%string) -> table_ok sg (env_of w) ->
    exists w', ASSIGN w s = Ret (0%Z, if script then [] else show14 F (dnan F), w') /\ changed (env_of w) (s2l "x") (show14 F (dnan F)) (env_of w').
Proof.
  intros Ne w s I T.
  destruct (env_assign ka na sg w (s2l "x") (show14 F (dnan F)) T KA NA) as (en' & E' & C); auto; [apply nonul_b; reflexivity|].
  exists (set_env w en'). split; [|exact C].
  destruct I as [<-|[<-|[<-|[<-|[<-|[<-|[]]]]]]];
    (eapply (assign_eval F ka na stale script w (s2l "x")); [cbv; intuition discriminate|intros c r X; injection X as <- _; intros Y; assert (Z0 : inset blanks "x"%char = true) by (apply inset_in; exact Y); discriminate|reflexivity|reflexivity|exact E']).
Qed.

(** C67: a division of integers by zero is undefined, even within a floating point
    operation. *)
Theorem C67_zero_refuted :
  forall w, ASSIGN w (s2l "x=1/0") = Undef /\ ASSIGN w (s2l "x=7%0") = Undef /\ ASSIGN w (s2l "x=1/0+2.5") = Undef.
Proof. intros w. split; [|split]; reflexivity. Qed.

(** C67: so is a shift by more bits than an int has. *)
Theorem C67_shift_refuted :
  forall is, exact F is -> forall w, ASSIGN w (s2l "x=1<<32") = Undef.
Proof.
  intros is X w.
  assert (E1 : trunc F (of_Z F 1) = Some 1%Z) by (apply (ex_trunc F is X); [apply (ex_of_Z F is X)|]; reflexivity).
  assert (E2 : trunc F (of_Z F 32) = Some 32%Z) by (apply (ex_trunc F is X); [apply (ex_of_Z F is X)|]; reflexivity).
  assert (Sp : spells (Bin OShl (Num 1) (Num 32)) 0 (s2l "1<<32")).
  { apply sp_tighter, sp_tighter. apply (sp_bin 2 [(s2l "<<", OShl); (s2l ">>", OShr)] (s2l "<<") OShl (Num 1) (Num 32) (s2l "1") (s2l "32")); [reflexivity|left; reflexivity|apply sp_tighter, sp_tighter, sp_tighter|apply sp_tighter, sp_tighter]; apply sp_num.
    - apply (nu_dec "1"%char [] 1); [discriminate|]. apply (rd_more 10 [] 0 "1"%char 1); [constructor|reflexivity|lia].
    - apply (nu_dec "3"%char (s2l "2") 32); [discriminate|]. apply (rd_more 10 (s2l "3") 3 "2"%char 2); [|reflexivity|lia]. apply (rd_more 10 [] 0 "3"%char 3); [constructor|reflexivity|lia]. }
  change (pBat_CmdSetEval F ka na stale script w (s2l "x=1<<32")) with
    (do (res, fm, e) <- fasteval_evaluate F ka na stale (env_of w) (s2l "1<<32");
     do (name, v) <- set_left F ka fm e (s2l "x") res;
     do e <- pBat_SetEnvEx e name ka na (Some (show14 F v)) false;
     Ret (0%Z, if script then [] else show14 F v, set_env w e)).
  rewrite (eval_ok F ka na stale _ _ (env_of w) Sp). cbn [ev bind]. change (Z.min LLONG_MAX 1) with 1%Z. change (Z.min LLONG_MAX 32) with 32%Z.
  unfold binary, INT_OP. cbn [n_double n_i n_d orb]. change (int_op2 64 OShl 1 32) with (@Ret Z (2 ^ 32)%Z). cbn [bind]. unfold cast. rewrite E1, E2. reflexivity.
Qed.
End SetAProps.

(** *** An instance: floating point numbers that are all whole. *)
Definition Zfp : fp :=
  {| D := Z; of_Z := fun z => z; trunc := fun z => if in_int z then Some z else None;
     dadd := Z.add; dsub := Z.sub; dmul := Z.mul; ddiv := Z.quot; dmod := Z.rem; dneg := Z.opp; dnan := 777777%Z; dinf := 888888%Z;
     strtod := fun t => match atol t with Ret z => z | _ => 0%Z end;
     atof := fun t => match atol t with Ret z => z | _ => 0%Z end;
     constant := fun _ => 3%Z; func := fun _ z => Z.sqrt z; show14 := dec; show16 := dec |}.
Lemma Zfp_exact : exact Zfp (@eq Z).
Proof.
  constructor; cbn; intros; subst; auto.
  - rewrite H0. auto.
  - destruct H as [->|[-> ->]]; [|reflexivity]. rewrite atol_dec; auto. revert H0. rewrite fits_iff. unfold B53, in_long. intros. rewrite andb_true_iff, !Z.leb_le. lia.
  - left. auto.
Qed.

Local Notation RUN := (pBat_CmdSet 8 80 (pBat_CmdSetA Zfp 8 80 false false)).
Definition after (line : string) (name : string) : outcome (Z * cstr * option cstr) :=
  do (z, out, w) <- RUN ex_set [] (s2l line);
  do v <- pBat_GetEnv (vw_env (x_var w)) (s2l name) 8;
  Ret (z, out, v).
Definition sets (z : string) : outcome (Z * cstr * option cstr) := Ret (0%Z, s2l z, Some (s2l z)).
Example C67_ex :
  after " /a x=1+2*3" "x" = sets "7" /\
  after " /A ""x = (1+2)*3""" "x" = sets "9" /\
  after " /a x=-7/2" "x" = sets "-3" /\
  after " /a x=0x1F^&12" "x" = sets "12" /\
  after " /a x=017" "x" = sets "15" /\
  after " /a x=5,""x*=x+1"",y=x" "y" = Ret (0%Z, s2l "53030", Some (s2l "30")) /\
  after " /a x=~5" "x" = sets "-6" /\
  after " /a x=sqrt(9)" "x" = sets "3" /\
  after " /a x=1, oops, y=2" "y" = Ret (PBAT_INVALID_EXPRESSION, s2l "1", None) /\
  after " /a" "x" = Ret (0%Z, [], None).
Proof. vm_compute. repeat split. Qed.

(** C67: "x=y=1+2" sets y to 1: what is assigned within an expression ends at the next
    operator. *)
Theorem C67_chain :
  after " /a x=y=1+2" "x" = sets "3" /\ after " /a x=y=1+2" "y" = Ret (0%Z, s2l "3", Some (s2l "1")).
Proof. vm_compute. repeat split. Qed.
(** C67: "x<<=1" does not shift x; it sets the variable "x<<". *)
Theorem C67_shift_assign_refuted :
  after " /a x=3,""x<<=1""" "x" = Ret (0%Z, s2l "31", Some (s2l "3")) /\ after " /a x=3,""x<<=1""" "x<<" = Ret (0%Z, s2l "31", Some (s2l "1")).
Proof. vm_compute. repeat split. Qed.
(** C67: "x&&=1" looks at the variable "x&"; so does "x||=0" at "x|". *)
Theorem C67_logical_assign_refuted :
  after " /a x=3,""x&&=1""" "x" = Ret (0%Z, s2l "30", Some (s2l "0")) /\ after " /a x=3,""x||=0""" "x" = Ret (0%Z, s2l "30", Some (s2l "0")).
Proof. vm_compute. repeat split. Qed.
(** C67: '!' is no operator, '09' is zero, and '1e5' is the name of a variable. *)
Theorem C67_words_refuted :
  after " /a x=3,x=/x" "x" = Ret (0%Z, s2l "3777777", Some (s2l "777777")) /\
  after " /a !x=4,x=!x" "x" = Ret (0%Z, s2l "44", Some (s2l "4")) /\
  after " /a x=09" "x" = sets "0" /\
  after " /a 1e5=2,x=1e5" "x" = Ret (0%Z, s2l "22", Some (s2l "2")).
Proof. vm_compute. repeat split. Qed.
(** C67: the operators do not bind as the manual says: '&&' binds as tight as '&', and '||'
    and '^' as '|'. *)
Theorem C67_precedence_refuted :
  after " /a ""x=4|2&&1""" "x" = sets "5" /\ after " /a ""x=1|1^^1""" "x" = sets "0" /\ after " /a ""x=1||0|2""" "x" = sets "3".
Proof. vm_compute. repeat split. Qed.
(** C67: a blank after the double quote belongs to the name of the variable. *)
Theorem C67_blank_refuted :
  after " /a "" x=1""" "x" = Ret (0%Z, s2l "1", None) /\ after " /a "" x=1""" " x" = sets "1".
Proof. vm_compute. repeat split. Qed.

(** The hypotheses can be met: "x=1+y" and "y-=5" where y is not set. *)
Definition ex_vs : vars := fun n => if streqb n (s2l "y") then Some 0%Z else None.
Lemma ex_holds : holds ex_env ex_vs.
Proof.
  intros n z _ H. unfold ex_vs in H. destruct (streqb n (s2l "y")) eqn:E; [|discriminate]. injection H as <-. apply streqb_true in E. subst n.
  left. split; auto. exists true, 8%Z. split; [reflexivity|]. split; [apply ex_env_ok|]. vm_compute. reflexivity.
Qed.
Lemma ex_plain c : inset (blanks ++ left_ops ++ s2l "=") c = false -> c <> "000"%char -> plain_name [c].
Proof.
  intros H N. assert (K : ~ In c (blanks ++ left_ops ++ s2l "=")) by (intros I; apply inset_in in I; congruence). rewrite !in_app_iff in K.
  split; [intros [I|[]]; auto|]. split; [intros [I|[]]; apply K; subst; cbn; tauto|]. split.
  - intros d r X. injection X as <- _. intros B. apply K. left. exact B.
  - intros r d X. destruct r as [|q [|q' r]]; [|discriminate|discriminate]. injection X as <-. tauto.
Qed.
Example C67_ex_integer :
  exists w', pBat_CmdSetEval Zfp 8 80 false false ex_set (s2l "x=1+y") = Ret (0%Z, s2l "1", w') /\ value_of (vw_env (x_var w')) (s2l "x") (Some (s2l "1")).
Proof.
  assert (Vy : varname (s2l "y")).
  { split; [eexists _, _; split; [reflexivity|cbv; intuition discriminate]|]. split; [repeat constructor; cbv; intuition discriminate|].
    split; [cbv; intuition discriminate|]. split; [cbv; intuition discriminate|]. apply nonul_b. reflexivity. }
  assert (Sp : spells (Bin OAdd (Num 1) (Var (s2l "y"))) 0 (s2l "1+y")).
  { do 3 apply sp_tighter. apply (sp_bin 3 [(s2l "+", OAdd); (s2l "-", OSub)] (s2l "+") OAdd (Num 1) (Var (s2l "y")) (s2l "1") (s2l "y")); [reflexivity|left; reflexivity|do 2 apply sp_tighter|apply sp_tighter].
    - apply sp_num. apply (nu_dec "1"%char [] 1); [discriminate|]. apply (rd_more 10 [] 0 "1"%char 1); [constructor|reflexivity|lia].
    - apply sp_var. exact Vy. }
  destruct (C67_integer Zfp 8 80 true false false eq_refl eq_refl (@eq Z) Zfp_exact ex_set (s2l "x") (s2l "1+y") (Bin OAdd (Num 1) (Var (s2l "y"))) ex_vs 1 true ex_vs (s2l "x")) as (w' & E & _ & _ & V & _); try exact Sp.
  - apply ex_plain; [reflexivity|discriminate].
  - exists []. split; [reflexivity|]. split; [constructor|]. right. exists [], "x"%char. split; [reflexivity|]. split; discriminate.
  - apply ex_env_ok.
  - apply ex_holds.
  - reflexivity.
  - reflexivity.
  - exists w'. split; [exact E|exact V].
Qed.
Example C67_ex_compound :
  exists w', pBat_CmdSetEval Zfp 8 80 false false ex_set (s2l "y -=5") = Ret (0%Z, s2l "-5", w') /\ value_of (vw_env (x_var w')) (s2l "y") (Some (s2l "-5")).
Proof.
  assert (Sp : spells (Num 5) 0 (s2l "5")).
  { do 5 apply sp_tighter. apply sp_num. apply (nu_dec "5"%char [] 5); [discriminate|]. apply (rd_more 10 [] 0 "5"%char 5); [constructor|reflexivity|lia]. }
  destruct (C67_compound Zfp 8 80 true false false eq_refl eq_refl (@eq Z) Zfp_exact ex_set (s2l "y ") "-"%char (s2l "5") (Num 5) ex_vs 5 true ex_vs (s2l "y") 0 (-5)) as (w' & txt & E & S & _ & _ & V & _); try exact Sp.
  - split; [apply nonul_b; reflexivity|]. split; [cbv; intuition discriminate|]. split; [|split; [cbv; tauto|cbv; intuition discriminate]].
    intros d r X. injection X as <- _. intros B. assert (Y : inset blanks "y"%char = true) by (apply inset_in; exact B). discriminate.
  - exists (s2l " "). split; [reflexivity|]. split; [repeat constructor|]. right. exists [], "y"%char. split; [reflexivity|]. split; discriminate.
  - apply ex_env_ok.
  - apply ex_holds.
  - reflexivity.
  - reflexivity.
  - reflexivity.
  - destruct S as [->|[S _]]; [|discriminate]. exists w'. split; [exact E|exact V].
Qed.

(** An instance with one digit behind the point: 2.5 is 25, and "inf" is no int. *)
Definition Tfp : fp :=
  {| D := Z; of_Z := fun z => (z * 10)%Z; trunc := fun z => let i := Z.quot z 10 in if in_int i then Some i else None;
     dadd := Z.add; dsub := Z.sub; dmul := fun a b => Z.quot (a * b) 10; ddiv := fun a b => Z.quot (a * 10) b; dmod := Z.rem; dneg := Z.opp;
     dnan := 88888888888%Z; dinf := 99999999999%Z;
     strtod := fun t => if streqb t (s2l "1.0") then 10%Z else 25%Z;
     atof := fun t => if streqb t (s2l "2.5") then 25%Z else match atol t with Ret z => (z * 10)%Z | _ => 0%Z end;
     constant := fun _ => 31%Z; func := fun _ z => z;
     show14 := fun z => dec (Z.quot z 10) ++ if (Z.rem z 10 =? 0)%Z then [] else s2l "." ++ dec (Z.abs (Z.rem z 10)); show16 := dec |}.
Definition with_y (y line : string) : outcome (Z * cstr) :=
  do (_, _, w) <- pBat_CmdSet 8 80 (pBat_CmdSetA Tfp 8 80 false false) ex_set [] (s2l (" y=" ++ y));
  do (z, out, w) <- pBat_CmdSet 8 80 (pBat_CmdSetA Tfp 8 80 false false) w [] (s2l line);
  Ret (z, out).
Example C67_ex_float :
  with_y "2.5" " /a x=y" = Ret (0%Z, s2l "2") /\ with_y "2.5" " /a x=y*1.0" = Ret (0%Z, s2l "2.5") /\ with_y "2.5" " /a y+=1.0" = Ret (0%Z, s2l "3.5") /\ with_y "inf" " /a x=y" = Undef /\ with_y "inf" " /a y-=1.0" = Ret (0%Z, s2l "9999999998.9") /\ with_y "3" " /a x=2.5|1.0" = Ret (0%Z, s2l "3").
Proof. vm_compute. repeat split. Qed.

Print Assumptions C67_float_compound.
Print Assumptions C67_fraction_refuted.
Print Assumptions C67_sequence.
Print Assumptions C67_integer.
Print Assumptions C67_compound.
Print Assumptions C67_float.
Print Assumptions C67_errors.
Print Assumptions C67_syntax_refuted.
Print Assumptions C67_zero_refuted.
Print Assumptions C67_shift_refuted.
Print Assumptions C67_chain.
Print Assumptions C67_shift_assign_refuted.
Print Assumptions C67_logical_assign_refuted.
Print Assumptions C67_words_refuted.
Print Assumptions C67_precedence_refuted.
Print Assumptions C67_blank_refuted.
