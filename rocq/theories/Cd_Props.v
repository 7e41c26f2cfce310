(** Cd_Props.v -- property C92: CD, PUSHD and POPD. *)
From Verif Require Import Base Lex StrLib_Model StrLib_Spec Path_Model Path_Spec Path_Proofs Var_Model Expand_Model Args_Model Args_Spec Args_Props
  Prompt_Spec Prompt_Proofs Set_Spec Set_Proofs Set_Props Params_Proofs Call_Proofs Def_Proofs Args_Proofs Cd_Model Cd_Spec Cd_Proofs.

(** C92: CD goes to the directory named behind it (or behind /D), if it is there. *)
Theorem C92_cd :
  forall ex w line p rest a text t d,
    leads w line p rest -> nonul p -> p <> s2l "/?" ->
    (~ same_name p (s2l "/d") /\ line = a ++ text \/ same_name p (s2l "/d") /\ rest = a ++ text) ->
    Forall space a -> (forall c r, text = c :: r -> ~ space c) -> expands w text t -> names t d ->
    current (vw_cd (x_var w)) -> length (vw_cd (x_var w)) + 1 + length d < FILENAME_MAX ->
    (exists c, arrives ex (vw_cd (x_var w)) d c /\ pBat_CmdCd ex w line = Ret (0%Z, [], set_cd w c)) \/
    nowhere ex (vw_cd (x_var w)) d /\ pBat_CmdCd ex w line = Ret (PBAT_DIRECTORY_ERROR, [], w).
Proof.
  intros ex w line p rest a text t d L Np Nh D A T E N C Le. unfold pBat_CmdCd. rewrite (leads_next _ _ _ _ L). cbn [bind].
  apply streqb_false in Nh. rewrite Nh.
  assert (S1 : skip_spaces (a ++ text) = text).
  { clear - A T. induction A as [|c a Sc A IH]; cbn.
    - destruct text as [|c r]; auto. cbn. destruct (ceq c " "%char || ceq c "009"%char) eqn:X; auto.
      exfalso. apply (T c r eq_refl). apply orb_true_iff in X. rewrite !ceq_true in X. exact X.
    - destruct Sc as [->| ->]; exact IH. }
  assert (E1 : (if (stricmp p (s2l "/d") =? 0)%Z then rest else line) = a ++ text).
  { destruct D as [[X ->]|[X ->]].
    - rewrite name_b; auto. apply nonul_b. reflexivity.
    - replace (stricmp p (s2l "/d") =? 0)%Z with true; auto. symmetry. apply stricmp_name; auto. apply nonul_b. reflexivity. }
  cbv zeta. rewrite E1, S1. unfold pBat_GetEndOfLine. rewrite E. cbn [bind]. rewrite (names_ok _ _ N).
  destruct (go_ok ex w d C Le) as [(c & G & Ar & _)|[G Nw]]; rewrite G; cbn [bind]; [left; exists c; auto|right; auto].
Qed.
Print Assumptions C92_cd.

(** C92: CD alone prints the current directory. *)
Theorem C92_print :
  forall ex w line, Forall blank line -> pBat_CmdCd ex w line = Ret (0%Z, vw_cd (x_var w), w).
Proof. intros ex w line B. unfold pBat_CmdCd. rewrite next_end by auto. reflexivity. Qed.
Print Assumptions C92_print.

(** C92: PUSHD goes from directory to directory and keeps those it leaves, up to the first that is not there. *)
Theorem C92_pushd :
  forall ex w stack line d ps,
    spelled w line (d :: ps) -> (forall r, d <> s2l "/?" ++ r) ->
    current (vw_cd (x_var w)) -> length (vw_cd (x_var w)) + total (d :: ps) < FILENAME_MAX ->
    exists z c stack', pushes ex (vw_cd (x_var w)) stack (d :: ps) z c stack' /\ pBat_CmdPushd ex w stack line = Ret (z, [], set_cd w c, stack').
Proof.
  intros ex w stack line d ps Sp N C T. inversion Sp as [|? ? rest ? H W]; subst. assert (L := H (vw_cd (x_var w))). rewrite set_cd_same in L.
  unfold pBat_CmdPushd. rewrite (leads_next _ _ _ _ L). cbn [bind].
  replace (prefixb (s2l "/?") d) with false.
  2:{ symmetry. apply not_true_iff_false. intros X. apply prefix_of in X. destruct X as (r & X). apply (N r X). }
  destruct (pushd_ok ex w rest ps W (S (length rest)) w stack d) as (z & c & st' & P1 & P2); auto; [rewrite set_cd_same; auto|].
  exists z, c, st'. split; auto. rewrite P1. reflexivity.
Qed.
Print Assumptions C92_pushd.

(** C92: PUSHD alone prints the directories kept, the last one first. *)
Theorem C92_kept :
  forall ex w stack line, Forall blank line ->
    exists out, pBat_CmdPushd ex w stack line = Ret (0%Z, out, w, stack) /\ out = fold_right (fun d r => d ++ nl :: r) [] stack.
Proof.
  intros ex w stack line B. unfold pBat_CmdPushd. rewrite next_end by auto. cbn [bind]. eexists. split; [reflexivity|].
  induction stack as [|d s IH]; cbn; [reflexivity|]. rewrite IH, <- app_assoc. reflexivity.
Qed.
Print Assumptions C92_kept.

(** C92: POPD goes to the directory kept last and forgets it, even if it is not there any more; without one it fails. *)
Theorem C92_popd :
  forall ex w stack line, (forall r, ~ behind line (s2l "/?" ++ r)) -> current (vw_cd (x_var w)) ->
    (stack = [] -> pBat_CmdPopd ex w stack line = Ret ((-1)%Z, w, [])) /\
    (forall d st, stack = d :: st -> length (vw_cd (x_var w)) + 1 + length d < FILENAME_MAX ->
      (exists c, arrives ex (vw_cd (x_var w)) d c /\ pBat_CmdPopd ex w stack line = Ret (0%Z, set_cd w c, st)) \/
      nowhere ex (vw_cd (x_var w)) d /\ pBat_CmdPopd ex w stack line = Ret (PBAT_DIRECTORY_ERROR, w, st)).
Proof.
  intros ex w stack line N C. unfold pBat_CmdPopd.
  replace (prefixb (s2l "/?") (pBat_SkipBlanks line)) with false.
  2:{ symmetry. apply not_true_iff_false. intros X. apply prefix_of in X. destruct X as (r & E). apply (N r). clear - E.
      induction line as [|c l IH]; cbn in E; [discriminate|]. destruct (pBat_IsDelim c) eqn:D.
      - destruct (IH E) as (a & -> & A & B). exists (c :: a). split; [reflexivity|]. split; [constructor; auto; apply delim_blank; auto|exact B].
      - injection E as -> ->. exists []. split; [reflexivity|]. split; [constructor|]. intros c' r' [= <- <-] B. apply delim_blank in B. congruence. }
  split; [intros ->; reflexivity|]. intros d st -> L.
  destruct (go_ok ex w d C L) as [(c & G & Ar & _)|[G Nw]]; rewrite G; cbn [bind]; [left; exists c; auto|right; auto].
Qed.
Print Assumptions C92_popd.

(** C92: PUSHD and POPD come back to a directory that is still there. *)
Theorem C92_back :
  forall ex w stack line1 line2 d c,
    spelled w line1 [d] -> (forall r, d <> s2l "/?" ++ r) -> (forall r, ~ behind line2 (s2l "/?" ++ r)) ->
    normal_dir (vw_cd (x_var w)) -> ex (vw_cd (x_var w)) = true -> length (vw_cd (x_var w)) + 1 + length d < FILENAME_MAX ->
    pBat_CmdPushd ex w stack line1 = Ret (0%Z, [], set_cd w c, vw_cd (x_var w) :: stack) ->
    pBat_CmdPopd ex (set_cd w c) (vw_cd (x_var w) :: stack) line2 = Ret (0%Z, w, stack).
Proof.
  intros ex w stack line1 line2 d c S N1 N2 C E L P.
  destruct (C92_pushd ex w stack line1 d [] S N1 (or_intror C)) as (z & c' & st' & P1 & P2); [cbn [total]; lia|]. rewrite P in P2. injection P2 as <- X <-. rewrite X in *.
  assert (E1 : c = c'). { destruct w as [v ka ar lo sc sta ca de]. destruct v. cbn in X. congruence. }
  subst c'. inversion P1 as [|? ? ? ? c1 ? ? ? A P3|]; subst. inversion P3; subst.
  unfold pBat_CmdPopd. 
  assert (Cc : current c) by (destruct A as [? ? ? [Z _]|? ? ? [Z _]]; exact Z).
  assert (Q := proj1 (C92_popd ex (set_cd w c) [] line2 N2 Cc) eq_refl).
  unfold pBat_CmdPopd in Q. destruct (prefixb (s2l "/?") (pBat_SkipBlanks line2)); [discriminate|].
  unfold go_to. rewrite SetCurrentDir_normal; auto; [|lia]. cbn [bind]. rewrite set_cd_twice, set_cd_same. reflexivity.
Qed.
Print Assumptions C92_back.

(** C92, what does not hold: that CD goes to every directory named by its absolute path; and that quotes
    around nothing stand for nothing. *)
Theorem C92_d_refuted :
  ~ (forall ex w d, absolute d -> ex d = true -> (forall c, In c d -> ~ In c (s2l " ^%!""")) ->
      exists c, place [] d c /\ pBat_CmdCd ex w (" "%char :: d) = Ret (0%Z, [], set_cd w c)).
Proof.
  intros H. destruct (H (fun _ => true) ex_w (s2l "/d")) as (c & [_ P] & X).
  - exists (s2l "d"). split; [reflexivity|]. intros r [= Y].
  - reflexivity.
  - intros c I J. cbn in I, J. repeat (destruct I as [<-|I]; [repeat (destruct J as [J|J]; [discriminate J|]); destruct J|]). destruct I.
  - vm_compute in X. injection X as X. subst c. vm_compute in P. discriminate P.
Qed.
Print Assumptions C92_d_refuted.
Theorem C92_quotes_refuted :
  ~ (forall ex w d, (forall c, In c d -> c = " "%char) -> ex (vw_cd (x_var w) ++ s2l "/") = true -> normal_dir (vw_cd (x_var w)) ->
      ~ In "!"%char d -> (exists w', pBat_CmdCd ex w (s2l " """ ++ d ++ s2l """") = Ret (0%Z, [], w'))).
Proof.
  intros H. destruct (H (fun p => streqb p (s2l "/tmp/")) ex_w []) as (w' & X).
  - intros c [].
  - reflexivity.
  - right. exists [s2l "tmp"]. split; [discriminate|]. split; [|reflexivity]. constructor; [|constructor]. repeat split; try discriminate. intros I. cbn in I. repeat destruct I as [I|I]; try discriminate I. exact I.
  - intros [].
  - vm_compute in X. discriminate X.
Qed.
Print Assumptions C92_quotes_refuted.

Definition CD there line := match pBat_CmdCd (fun p => existsb (streqb p) (map s2l there)) ex_w (s2l line) with Ret (z, o, w) => Ret (z, o, vw_cd (x_var w)) | Undef => Undef | OutOfFuel => OutOfFuel end.
Example C92_ex :
  CD ["/tmp/a b"]%string " ""a b""  " = Ret (0%Z, [], s2l "/tmp/a b") /\
  CD ["/tmp/a b"]%string " a b  " = Ret (0%Z, [], s2l "/tmp/a b") /\
  CD ["/usr//lib/.."]%string " /D /usr//lib/.." = Ret (0%Z, [], s2l "/usr") /\
  CD ["/tmp/.."]%string ".." = Ret (0%Z, [], []) /\
  CD [] " x" = Ret (2%Z, [], s2l "/tmp") /\ CD [] " " = Ret (0%Z, s2l "/tmp", s2l "/tmp") /\
  CD ["/tmp//x"]%string " /x" = Ret (0%Z, [], s2l "/tmp/x").
Proof. vm_compute. repeat split; reflexivity. Qed.
Example C92_ex_names : names (s2l " ""a b""  ") (s2l "a b") /\ names (s2l " a b  ") (s2l "a b").
Proof.
  split.
  - apply (nm_quoted (s2l " ") (s2l "a ") "b"%char (s2l """  ")); try (repeat constructor; cbn; auto; fail); [|discriminate]. intros [X|X]; discriminate X.
  - apply (nm_plain (s2l " ") (s2l "a ") "b"%char (s2l "  ")); try (repeat constructor; cbn; auto; fail).
    + intros [X|X]; discriminate X.
    + intros x r [= <- <-]. split; [|discriminate]. intros I. cbn in I. repeat destruct I as [I|I]; try discriminate I. exact I.
Qed.
Example C92_ex_pushd :
  (exists z c st, pBat_CmdPushd (fun p => streqb p (s2l "/tmp/a") || streqb p (s2l "/tmp/a/b")) ex_w [s2l "/x"] (s2l " a ""b"" c d") = Ret (z, [], set_cd ex_w c, st) /\
    z = 2%Z /\ c = s2l "/tmp/a/b" /\ st = [s2l "/tmp/a"; s2l "/tmp"; s2l "/x"]) /\
  spelled ex_w (s2l " a ""b""") [s2l "a"; s2l "b"].
Proof.
  split.
  - eexists _, (s2l "/tmp/a/b"), _. split; [|repeat split; reflexivity]. vm_compute. reflexivity.
  - apply sp_next with (rest := s2l " ""b"""); [intros c; apply leads_of; vm_compute; reflexivity|].
    apply sp_next with (rest := []); [intros c; apply leads_of; vm_compute; reflexivity|]. apply sp_end. constructor.
Qed.
