(** Find_Props.v -- C69: FIND.  [search] is what a name or a pattern stands for (C10). *)

From Verif Require Import Base Lex Num_Model StrLib_Model StrLib_Spec Path_Model Var_Model Expand_Model Args_Model Args_Spec Args_Props Params_Model Params_Spec Params_Proofs
  Glob_Model Wc_Model Prompt_Proofs Set_Spec Set_Proofs Set_Props Script_Props Find_Model Find_Spec Find_Proofs.

Lemma start_line search w line stdin ps q names :
  written w line ps -> asks nothing ps q names -> (forall n, In n names -> search n <> []) ->
  exists m, q = q_of m (q_text q) /\ nonul (q_text q) /\ f_count m <= 2 /\
    pBat_CmdFind search w stdin line =
      let l := filter (fun f => negb (ff_dir f)) (flat_map search names) in
      match l with
      | [] =>
          match names with
          | [] => do (s, o) <- pBat_FileFind m (q_text q) (Some stdin); Ret (s, o, w)
          | _ => Ret (PBAT_NO_VALID_FILE, [], w)
          end
      | [f] => do (s, o) <- pBat_FileFind m (q_text q) (ff_lines f); Ret (s, o, w)
      | _ => do (s, o) <- find_files m (q_text q) l 0 []; Ret (s, o, w)
      end.
Proof.
  intros W A S. rewrite <- (app_nil_r ps) in W.
  destruct (par_asks search w nothing ps q names A (Datatypes.S (length line)) [] line (mkF 0 false false false) [] W eq_refl ltac:(lia) ltac:(cbn; lia) S)
    as (m & fuel & old & line' & Q & N & C & W' & L & E).
  exists m. split; auto. split; auto. split; auto. unfold pBat_CmdFind. rewrite E, par_end by (auto; lia). cbn [bind]. destruct names; reflexivity.
Qed.
Lemma files_ok m str : nonul str -> f_count m <= 2 -> forall l fs, map (fun f => (ff_name f, ff_lines f)) l = map (fun x => (fst x, Some (snd x))) fs ->
  Forall (fun x => (Z.of_nat (length (snd x)) < 2147483648)%Z) fs -> forall status out, status = 0%Z \/ status = 1%Z ->
  exists level o, find_files m str l status out = Ret (if (status =? 0)%Z then level else 1%Z, out ++ o) /\ (level = 0%Z \/ level = 1%Z) /\ reports (q_of m str) fs level o.
Proof.
  intros N C. induction l as [|f l IH]; intros [|[name ls] fs] M B status out St; try discriminate.
  - exists 0%Z, []. cbn. rewrite app_nil_r. split; [destruct St as [->| ->]; reflexivity|]. split; [auto|constructor].
  - cbn [map fst snd] in M. injection M as M1 M2 M3. inversion B as [|? ? B1 B2]; subst. cbn [snd] in B1. cbn [find_files]. rewrite M2.
    destruct (file_ok m str ls N C B1) as (s & o & E & H). rewrite E. cbn [bind].
    assert (X : s = 0%Z \/ s = 1%Z) by (destruct H as (r & _ & _ & ->); destruct r; auto).
    destruct (IH fs M3 B2 (Z.lor status s) (out ++ s2l "---------- " ++ ff_name f ++ nl :: o)) as (level & o' & E' & K & R).
    { destruct St as [->| ->], X as [->| ->]; auto. }
    exists (if (s =? 0)%Z then level else 1%Z), (s2l "---------- " ++ ff_name f ++ [nl] ++ o ++ o'). rewrite E'. split; [|split].
    + f_equal. f_equal; [destruct St as [->| ->], X as [->| ->]; reflexivity|]. repeat (rewrite <- app_assoc; cbn [app]). reflexivity.
    + destruct X as [->| ->]; auto.
    + constructor; auto.
Qed.

(** Without names of files the standard input is searched. *)
Theorem C69_stdin : forall search w line stdin ps q,
  written w line ps -> asks nothing ps q [] -> (Z.of_nat (length stdin) < 2147483648)%Z ->
  exists level out, pBat_CmdFind search w stdin line = Ret (level, out, w) /\ searches q stdin level out.
Proof.
  intros search w line stdin ps q W A B. destruct (start_line search w line stdin ps q [] W A) as (m & Q & N & C & E); [intros ? []|].
  destruct (file_ok m (q_text q) stdin N C B) as (s & o & F & H). exists s, o. rewrite E. cbn [flat_map filter]. rewrite F, Q. cbn [q_of q_text]. auto.
Qed.
Print Assumptions C69_stdin.

(** Otherwise the files are, but not the directories. *)
Theorem C69_file : forall search w line stdin ps q names f ls,
  written w line ps -> asks nothing ps q names -> (forall n, In n names -> search n <> []) ->
  filter (fun f => negb (ff_dir f)) (flat_map search names) = [f] -> ff_lines f = Some ls -> (Z.of_nat (length ls) < 2147483648)%Z ->
  exists level out, pBat_CmdFind search w stdin line = Ret (level, out, w) /\ searches q ls level out.
Proof.
  intros search w line stdin ps q names f ls W A S F L B. destruct (start_line search w line stdin ps q names W A S) as (m & Q & N & C & E).
  destruct (file_ok m (q_text q) ls N C B) as (s & o & G & H). exists s, o. rewrite E. cbv zeta. rewrite F, L, G, Q. cbn [q_of q_text]. auto.
Qed.
Print Assumptions C69_file.
Theorem C69_files : forall search w line stdin ps q names fs,
  written w line ps -> asks nothing ps q names -> (forall n, In n names -> search n <> []) ->
  map (fun f => (ff_name f, ff_lines f)) (filter (fun f => negb (ff_dir f)) (flat_map search names)) = map (fun x => (fst x, Some (snd x))) fs ->
  2 <= length fs -> Forall (fun x => (Z.of_nat (length (snd x)) < 2147483648)%Z) fs ->
  exists level out, pBat_CmdFind search w stdin line = Ret (level, out, w) /\ reports q fs level out.
Proof.
  intros search w line stdin ps q names fs W A S F L B. destruct (start_line search w line stdin ps q names W A S) as (m & Q & N & C & E).
  destruct (files_ok m (q_text q) N C _ fs F B 0%Z [] (or_introl eq_refl)) as (level & o & G & K & R). exists level, o. rewrite E. cbv zeta.
  pose proof (f_equal (@length _) F) as X. rewrite !map_length in X.
  destruct (filter (fun f => negb (ff_dir f)) (flat_map search names)) as [|a [|b l]] eqn:Y; [cbn [length] in X; lia|cbn [length] in X; lia|].
  rewrite G. cbn [app bind Z.eqb]. split; auto. rewrite Q. auto.
Qed.
Print Assumptions C69_files.

(** What is printed is determined by what is asked and by the lines. *)
Lemma chomped_one line l l' : chomped line l -> chomped line l' -> l = l'.
Proof.
  intros [->|[-> H]] [E|[E H']]; auto; subst; try (apply app_inj_tail in E; apply E); exfalso; [eapply H'|eapply H]; eauto.
Qed.
Theorem C69_determined : forall q ls level out level' out',
  searches q ls level out -> searches q ls level' out' -> level = level' /\ out = out'.
Proof.
  intros q ls level out level' out' (r & P & -> & ->) (r' & P' & -> & ->). replace r' with r; auto.
  revert r' P'. generalize 1%Z P. intros n P1. clear P. induction P1 as [n|n line l ls r C W P1 IH|n line l ls r C W P1 IH]; intros r' P'.
  - inversion P'. auto.
  - inversion P' as [|? ? l' ? ? C' W' P2|? ? l' ? ? C' W' P2]; subst; pose proof (chomped_one _ _ _ C C'); subst; [f_equal; auto|contradiction].
  - inversion P' as [|? ? l' ? ? C' W' P2|? ? l' ? ? C' W' P2]; subst; pose proof (chomped_one _ _ _ C C'); subst; [contradiction|auto].
Qed.
Print Assumptions C69_determined.

(** Errors: no text, a name that stands for nothing, names that stand only for
    directories.  Nothing is searched. *)
Theorem C69_errors : forall search w line stdin ps,
  written w line ps ->
  ((forall p, In p ps -> exists o, In o options /\ opt p o) -> pBat_CmdFind search w stdin line = Ret (8%Z, [], w)) /\
  (forall ps1 q names p ps2, ps = ps1 ++ p :: ps2 -> asks nothing ps1 q names -> plain p -> (forall n, In n names -> search n <> []) -> search p = [] ->
    pBat_CmdFind search w stdin line = Ret (42%Z, [], w)) /\
  (forall q names, asks nothing ps q names -> names <> [] -> (forall n, In n names -> search n <> [] /\ forall f, In f (search n) -> ff_dir f = true) ->
    pBat_CmdFind search w stdin line = Ret (43%Z, [], w)).
Proof.
  intros search w line stdin ps W. split; [|split].
  - intros O. rewrite <- (app_nil_r ps) in W.
    destruct (par_options search w ps O (Datatypes.S (length line)) [] line (mkF 0 false false false) [] W) as (m & fuel & old & line' & W' & L & E); [lia|].
    unfold pBat_CmdFind. rewrite E, par_end by (auto; lia). reflexivity.
  - intros ps1 q names p ps2 -> A P S X.
    destruct (par_asks search w nothing ps1 q names A (Datatypes.S (length line)) [] line (mkF 0 false false false) _ W eq_refl ltac:(lia) ltac:(cbn; lia) S)
      as (m & fuel & old & line' & Q & N & C & W' & L & E).
    unfold pBat_CmdFind. rewrite E. destruct fuel as [|fuel]; [lia|].
    edestruct (par_plain search w fuel old line' p ps2 m (Some (q_text q))) as (rest & _ & _ & G); eauto. rewrite G, X. reflexivity.
  - intros q names A Ne H. destruct (start_line search w line stdin ps q names W A) as (m & Q & N & C & E); [intros n I; apply H; auto|].
    rewrite E. cbv zeta. replace (filter (fun f => negb (ff_dir f)) (flat_map search names)) with (@nil ffile); [destruct names; [congruence|reflexivity]|].
    assert (D : forall f, In f (flat_map search names) -> ff_dir f = true) by (intros f I; apply in_flat_map in I; destruct I as (n & I & J); eapply H; eauto).
    clear -D. induction (flat_map search names) as [|f l IH]; auto. cbn [filter]. rewrite (D f (or_introl eq_refl)). cbn [negb]. apply IH. intros; apply D; right; auto.
Qed.
Print Assumptions C69_errors.

(** /? shows the help and searches nothing, wherever it stands before the first error. *)
Theorem C69_help : forall search w line stdin ps1 ps2,
  written w line (ps1 ++ s2l "/?" :: ps2) ->
  (forall p, In p ps1 -> exists o, In o options /\ opt p o) \/ (exists q names, asks nothing ps1 q names /\ forall n, In n names -> search n <> []) ->
  pBat_CmdFind search w stdin line = Ret (0%Z, [], w).
Proof.
  intros search w line stdin ps1 ps2 W [O|(q & names & A & S)].
  - destruct (par_options search w ps1 O (Datatypes.S (length line)) [] line (mkF 0 false false false) _ W) as (m & fuel & old & line' & W' & L & E); [lia|].
    unfold pBat_CmdFind. rewrite E. erewrite par_help by (eauto; lia). reflexivity.
  - destruct (par_asks search w nothing ps1 q names A (Datatypes.S (length line)) [] line (mkF 0 false false false) _ W eq_refl ltac:(lia) ltac:(cbn; lia) S)
      as (m & fuel & old & line' & Q & N & C & W' & L & E).
    unfold pBat_CmdFind. rewrite E. erewrite par_help by (eauto; lia). reflexivity.
Qed.
Print Assumptions C69_help.

(** A file that cannot be opened: what happens is undefined, instead of an error for the
    file alone. *)
Theorem C69_unreadable_refuted : forall search w line stdin ps q names f,
  written w line ps -> asks nothing ps q names -> (forall n, In n names -> search n <> []) ->
  In f (flat_map search names) -> ff_dir f = false -> ff_lines f = None ->
  (forall g ls, In g (flat_map search names) -> ff_lines g = Some ls -> (Z.of_nat (length ls) < 2147483648)%Z) ->
  pBat_CmdFind search w stdin line = Undef.
Proof.
  intros search w line stdin ps q names f W A S I D L B. destruct (start_line search w line stdin ps q names W A S) as (m & Q & N & C & E). rewrite E. cbv zeta.
  assert (J : In f (filter (fun f => negb (ff_dir f)) (flat_map search names))) by (apply filter_In; rewrite D; auto).
  assert (B' : forall g ls, In g (filter (fun f => negb (ff_dir f)) (flat_map search names)) -> ff_lines g = Some ls -> (Z.of_nat (length ls) < 2147483648)%Z).
  { intros g ls X. apply filter_In in X. destruct X as [X _]. eauto. }
  assert (U : forall l status out, In f l -> (forall g ls, In g l -> ff_lines g = Some ls -> (Z.of_nat (length ls) < 2147483648)%Z) -> find_files m (q_text q) l status out = Undef).
  { clear -N C L. induction l as [|g l IH]; intros status out I B; [destruct I|]. cbn [find_files]. destruct I as [->|I]; [rewrite L; reflexivity|].
    destruct (ff_lines g) as [ls|] eqn:G; [|reflexivity]. destruct (file_ok m (q_text q) ls N C) as (s & o & F & _); [eapply B; eauto; left; auto|].
    rewrite F. cbn [bind]. apply IH; auto. intros; eapply B; eauto. right; auto. }
  destruct (filter _ _) as [|a [|b l]]; [destruct J| |rewrite U; auto]. destruct J as [->|[]]. rewrite L. reflexivity.
Qed.
Print Assumptions C69_unreadable_refuted.
Definition ex_search (n : cstr) : list ffile :=
  if streqb n (s2l "a.txt") then [mkFF (s2l "a.txt") false (Some [s2l "a Bat" ++ [nl]; s2l "a bat"])]
  else if streqb n (s2l "d") then [mkFF (s2l "d") true None]
  else if streqb n (s2l "locked") then [mkFF (s2l "locked") false None]
  else [].
(** A text that is written like an option cannot be searched for, not even in quotes. *)
Theorem C69_option_text_refuted :
  ~ (forall search w line stdin text, written w line [text] -> nonul text -> exists level out, pBat_CmdFind search w stdin line = Ret (level, out, w) /\
       searches (with_text nothing text) stdin level out).
Proof.
  intros H. destruct (H ex_search ex_w (s2l " ""/c""") [s2l "a /c"] (s2l "/c")) as (level & out & E & (r & P & -> & ->)).
  - assert (L : leads ex_w (s2l " ""/c""") (s2l "/c") []) by (apply leads_of; vm_compute; reflexivity). destruct L as (a & raw & t & -> & A1 & A2 & A3 & A4 & A5 & A6 & A7).
    eapply wr_next; eauto. constructor. constructor.
  - apply nonul_b. reflexivity.
  - vm_compute in E. injection E as E _. destruct r; discriminate.
Qed.
Print Assumptions C69_option_text_refuted.

(** find /n "bat" a.txt /I d *)
Lemma lead_written w line p rest l : leads w line p rest -> written w rest l -> written w line (p :: l).
Proof. intros (a & raw & t & -> & A1 & A2 & A3 & A4 & A5 & A6 & A7) W. eapply wr_next; eauto. Qed.
Ltac lw := eapply lead_written; [apply leads_of; vm_compute; reflexivity|].
Ltac pl := split; [apply nonul_b; reflexivity|split; [discriminate|let o := fresh in let X := fresh in intros o X; repeat (destruct X as [<-|X]; [discriminate|]); destruct X]].
Example C69_ex :
  pBat_CmdFind ex_search ex_w [] (s2l " /n ""bat"" a.txt /I d") = Ret (0%Z, s2l "[1]a Bat" ++ nl :: s2l "[2]a bat" ++ [nl], ex_w) /\
  exists q, asks nothing [s2l "/n"; s2l "bat"; s2l "a.txt"; s2l "/I"; s2l "d"] q [s2l "a.txt"; s2l "d"] /\
    searches q [s2l "a Bat" ++ [nl]; s2l "a bat"] 0 (s2l "[1]a Bat" ++ nl :: s2l "[2]a bat" ++ [nl]).
Proof.
  assert (X : pBat_CmdFind ex_search ex_w [] (s2l " /n ""bat"" a.txt /I d") = Ret (0%Z, s2l "[1]a Bat" ++ nl :: s2l "[2]a bat" ++ [nl], ex_w)) by (vm_compute; reflexivity).
  split; [exact X|]. exists (mkQ true false true false false (s2l "bat")).
  assert (A : asks nothing [s2l "/n"; s2l "bat"; s2l "a.txt"; s2l "/I"; s2l "d"] (mkQ true false true false false (s2l "bat")) [s2l "a.txt"; s2l "d"]).
  { eapply ask_option; [right; left; split; [split; [apply nonul_b; reflexivity|reflexivity]|reflexivity]|]. eapply ask_text; [pl|]. eapply af_name; [pl|].
    eapply af_option; [right; right; left; split; [split; [apply nonul_b; reflexivity|reflexivity]|reflexivity]|]. eapply af_name; [pl|]. constructor. }
  split; [exact A|].
  destruct (C69_file ex_search ex_w (s2l " /n ""bat"" a.txt /I d") [] _ _ _ (mkFF (s2l "a.txt") false (Some [s2l "a Bat" ++ [nl]; s2l "a bat"])) [s2l "a Bat" ++ [nl]; s2l "a bat"]
    ltac:(do 5 lw; constructor; constructor) A) as (level & out & E & H).
  - intros n [<-|[<-|[]]]; discriminate.
  - vm_compute. reflexivity.
  - reflexivity.
  - cbn. lia.
  - rewrite X in E. injection E as <- <-. exact H.
Qed.
(** find bat: the standard input; several files; a directory; a file that is locked. *)
Example C69_ex_more :
  searches (mkQ false false false false false (s2l "bat")) [s2l "x" ++ [nl]; s2l "a bat" ++ [nl]] 0 (s2l "a bat" ++ [nl]) /\
  reports (mkQ false true false false true (s2l "bat")) [(s2l "a.txt", [s2l "a Bat" ++ [nl]; s2l "a bat"]); (s2l "a.txt", [s2l "a Bat" ++ [nl]; s2l "a bat"])] 0
    (s2l "---------- a.txt" ++ nl :: s2l "1" ++ nl :: s2l "---------- a.txt" ++ nl :: s2l "1" ++ [nl]) /\
  pBat_CmdFind ex_search ex_w [] (s2l " bat d") = Ret (43%Z, [], ex_w) /\ pBat_CmdFind ex_search ex_w [] (s2l " bat none") = Ret (42%Z, [], ex_w) /\
  pBat_CmdFind ex_search ex_w [] (s2l " bat a.txt locked") = Undef.
Proof.
  split; [|split; [|split; [|split]]].
  - assert (A : asks nothing [s2l "bat"] (mkQ false false false false false (s2l "bat")) []) by (eapply ask_text; [pl|constructor]).
    destruct (C69_stdin ex_search ex_w (s2l " bat") [s2l "x" ++ [nl]; s2l "a bat" ++ [nl]] _ _ ltac:(lw; constructor; constructor) A) as (level & out & E & H); [cbn; lia|].
    vm_compute in E. injection E as <- <-. exact H.
  - assert (A : asks nothing [s2l "/v"; s2l "bat"; s2l "a.txt"; s2l "a.txt"; s2l "/c"] (mkQ false true false false true (s2l "bat")) [s2l "a.txt"; s2l "a.txt"]).
    { eapply ask_option; [right; right; right; right; split; [split; [apply nonul_b; reflexivity|reflexivity]|reflexivity]|]. eapply ask_text; [pl|]. eapply af_name; [pl|].
      eapply af_name; [pl|]. eapply af_option; [left; split; [split; [apply nonul_b; reflexivity|reflexivity]|reflexivity]|]. constructor. }
    destruct (C69_files ex_search ex_w (s2l " /v bat a.txt a.txt /c") [] _ _ _ [(s2l "a.txt", [s2l "a Bat" ++ [nl]; s2l "a bat"]); (s2l "a.txt", [s2l "a Bat" ++ [nl]; s2l "a bat"])]
      ltac:(do 5 lw; constructor; constructor) A) as (level & out & E & H).
    + intros n [<-|[<-|[]]]; discriminate.
    + vm_compute. reflexivity.
    + cbn. lia.
    + repeat constructor.
    + vm_compute in E. injection E as <- <-. exact H.
  - destruct (C69_errors ex_search ex_w (s2l " bat d") [] [s2l "bat"; s2l "d"] ltac:(do 2 lw; constructor; constructor)) as (_ & _ & H).
    apply (H (mkQ false false false false false (s2l "bat")) [s2l "d"]); [eapply ask_text; [pl|]; eapply af_name; [pl|]; constructor|discriminate|].
    intros n [<-|[]]. split; [discriminate|]. intros f [<-|[]]. reflexivity.
  - destruct (C69_errors ex_search ex_w (s2l " bat none") [] [s2l "bat"; s2l "none"] ltac:(do 2 lw; constructor; constructor)) as (_ & H & _).
    apply (H [s2l "bat"] (mkQ false false false false false (s2l "bat")) [] (s2l "none") []); [reflexivity|eapply ask_text; [pl|]; constructor|pl|intros n []|reflexivity].
  - apply (C69_unreadable_refuted ex_search ex_w (s2l " bat a.txt locked") [] _ (mkQ false false false false false (s2l "bat")) [s2l "a.txt"; s2l "locked"]
      (mkFF (s2l "locked") false None) ltac:(do 3 lw; constructor; constructor)).
    + eapply ask_text; [pl|]. eapply af_name; [pl|]. eapply af_name; [pl|]. constructor.
    + intros n [<-|[<-|[]]]; discriminate.
    + right. left. reflexivity.
    + reflexivity.
    + reflexivity.
    + intros g ls [<-|[<-|[]]] X; [injection X as <-; cbn; lia|discriminate].
Qed.
