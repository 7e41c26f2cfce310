(** Script_Props.v -- properties C28, C29 and C61 to C63: scripts. *)

From Verif Require Import Base Lex StrLib_Model StrLib_Spec StrLib_Proofs Estr_Model Estr_Spec Estr_Props Args_Spec Args_Proofs Args_Props Block_Model Block_Spec Block_Proofs
  CmdList_Model CmdList_Props Path_Model Var_Model Expand_Model Args_Model Stream_Model If_Model Body_Model For_Model Run_Model RunBlock_Spec Run_Props RunBlock_Proofs
  Script_Model Script_Spec Script_Proofs.
Open Scope nat_scope.

(** C29: the commands of a script are its lines in their order, without blank lines,
    comments, labels and a first "#!"; each label comes with the number of commands
    before it. *)
Theorem C29_load : forall ls es l, is_script true ls es -> labels [] es l ->
  s_cmds (pBat_LoadBatchScript ls) = commands es /\
  s_lbls (pBat_LoadBatchScript ls) = map (fun x => (fst x, length (snd x))) l.
Proof.
  intros ls es l H L. unfold pBat_LoadBatchScript. rewrite (load_lines_ok _ _ _ H) by auto. split; [apply adds_cmds|].
  rewrite (adds_lbls es (mkScript [] []) l L). reflexivity.
Qed.
Print Assumptions C29_load.

(** Every text is a script: what its lines are, and where its labels, is defined. *)
Theorem C29_any : forall ls, exists es l, is_script true ls es /\ labels [] es l.
Proof. intros ls. destruct (is_script_total ls true) as (es & H). destruct (labels_ex es []) as (l & L). exists es, l. auto. Qed.
Print Assumptions C29_any.

(** From the bytes of the file: the lines that are read are those of the file, whatever their lengths
    and whatever the buffer. *)
Theorem C29_bytes :
  forall n fuel junk junk' es t0 s ls,
    lines s ls -> holds es t0 -> (Z.of_nat (length t0) < 268435456)%Z -> (2 <= es_len es <= 536870912)%Z ->
    nonul s -> Forall (fun l => Z.of_nat (length l) < 268435456)%Z ls ->
    length ls < n -> length s + 1 < fuel -> length t0 < fuel ->
    exists ts ents l, read_all n fuel (Some junk) junk' es s = Ret (ts, 1%Z, []) /\ Forall2 normalised ls ts /\
      is_script true ts ents /\ labels [] ents l /\
      s_cmds (pBat_LoadBatchScript ts) = commands ents /\
      s_lbls (pBat_LoadBatchScript ts) = map (fun x => (fst x, length (snd x))) l.
Proof.
  intros n fuel junk junk' es t0 s ls H1 H2 H3 H4 H5 H6 H7 H8 H9.
  destruct (C07_read_lines n fuel junk junk' es t0 s ls H1 H2 H3 H4 H5 H6 H7 H8 H9) as (ts & R & N).
  destruct (C29_any ts) as (ents & l & E & L). destruct (C29_load ts ents l E L) as [A B]. exists ts, ents, l. auto 10.
Qed.
Print Assumptions C29_bytes.

Definition ex_nl (l : list String.string) : list cstr := map (fun s => s2l s ++ [nl]) l.
Definition ex_script : list cstr := ex_nl (["#!/bin/pbat"; "  a "; ""; ":: no"; "(b"; "c)"; "goto X"; "d"; "  :x ,y ;"; "e"; ":x"]%string) ++ [s2l "f"].
Lemma all_blank b : forallb (inset blanks) b = true -> Forall blank b.
Proof. rewrite forallb_forall, Forall_forall. intros H c I. apply inset_In. apply H. auto. Qed.
Example C29_ex :
  is_script true ex_script (map Cmd (ex_nl (["a "; "(b"; "c)"; "goto X"; "d"]%string)) ++ [Label (s2l ":x ,y"); Cmd (s2l "e" ++ [nl]); Label (s2l ":x"); Cmd (s2l "f" ++ [nl])]) /\
  pBat_LoadBatchScript ex_script = mkScript (ex_nl (["a "; "(b"; "c)"; "goto X"; "d"; "e"; "f"]%string)) [(s2l ":x ,y", 5); (s2l ":x", 6)].
Proof.
  split; [|vm_compute; reflexivity].
  assert (N : forall c r, ~ In c blanks -> not_blank (c :: r)) by (intros c r H; exists c, r; auto).
  assert (Cm : forall first c r, ~ In c (blanks ++ s2l ":#") -> is_line first (c :: r ++ [nl]) (Some (Cmd (c :: r ++ [nl])))).
  { intros first c r H. apply (il_cmd first [] (c :: r ++ [nl])).
    - constructor.
    - apply N. intros X. apply H. apply in_app_iff. auto.
    - intros x [= -> _]. apply H. cbv. tauto.
    - intros _ x [= -> _]. apply H. cbv. tauto.
    - right. apply in_app_iff. right. left. reflexivity. }
  unfold ex_script, ex_nl. cbn [map app].
  apply is_skip. { apply (il_shebang true [] (s2l "/bin/pbat" ++ [nl])); [constructor|reflexivity]. }
  apply is_cons. { apply (il_cmd false (s2l "  ") (s2l "a " ++ [nl])); [apply all_blank; reflexivity|apply N; cbv; intuition discriminate|discriminate|discriminate|cbv; tauto]. }
  apply is_skip. { apply il_blank. apply all_blank; reflexivity. }
  apply is_skip. { apply (il_comment false [] (s2l " no" ++ [nl])). constructor. }
  apply is_cons. { apply (Cm false "("%char (s2l "b")). cbv. intuition discriminate. }
  apply is_cons. { apply (Cm false "c"%char (s2l ")")). cbv. intuition discriminate. }
  apply is_cons. { apply (Cm false "g"%char (s2l "oto X")). cbv. intuition discriminate. }
  apply is_cons. { apply (Cm false "d"%char []). cbv. intuition discriminate. }
  apply is_cons. { apply (il_label false (s2l "  ") (s2l "x ,y") (s2l " ;" ++ [nl])); [apply all_blank; reflexivity|apply all_blank; reflexivity|discriminate|].
    intros u c H. change (s2l "x ,y") with (s2l "x ," ++ ["y"%char]) in H. apply app_inj_tail in H. destruct H as [_ <-]. cbv. intuition discriminate. }
  apply is_cons. { apply (Cm false "e"%char []). cbv. intuition discriminate. }
  apply is_cons. { apply (il_label false [] (s2l "x") [nl]); [constructor|apply all_blank; reflexivity|discriminate|].
    intros u c H. change (s2l "x") with ([] ++ ["x"%char]) in H. apply app_inj_tail in H. destruct H as [_ <-]. cbv. intuition discriminate. }
  apply is_cons. { apply (il_last false [] (s2l "f")); [constructor|apply N; cbv; intuition discriminate|discriminate|discriminate|cbv; intuition discriminate]. }
  constructor.
Qed.

(** C28: GOTO to a label of the script: the commands behind the first label that the name
    stands for are run next, wherever the script was. *)
Theorem C28_jump : forall sio file ls size n i log name es l,
  steady sio file ls size -> reads file ls size n i -> is_script true ls es -> nonul name -> after_label name es l ->
  exists i', pBat_JumpToLabel sio log i name None = Ret (true, i') /\ skipn (in_curr i') (s_cmds (in_script i')) = l /\ in_file i' = file.
Proof.
  intros sio file ls size n i log name es l St R Sc Nn A. destruct (jump_ok sio _ _ _ _ _ log _ _ _ St R Sc Nn A) as (k & J & K).
  eexists. split; [exact J|]. auto.
Qed.
Print Assumptions C28_jump.

(** To a label of another script: it is read, and run from there; without such a label
    nothing changes.  Other means with a name which differs in more than case. *)
Theorem C28_file : forall sio i log name es l p ls size,
  sio_file sio log p = Some (ls, size) -> stricmp (in_name i) p <> 0%Z -> is_script true ls es -> nonul name -> after_label name es l ->
  exists i', pBat_JumpToLabel sio log i name (Some p) = Ret (true, i') /\ skipn (in_curr i') (s_cmds (in_script i')) = l /\
    in_file i' = p /\ in_name i' = p /\ in_size i' = size.
Proof.
  intros sio i log name es l p ls size F N Sc Nn A. unfold pBat_JumpToLabel. apply Z.eqb_neq in N.
  destruct (labels_ex es []) as (lb & L). destruct (C29_load ls es lb Sc L) as [Hc Hl].
  destruct (in_file i); rewrite N, F, Hl; pose proof (find_after name es Nn [] lb L) as X; (destruct (find_label name _) as [k|]; [|destruct (X _ A)]);
    (eexists; split; [reflexivity|]; cbn [in_curr in_script in_file in_name in_size]; rewrite Hc; split; [eapply after_unique; eauto|auto]).
Qed.
Print Assumptions C28_file.

Theorem C28_file_missing : forall sio i log name es p ls size,
  sio_file sio log p = None \/ (sio_file sio log p = Some (ls, size) /\ is_script true ls es /\ nonul name /\ forall l, ~ after_label name es l) ->
  stricmp (in_name i) p <> 0%Z ->
  pBat_JumpToLabel sio log i name (Some p) = Ret (false, i).
Proof.
  intros sio i log name es p ls size H N. apply Z.eqb_neq in N. unfold pBat_JumpToLabel. destruct H as [H|(F & Sc & Nn & A)].
  - destruct (in_file i); rewrite N, H; reflexivity.
  - destruct (labels_ex es []) as (lb & L). destruct (C29_load ls es lb Sc L) as [Hc Hl].
    destruct (in_file i); rewrite N, F, Hl; pose proof (find_after name es Nn [] lb L) as X; (destruct (find_label name _) as [k|]; [destruct (A _ X)|reflexivity]).
Qed.
Print Assumptions C28_file_missing.

(** Without such a label in the script itself, the interpreter frees a structure that was
    never initialised, instead of reporting an error. *)
Theorem C28_missing_undefined : forall sio file ls size n i log name es,
  steady sio file ls size -> reads file ls size n i -> is_script true ls es -> nonul name -> (forall l, ~ after_label name es l) ->
  pBat_JumpToLabel sio log i name None = Undef.
Proof.
  intros sio file ls size n i log name es St R Sc Nn A. unfold pBat_JumpToLabel. assert (F : in_file i = file) by (destruct R as [->|(_ & _ & F & _)]; auto). rewrite F.
  destruct file as [|c f]; [destruct St as [X _]; contradiction|]. rewrite (update_ok _ _ _ _ _ _ log St R). cbn [negb loaded in_script].
  destruct (labels_ex es []) as (lb & L). destruct (C29_load ls es lb Sc L) as [_ Hl]. rewrite Hl.
  pose proof (find_after name es Nn [] lb L) as X. destruct (find_label name _) as [k|]; [destruct (A _ X)|reflexivity].
Qed.
Print Assumptions C28_missing_undefined.

(** Files whose names differ by case only are taken for one. *)
Theorem C28_case_refuted :
  ~ (forall sio i log name es l p ls size,
       sio_file sio log p = Some (ls, size) -> in_name i <> p -> is_script true ls es -> nonul name -> after_label name es l ->
       exists i', pBat_JumpToLabel sio log i name (Some p) = Ret (true, i')).
Proof.
  intros H.
  specialize (H (mkSio (fun _ p => if streqb p (s2l "/B") then Some ([s2l ":x"], 2%Z) else Some ([s2l "a"], 1%Z)) (fun _ => false))
    (mkIn (s2l "/b") (s2l "/b") (pBat_LoadBatchScript [s2l "a"]) 1%Z 0 false) [] (s2l ":x") [Label (s2l ":x")] [] (s2l "/B") [s2l ":x"] 2%Z eq_refl).
  destruct H as (i' & H).
  - discriminate.
  - apply is_cons; [|constructor]. apply (il_label true [] (s2l "x") []); [constructor|constructor|discriminate|].
    intros u c E. change (s2l "x") with ([] ++ ["x"%char]) in E. apply app_inj_tail in E. destruct E as [_ <-]. cbv. intuition discriminate.
  - cbv. intuition discriminate.
  - apply (al_here (s2l ":x") (s2l ":x") []). exists (s2l ":x"), []. repeat split. left. reflexivity.
  - vm_compute in H. discriminate H.
Qed.
Print Assumptions C28_case_refuted.

(** With CMDLYCORRECT, the first line that begins with the label is found, if no line before it has the name
    behind blanks; a name that no line begins with is not, nor is ":". *)
Theorem C28_cmdly : forall name m before line rest, name = ":"%char :: m -> m <> [] -> nonul name ->
  Forall (fun l => forall b k r, l = b ++ k ++ r -> Forall blank b -> same_name k name -> b = [] /\ ~ label_for name l) before ->
  pBat_JumpToLabel_Cmdly name before = None /\
  (label_for name line -> pBat_JumpToLabel_Cmdly name (before ++ line :: rest) = Some (S (length before))) /\
  pBat_JumpToLabel_Cmdly (s2l ":") before = None.
Proof.
  intros name m before line rest -> Nm N F. unfold pBat_JumpToLabel_Cmdly.
  replace (length (":"%char :: m) =? 1) with false by (destruct m; [contradiction|reflexivity]). change (length (s2l ":") =? 1) with true. cbv iota.
  set (name := ":"%char :: m) in *.
  assert (CB : forall x, tolower x = ":"%char -> ~ blank x).
  { intros x E B. cbv in B. repeat (destruct B as [<-|B]; [discriminate E|]). destruct B. }
  assert (X : forall rest n, find_cmdly name (before ++ rest) n = find_cmdly name rest (n + length before)).
  { clear line. induction F as [|l before H F IH]; intros r n; cbn [app find_cmdly length]; [rewrite Nat.add_0_r; reflexivity|].
    destruct ((strnicmp (pBat_SkipBlanks l) name (length name) =? 0)%Z && _) eqn:E.
    - exfalso. apply Bool.andb_true_iff in E. destruct E as [E1 E2].
      assert (SB : exists b, l = b ++ pBat_SkipBlanks l /\ Forall blank b).
      { clear. induction l as [|c l (b & E & B)]; [exists []; split; [reflexivity|constructor]|]. cbn [pBat_SkipBlanks]. destruct (pBat_IsDelim c) eqn:D; [|exists []; split; [reflexivity|constructor]].
        exists (c :: b). split; [cbn; rewrite <- E; reflexivity|]. constructor; auto. apply delim_blank. exact D. }
      destruct SB as (b & El & B). pose proof E1 as E3. apply Z.eqb_eq, (strnicmp_kw name N) in E3. destruct E3 as (k & x & Ek & Sk).
      destruct (H b k x ltac:(rewrite <- Ek; exact El) B Sk) as [-> L]. apply L. apply (label_for_ok name l N). cbn [app] in El. rewrite <- El in E1. rewrite E1. exact E2.
    - rewrite IH. f_equal. lia. }
  split; [|split; [|reflexivity]].
  - specialize (X [] 0). rewrite app_nil_r in X. exact X.
  - intros L. rewrite X. cbn [find_cmdly Nat.add].
    assert (SK : pBat_SkipBlanks line = line).
    { destruct L as (k & r & -> & S & _). destruct k as [|x k]; [discriminate S|]. cbn in S. injection S as S1 S2.
      cbn [app pBat_SkipBlanks]. destruct (pBat_IsDelim x) eqn:D; [|reflexivity]. apply delim_blank in D. elim (CB x S1 D). }
    rewrite SK. apply (label_for_ok name line N) in L. rewrite L. reflexivity.
Qed.
Print Assumptions C28_cmdly.
Example C28_cmdly_ex : pBat_JumpToLabel_Cmdly (s2l ":ab") [s2l "echo :ab" ++ [nl]; s2l ":abc" ++ [nl]; s2l ":AB x" ++ [nl]; s2l ":ab"] = Some 3.
Proof. reflexivity. Qed.

(** With CMDLYCORRECT, labels behind blanks are not found. *)
Theorem C28_cmdly_refuted :
  ~ (forall name b e, Forall blank b -> Forall blank e -> length name <> 1 -> pBat_JumpToLabel_Cmdly name [b ++ name ++ e] = Some 1).
Proof. intros H. specialize (H (s2l ":ab") (s2l "  ") [nl] ltac:(apply all_blank; reflexivity) ltac:(apply all_blank; reflexivity) ltac:(discriminate)). vm_compute in H. discriminate H. Qed.
Print Assumptions C28_cmdly_refuted.

(** What GOTO looks for: a label written with or without ':', in the file of the last /F
    if there is one; :EOF, in any case, is the end of the script. *)
Theorem C28_goto : forall w u f a n e l,
  goto_opts (pBat_MakeFullPathEs (vw_cd (x_var w))) None u f -> Forall blank a -> u = [] \/ a <> [] -> calm_line n ->
  (exists c r, n = c :: r /\ ~ blank c /\ c <> "/"%char) -> (forall v c, n = v ++ [c] -> ~ blank c) -> Forall blank e ->
  label_name n l -> nonul n -> length l < 4096 ->
  exists g, pBat_CmdGoto w (u ++ a ++ n ++ e) = Ret (g, w) /\
    (same_name l (s2l ":eof") -> g = GEof) /\ (~ same_name l (s2l ":eof") -> g = GLabel l f).
Proof.
  intros w u f a n e l O A U C D L E N Nn Len. rewrite (goto_ok w u f a n e l O A U C D L E N Len). eexists. split; [reflexivity|].
  assert (Nl : nonul l) by (destruct N as [(<- & _)|[_ ->]]; auto; intros [X|X]; [discriminate|auto]).
  assert (Ne : nonul (s2l ":EOF")) by (intros X; cbv in X; intuition discriminate).
  pose proof (stricmp_0 l (s2l ":EOF") Nl Ne) as X.
  assert (Y : key l = key (s2l ":EOF") <-> same_name l (s2l ":eof")) by (rewrite key_lower; unfold same_name; change (map tolower (s2l ":EOF")) with (map tolower (s2l ":eof")); reflexivity).
  rewrite Y in X. split.
  - intros Z. apply X in Z. rewrite Z. reflexivity.
  - intros Z. destruct (stricmp l (s2l ":EOF") =? 0)%Z eqn:B; auto. apply Z.eqb_eq, X in B. contradiction.
Qed.
Print Assumptions C28_goto.

(** Without a label, GOTO looks for the label ":", in the file of the last /F. *)
Theorem C28_goto_bare : forall w u f e,
  goto_opts (pBat_MakeFullPathEs (vw_cd (x_var w))) None u f -> Forall blank e -> pBat_CmdGoto w (u ++ e) = Ret (GLabel (s2l ":") f, w).
Proof. exact goto_end. Qed.
Print Assumptions C28_goto_bare.

Definition ex_sio : scriptio := mkSio (fun _ p => if streqb p (s2l "/s") then Some (ex_script, 60%Z) else None) (fun _ => false).
Definition ex_in : input := mkIn (s2l "/s") [] no_script 0 0 false.
Example C28_ex :
  steady ex_sio (s2l "/s") ex_script 60 /\ reads (s2l "/s") ex_script 60 0 ex_in /\
  (exists i, pBat_JumpToLabel ex_sio [] ex_in (s2l ":X") None = Ret (true, i) /\ in_curr i = 5) /\
  pBat_CmdGoto ex_w (s2l " /q /F:f  x ") = Ret (GLabel (s2l ":x") (Some (s2l "/tmp/f")), ex_w) /\
  pBat_CmdGoto ex_w (s2l " :eof") = Ret (GEof, ex_w) /\
  goto_opts (pBat_MakeFullPathEs (s2l "/tmp")) None (s2l " /q /F:f") (Some (s2l "/tmp/f")).
Proof.
  split; [split; [discriminate|reflexivity]|]. split; [right; auto|]. split; [eexists; split; vm_compute; reflexivity|].
  split; [vm_compute; reflexivity|]. split; [vm_compute; reflexivity|].
  apply (go_quiet _ None (s2l " ") (s2l "/q") (s2l " /F:f")); [apply all_blank; reflexivity|discriminate|reflexivity|].
  apply (go_file' _ None (s2l " ") (s2l "/F:") (s2l "f") []); [apply all_blank; reflexivity|discriminate|reflexivity| |].
  - split; repeat constructor; intros X; cbv in X; intuition discriminate.
  - apply (go_none _ (Some (s2l "/tmp/f"))).
Qed.

(** C61: the lines of a script are joined until the blocks they open are closed: the
    next commands to run are the fewest lines, with their variables replaced, that make
    complete commands. *)
Theorem C61_group : forall sio file ls size n i log w g l w' rest,
  steady sio file ls size -> reads file ls size n i -> skipn n (s_cmds (pBat_LoadBatchScript ls)) = g ++ rest -> group w g l w' ->
  pBat_GetLine sio log w i = Ret (Some l, mkIn file file (pBat_LoadBatchScript ls) size (n + length g) false, w').
Proof. intros. eapply getline_group; eauto. Qed.
Print Assumptions C61_group.

(** A block that nothing closes: the script ends without running it. *)
Theorem C61_unclosed : forall sio file ls size n i log w g w',
  steady sio file ls size -> reads file ls size n i -> skipn n (s_cmds (pBat_LoadBatchScript ls)) = g -> g <> [] -> unclosed w g w' ->
  exists i', pBat_GetLine sio log w i = Ret (None, i', w') /\ in_eof i' = true.
Proof. intros. destruct (getline_unclosed sio file ls size n i log w g w') as (k & K); auto. eexists. split; [exact K|reflexivity]. Qed.
Print Assumptions C61_unclosed.

(** Whatever the text, checking it ends; text that was complete remains so whatever is
    added. *)
Theorem C61_check : forall s, exists x, pBat_CheckBlocks s = Ret x /\ (x = Some true -> forall t, pBat_CheckBlocks (s ++ t) = Ret (Some true)).
Proof.
  intros s. destruct (check_ret s) as (x & X). exists x. split; auto. intros -> t. apply check_blocks_more. auto.
Qed.
Print Assumptions C61_check.

Lemma plain_ok (par : bool) b t : lead b -> plainly (s2l (if par then ")&|" else "&|")) t = true ->
  (forall c r, t = c :: r -> ~ In c (s2l " ,;@(" ++ ["009"%char])) -> block_cmd (t ++ [nl]) = false -> line par (b ++ t).
Proof. intros B Q N K. apply ln_plain; auto; [|apply plainly_quiet; auto]. split; auto. intros X. apply block_cmd_iff in X. unfold nl in K. congruence. Qed.
Lemma word_line (par : bool) c : ~ In c (s2l " ,;@(" ++ ["009"%char]) -> plainly (s2l (if par then ")&|" else "&|")) [c] = true -> block_cmd [c; nl] = false -> line par [c].
Proof. intros N P B. apply (plain_ok par [] [c]); auto; [constructor|]. intros d r [= <- _]. auto. Qed.
Lemma ex_group : group ex_w (ex_nl (["(b"; "c)"]%string)) (s2l "(b" ++ nl :: s2l "c)") ex_w.
Proof.
  split.
  - apply (rp_cons ex_w (s2l "(b" ++ [nl]) (s2l "(b" ++ [nl]) ex_w _ (s2l "c)" ++ [nl])); [vm_compute; reflexivity|discriminate|].
    apply (rp_cons ex_w (s2l "c)" ++ [nl]) (s2l "c)" ++ [nl]) ex_w _ []); [vm_compute; reflexivity|discriminate|]. constructor.
  - apply bl_end. apply (ln_block false [] (s2l "b" ++ nl :: s2l "c")); [constructor|]. apply (in_more (s2l "b") nl (s2l "c")).
    + apply word_line; [cbv; intuition discriminate|reflexivity|reflexivity].
    + left. reflexivity.
    + apply in_last. apply word_line; [cbv; intuition discriminate|reflexivity|reflexivity].
Qed.
Example C61_ex :
  group ex_w (ex_nl (["(b"; "c)"]%string)) (s2l "(b" ++ nl :: s2l "c)") ex_w /\ unclosed ex_w (ex_nl (["(b"; "c"]%string)) ex_w /\
  pBat_GetLine ex_sio [] ex_w (mkIn (s2l "/s") (s2l "/s") (pBat_LoadBatchScript ex_script) 60 1 false)
  = Ret (Some (s2l "(b" ++ nl :: s2l "c)"), mkIn (s2l "/s") (s2l "/s") (pBat_LoadBatchScript ex_script) 60 3 false, ex_w).
Proof.
  split; [apply ex_group|]. split; [|vm_compute; reflexivity]. exists [], (s2l "b" ++ nl :: s2l "c" ++ [nl]). split; [|split; [constructor|cbv; intuition discriminate]].
  apply (rp_cons ex_w (s2l "(b" ++ [nl]) (s2l "(b" ++ [nl]) ex_w _ (s2l "c" ++ [nl])); [vm_compute; reflexivity|discriminate|].
  apply (rp_cons ex_w (s2l "c" ++ [nl]) (s2l "c" ++ [nl]) ex_w _ []); [vm_compute; reflexivity|discriminate|]. constructor.
Qed.

(** C62: a script that nobody changes is run from its beginning: its commands one after
    the other, those behind a label after a jump to it, until its end, a block that nothing
    closes, or a command that leaves it. *)
Theorem C62_runs : forall leaf can_open fio table strtod exists_file ka sio jumped file ls size es i r r',
  steady sio file ls size -> is_script true ls es -> in_file i = file -> in_name i = [] -> in_eof i = false ->
  script_goes leaf can_open fio table strtod exists_file ka jumped es (commands es) r r' ->
  (exists f i', batch leaf can_open fio table strtod exists_file ka sio jumped f i r = Ret (i', r')) /\
  (forall f i' r'', batch leaf can_open fio table strtod exists_file ka sio jumped f i r = Ret (i', r'') -> r'' = r').
Proof.
  intros leaf co fio table sd ex ka sio jumped file ls size es i r r' St Sc F N E H.
  assert (X : exists f i', batch leaf co fio table sd ex ka sio jumped f i r = Ret (i', r')).
  { eapply batch_ok; eauto; [right; auto|]. destruct (labels_ex es []) as (lb & L). destruct (C29_load ls es lb Sc L) as [Hc _]. rewrite Hc. reflexivity. }
  split; auto. destruct X as (f & i' & X). intros g j r'' Y. pose proof (batch_det leaf co fio table sd ex ka sio jumped _ _ _ _ _ _ X Y) as Q. congruence.
Qed.
Print Assumptions C62_runs.

(** GOTO leaves the block of commands; the label it looks for is the rest of the line. *)
Definition ex_goto (_ : list event) (w : xworld) (t : cstr) : leafres :=
  mkLeaf 0 (if prefixb (s2l "goto") t then 2 else if prefixb (s2l "exit") t then (-1) else 0)%Z w t false.
Definition ex_jumped (log : list event) : option (cstr * option cstr) :=
  match log with
  | Ran t _ _ _ :: _ => if prefixb (s2l "goto ") t then Some (":"%char :: skipn 5 t, None) else None
  | _ => None
  end.
Definition ex_batch (ls : list cstr) : outcome (input * rst) :=
  batch ex_goto ex_open ex_fio builtin_table (fun _ => (DNaN, 0)) (fun _ _ => false) 20%Z
    (mkSio (fun _ _ => Some (ls, 60%Z)) (fun _ => false)) ex_jumped 40 ex_in ex_r.
Definition names (o : outcome (input * rst)) : option (list cstr) :=
  match o with
  | Ret (_, r) => Some (flat_map (fun e => match e with Ran t _ _ _ => [t] | _ => [] end) (rev (r_log r)))
  | _ => None
  end.
Example C62_ex :
  names (ex_batch ex_script) = Some (map s2l (["a "; "b"; "c"; "goto X"; "e"; "f"]%string)) /\
  names (ex_batch (ex_nl (["a & if 1==1 (goto x"; " b)"; "c"; "(:x"; ":x"; "exit"; "d"]%string))) = Some (map s2l (["a "; "goto x"; "exit"]%string)) /\
  (exists r', script_goes ex_goto ex_open ex_fio builtin_table (fun _ => (DNaN, 0)) (fun _ _ => false) 20%Z ex_jumped
     [Cmd (s2l "g" ++ [nl])] [s2l "g" ++ [nl]] ex_r r').
Proof.
  split; [vm_compute; reflexivity|]. split; [vm_compute; reflexivity|].
  eexists. apply (sg_next _ _ _ _ _ _ _ _ _ [s2l "g" ++ [nl]] (s2l "g") [] ex_r ex_w (match ex_run "g" ex_r with Ret r => r | _ => ex_r end)).
  - split.
    + apply (rp_cons ex_w (s2l "g" ++ [nl]) (s2l "g" ++ [nl]) ex_w _ []); [vm_compute; reflexivity|discriminate|constructor].
    + apply bl_end. apply word_line; [cbv; intuition discriminate|reflexivity|reflexivity].
  - exists 50. vm_compute. reflexivity.
  - vm_compute. reflexivity.
  - vm_compute. discriminate.
  - apply sg_end.
Qed.

(** C63: when the size of a script changes while it is run, it is read again, and goes on
    with the command of the same number if there is one. *)
Theorem C63_reload : forall sio log i ls size,
  in_file i <> [] -> in_name i = in_file i -> sio_file sio log (in_file i) = Some (ls, size) -> size <> in_size i -> sio_err sio log = false ->
  in_curr i < length (s_cmds (pBat_LoadBatchScript ls)) ->
  pBat_UpdateScript sio log i = (true, mkIn (in_file i) (in_file i) (pBat_LoadBatchScript ls) size (in_curr i) (in_eof i)).
Proof.
  intros sio log i ls size F N S D E L. unfold pBat_UpdateScript. rewrite N. destruct (in_file i) as [|c f] eqn:Q; [contradiction|]. rewrite streqb_refl. cbn [negb].
  rewrite S, E. apply Z.eqb_neq in D. rewrite D. cbn [negb andb]. unfold reload_at. apply Nat.ltb_lt in L. rewrite L. reflexivity.
Qed.
Print Assumptions C63_reload.

Theorem C63_unchanged : forall sio log i ls,
  in_file i <> [] -> in_name i = in_file i -> sio_file sio log (in_file i) = Some (ls, in_size i) \/ sio_file sio log (in_file i) = None ->
  pBat_UpdateScript sio log i = (true, i).
Proof.
  intros sio log i ls F N S. unfold pBat_UpdateScript. rewrite N. destruct (in_file i) as [|c f] eqn:Q; [contradiction|]. rewrite streqb_refl. cbn [negb].
  destruct S as [S|S]; rewrite S, ?Z.eqb_refl; reflexivity.
Qed.
Print Assumptions C63_unchanged.

(** A script that loses the command it is at starts again, instead of ending. *)
Theorem C63_shorter_refuted :
  ~ (forall sio log i ls size, in_file i <> [] -> in_name i = in_file i -> sio_file sio log (in_file i) = Some (ls, size) -> size <> in_size i -> sio_err sio log = false ->
       length (s_cmds (pBat_LoadBatchScript ls)) <= in_curr i -> forall w, exists i', pBat_GetLine sio log w i = Ret (None, i', w)).
Proof.
  intros H. specialize (H (mkSio (fun _ _ => Some ([s2l "a"], 1%Z)) (fun _ => false)) [] (mkIn (s2l "/s") (s2l "/s") no_script 9 3 false) [s2l "a"] 1%Z
    ltac:(discriminate) eq_refl eq_refl ltac:(discriminate) eq_refl ltac:(vm_compute; repeat constructor) ex_w).
  destruct H as (i' & H). vm_compute in H. discriminate H.
Qed.
Print Assumptions C63_shorter_refuted.

(** A change that keeps the size is not seen; nor one of the size, when a variable that is
    not initialised happens not to be 0. *)
Theorem C63_seen_refuted :
  ~ (forall sio log i ls, in_file i <> [] -> in_name i = in_file i -> sio_file sio log (in_file i) = Some (ls, in_size i) ->
       in_script (snd (pBat_UpdateScript sio log i)) = pBat_LoadBatchScript ls) /\
  ~ (forall sio log i ls size, in_file i <> [] -> in_name i = in_file i -> sio_file sio log (in_file i) = Some (ls, size) -> size <> in_size i ->
       in_script (snd (pBat_UpdateScript sio log i)) = pBat_LoadBatchScript ls).
Proof.
  split; intros H.
  - specialize (H (mkSio (fun _ _ => Some ([s2l "a"], 1%Z)) (fun _ => false)) [] (mkIn (s2l "/s") (s2l "/s") no_script 1 0 false) [s2l "a"] ltac:(discriminate) eq_refl eq_refl).
    vm_compute in H. discriminate H.
  - specialize (H (mkSio (fun _ _ => Some ([s2l "a"], 1%Z)) (fun _ => true)) [] (mkIn (s2l "/s") (s2l "/s") no_script 9 0 false) [s2l "a"] 1%Z ltac:(discriminate) eq_refl eq_refl ltac:(discriminate)).
    vm_compute in H. discriminate H.
Qed.
Print Assumptions C63_seen_refuted.

Example C63_ex :
  snd (pBat_UpdateScript ex_sio [] (mkIn (s2l "/s") (s2l "/s") no_script 9 3 false)) =
  mkIn (s2l "/s") (s2l "/s") (pBat_LoadBatchScript ex_script) 60 3 false.
Proof. vm_compute. reflexivity. Qed.
