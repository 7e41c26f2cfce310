(** RunBlock_Props.v -- the properties of running blocks and IF. *)

From Verif Require Import Base Lex StrLib_Model Env_Model Var_Model Expand_Model Args_Model Block_Model CmdList_Model
  Parse_Model Args_Spec Args_Proofs Block_Spec Block_Proofs Block_Props Stream_Model Stream_Spec Stream_Proofs If_Model Body_Model For_Model Run_Model Run_Spec
  Run_Proofs RunBlock_Spec RunBlock_Proofs RunIf_Proofs Args_Props Run_Props.

(** C57: the text of a block is run line by line, in order, until a line leaves the
    block or the script; then nothing of it is run any more. *)
Theorem C57_lines : forall leaf can_open fio table strtod exists_file ka ls b r r',
  blines ls b ->
  (lines_go leaf can_open fio table strtod exists_file ka b r r' <->
   lines_seq leaf can_open fio table strtod exists_file ka ls r r').
Proof. intros leaf co fio table strtod ex ka ls b r r' H. apply blines_go; auto. Qed.
Print Assumptions C57_lines.

(** C57: a block as a command runs its lines, on the streams the redirections behind
    it say; afterwards the streams are those of before. *)
Theorem C57_block : forall leaf can_open fio table strtod exists_file ka n t st i ls u w r,
  ready (r_io r) -> chosen n (errlevel r) = true -> r_abort r = 0%Z ->
  block_text i t -> handled table (pBat_SkipAllBlanks t) "CmdBlock" -> blines ls i -> pBat_DelayedExpand (r_x r) i = Ret (u, w) ->
  exists s1, ready s1 /\ places_of s1 = redirect (can_open (r_log r)) st (places_of (r_io r)) /\
    same_runs (chain_goes leaf can_open fio table strtod exists_file ka [(n, t, st)] r)
      (lines_seq leaf can_open fio table strtod exists_file ka ls (mkR s1 w 0 (r_log r))) (ends_like r).
Proof. intros. eapply block_goes; eauto. Qed.
Print Assumptions C57_block.

(** Any text that starts with a parenthesis is for the block command. *)
Theorem C57_handled : forall s, handled builtin_table ("("%char :: s) "CmdBlock".
Proof. intros [|c s]; vm_compute; eexists; split; reflexivity. Qed.
Print Assumptions C57_handled.

Definition nl_s : String.string := String.String "010"%char String.EmptyString.
Local Infix "+++" := String.append (right associativity, at level 60).
Definition handled_if : forall rest, handled builtin_table (s2l "if " ++ rest) "CmdIf".
Proof. intros [|c s]; vm_compute; eexists; split; reflexivity. Qed.

(** The lines "a & no > f", "goto x" and "b": the last one is left. *)
Definition ex_block : cstr := s2l (nl_s +++ "a & no > f" +++ nl_s +++ " goto x" +++ nl_s +++ "b" +++ nl_s).
Definition ex_lines : list cstr := [s2l (nl_s +++ "a & no > f"); s2l " goto x"; s2l "b"].
Example C57_ex :
  inner ex_block /\ blines ex_lines ex_block /\
  events (ex_run ("(" +++ String.string_of_list_ascii ex_block +++ ") 2> h & c") ex_r) =
    Some [Ran (s2l "a ") (std 0) (std 1) (file "/tmp/h"); Ran (s2l "no ") (std 0) (file "/tmp/f") (file "/tmp/h");
          Ran (s2l "goto x") (std 0) (std 1) (file "/tmp/h")].
Proof.
  split; [|split; [|vm_compute; reflexivity]].
  - apply (in_more [] nl (s2l ("a & no > f" +++ nl_s +++ " goto x" +++ nl_s +++ "b" +++ nl_s))); [apply (plain_text_line true [] []); reflexivity|cbv; tauto|].
    apply (in_more (s2l "a ") "&"%char (s2l (" no > f" +++ nl_s +++ " goto x" +++ nl_s +++ "b" +++ nl_s))); [apply (plain_text_line true [] (s2l "a ")); reflexivity|cbv; tauto|].
    apply (in_more (s2l " no > f") nl (s2l (" goto x" +++ nl_s +++ "b" +++ nl_s))); [apply (plain_text_line true (s2l " ") (s2l "no > f")); reflexivity|cbv; tauto|].
    apply (in_more (s2l " goto x") nl (s2l ("b" +++ nl_s))); [apply (plain_text_line true (s2l " ") (s2l "goto x")); reflexivity|cbv; tauto|].
    apply (in_more (s2l "b") nl []); [apply (plain_text_line true [] (s2l "b")); reflexivity|cbv; tauto|].
    apply in_last. apply (plain_text_line true [] []). reflexivity.
  - apply (bs_cons [nl] (s2l "a & no > f")); [repeat constructor; cbv; tauto| |vm_compute; discriminate|].
    { apply (bl_op (s2l "a ") (s2l "&") (s2l " no > f")); [apply (plain_text_line false [] (s2l "a ")); reflexivity|repeat constructor; cbv; tauto|auto|].
      right. split; [eexists _, _; split; [reflexivity|cbv; intuition discriminate]|]. split; [apply Exists_cons_tl, Exists_cons_hd; cbv; intuition discriminate|].
      apply bl_end. apply (plain_text_line false (s2l " ") (s2l "no > f")). reflexivity. }
    apply (bs_cons [] (s2l " goto x")); [constructor| |vm_compute; discriminate|].
    { apply bl_end. apply (plain_text_line false (s2l " ") (s2l "goto x")). reflexivity. }
    apply (bs_cons [] (s2l "b")); [constructor| |vm_compute; discriminate|].
    { apply bl_end. apply (plain_text_line false [] (s2l "b")). reflexivity. }
    apply bs_nil. constructor.
Qed.

(** A blank behind an inner block that ends a line joins the next line to it, and
    none of the two is run. *)
Theorem C57_blank_refuted :
  events (ex_run ("((a)" +++ nl_s +++ "b)") ex_r) = Some [Ran (s2l "a") (std 0) (std 1) (std 2); Ran (s2l "b") (std 0) (std 1) (std 2)] /\
  events (ex_run ("((a) " +++ nl_s +++ "b)") ex_r) = Some [].
Proof. vm_compute. auto. Qed.
Print Assumptions C57_blank_refuted.

(** C58: IF whose condition holds, followed by a block or a command: the block -- the
    command between parentheses -- takes the place of IF on the line, with the
    operator before, the redirections and the commands behind; the exit code is
    that of success at the end. *)
Theorem C58_then : forall leaf can_open fio table strtod exists_file ka n t st tl i rest w r,
  ready (r_io r) -> chosen n (errlevel r) = true -> r_abort r = 0%Z -> look_ahead t = true ->
  if_says table strtod exists_file ka t r true rest w -> if_block i rest \/ if_command i rest ->
  same_runs (chain_goes leaf can_open fio table strtod exists_file ka ((n, t, st) :: tl) r)
    (chain_goes leaf can_open fio table strtod exists_file ka ((n, parens i, st) :: tl) (mkR (locked (r_io r)) w 0 (r_log r)))
    (ends_well r).
Proof.
  intros leaf co fio table strtod ex ka n t st tl i rest w r R CH AB LA SAYS B.
  apply (if_runs leaf co fio table strtod ex ka n t st tl r w _ (fun c => c)); auto; [discriminate|].
  intros f. rewrite (command_if _ _ _ _ _ _ _ f n t st tl r true rest w SAYS). cbv zeta. rewrite (set_if r w AB).
  destruct B as [(I & a & b & A & Bb & ->)|(L1 & L2 & HD & a & A & ->)].
  - rewrite body_block by auto. cbn [bind]. rewrite after_blank by auto. reflexivity.
  - rewrite (proj1 (body_command a i A L2 HD)). reflexivity.
Qed.
Print Assumptions C58_then.

(** C58: IF whose condition does not hold, with ELSE: the block of ELSE takes the place. *)
Theorem C58_else : forall leaf can_open fio table strtod exists_file ka n t st tl i j rest w r,
  ready (r_io r) -> chosen n (errlevel r) = true -> r_abort r = 0%Z -> look_ahead t = true ->
  if_says table strtod exists_file ka t r false rest w -> if_else i j rest ->
  same_runs (chain_goes leaf can_open fio table strtod exists_file ka ((n, t, st) :: tl) r)
    (chain_goes leaf can_open fio table strtod exists_file ka ((n, parens j, st) :: tl) (mkR (locked (r_io r)) w 0 (r_log r)))
    (ends_well r).
Proof.
  intros leaf co fio table strtod ex ka n t st tl i j rest w r R CH AB LA SAYS (I & J & a & b & e & c & d & A & B & E & C & C0 & D & ->).
  apply (if_runs leaf co fio table strtod ex ka n t st tl r w _ (fun c => c)); auto; [discriminate|].
  intros f. rewrite (command_if _ _ _ _ _ _ _ f n t st tl r false _ w SAYS). cbv zeta. rewrite (set_if r w AB).
  rewrite open_skip by auto. cbn [opens]. rewrite ceq_refl.
  pose proof (next_block [] i (b ++ e ++ c ++ parens j ++ d) ltac:(constructor) I) as X. cbn [app] in X. rewrite X. cbn [bind].
  assert (HX : exists q y, c ++ parens j ++ d = q :: y /\ blank q).
  { destruct c as [|c0 c]; [congruence|]. inversion C; subst. exists c0, (c ++ parens j ++ d). split; auto. }
  destruct (after_else e _ E HX b B) as (E1 & E2 & E3 & E4 & _).
  rewrite E1, E2, E3, E4. cbn [Z.eqb andb orb]. rewrite body_block by auto. cbn [bind]. rewrite after_blank by auto. reflexivity.
Qed.
Print Assumptions C58_else.

(** C58: with ELSE and a condition that holds, the first block is run on its own: not the
    redirections, not the commands behind. *)
Theorem C58_both : forall leaf can_open fio table strtod exists_file ka n t st tl i j rest w r,
  ready (r_io r) -> chosen n (errlevel r) = true -> r_abort r = 0%Z -> look_ahead t = true ->
  if_says table strtod exists_file ka t r true rest w -> if_else i j rest ->
  same_runs (chain_goes leaf can_open fio table strtod exists_file ka ((n, t, st) :: tl) r)
    (chain_goes leaf can_open fio table strtod exists_file ka [(NODE_NONE, parens i, no_redir)] (mkR (locked (r_io r)) w 0 (r_log r)))
    (ends_well r).
Proof.
  intros leaf co fio table strtod ex ka n t st tl i j rest w r R CH AB LA SAYS (I & J & a & b & e & c & d & A & B & E & C & C0 & D & ->).
  apply (if_runs leaf co fio table strtod ex ka n t st tl r w _ (fun _ => (n, t, st) :: tl)); auto; try discriminate.
  intros f. rewrite (command_if _ _ _ _ _ _ _ f n t st tl r true _ w SAYS). cbv zeta. rewrite (set_if r w AB).
  rewrite body_block by auto. cbn [bind].
  assert (HX : exists q y, c ++ parens j ++ d = q :: y /\ blank q).
  { destruct c as [|c0 c]; [congruence|]. inversion C; subst. exists c0, (c ++ parens j ++ d). split; auto. }
  destruct (after_else e _ E HX b B) as (E1 & E2 & E3 & E4 & E5).
  rewrite E1. destruct e; [congruence|]. reflexivity.
Qed.
Print Assumptions C58_both.

(** C58: a condition that does not hold, without ELSE: nothing is run, neither what IF
    holds nor the commands behind; the exit code is that of success. *)
Theorem C58_skip : forall leaf can_open fio table strtod exists_file ka n t st tl i rest w r,
  ready (r_io r) -> chosen n (errlevel r) = true -> r_abort r = 0%Z -> look_ahead t = true ->
  if_says table strtod exists_file ka t r false rest w -> if_block i rest \/ if_command i rest ->
  (exists r', chain_goes leaf can_open fio table strtod exists_file ka ((n, t, st) :: tl) r r') /\
  forall r', chain_goes leaf can_open fio table strtod exists_file ka ((n, t, st) :: tl) r r' ->
    ends_well r (mkR (r_io r) w 0 (r_log r)) r'.
Proof.
  intros leaf co fio table strtod ex ka n t st tl i rest w r R CH AB LA SAYS B.
  apply (if_nothing leaf co fio table strtod ex ka n t st tl r w); auto.
  intros f. rewrite (command_if _ _ _ _ _ _ _ f n t st tl r false rest w SAYS).
  destruct B as [(I & a & b & A & Bb & ->)|(L1 & L2 & HD & a & A & ->)].
  - rewrite open_skip by auto. cbn [opens]. rewrite ceq_refl. pose proof (next_block [] i b ltac:(constructor) I) as X. cbn [app] in X. rewrite X. cbn [bind].
    rewrite after_blank by auto. reflexivity.
  - cbv zeta. rewrite (proj2 (body_command a i A L2 HD)). reflexivity.
Qed.
Print Assumptions C58_skip.

(** C58: IF alone on its line, with the lines its blocks are made of. *)
Theorem C58_lines : forall leaf can_open fio strtod exists_file ka n t st b i j ls k rest u w w' r,
  ready (r_io r) -> chosen n (errlevel r) = true -> r_abort r = 0%Z -> look_ahead t = true ->
  if_says builtin_table strtod exists_file ka t r b rest w ->
  (if b then (if_block i rest \/ if_command i rest) /\ k = i else if_else i j rest /\ k = j) ->
  inner k -> blines ls k -> pBat_DelayedExpand w k = Ret (u, w') -> chosen n (vw_err (x_var w)) = true ->
  exists s1, places_of s1 = redirect (can_open (r_log r)) st (places_of (r_io r)) /\
    same_runs (chain_goes leaf can_open fio builtin_table strtod exists_file ka [(n, t, st)] r)
      (lines_seq leaf can_open fio builtin_table strtod exists_file ka ls (mkR s1 w' 0 (r_log r))) (ends_well r).
Proof.
  intros leaf co fio strtod ex ka n t st b i j ls k rest u w w' r R CH AB LA SAYS B IK BL DE CH2.
  assert (X : same_runs (chain_goes leaf co fio builtin_table strtod ex ka [(n, t, st)] r)
    (chain_goes leaf co fio builtin_table strtod ex ka [(n, parens k, st)] (mkR (locked (r_io r)) w 0 (r_log r))) (ends_well r)).
  { destruct b; destruct B as [B ->]; [eapply C58_then; eauto|eapply C58_else; eauto]. }
  destruct (C57_block leaf co fio builtin_table strtod ex ka n (parens k) st k ls u w' (mkR (locked (r_io r)) w 0 (r_log r))) as (s1 & R1 & P1 & Y); auto.
  - exists [], []. split; [constructor|]. auto.
  - unfold parens. rewrite allskip_stop by (cbv; intuition discriminate). apply C57_handled.
  - exists s1. split; [exact P1|]. destruct X as [X1 X2], Y as [Y1 Y2]. split.
    + intros r' H. destruct (X1 r' H) as (q & Q & E1 & E2 & E3 & E4). destruct (Y1 q Q) as (p & P & F1 & F2 & F3 & F4). exists p. split; auto.
      split; [exact E1|]. rewrite <- F2, <- F3, <- F4. auto.
    + intros p P. destruct (Y2 p P) as (q & Q & F1 & F2 & F3 & F4). destruct (X2 q Q) as (r' & H & E1 & E2 & E3 & E4). exists r'. split; auto.
      split; [exact E1|]. rewrite <- F2, <- F3, <- F4. auto.
Qed.
Print Assumptions C58_lines.

Definition ex_says (t : String.string) (b : bool) (rest : String.string) : Prop :=
  if_says builtin_table (fun _ => (DNaN, 0)) (fun _ _ => false) 20%Z (s2l t) ex_r b (s2l rest) ex_w /\ look_ahead (s2l t) = true.
Lemma ex_inner c : plain_text true [] [c] = true -> inner [c].
Proof. intros H. apply in_last. apply (plain_text_line true [] [c] H). Qed.

Example C58_ex :
  ex_says "if 1==1 (a) " true " (a) " /\ if_block (s2l "a") (s2l " (a) ") /\
  ex_says "if 1==2 (a) else (b)" false " (a) else (b)" /\ ex_says "if 1==1 (a) else (b)" true " (a) else (b)" /\
  if_else (s2l "a") (s2l "b") (s2l " (a) else (b)") /\
  ex_says "if 1==1 a" true " a" /\ if_command (s2l "a") (s2l " a") /\
  events (ex_run "no || if 1==1 (a) > f & no & c" ex_r) =
    Some [Ran (s2l "no ") (std 0) (std 1) (std 2); Ran (s2l "a") (std 0) (file "/tmp/f") (std 2); Ran (s2l "no ") (std 0) (std 1) (std 2);
          Ran (s2l "c") (std 0) (std 1) (std 2)] /\
  events (ex_run "if 1==2 (a) else (b) > f & c" ex_r) =
    Some [Ran (s2l "b") (std 0) (file "/tmp/f") (std 2); Ran (s2l "c") (std 0) (std 1) (std 2)].
Proof.
  assert (S : forall t b rest, (exists x, s2l t = s2l "if " ++ x) -> pBat_SkipAllBlanks (s2l t) = s2l t -> look_ahead (s2l t) = true ->
    if_cond (fun _ => (DNaN, 0)) (fun _ => false) 20%Z ex_w (s2l t) = Ret (IfGo b (s2l rest), ex_w) -> ex_says t b rest).
  { intros t b rest (x & X) E L C. split; auto. split; rewrite E; [rewrite X; apply handled_if|exact C]. }
  assert (IA : inner (s2l "a")) by (apply ex_inner; reflexivity). assert (IB : inner (s2l "b")) by (apply ex_inner; reflexivity).
  split; [apply S; [eexists; reflexivity| | |]; vm_compute; reflexivity|].
  split; [split; auto; exists [" "%char], [" "%char]; split; [repeat constructor; cbv; tauto|]; split; [repeat constructor; cbv; tauto|reflexivity]|].
  split; [apply S; [eexists; reflexivity| | |]; vm_compute; reflexivity|].
  split; [apply S; [eexists; reflexivity| | |]; vm_compute; reflexivity|].
  split. { split; auto. split; auto. exists [" "%char], [" "%char], (s2l "else"), [" "%char], []. repeat split; try (repeat constructor; cbv; tauto). discriminate. }
  split; [apply S; [eexists; reflexivity| | |]; vm_compute; reflexivity|].
  split. { split; [apply (plain_text_line true [] (s2l "a")); reflexivity|]. split; [apply (plain_text_line false [] (s2l "a")); reflexivity|].
    split; [|exists [" "%char]; split; [repeat constructor; cbv; tauto|reflexivity]]. intros c r [= <- _]. split; [cbv; intuition discriminate|discriminate]. }
  vm_compute. auto.
Qed.

(** A ')' in the command of IF, as in "if 1==1 echo :)", ends the block that is made of
    it: nothing is run. *)
Theorem C58_paren_refuted :
  events (ex_run "echo :)" ex_r) = Some [Ran (s2l "echo :)") (std 0) (std 1) (std 2)] /\
  events (ex_run "if 1==1 echo :)" ex_r) = Some [].
Proof. vm_compute. auto. Qed.
Print Assumptions C58_paren_refuted.

(** The commands behind IF are run or not according to the condition. *)
Theorem C58_rest_refuted :
  events (ex_run "if 1==1 (a) else (b) > f & c" ex_r) = Some [Ran (s2l "a") (std 0) (std 1) (std 2)] /\
  events (ex_run "if 1==2 (a) else (b) > f & c" ex_r) =
    Some [Ran (s2l "b") (std 0) (file "/tmp/f") (std 2); Ran (s2l "c") (std 0) (std 1) (std 2)].
Proof. vm_compute. auto. Qed.
Print Assumptions C58_rest_refuted.
