(** For_Props.v -- the properties of FOR. *)

From Verif Require Import Base Lex StrLib_Model StrLib_Spec StrLib_Proofs Num_Model Env_Model Var_Model Expand_Model Expand_Spec Args_Model Block_Model CmdList_Model
  Parse_Model Args_Spec Args_Proofs Block_Spec Block_Proofs Block_Props Stream_Model Stream_Spec Stream_Proofs If_Model If_Spec If_Proofs Body_Model
  ForTok_Model ForTok_Spec ForTok_Proofs ForTok_Props For_Model Run_Model Run_Spec
  Run_Proofs RunBlock_Spec RunBlock_Proofs RunIf_Proofs Args_Props Run_Props RunBlock_Props For_Spec For_Proofs.

(** C26: FOR /L with at most three numbers runs its body while the value is not beyond
    the end, a step further each time; missing numbers are 0.  Then the variable is
    forgotten and the exit code is 0. *)
Theorem C26_steps : forall leaf can_open fio table strtod exists_file ka n t st c input i u w1 l r,
  ready (r_io r) -> chosen n (errlevel r) = true -> r_abort r = 0%Z ->
  handled table (pBat_SkipAllBlanks t) "CmdFor" -> handled table (parens i) "CmdBlock" ->
  for_text (r_x r) Steps c input i t -> pBat_DelayedExpand (r_x r) input = Ret (u, w1) -> ints_text true u l -> length l <= 3 ->
  same_runs (chain_goes leaf can_open fio table strtod exists_file ka [(n, t, st)] r)
    (counts (value_turn leaf can_open fio table strtod exists_file ka (n, parens i, st) c) (nth 1 l 0%Z) (nth 2 l 0%Z) (nth 0 l 0%Z)
       (mkR (locked (r_io r)) w1 0 (r_log r)))
    (ends_for c r).
Proof.
  intros leaf co fio table sd ex ka n t st c input i u w1 l r R CH AB Hf Hb T D L Len.
  pose proof (text_facts _ _ _ _ _ _ T) as (LA & I & V).
  destruct (head_ok fio (r_log r) (r_x r) Steps c input i t u w1 T D) as (kk & info & K & H). cbn in K. subst kk.
  cbn [init_loop] in H. unfold init_l in H. rewrite (l_params_ok w1 u true l L) in H by (simpl; lia).
  change (length (@nil Z) + length l) with (length l) in H. destruct (Nat.ltb_spec 3 (length l)); [lia|]. cbn [bind app] in H.
  pose proof (for_runs leaf co fio table sd ex ka n t st r i _ _ w1 R CH AB LA Hf I Hb H) as [A B]. pose proof (var_name_ok c V) as N.
  split.
  - intros r' G. destruct (A r' G) as (q & Q & E). exists q. split; [apply count_loop; auto|].
    unfold ends_loop in E. cbn [for_end] in E. rewrite assign_set in E by auto. exact E.
  - intros q Q. destruct (B q) as (r' & G & E); [apply count_loop; auto|]. exists r'. split; auto.
    unfold ends_loop in E. cbn [for_end] in E. rewrite assign_set in E by auto. exact E.
Qed.
Print Assumptions C26_steps.

(** C26: with more than three numbers nothing is run, and the exit code is 24. *)
Theorem C26_too_many : forall leaf can_open fio table strtod exists_file ka n t st c input i u w1 l r,
  ready (r_io r) -> chosen n (errlevel r) = true -> r_abort r = 0%Z -> handled table (pBat_SkipAllBlanks t) "CmdFor" ->
  for_text (r_x r) Steps c input i t -> pBat_DelayedExpand (r_x r) input = Ret (u, w1) -> ints_text true u l -> 3 < length l ->
  (exists r', chain_goes leaf can_open fio table strtod exists_file ka [(n, t, st)] r r') /\
  forall r', chain_goes leaf can_open fio table strtod exists_file ka [(n, t, st)] r r' ->
    same_io (r_io r') (r_io r) /\ r_x r' = x_set_err w1 24 /\ r_abort r' = 0%Z /\ r_log r' = r_log r.
Proof.
  intros leaf co fio table sd ex ka n t st c input i u w1 l r R CH AB Hf T D L Len.
  pose proof (text_facts _ _ _ _ _ _ T) as (LA & I & V).
  destruct (head_ok fio (r_log r) (r_x r) Steps c input i t u w1 T D) as (kk & info & K & H). cbn in K. subst kk.
  cbn [init_loop] in H. unfold init_l in H. rewrite (l_params_ok w1 u true l L) in H by (simpl; lia).
  change (length (@nil Z) + length l) with (length l) in H. destruct (Nat.ltb_spec 3 (length l)); [|lia]. cbn [bind] in H.
  eapply for_fails; eauto.
Qed.
Print Assumptions C26_too_many.

(** C26: with a step above 0 the values are the start, the start and a step, and so on,
    in this order, as long as they are not beyond the end; the number after the last
    one must still be an int. *)
Theorem C26_progression : forall turn start step last n r r', (0 < step)%Z ->
  (forall k, (start + Z.of_nat k * step <= last)%Z <-> k < n) ->
  (-2147483648 <= start)%Z -> (start + Z.of_nat n * step <= 2147483647)%Z ->
  (counts turn step last start r r' <-> for_each turn (map (fun k => dec (start + Z.of_nat k * step)) (seq 0 n)) r r').
Proof.
  intros turn a s e n r r' S1 B I J. apply counts_list; auto; [lia|intros k K; apply B; auto|]. specialize (B n). lia.
Qed.
Print Assumptions C26_progression.
(** C26: a start beyond the end: nothing is run, whatever the step. *)
Theorem C26_none : forall turn start step last r r', (last < start)%Z -> (counts turn step last start r r' <-> r' = r).
Proof. intros. apply counts_end; auto. Qed.
Print Assumptions C26_none.
(** C26: otherwise, with a step that is not above 0, the loop never ends by itself. *)
Theorem C26_forever : forall turn start step last r r', (-2147483648 <= start)%Z -> (start <= last)%Z -> (last <= 2147483647)%Z -> (step <= 0)%Z ->
  counts turn step last start r r' -> r_abort r' <> 0%Z.
Proof. intros turn a s e r r' I L J S1 H. eapply counts_never; [|split; [apply I|lia]|apply H]. intros k _. nia. Qed.
Print Assumptions C26_forever.
(** C26: nor does it when the number after the last value is above the range of int;
    there the next value is undefined. *)
Theorem C26_overflow : forall turn start step last r r', (-2147483648 <= start)%Z -> (start <= last)%Z -> (0 < step)%Z ->
  (last <= 2147483647)%Z -> (2147483647 - (2147483647 - start) mod step <= last)%Z ->
  counts turn step last start r r' -> r_abort r' <> 0%Z.
Proof.
  intros turn a s e r r' I L S1 J O H. eapply counts_never; [|split; [apply I|lia]|apply H]. intros k K. specialize (K k (le_n k)).
  pose proof (Z.div_mod (2147483647 - a) s ltac:(lia)) as D. pose proof (Z.mod_pos_bound (2147483647 - a) s S1) as M.
  assert (Z.of_nat k <= (2147483647 - a) / s)%Z by (apply Z.div_le_lower_bound; lia). nia.
Qed.
Print Assumptions C26_overflow.

(** C59: FOR with a list of words runs its body for each of them, in order; for one
    with a mask, for the files the mask stands for. *)
Theorem C59_words : forall leaf can_open fio table strtod exists_file ka n t st c input i u w1 ws r,
  ready (r_io r) -> chosen n (errlevel r) = true -> r_abort r = 0%Z ->
  handled table (pBat_SkipAllBlanks t) "CmdFor" -> handled table (parens i) "CmdBlock" ->
  for_text (r_x r) Words c input i t -> pBat_DelayedExpand (r_x r) input = Ret (u, w1) -> words_text true u ws ->
  same_runs (chain_goes leaf can_open fio table strtod exists_file ka [(n, t, st)] r)
    (for_words fio (value_turn leaf can_open fio table strtod exists_file ka (n, parens i, st) c) ws (mkR (locked (r_io r)) w1 0 (r_log r)))
    (ends_for c r).
Proof.
  intros leaf co fio table sd ex ka n t st c input i u w1 ws r R CH AB Hf Hb T D W.
  pose proof (text_facts _ _ _ _ _ _ T) as (LA & I & V).
  destruct (head_ok fio (r_log r) (r_x r) Words c input i t u w1 T D) as (kk & info & K & H). cbn in K. subst kk.
  cbn [init_loop bind] in H.
  pose proof (for_runs leaf co fio table sd ex ka n t st r i _ _ w1 R CH AB LA Hf I Hb H) as [A B]. pose proof (var_name_ok c V) as N.
  split.
  - intros r' G. destruct (A r' G) as (q & Q & E). exists q. split; [eapply words_loop; eauto|].
    unfold ends_loop in E. cbn [for_end] in E. rewrite assign_set in E by auto. exact E.
  - intros q Q. destruct (B q) as (r' & G & E); [eapply words_loop; eauto|]. exists r'. split; auto.
    unfold ends_loop in E. cbn [for_end] in E. rewrite assign_set in E by auto. exact E.
Qed.
Print Assumptions C59_words.
(** C59: without masks these are the words themselves. *)
Theorem C59_plain : forall fio turn ws r r', forallb (fun t => negb (mask t)) ws = true -> r_abort r = 0%Z ->
  (for_words fio turn ws r r' <-> for_each turn ws r r').
Proof.
  intros fio turn ws. induction ws as [|t ws IH]; intros r r' M A.
  - split; intros H; inversion H; constructor.
  - cbn [forallb] in M. apply andb_prop in M. destruct M as [M1 M2]. apply Bool.negb_true_iff in M1. rewrite for_words_cons. split.
    + intros (vs & r1 & V & F & H). inversion V; subst; [|congruence]. inversion F as [|? ? ? ? T B|? ? ? r2 ? T B F2]; subst.
      * apply fe_stop; auto. destruct H as [[_ ->]|[B2 _]]; auto; congruence. destruct H as [[_ ->]|[B2 _]]; auto; congruence.
      * inversion F2; subst. eapply fe_next; eauto. apply IH; auto. destruct H as [[B2 _]|[_ H]]; auto; congruence.
    + intros H. exists [t]. inversion H as [|? ? ? ? T B|? ? ? r2 ? T B F2]; subst.
      * exists r'. split; [constructor; auto|]. split; [apply fe_stop; auto|]. auto.
      * exists r2. split; [constructor; auto|]. split; [eapply fe_next; eauto; constructor|]. right. split; auto. apply IH; auto.
Qed.
Print Assumptions C59_plain.
(** C59, refuted: a ':' in a list, as in "for %a in (c:d) do x": the loop never ends by
    itself -- after the word before the ':' the body is run with an empty value. *)
Theorem C59_colon_refuted : forall leaf can_open fio table strtod exists_file ka n t st c input i raw x w1 r r',
  ready (r_io r) -> chosen n (errlevel r) = true -> r_abort r = 0%Z ->
  handled table (pBat_SkipAllBlanks t) "CmdFor" -> handled table (parens i) "CmdBlock" ->
  for_text (r_x r) Words c input i t -> pBat_DelayedExpand (r_x r) input = Ret (raw ++ ":"%char :: x, w1) ->
  raw = [] \/ for_word raw /\ mask raw = false ->
  chain_goes leaf can_open fio table strtod exists_file ka [(n, t, st)] r r' -> r_abort r' <> 0%Z.
Proof.
  intros leaf co fio table sd ex ka n t st c input i raw x w1 r r' R CH AB Hf Hb T D W G.
  pose proof (text_facts _ _ _ _ _ _ T) as (LA & I & V).
  destruct (head_ok fio (r_log r) (r_x r) Words c input i t _ w1 T D) as (kk & info & K & H). cbn in K. subst kk.
  cbn [init_loop bind] in H.
  pose proof (for_runs leaf co fio table sd ex ka n t st r i _ _ w1 R CH AB LA Hf I Hb H) as [A _]. pose proof (var_name_ok c V) as N.
  destruct (A r' G) as (q & Q & E). unfold ends_loop in E. replace (r_abort r') with (r_abort q) by (symmetry; apply E). clear E.
  destruct W as [W|[W M]]; [subst raw; eapply colon_loop; [exact N| |exact Q]; reflexivity|].
  apply loop_unfold in Q. cbn [for_next next_s] in Q. pose proof (for_pointers [] raw (":"%char :: x) ltac:(constructor) W) as P.
  cbn [app] in P. rewrite P in Q by (intros d z [= <- _]; left; reflexivity). cbn [bind] in Q.
  rewrite Estr_Proofs.firstn_app_len, Estr_Proofs.skipn_app_len in Q by auto.
  rewrite mask_pbrk in M. destruct (strpbrk raw (s2l "*?")); [discriminate|].
  destruct Q as (r1 & _ & [[B ->]|[B Q]]); auto. eapply colon_loop; eauto.
Qed.
Print Assumptions C59_colon_refuted.

(** C60: FOR /F reads a text between quotes, the output of a command -- started before
    anything else -- or files, line after line, and runs its body for each line with the
    variables set to the words asked for; the first lines are skipped as asked, and so
    are those that start with a character of "eol" (empty ones too if there is such a
    character) and, in the mode that follows CMD, blank lines. *)
Theorem C60_lines : forall leaf can_open fio table strtod exists_file ka n t st c input i u w1 l f fs cmd r,
  ready (r_io r) -> chosen n (errlevel r) = true -> r_abort r = 0%Z ->
  handled table (pBat_SkipAllBlanks t) "CmdFor" -> handled table (parens i) "CmdBlock" ->
  for_text (r_x r) (Lines l) c input i t -> pBat_DelayedExpand (r_x r) input = Ret (u, w1) ->
  let k := fold_left ask l default in
  feeds fio w1 (r_log r) (k_backq k) u f fs cmd ->
  exists info,
    same_runs (chain_goes leaf can_open fio table strtod exists_file ka [(n, t, st)] r)
      (for_lines fio (line_turn leaf can_open fio table strtod exists_file ka (n, parens i, st) k info c) (k_eol k) f fs 0 (k_skip k)
        (started cmd (mkR (locked (r_io r)) w1 0 (r_log r))))
      (ends_lines c (length (asked_ranges k)) r).
Proof.
  intros leaf co fio table sd ex ka n t st c input i u w1 l f fs cmd r R CH AB Hf Hb T D k Fe.
  pose proof (text_facts _ _ _ _ _ _ T) as (LA & I & V).
  destruct (head_ok fio (r_log r) (r_x r) (Lines l) c input i t u w1 T D) as (kk & info & K & H). destruct K as [-> K].
  pose proof (holds_first _ _ c _ K) as K2. fold k in K2. pose proof (var_code c V) as Vc.
  destruct (make_input_ok fio (r_log r) w1 (k_backq k) u f fs cmd Fe) as (src & Sr & Mi).
  cbn [init_loop] in H. unfold init_f in H. unfold LocalVar_Model.pBat_GetLocalVarPointer in H. cbn [with_first fi_first] in H.
  pose proof (var_name_ok c V) as N. rewrite N in H. unfold LocalVar_Model.at_block in H. destruct (Z.ltb_spec (code c) 128); [|lia]. cbn [bind] in H.
  rewrite (delayed_locals _ _ _ _ D) in H. rewrite (text_free _ _ _ _ _ _ T) in H.
  assert (Bq : fi_backq (with_first info c) = k_backq k) by apply K2. assert (Sk : fi_skip (with_first info c) = k_skip k) by apply K2.
  change (fi_backq (mkFI _ _ _ _ (fi_backq info) _ _)) with (fi_backq (with_first info c)) in H.
  rewrite Bq, Mi in H. cbn [bind] in H. rewrite Sk in H.
  exists (with_first info c).
  pose proof (for_runs leaf co fio table sd ex ka n t st r i _ _ w1 R CH AB LA Hf I Hb H) as [A B].
  assert (En : forall r0 r1 r', ends_loop (FF (with_first info c) (k_skip k) src) r0 r1 r' -> ends_lines c (length (asked_ranges k)) r0 r1 r').
  { intros r0 r1 r' (E1 & E2 & E3 & E4). split; auto. split; auto. split; auto. cbn [for_end] in E2. eexists. split; [exact E2|].
    intros y. rewrite C27_unassign by exact Vc. replace (fi_nb (with_first info c)) with (length (asked_ranges k)) by (symmetry; apply K2). reflexivity. }
  split.
  - intros r' G. destruct (A r' G) as (q & Q & E). exists q. split; [eapply lines_loop; eauto|]. apply En; auto.
  - intros q Q. destruct (B q) as (r' & G & E); [eapply lines_loop; eauto|]. exists r'. split; auto.
Qed.
Print Assumptions C60_lines.

(** C26, C59, C60: the table of commands meets what is asked of it. *)
Theorem C26_handled : forall w k c input i t, for_text w k c input i t ->
  handled builtin_table (pBat_SkipAllBlanks t) "CmdFor" /\ handled builtin_table (parens i) "CmdBlock".
Proof.
  intros w k c input i t T. split; [|apply C57_handled].
  destruct (for_start _ _ _ _ _ _ T) as (p & E & _). pose proof E as E'.
  destruct T as (b0 & f & o & b1 & b2 & n & b3 & b4 & d & rest & -> & L0 & F & K & G1 & T).
  assert (X : exists q r, o ++ b1 ++ "%"%char :: c :: b2 ++ n ++ b3 ++ parens input ++ b4 ++ d ++ rest = q :: r /\ blank q).
  { assert (Z0 : forall b r, gaps b -> exists q r', b ++ r = q :: r' /\ blank q).
    { intros b r [B G]. destruct b as [|q b]; [congruence|]. inversion B; subst. eexists _, _. split; [reflexivity|auto]. }
    destruct K; [cbn [app]; apply Z0; auto| | |]; rewrite <- ?app_assoc; apply Z0; auto. }
  destruct X as (q & r & X & Q). rewrite X, allskip by exact L0.
  destruct f as [|x f]; [discriminate F|]. cbn [app]. rewrite allskip_stop; [apply (handled_for (x :: f)); auto|].
  injection F as F _. intros H. cbn in H. repeat (destruct H as [<-|H]; [discriminate F|]). destruct H.
Qed.
Print Assumptions C26_handled.

(** Examples: only the second and the third turn run the body's command. *)
Ltac blanks := repeat constructor; cbv; tauto.
Lemma ex_for k o input body : kind_text ex_w k (s2l o) -> inner (s2l input) ->
  plain_text true [] (s2l body) = true -> plain_text false [] (s2l body) = true -> (forall c r, s2l body = c :: r -> ~ blank c /\ c <> "("%char) ->
  for_text ex_w k "b"%char (s2l input) (s2l body) (s2l " for" ++ s2l o ++ s2l " %b in (" ++ s2l input ++ s2l ") Do " ++ s2l body).
Proof.
  intros K I L1 L2 F. exists (s2l " "), (s2l "for"), (s2l o), (s2l " "), (s2l " "), (s2l "in"), (s2l " "), (s2l " "), (s2l "Do"), (s2l " " ++ s2l body).
  split; [unfold parens; cbn [s2l String.list_ascii_of_string app]; rewrite <- !app_assoc; reflexivity|].
  split; [blanks|]. split; [reflexivity|]. split; [auto|]. split; [split; [blanks|discriminate]|]. split; [split; [blanks|discriminate]|]. split; [reflexivity|].
  split; [blanks|]. split; [discriminate|]. split; [blanks|]. split; [reflexivity|]. split; [split; [cbv; split; discriminate|cbv; intuition discriminate]|]. split; [reflexivity|].
  split; [auto|]. split; [eexists _, _; split; [reflexivity|blanks]|]. right.
  split; [apply (plain_text_line true [] _ L1)|]. split; [apply (plain_text_line false [] _ L2)|]. split; auto. exists (s2l " "). split; [blanks|reflexivity].
Qed.
Lemma ex_plain t : plain_text true [] t = true -> inner t.
Proof. intros H. apply in_last. apply (plain_text_line true [] t H). Qed.

Example C26_ex :
  for_text ex_w Steps "b"%char (s2l "3 ,-1;") (s2l "a") (s2l " for /l %b in (3 ,-1;) Do a") /\
  ints_text true (s2l "3 ,-1;") [3; -1]%Z /\ pBat_DelayedExpand ex_w (s2l "3 ,-1;") = Ret (s2l "3 ,-1;", ex_w) /\
  events (ex_run " for /l %b in (1,2,6) Do a > %b" ex_r) <> Some [] /\
  events (ex_run " for /l %b in (1,2,6) Do if %b neq 1 a" ex_r) =
    Some [Ran (s2l "a") (std 0) (std 1) (std 2); Ran (s2l "a") (std 0) (std 1) (std 2)] /\
  events (ex_run "for /L %b in (1,1,9) do a & goto x" ex_r) = Some [Ran (s2l "a ") (std 0) (std 1) (std 2); Ran (s2l "goto x") (std 0) (std 1) (std 2)] /\
  code_of (ex_run "for /L %b in (1,2,3,4) do a" ex_r) = Some 24%Z /\
  (forall k, (1 + Z.of_nat k * 2 <= 6)%Z <-> k < 3).
Proof.
  split. { apply (ex_for Steps " /l" "3 ,-1;" "a"); [apply (kt_steps ex_w (s2l " ") (s2l "/l")); [split; [blanks|discriminate]|reflexivity]|apply ex_plain; reflexivity|reflexivity|reflexivity|].
    intros c r [= <- _]. split; [cbv; intuition discriminate|discriminate]. }
  split. { apply (it_cons true [] (s2l "3") 3%Z (s2l " ,-1;")); [constructor|discriminate| |lia|].
    - constructor. apply (num_dec "3"%char [] 3%Z); [discriminate|]. exists [3%Z]. split; [constructor; [apply dig_iff; split; reflexivity|constructor]|]. split; [repeat constructor; lia|reflexivity].
    - apply (it_cons false (s2l " ,") (s2l "-1") (-1)%Z (s2l ";")); [blanks|discriminate| |lia|constructor; blanks].
      apply (iw_minus (s2l "1") 1). apply (num_dec "1"%char [] 1%Z); [discriminate|]. exists [1%Z]. split; [constructor; [apply dig_iff; split; reflexivity|constructor]|]. split; [repeat constructor; lia|reflexivity]. }
  split; [vm_compute; reflexivity|]. split; [vm_compute; discriminate|]. split; [vm_compute; reflexivity|]. split; [vm_compute; reflexivity|]. split; [vm_compute; reflexivity|]. intros k. lia.
Qed.

Example C59_ex :
  for_text ex_w Words "b"%char (s2l "x y,*") (s2l "a") (s2l " for %b in (x y,*) Do a") /\
  words_text true (s2l "x ""y z"",*") [s2l "x"; s2l """y z"""; s2l "*"] /\
  pBat_DelayedExpand ex_w (s2l "x ""y z"",*") = Ret (s2l "x ""y z"",*", ex_w) /\
  events (ex_run "for %b in (x ""y z"",*) do a" ex_r) = Some (repeat (Ran (s2l "a") (std 0) (std 1) (std 2)) 4) /\
  events (ex_run "for %b in (x ""y z"",*) do if %b==f2 a" ex_r) = Some [Ran (s2l "a") (std 0) (std 1) (std 2)] /\
  (for_text ex_w Words "b"%char (s2l "c:d") (s2l "a") (s2l " for %b in (c:d) Do a") /\ for_word (s2l "c") /\ mask (s2l "c") = false /\
   ex_run "for %b in (c:d) do a" ex_r = OutOfFuel).
Proof.
  assert (Id : forall t, ~ In caret t -> escaping t t).
  { induction t as [|c t IH]; intros H; constructor; [intros ->; apply H; simpl; auto|]. apply IH. intros I. apply H. simpl. auto. }
  assert (W1 : for_word (s2l "x")) by (split; [discriminate|]; split; [exists (s2l "x"); apply Id; cbv; intuition discriminate|]; split; [exists 0; reflexivity|];
    intros i [L _]; apply live_iff in L; destruct L as [_ (c & C & P)]; destruct i as [|[|i]]; try discriminate C; injection C as <-; discriminate P).
  assert (W2 : for_word (s2l "*")) by (split; [discriminate|]; split; [exists (s2l "*"); apply Id; cbv; intuition discriminate|]; split; [exists 0; reflexivity|];
    intros i [L _]; apply live_iff in L; destruct L as [_ (c & C & P)]; destruct i as [|[|i]]; try discriminate C; injection C as <-; discriminate P).
  assert (W3 : for_word (s2l "c")) by (split; [discriminate|]; split; [exists (s2l "c"); apply Id; cbv; intuition discriminate|]; split; [exists 0; reflexivity|];
    intros i [L _]; apply live_iff in L; destruct L as [_ (c & C & P)]; destruct i as [|[|i]]; try discriminate C; injection C as <-; discriminate P).
  assert (W4 : for_word (s2l """y z""")).
  { split; [discriminate|]; split; [exists (s2l """y z"""); apply Id; cbv; intuition discriminate|]; split; [exists 1; reflexivity|].
    intros i [L E]. apply live_iff in L. destruct L as [_ (c & C & P)]. destruct i as [|[|[|[|[|i]]]]]; try (injection C as <-; discriminate P).
    - destruct E as [k E]. change (quotes_before (s2l """y z""") 2) with 1 in E. lia.
    - destruct i; discriminate C. }
  split. { apply (ex_for Words "" "x y,*" "a"); [apply kt_words|apply ex_plain; reflexivity|reflexivity|reflexivity|].
    intros c r [= <- _]. split; [cbv; intuition discriminate|discriminate]. }
  split. { apply (wt_cons true [] (s2l "x") (s2l " ""y z"",*")); auto; [discriminate|]. apply (wt_cons false (s2l " ") (s2l """y z""") (s2l ",*")); auto; [blanks|discriminate|].
    apply (wt_cons false (s2l ",") (s2l "*") []); auto; [blanks|discriminate|constructor; constructor]. }
  split; [vm_compute; reflexivity|]. split; [vm_compute; reflexivity|]. split; [vm_compute; reflexivity|].
  split; [|split; [exact W3|split; [reflexivity|vm_compute; reflexivity]]].
  apply (ex_for Words "" "c:d" "a"); [apply kt_words|apply ex_plain; reflexivity|reflexivity|reflexivity|].
  intros c r [= <- _]. split; [cbv; intuition discriminate|discriminate].
Qed.

(** "skip=1 tokens=1" and the file f1. *)
Example C60_ex :
  for_text ex_w (Lines []) "b"%char (s2l "f1") (s2l "a") (s2l " for /F %b in (f1) Do a") /\
  feeds ex_fio ex_w [] false (s2l "f1") (file_feed ex_fio (s2l "/tmp/f1")) [] None /\
  feeds ex_fio ex_w [] false (s2l "'x|y'") (pipe_feed ex_fio 0) [] (Some (s2l "x|y")) /\
  feeds ex_fio ex_w [] false (s2l """x y""") (text_feed [s2l "x y"]) [] None /\
  pBat_DelayedExpand ex_w (s2l "f1") = Ret (s2l "f1", ex_w) /\
  events (ex_run "for /F %b in (f1) do a" ex_r) = Some (repeat (Ran (s2l "a") (std 0) (std 1) (std 2)) 2) /\
  events (ex_run "for /F %b in (f1) do if %b==e a" ex_r) = Some [Ran (s2l "a") (std 0) (std 1) (std 2)] /\
  events (ex_run "for /F ""skip=1 tokens=1"" %b in (f1) do if %b==e a" ex_r) = Some [Ran (s2l "a") (std 0) (std 1) (std 2)] /\
  events (ex_run "for /F ""tokens=1*"" %b in ('x') do if .%c==.y a" ex_r) =
    Some [Started 0 (s2l "x") no_redir (std 0); Ran (s2l "a") (std 0) (std 1) (std 2)] /\
  code_of (ex_run "for /F %b in (bad) do a" ex_r) = Some 1%Z /\
  code_of (ex_run "for /F %b in ('x) do a" ex_r) = Some (-1)%Z.
Proof.
  split. { apply (ex_for (Lines []) " /F" "f1" "a"); [apply (kt_lines ex_w (s2l " ") (s2l "/F")); [split; [blanks|discriminate]|reflexivity]|apply ex_plain; reflexivity|reflexivity|reflexivity|].
    intros c r [= <- _]. split; [cbv; intuition discriminate|discriminate]. }
  split. { apply (fd_files ex_fio ex_w [] false (s2l "f1") (s2l "f1") []); [|simpl; lia| |reflexivity|reflexivity].
    - assert (T : tame (s2l "f1")) by (repeat constructor; cbv; intuition discriminate).
      assert (NL : forall i, ~ live (inset (dquote :: Args_Spec.blanks)) (s2l "f1") i).
      { intros i L. apply live_iff in L. destruct L as [_ (c & C & P)]. destruct i as [|[|[|i]]]; try discriminate C; injection C as <-; discriminate P. }
      apply (nt_cons ex_w true [] (s2l "f1") (s2l "f1") (s2l "f1") []); [constructor|discriminate| | |discriminate|vm_compute; reflexivity|constructor; constructor].
      + apply (word_whole _ (s2l "f1")); auto; discriminate || auto using tame_escaping.
      + apply (word_whole _ (s2l "f1")); auto; discriminate || auto using tame_escaping.
    - split; [cbv; intuition discriminate|discriminate]. }
  split; [apply (fd_command ex_fio ex_w [] false "'"%char (s2l "x|y") []); [reflexivity|cbv; intuition discriminate]|].
  split; [apply (fd_text ex_fio ex_w [] false """"%char (s2l "x y") []); [reflexivity|cbv; intuition discriminate|apply tl_last; [discriminate|cbv; intuition discriminate]]|].
  repeat (split; [vm_compute; reflexivity|]). vm_compute. reflexivity.
Qed.

(** C60, refuted: when a file of the list other than the first cannot be opened, FOR /F
    closes a file that is not open. *)
Theorem C60_later_file_refuted : ex_run "for /F %b in (f1 bad) do a" ex_r = Undef.
Proof. vm_compute. reflexivity. Qed.
Print Assumptions C60_later_file_refuted.
(** C60, refuted: FOR /R without a directory looks from the root, not from the current
    directory. *)
Theorem C60_recursive_refuted : vw_cd (x_var ex_w) = s2l "/tmp" /\
  events (ex_run "for /R %b in (*.c) do a" ex_r) =
    Some (Started 0 (s2l "DIR /b /s /A:-D /*.c") no_redir (std 0) :: repeat (Ran (s2l "a") (std 0) (std 1) (std 2)) 2).
Proof. split; vm_compute; reflexivity. Qed.
Print Assumptions C60_recursive_refuted.
