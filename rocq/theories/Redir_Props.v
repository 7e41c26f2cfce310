(** Redir_Props.v -- property C54: redirections. *)

From Verif Require Import Base StrLib_Model StrLib_Spec Var_Model Expand_Model Args_Model Args_Spec Args_Props Path_Model Block_Model Block_Spec Block_Proofs
  Parse_Model Parse_Spec Parse_Proofs Redir_Spec Redir_Proofs.

(** C54: the redirections written in a command are taken out of it, and nothing
    else is; each stream goes where it was asked to.  Digits alone, what is between
    quotes or protected, and what is inside blocks is left in place.  Asking twice
    for the same stream is an error. *)
Theorem C54_redirections :
  forall cur w s t l w', outline cur w s t l w' -> nonul s ->
    (NoDup (map kind l) -> exists st, pBat_ParseOutput cur w s = Ret (inr (t, st), w') /\ streams l st) /\
    (~ NoDup (map kind l) -> exists w1, pBat_ParseOutput cur w s = Ret (inl PBAT_ALREADY_REDIRECTED, w1)).
Proof.
  intros cur w s t l w' O N. pose proof (out_line cur w s t l w' O N) as K. pose proof (add_nodup l no_redir) as A.
  assert (F : forall r, In r l -> free no_redir (kind r)) by (intros r _; destruct r; reflexivity).
  destruct (add_all no_redir l) as [st|] eqn:E.
  - split.
    + intros _. exists st. split; auto. apply (add_streams l no_redir [] st no_streams E).
    + intros H. exfalso. apply H. apply A. eauto.
  - split; auto. intros H. destruct (proj2 A (conj H F)) as (x & X). discriminate.
Qed.
Print Assumptions C54_redirections.

(** C54: a redirection without a name is an error. *)
Theorem C54_missing :
  forall cur w t op k a, fop op k -> calm_text (s2l "12<>") t -> Forall blank a -> nonul (t ++ op ++ a) -> flat (t ++ op ++ a) ->
    pBat_ParseOutput cur w (t ++ op ++ a) = Ret (inl PBAT_INVALID_REDIRECTION, w).
Proof. intros. eapply missing_ok; eauto. Qed.
Print Assumptions C54_missing.

(** C54: whatever the line, reading its redirections ends and stays inside of it,
    unless expanding a name does not. *)
Theorem C54_total :
  forall cur w s, x_delayed w = false ->
    (exists r, pBat_ParseOutput cur w s = Ret (r, w)) \/
    (pBat_ParseOutput cur w s = Undef /\ exists t, pBat_DelayedExpand w t = Undef).
Proof. intros cur w s D. apply output_total. auto. Qed.
Print Assumptions C54_total.

(** [l] are commands with their operators, [l'] the same without redirections. *)
Inductive outlines (cur : cstr) : xworld -> list (node * cstr) -> list (node * cstr * stream) -> xworld -> Prop :=
| os_nil w : outlines cur w [] [] w
| os_cons w n s t r st w1 l l' w2 : outline cur w s t r w1 -> nonul s -> NoDup (map kind r) -> streams r st ->
    outlines cur w1 l l' w2 -> outlines cur w ((n, s) :: l) ((n, t, st) :: l') w2.

Lemma streams_unique l a b : streams l a -> streams l b -> a = b.
Proof.
  intros (A1 & A2 & A3 & A4 & A5) (B1 & B2 & B3 & B4 & B5). destruct a as [o e i d], b as [o' e' i' d']. cbn [st_out st_err st_in st_redir] in *.
  assert (o = o').
  { destruct o as [[f b]|]; [symmetry; apply B1, A1; auto|]. destruct o' as [[f b]|]; auto. apply A1, B1. auto. }
  assert (e = e').
  { destruct e as [[f b]|]; [symmetry; apply B2, A2; auto|]. destruct e' as [[f b]|]; auto. apply A2, B2. auto. }
  assert (i = i').
  { destruct i as [f|]; [symmetry; apply B3, A3; auto|]. destruct i' as [f|]; auto. apply A3, B3. auto. }
  assert (d = d'); [|congruence].
  destruct d, d'; auto; try (symmetry; first [apply B4, A4; auto; fail|apply B5, A5; auto; fail]); first [apply A4, B4; auto; fail|apply A5, B5; auto].
Qed.

(** C54: a line is its commands, with their operators and redirections. *)
Theorem C54_line :
  forall cur w t l l' w', cmdline (t :: map snd l) -> clear_ops t l -> outlines cur w ((NODE_NONE, t) :: l) l' w' ->
    pBat_ParseLine cur w (t ++ joined l) = Ret (inr l', w').
Proof.
  intros cur w t l l' w' C O H. unfold pBat_ParseLine. rewrite (ops_line t l C O). cbn [bind].
  revert H. generalize ((NODE_NONE, t) :: l) as x. clear. intros x H.
  induction H as [w|w n s t r st w1 l l' w2 O N D S H IH]; auto. cbn [parse_outputs].
  destruct (C54_redirections cur w s t r w1 O N) as [A _]. destruct (A D) as (st' & A1 & A2).
  rewrite (streams_unique r st' st A2 S) in A1. rewrite A1. cbn [bind]. rewrite IH. reflexivity.
Qed.
Print Assumptions C54_line.

Example C54_ex :
  let d := s2l "/d" in
  let l := [ToOut (s2l "/d/f 1") true; ToErr (s2l "/e>1") false; FromIn (s2l "/d/in")] in
  let s := s2l "echo a1 b>""f 1"" 2>>/e^>1 <in c" in
  let s2 := s2l "if x (echo a >f) else 2>&1 (b <i) >g" in
  outline d ex_w s (s2l "echo a1 b   c") l ex_w /\ NoDup (map kind l) /\
  pBat_ParseOutput d ex_w s = Ret (inr (s2l "echo a1 b   c", mkSt (Some (s2l "/d/f 1", true)) (Some (s2l "/e>1", false)) (Some (s2l "/d/in")) RE_NONE), ex_w) /\
  outline d ex_w s2 (s2l "if x (echo a >f) else  (b <i) ") [ErrToOut; ToOut (s2l "/d/g") true] ex_w /\
  pBat_ParseOutput d ex_w s2 = Ret (inr (s2l "if x (echo a >f) else  (b <i) ", mkSt (Some (s2l "/d/g", true)) None None RE_ERR2OUT), ex_w) /\
  pBat_ParseOutput d ex_w (s2l "a >b 1>c") = Ret (inl PBAT_ALREADY_REDIRECTED, ex_w) /\
  pBat_ParseOutput d ex_w (s2l "a > ") = Ret (inl PBAT_INVALID_REDIRECTION, ex_w).
Proof.
  cbv zeta.
  assert (FN : forall raw, calmb (s2l " ,;&|><)" ++ ["009"%char; "010"%char]) raw = true -> raw <> [] -> fname raw).
  { intros raw C N. apply calmb_ok in C. split; auto. }
  assert (NQ : forall b c r, c <> """"%char -> bare b (c :: r) (c :: r)) by (intros b c r H; constructor; congruence).
  split; [|split; [|split; [|split]]].
  - apply ol_flat.
    + apply (fl_last [] (s2l "echo a1 b>""f 1"" 2>>/e^>1 <in c")); [constructor|]. apply no_blockb_ok. reflexivity.
    + apply (ou_digit (s2l "/d") Flat ex_w (s2l "echo a") "1"%char (s2l " b>""f 1"" 2>>/e^>1 <in c") (s2l " b   c")).
      * apply calmb_ok. reflexivity.
      * cbv. tauto.
      * intros (r & [= X _]).
      * apply (ou_file (s2l "/d") Flat ex_w (s2l " b") (s2l ">") (fun f => ToOut f true) [] (s2l """f 1""") (s2l "f 1") (s2l "f 1") ex_w
                 (s2l " 2>>/e^>1 <in c") (s2l "   c") [ToErr (s2l "/e>1") false; FromIn (s2l "/d/in")]).
        -- apply calmb_ok. reflexivity.
        -- constructor.
        -- constructor.
        -- apply FN; [reflexivity|discriminate].
        -- discriminate.
        -- discriminate.
        -- intros c r [= <- _]. cbv. tauto.
        -- apply (bare_both false (s2l "f 1")). exists (s2l "f 1"). split; auto. discriminate.
        -- vm_compute. reflexivity.
        -- apply (ou_file (s2l "/d") Flat ex_w (s2l " ") (s2l "2>>") (fun f => ToErr f false) [] (s2l "/e^>1") (s2l "/e^>1") (s2l "/e>1") ex_w
                 (s2l " <in c") (s2l "  c") [FromIn (s2l "/d/in")]).
           ++ apply calmb_ok. reflexivity.
           ++ constructor.
           ++ constructor.
           ++ apply FN; [reflexivity|discriminate].
           ++ discriminate.
           ++ discriminate.
           ++ intros c r [= <- _]. cbv. tauto.
           ++ apply (NQ false "/"%char). discriminate.
           ++ vm_compute. reflexivity.
           ++ apply (ou_file (s2l "/d") Flat ex_w (s2l " ") (s2l "<") FromIn [] (s2l "in") (s2l "in") (s2l "in") ex_w
                 (s2l " c") (s2l " c") []).
              ** apply calmb_ok. reflexivity.
              ** constructor.
              ** constructor.
              ** apply FN; [reflexivity|discriminate].
              ** discriminate.
              ** discriminate.
              ** intros c r [= <- _]. cbv. tauto.
              ** apply (NQ false "i"%char). discriminate.
              ** vm_compute. reflexivity.
              ** apply ou_end. apply calmb_ok. reflexivity.
  - repeat (apply NoDup_cons; [cbv; intuition discriminate|]). constructor.
  - vm_compute. reflexivity.
  - assert (L : forall t, plainly (s2l ")&|") t = true ->
      (forall c r, t = c :: r -> ~ In c (s2l " ,;@(" ++ ["009"%char])) -> block_cmd (t ++ [nl]) = false -> inner t).
    { intros t Q N K. apply in_last. apply (ln_plain true [] t); auto; [constructor| |apply plainly_quiet; auto]. split; auto. intros X. apply block_cmd_iff in X. unfold nl in K. congruence. }
    apply (ol_blocks (s2l "/d") ex_w (s2l "if x ") (s2l "if x ") [] ex_w (s2l "echo a >f") (s2l " else 2>&1 (b <i) >g") (s2l " else  (b <i) ") [ErrToOut; ToOut (s2l "/d/g") true]).
    + apply (hd_cmd [] (s2l "if x ")); [constructor|apply block_cmd_iff; reflexivity|apply quietb_ok; reflexivity].
    + apply ou_end. apply calmb_ok. reflexivity.
    + apply L; try reflexivity. intros c r [= <- _]. cbv. intuition discriminate.
    + apply (ou_err2out (s2l "/d") Tail ex_w (s2l " else ") (s2l " (b <i) >g") (s2l " (b <i) ") [ToOut (s2l "/d/g") true]); [apply calmb_ok; reflexivity|].
      apply (ou_block (s2l "/d") Tail ex_w (s2l " ") (s2l "b <i") (s2l " >g") (s2l " ")); auto; [apply calmb_ok; reflexivity| |].
      * apply L; try reflexivity. intros c r [= <- _]. cbv. intuition discriminate.
      * apply (ou_file (s2l "/d") Tail ex_w (s2l " ") (s2l ">") (fun f => ToOut f true) [] (s2l "g") (s2l "g") (s2l "g") ex_w [] [] []).
        -- apply calmb_ok. reflexivity.
        -- constructor.
        -- constructor.
        -- apply FN; [reflexivity|discriminate].
        -- intros _. apply calmb_ok. reflexivity.
        -- discriminate.
        -- discriminate.
        -- apply (NQ true "g"%char). discriminate.
        -- vm_compute. reflexivity.
        -- apply ou_end. apply calmb_ok. reflexivity.
  - vm_compute. auto.
Qed.

(** Exceptions: "2>&2" sends the standard output to the standard error, and
    without the digit a redirection to a stream takes an empty name. *)
Theorem C54_dup_refuted :
  pBat_ParseOutput (s2l "/d") ex_w (s2l "a 2>&2") = Ret (inr (s2l "a ", mkSt None None None RE_OUT2ERR), ex_w) /\
  pBat_ParseOutput (s2l "/d") ex_w (s2l "a >&2") = Ret (inr (s2l "a &2", mkSt (Some (s2l "/d/", true)) None None RE_NONE), ex_w).
Proof. vm_compute. auto. Qed.
Print Assumptions C54_dup_refuted.
