(** Args_Proofs.v *)

From Verif Require Import Base Num_Proofs Path_Proofs StrLib_Model StrLib_Spec StrLib_Proofs
  LocalVar_Model LocalVar_Proofs Expand_Model Expand_Spec Expand_Proofs Expand_Props Args_Model Args_Spec.

Lemma even_SS n : Nat.even (S (S n)) = Nat.even n.
Proof. reflexivity. Qed.

Lemma inset_in d c : inset d c = true <-> In c d.
Proof. apply inset_In. Qed.

Lemma skipn_plus {A} a b (l : list A) : skipn a (skipn b l) = skipn (b + a) l.
Proof. revert l. induction b as [|b IH]; intros [|x l]; simpl; auto. apply skipn_nil. Qed.

(** ** The end of a parameter *)
Lemma param_end_spec delims b : In dquote delims -> forall fuel base,
  E b base = false -> Nat.even (quotes_before b base) = true -> length b - base < fuel ->
  (forall j, j < base -> ~ live_unquoted (sep delims) b j) ->
  exists e, param_end fuel delims base (skipn base b) = Ret e /\ first_pos (live_unquoted (sep delims) b) e.
Proof.
  intros Q. induction fuel as [|f IH]; intros base HE HQ HF HB; [nlia|]. cbn [param_end].
  pose proof (search_pred_spec (inset delims) (skipn base b)) as S1. unfold pBat_SearchToken.
  assert (Qi : forall c, c = dquote -> inset delims c = true) by (intros c ->; apply inset_in; auto).
  destruct (search_pred (inset delims) (skipn base b)) as [k|]; simpl in S1.
  - destruct S1 as [K1 K2]. apply (live_skipn _ _ _ _ HE) in K1.
    assert (K3 : forall j, base <= j -> j < base + k -> ~ live (inset delims) b j).
    { intros j J1 J2 L. apply (K2 (j - base)); [nlia|]. apply live_skipn; auto. replace (base + (j - base)) with j by nlia. auto. }
    assert (K4 : forall j, base <= j -> j < base + k -> ~ lq b j).
    { intros j J1 J2 L. apply (K3 j J1 J2). destruct L as [L1 (c & L2 & L3)]. split; auto. exists c. split; auto.
      apply Qi. apply Ascii.eqb_eq in L3. auto. }
    assert (K5 : forall j, j < base + k -> ~ live_unquoted (sep delims) b j).
    { intros j J L. destruct (lt_dec j base) as [X|X]; [apply (HB j X L)|]. destruct L as [[L1 (c & L2 & L3)] _].
      apply (K3 j); [nlia|nlia|]. split; auto. exists c. split; auto. unfold sep in L3. apply Bool.andb_true_iff in L3. tauto. }
    assert (QK : quotes_before b (base + k) = quotes_before b base) by (apply quotes_const; [nlia|auto]).
    pose proof K1 as K1'. apply live_iff in K1'. destruct K1' as [KE (c & Kc & Kd)].
    rewrite nth_error_skipn, Kc. pose proof (live_lt _ _ _ K1) as KL.
    destruct (ceq c dquote) eqn:C.
    + apply ceq_true in C. subst c.
      assert (LQ : lq b (base + k)) by (apply live_iff; split; auto; exists dquote; split; auto; reflexivity).
      assert (E1 : E b (S (base + k)) = false) by (apply lq_E_S; auto).
      assert (SK : skipn (S k) (skipn base b) = skipn (S (base + k)) b).
      { rewrite skipn_plus. f_equal. lia. }
      rewrite SK. pose proof (next_quote_spec b (S (base + k)) E1) as NQ. unfold next_quote in NQ.
      destruct (pBat_SearchChar (skipn (S (base + k)) b) dquote) as [j|]; cbn [oadd fq] in NQ.
      * destruct NQ as (N1 & N2 & N3). pose proof (live_lt _ _ _ N2) as NL.
        replace (skipn (S k + S j) (skipn base b)) with (skipn (base + (S k + S j)) b) by (rewrite skipn_plus; auto).
        assert (QE : forall x, S (base + k) <= x -> x <= S (base + k) + j -> quotes_before b x = S (quotes_before b base)).
        { intros x X1 X2. rewrite (quotes_const b (S (base + k)) x X1), quotes_S_lq, QK; auto. intros y Y1 Y2. apply N3; nlia. }
        apply IH.
        -- replace (base + (S k + S j)) with (S (S (base + k) + j)) by nlia. apply lq_E_S. auto.
        -- replace (base + (S k + S j)) with (S (S (base + k) + j)) by nlia. rewrite quotes_S_lq by auto. rewrite QE by nlia.
           rewrite even_SS. auto.
        -- nlia.
        -- intros x X. destruct (lt_dec x (base + k)) as [Y|Y]; [apply K5; auto|]. intros L.
           destruct (Nat.eq_dec x (base + k)) as [->|Y2].
           { destruct L as [[_ (c & L2 & L3)] _]. rewrite Kc in L2. injection L2 as <-. unfold sep in L3.
             rewrite Bool.andb_false_r in L3. discriminate. }
           destruct (le_lt_dec x (S (base + k) + j)) as [Y3|Y3]; [|nlia].
           destruct L as [_ L]. revert L. apply odd_not_even. rewrite QE by nlia.
           rewrite Nat.even_succ, <- Nat.negb_even, HQ. auto.
      * exists None. split; auto. intros x L. destruct (lt_dec x (base + k)) as [Y|Y]; [apply (K5 x Y L)|].
        destruct (Nat.eq_dec x (base + k)) as [->|Y2].
        { destruct L as [[_ (c & L2 & L3)] _]. rewrite Kc in L2. injection L2 as <-. unfold sep in L3.
          rewrite Bool.andb_false_r in L3. discriminate. }
        destruct L as [_ L]. revert L. apply odd_not_even. rewrite (quotes_const b (S (base + k)) x); [|nlia|].
        -- rewrite quotes_S_lq, QK, Nat.even_succ, <- Nat.negb_even, HQ by auto. auto.
        -- intros y Y3 Y4. apply NQ. auto.
    + exists (Some (base + k)). split; auto. split; auto. split; [|apply Nat.even_spec; rewrite QK; auto].
      apply live_iff. split; auto. exists c. split; auto. change (inset delims c && negb (ceq c dquote) = true). rewrite Kd, C. auto.
  - exists None. split; auto. intros j L. destruct (lt_dec j base) as [X|X]; [apply (HB j X L)|].
    destruct L as [[L1 (c & L2 & L3)] _]. apply (S1 (j - base)). apply live_skipn; auto.
    replace (base + (j - base)) with j by nlia. split; auto. exists c. split; auto. unfold sep in L3. apply Bool.andb_true_iff in L3. tauto.
Qed.

Lemma param_end_ok delims b : In dquote delims ->
  exists e, param_end (S (length b)) delims 0 b = Ret e /\ first_pos (live_unquoted (sep delims) b) e.
Proof.
  intros Q. change b with (skipn 0 b) at 2. apply param_end_spec; auto.
  - rewrite quotes_0. auto.
  - lia.
  - intros j H. lia.
Qed.

Lemma delim_blank c : pBat_IsDelim c = true <-> blank c.
Proof.
  pose proof (ascii_forall (fun c => Bool.eqb (pBat_IsDelim c) (inset blanks c)) eq_refl c) as H.
  apply Bool.eqb_prop in H. rewrite H, inset_in. reflexivity.
Qed.

Lemma skip_blanks a b : Forall blank a -> (forall c r, b = c :: r -> ~ blank c) -> pBat_SkipBlanks (a ++ b) = b.
Proof.
  induction 1 as [|c a Hc Ha IH]; simpl; intros N.
  - destruct b as [|c r]; auto. simpl. destruct (pBat_IsDelim c) eqn:D; auto. apply delim_blank in D. exfalso. eapply N; eauto.
  - rewrite (proj2 (delim_blank c) Hc). auto.
Qed.

Lemma pointers_ok delims line : In dquote delims ->
  (Forall blank line /\ pBat_GetParameterPointers delims line = Ret None) \/
  (exists a c r e, line = a ++ c :: r /\ Forall blank a /\ ~ blank c /\
     pBat_GetParameterPointers delims line = Ret (Some (c :: r, e)) /\
     first_pos (live_unquoted (sep delims) (c :: r)) e).
Proof.
  intros Q. destruct (SkipBlanks_spec line) as (a & H1 & H2 & H3). unfold pBat_GetParameterPointers.
  assert (A : Forall blank a) by (eapply Forall_impl; [|apply H2]; intros c; apply delim_blank).
  destruct (pBat_SkipBlanks line) as [|c r] eqn:B.
  - left. rewrite app_nil_r in H1. subst. auto.
  - right. destruct (param_end_ok delims (c :: r) Q) as (e & P1 & P2). exists a, c, r, e. rewrite P1. cbn [bind].
    repeat split; auto. intros X. apply delim_blank in X. specialize (H3 c r eq_refl). congruence.
Qed.

(** ** The text of a parameter *)
Lemma last_char (t : cstr) c : (exists u, t = u ++ [c]) \/ (forall u, t <> u ++ [c]).
Proof.
  destruct (rev t) as [|d r] eqn:R.
  - right. intros u ->. rewrite rev_app_distr in R. discriminate.
  - assert (T : t = rev r ++ [d]) by (rewrite <- (rev_involutive t), R; reflexivity).
    destruct (ascii_dec d c) as [->|N]; [left; eauto|]. right. intros u X. rewrite X in T. apply app_inj_tail in T. intuition congruence.
Qed.

Lemma closing_nil l : ~ closing l [dquote].
Proof. intros (t & H & _). destruct t as [|? [|]]; discriminate. Qed.

Lemma live_tail p r k : live p (dquote :: r) (S k) <-> live p r k.
Proof.
  change (dquote :: r) with ([dquote] ++ r). change (S k) with (length [dquote] + k). apply live_app2.
  exists [dquote]. apply esc_plain; [discriminate|constructor].
Qed.

Lemma text_last b : exists t, param_text b None = Ret t /\ bare true b t.
Proof.
  destruct b as [|q r]; cbn [param_text].
  - exists []. split; auto. constructor. discriminate.
  - destruct (ceq q dquote) eqn:C.
    + apply ceq_true in C. subst q. eexists. split; [reflexivity|].
      pose proof (search_last_pred_spec (fun x => ceq x dquote) r eq_refl) as L. unfold pBat_SearchLastChar.
      assert (Cl : forall t, r = t ++ [dquote] -> live (fun c => ceq c dquote) (dquote :: r) (S (length t)) ->
                   search_last_pred (fun x => ceq x dquote) r = Some (length t)).
      { intros t -> X. apply (proj1 (live_tail _ _ _)) in X. destruct (search_last_pred _ (t ++ [dquote])) as [k|]; [|exfalso; exact (L _ X)].
        destruct L as [L1 L2]. apply live_lt in L1. rewrite app_length in L1. simpl in L1. f_equal.
        destruct (lt_eq_lt_dec k (length t)) as [[Y|Y]|Y]; [exfalso; exact (L2 _ Y X)|auto|lia]. }
      destruct (search_last_pred _ r) as [k|] eqn:K.
      * destruct L as [L1 L2]. destruct (skipn (S k) r) as [|x y] eqn:Sk.
        -- pose proof (live_lt _ _ _ L1) as KL.
           assert (R : r = firstn k r ++ [dquote]).
           { destruct L1 as [_ (c & L3 & L4)]. apply ceq_true in L4. subst c.
             rewrite (firstn_nth_split r k _ L3) at 1. rewrite Sk. auto. }
           assert (FL : length (firstn k r) = k) by (rewrite firstn_length; lia).
           remember (firstn k r) as t. subst r. apply bare_both. exists t. split; auto. intros _. apply live_tail.
           rewrite FL. auto.
        -- apply bare_open. intros (t & T1 & T2). injection T1 as T1. specialize (T2 eq_refl).
           specialize (Cl t T1 T2). injection Cl as ->. rewrite T1, skipn_all2 in Sk.
           ++ discriminate.
           ++ rewrite app_length. simpl. lia.
      * apply bare_open. intros (t & T1 & T2). injection T1 as T1. specialize (Cl t T1 (T2 eq_refl)). discriminate.
    + exists (q :: r). split; auto. constructor. intros r' [= X _]. subst q. rewrite ceq_refl in C. discriminate.
Qed.

Lemma text_inner raw rest : raw <> [] -> raw <> [dquote] ->
  exists t, param_text (raw ++ rest) (Some (length raw)) = Ret t /\ bare false raw t.
Proof.
  intros N1 N2. destruct raw as [|q r]; [congruence|]. cbn [param_text app length].
  destruct (ceq q dquote) eqn:C.
  - apply ceq_true in C. subst q. destruct (exists_last_dec r) as [->|(t & x & ->)]; [congruence|].
    rewrite app_length. simpl length. replace (length t + 1) with (S (length t)) by lia.
    cbn [nth_error]. rewrite <- app_assoc, nth_error_app2, Nat.sub_diag by auto. cbn [app nth_error].
    destruct (ceq x dquote) eqn:X.
    + apply ceq_true in X. subst x. exists t. rewrite (Estr_Proofs.firstn_app_len t) by auto. split; auto.
      apply bare_both. exists t. split; auto. discriminate.
    + exists (t ++ [x]). split.
      * f_equal. replace (t ++ x :: rest) with ((t ++ [x]) ++ rest) by (rewrite <- app_assoc; auto).
        apply Estr_Proofs.firstn_app_len. rewrite app_length. simpl. lia.
      * apply bare_open. intros (u & U & _). injection U as U. apply app_inj_tail in U. destruct U as [_ ->].
        rewrite ceq_refl in X. discriminate.
  - exists (q :: r). split.
    + f_equal. change (q :: r ++ rest) with ((q :: r) ++ rest). apply Estr_Proofs.firstn_app_len. auto.
    + constructor. intros r' [= X _]. subst q. rewrite ceq_refl in C. discriminate.
Qed.

(** ** One parameter *)
Lemma E_skip_app raw rest : E (raw ++ rest) (length raw) = est false raw.
Proof. unfold E. rewrite Estr_Proofs.firstn_app_len; auto. Qed.

Lemma quotes_app raw rest : quotes_before (raw ++ rest) (length raw) = quotes_before raw (length raw).
Proof.
  unfold quotes_before. generalize false as e. induction raw as [|c raw IH]; intros e; simpl.
  - destruct rest; auto.
  - f_equal. apply IH.
Qed.

Definition is_nil (s : cstr) : bool := match s with [] => true | _ => false end.

Lemma bare_caret l raw : bare l raw [caret] -> raw = [caret] \/ raw = [dquote; caret; dquote] \/ raw = [dquote; caret].
Proof. inversion 1; auto. Qed.

Lemma next_shape delims line : In dquote delims ->
  (Forall blank line /\ pBat_GetParameterPointers delims line = Ret None) \/
  (exists a raw rest t e, line = a ++ raw ++ rest /\ Forall blank a /\ (forall c r, raw ++ rest = c :: r -> ~ blank c) /\
     raw ++ rest <> [] /\ param_at delims raw rest /\ bare (is_nil rest) raw t /\
     pBat_GetParameterPointers delims line = Ret (Some (raw ++ rest, e)) /\
     param_text (raw ++ rest) e = Ret t /\
     match e with Some n => skipn n (raw ++ rest) | None => [] end = rest /\ (t = [caret] -> rest = [])).
Proof.
  intros Q. destruct (pointers_ok delims line Q) as [H|(a & c & r & e & H1 & H2 & H3 & H4 & H5)]; [left; auto|right].
  destruct e as [n|].
  - pose proof H5 as [Lv Lf]. assert (LN : n < length (c :: r)) by (apply live_lt with (p := sep delims); apply Lv).
    set (raw := firstn n (c :: r)). set (rest := skipn n (c :: r)).
    assert (A : raw ++ rest = c :: r) by apply firstn_skipn.
    assert (Ln : length raw = n) by (unfold raw; rewrite firstn_length; lia).
    assert (Rn : rest <> []).
    { intros X. apply (f_equal (@length _)) in X. unfold rest in X. rewrite skipn_length in X. simpl length in *. lia. }
    assert (Od : Nat.Even (quotes_before raw (length raw))).
    { rewrite <- (quotes_app raw rest), A, Ln. apply Lv. }
    assert (Es : est false raw = false).
    { rewrite <- (E_skip_app raw rest), A, Ln. destruct Lv as [Lv _]. apply live_iff in Lv. tauto. }
    assert (N2 : raw <> [dquote]) by (intros X; rewrite X in Od; apply Nat.even_spec in Od; discriminate).
    assert (T : exists t, param_text (raw ++ rest) (Some (length raw)) = Ret t /\ bare false raw t).
    { destruct raw as [|q rw] eqn:Rw; [|apply text_inner; [discriminate|auto]].
      exists []. split; [|constructor; discriminate]. cbn [app length param_text]. destruct rest as [|q rs]; [congruence|].
      destruct (ceq q dquote) eqn:C; auto. exfalso. apply ceq_true in C. subst q. simpl in A. injection A as <- <-.
      destruct Lv as [[_ (d & D1 & D2)] _]. rewrite <- Ln in D1. simpl in D1. injection D1 as <-.
      unfold sep in D2. rewrite Bool.andb_false_r in D2. discriminate. }
    destruct T as (t & T1 & T2). exists a, raw, rest, t, (Some n). rewrite A. repeat split; auto.
    + intros d s [= <- <-]. auto.
    + discriminate.
    + unfold param_at. destruct rest; [congruence|]. rewrite A, Ln. auto.
    + replace (is_nil rest) with false; [auto|destruct rest; [congruence|auto]].
    + rewrite <- Ln, <- A. auto.
    + intros ->. exfalso. destruct (bare_caret _ _ T2) as [X|[X|X]]; rewrite X in Es, Od; try discriminate.
      apply Nat.even_spec in Od. discriminate.
  - destruct (text_last (c :: r)) as (t & T1 & T2). exists a, (c :: r), [], t, None. rewrite app_nil_r. repeat split; auto.
    + intros d s [= <- <-]. auto.
    + discriminate.
Qed.

Lemma next_ok w delims old line : In dquote delims ->
  (Forall blank line /\ pBat_GetNextParameterEsD w delims old line = Ret (old, None, w)) \/
  (exists a raw rest t, line = a ++ raw ++ rest /\ Forall blank a /\ (forall c r, raw ++ rest = c :: r -> ~ blank c) /\
     raw ++ rest <> [] /\ param_at delims raw rest /\ bare (is_nil rest) raw t /\
     ((t = [caret] /\ rest = [] /\ pBat_GetNextParameterEsD w delims old line = Ret ([caret], None, w)) \/
      (t <> [caret] /\ pBat_GetNextParameterEsD w delims old line
                       = do (t', w') <- pBat_DelayedExpand w t; Ret (t', Some rest, w')))).
Proof.
  intros Q. unfold pBat_GetNextParameterEsD.
  destruct (next_shape delims line Q) as [[H1 H2]|(a & raw & rest & t & e & H1 & H2 & H3 & H4 & H5 & H6 & H7 & H8 & H9 & H10)].
  - left. split; auto. cbn [next_param]. rewrite H2. auto.
  - right. exists a, raw, rest, t. do 6 (split; [assumption|]).
    cbn [next_param]. rewrite H7. cbn [bind]. rewrite H8. cbn [bind]. cbv zeta. rewrite H9.
    destruct (streqb t [caret]) eqn:C.
    + apply streqb_true in C. left. specialize (H10 C). split; auto. split; auto. subst rest t.
      destruct line as [|x line]; [destruct a; [|discriminate]; simpl in H1; congruence|]. cbn [length next_param].
      reflexivity.
    + apply streqb_false in C. right. split; auto.
Qed.

Lemma sep_std c : sep PBAT_DELIMITERS c = inset blanks c.
Proof.
  pose proof (ascii_forall (fun c => Bool.eqb (sep PBAT_DELIMITERS c) (inset blanks c)) eq_refl c) as H.
  apply Bool.eqb_prop in H. auto.
Qed.
Lemma quote_std : In dquote PBAT_DELIMITERS.
Proof. cbv. tauto. Qed.

Lemma live_ext p q s i : (forall c, p c = q c) -> live p s i <-> live q s i.
Proof. intros H. unfold live. split; intros [A (c & B & C)]; (split; [auto|exists c; split; congruence]). Qed.
Lemma live_unquoted_ext p q s i : (forall c, p c = q c) -> live_unquoted p s i <-> live_unquoted q s i.
Proof. intros H. unfold live_unquoted. rewrite (live_ext p q); tauto. Qed.

Lemma raw_nonempty raw rest : (forall c r, raw ++ rest = c :: r -> ~ blank c) -> raw ++ rest <> [] ->
  param_at PBAT_DELIMITERS raw rest -> raw <> [].
Proof.
  intros N1 N2 P ->. destruct rest as [|c r]; [apply N2; reflexivity|]. destruct P as [[[_ (d & D1 & D2)] _] _].
  simpl in D1. injection D1 as <-. rewrite sep_std in D2. apply inset_in in D2. eapply N1; [reflexivity|]. auto.
Qed.

(** ** Reading back *)
Lemma whole_at raw rest : whole raw -> ends rest -> param_at PBAT_DELIMITERS raw rest.
Proof.
  intros (N & St & Ev & Nl) R. unfold param_at. destruct rest as [|c r].
  - intros j L. apply (Nl j). eapply live_unquoted_ext; [|apply L]. intros x. symmetry. apply sep_std.
  - split.
    + split.
      * apply live_iff. rewrite E_skip_app. split; [destruct St as (u & St); eapply escaping_est; eauto|].
        exists c. rewrite nth_error_app2, Nat.sub_diag by auto. split; auto. rewrite sep_std. apply inset_in. eapply R; eauto.
      * rewrite quotes_app. auto.
    + intros j J L. apply (Nl j). destruct L as [L1 L2]. split.
      * eapply live_app1; [apply J|]. eapply live_ext; [|apply L1]. intros x. symmetry. apply sep_std.
      * assert (X : quotes_before (raw ++ c :: r) j = quotes_before raw j).
        { clear - J. unfold quotes_before. generalize false as e. revert j J. induction raw as [|x raw IH]; intros j J e; simpl in *; [lia|].
          destruct j; auto. cbn [count_quotes]. f_equal. apply IH. lia. }
        rewrite <- X. auto.
Qed.

Lemma first_char_ok raw rest c r : whole raw -> raw ++ rest = c :: r -> ~ blank c.
Proof.
  intros (N & _ & _ & Nl) A B. apply (Nl 0). destruct raw as [|x raw]; [congruence|]. simpl in A. injection A as -> _.
  split; [|exists 0; rewrite quotes_0; reflexivity]. apply live_iff. split; [reflexivity|]. exists c. split; auto.
  apply inset_in. auto.
Qed.

Lemma bare_unique l raw t u : bare l raw t -> bare l raw u -> t = u.
Proof.
  intros A B. inversion A; inversion B; subst; auto; try congruence;
    try (exfalso; match goal with H : forall r, _ <> _ |- _ => eapply H; reflexivity end).
  match goal with H : _ :: _ ++ _ = _ :: _ ++ _ |- _ => injection H as H; apply app_inj_tail in H; destruct H as [-> _]; auto end.
Qed.

Lemma param_at_unique delims raw rest raw' rest' : raw ++ rest = raw' ++ rest' ->
  param_at delims raw rest -> param_at delims raw' rest' -> raw = raw' /\ rest = rest'.
Proof.
  intros A P P'. unfold param_at in *.
  assert (L : length raw = length raw').
  { destruct rest as [|c r], rest' as [|c' r'].
    - rewrite !app_nil_r in A. congruence.
    - exfalso. rewrite app_nil_r in A. subst raw. apply (P (length raw')). apply P'.
    - exfalso. rewrite app_nil_r in A. subst raw'. apply (P' (length raw)). apply P.
    - rewrite A in P. pose proof (first_pos_unique _ _ _ P P') as X. congruence. }
  split.
  - apply (f_equal (firstn (length raw))) in A. rewrite Estr_Proofs.firstn_app_len in A by auto.
    rewrite L, Estr_Proofs.firstn_app_len in A by auto. auto.
  - apply (f_equal (skipn (length raw))) in A. rewrite Estr_Proofs.skipn_app_len in A by auto.
    rewrite L, Estr_Proofs.skipn_app_len in A by auto. auto.
Qed.

Lemma blank_split a x a' x' : a ++ x = a' ++ x' -> Forall blank a -> Forall blank a' ->
  (forall c r, x = c :: r -> ~ blank c) -> (forall c r, x' = c :: r -> ~ blank c) -> a = a' /\ x = x'.
Proof.
  intros H A A' X X'. assert (x = x').
  { rewrite <- (skip_blanks a x), <- (skip_blanks a' x'); auto. congruence. }
  subst x'. split; auto. apply app_inv_tail in H. auto.
Qed.

Lemma next_whole w old a raw rest t : Forall blank a -> whole raw -> ends rest -> bare (is_nil rest) raw t -> t <> [caret] ->
  pBat_GetNextParameterEs w old (a ++ raw ++ rest) = do (t', w') <- pBat_DelayedExpand w t; Ret (t', Some rest, w').
Proof.
  intros A W R B C. unfold pBat_GetNextParameterEs.
  destruct (next_ok w PBAT_DELIMITERS old (a ++ raw ++ rest) quote_std) as [[H _]|H].
  - exfalso. apply Forall_app in H. destruct H as [_ H]. destruct W as (N & W). destruct raw as [|c raw]; [congruence|].
    inversion H; subst. eapply (first_char_ok (c :: raw) rest c (raw ++ rest)); [split; [discriminate|apply W]|reflexivity|auto].
  - destruct H as (a' & raw' & rest' & t' & H1 & H2 & H3 & H4 & H5 & H6 & H7).
    destruct (blank_split _ _ _ _ H1 A H2) as [_ X]; auto. { intros c r. apply first_char_ok; auto. }
    destruct (param_at_unique PBAT_DELIMITERS raw rest raw' rest' X) as [-> ->]; auto; [apply whole_at; auto|].
    assert (t' = t) by (eapply bare_unique; eauto). subst t'.
    destruct H7 as [(-> & _)|[_ H7]]; [congruence|auto].
Qed.

(** ** Lists *)
Lemma special_fuel w fuel : forall pre s, length s < fuel -> special_loop fuel w pre s <> OutOfFuel.
Proof.
  induction fuel as [|f IH]; intros pre s L; [lia|]. cbn [special_loop].
  destruct (pBat_SearchChar s "%"%char) as [k|] eqn:K; [|discriminate]. apply search_split in K.
  assert (Ln : length (skipn (S k) s) < length s) by (rewrite K at 2; rewrite app_length; cbn [length]; lia).
  apply bind_fuel; [apply get_local_fuel|]. intros [[v rest]|] G.
  - apply bind_fuel; [|discriminate]. apply IH. apply get_local_shorter in G. destruct G as (a & G & _).
    apply (f_equal (@length _)) in G. rewrite app_length in G. lia.
  - apply IH. lia.
Qed.

Lemma delayed_off_fuel w t : x_delayed w = false ->
  pBat_DelayedExpand w t <> OutOfFuel /\ forall u w', pBat_DelayedExpand w t = Ret (u, w') -> w' = w.
Proof.
  intros D. unfold pBat_DelayedExpand. rewrite D. split.
  - apply bind_fuel; [apply special_fuel; auto|discriminate].
  - intros u w'. destruct (pBat_ExpandSpecialVar w t); cbn [bind]; try discriminate. intros [= _ <-]. auto.
Qed.

Lemma param_list_fuel w : x_delayed w = false -> forall fuel line, length line < fuel -> param_list fuel w line <> OutOfFuel.
Proof.
  intros D. induction fuel as [|f IH]; intros line L; [lia|]. cbn [param_list]. unfold pBat_GetNextParameterEs.
  destruct (next_ok w PBAT_DELIMITERS [] line quote_std) as [[_ ->]|(a & raw & rest & t & H1 & H2 & H3 & H4 & H5 & H6 & H7)]; [discriminate|].
  destruct H7 as [(_ & _ & ->)|[_ ->]]; [discriminate|].
  destruct (delayed_off_fuel w t D) as [F1 F2].
  destruct (pBat_DelayedExpand w t) as [[u w1]| |] eqn:X; cbn [bind]; try congruence.
  assert (w1 = w) by (eapply F2; eauto). subst w1.
  destruct (delayed_off_fuel w u D) as [G1 G2].
  destruct (pBat_DelayedExpand w u) as [[v w1]| |] eqn:Y; cbn [bind]; try congruence.
  assert (w1 = w) by (eapply G2; eauto). subst w1.
  apply bind_fuel; [|intros [? ?] _; discriminate]. apply IH. pose proof (raw_nonempty _ _ H3 H4 H5) as N.
  destruct raw; [congruence|]. subst line. rewrite !app_length in L. simpl in L. lia.
Qed.

Definition line_of (l : list (cstr * cstr)) : cstr := concat (map (fun '(a, raw) => a ++ raw) l).

Lemma list_ok w tail : Forall blank tail -> forall l vs, 
  Forall (fun p => Forall blank (fst p)) l -> (forall p, In p (tl l) -> fst p <> []) ->
  Forall2 (fun p v => whole (snd p) /\ exists t u, (forall b, bare b (snd p) t) /\ t <> [caret] /\
             pBat_DelayedExpand w t = Ret (u, w) /\ pBat_DelayedExpand w u = Ret (v, w)) l vs ->
  forall fuel, length (line_of l ++ tail) < fuel -> param_list fuel w (line_of l ++ tail) = Ret (vs, w).
Proof.
  intros T. induction l as [|[a raw] l IH]; intros vs A S F fuel L; inversion F; subst; (destruct fuel as [|f]; [lia|]).
  - cbn [param_list line_of map concat app]. unfold pBat_GetNextParameterEs.
    destruct (next_ok w PBAT_DELIMITERS [] tail quote_std) as [[_ ->]|(a & raw & rest & t & H1 & H2 & H3 & H4 & H5 & _)]; auto.
    exfalso. subst tail. apply Forall_app in T. destruct T as [_ T]. destruct (raw ++ rest) as [|c r]; [congruence|].
    inversion T; subst. eapply H3; eauto.
  - cbn [snd fst tl] in *. destruct H1 as (W & t & u & B & C & D1 & D2).
    unfold line_of in *. cbn [map concat] in *. rewrite <- !app_assoc in *. cbn [param_list].
    pose proof (Forall_inv A) as A1. pose proof (Forall_inv_tail A) as A2. cbn [fst] in A1.
    set (rest := concat (map (fun '(a, raw) => a ++ raw) l) ++ tail) in *.
    assert (R : ends rest).
    { intros c r X. destruct l as [|[a2 raw2] l].
      - unfold rest in X. simpl in X. subst tail. inversion T; auto.
      - apply Forall_inv in A2. cbn [fst] in A2. unfold rest in X. cbn [map concat] in X.
        destruct a2 as [|c2 a2]; [exfalso; apply (S ([], raw2)); [left|]; reflexivity|]. simpl in X. injection X as <- _.
        inversion A2; auto. }
    rewrite (next_whole w [] a raw rest t) by auto. rewrite D1. cbn [bind]. rewrite D2. cbn [bind].
    rewrite (IH l'); auto.
    + intros p P. apply S. destruct l; [destruct P|]. right. auto.
    + change (length rest < f). destruct W as (W & _). destruct raw; [congruence|].
      rewrite (app_length a), (app_length (_ :: raw)) in L. cbn [length] in L. lia.
Qed.

(** ** Quoting and escaping *)
Lemma settled_not_caret s : settled s -> s <> [caret].
Proof. intros (u & H) ->. inversion H as [|c t x C|]; subst. apply C. reflexivity. Qed.

Lemma delayed_plain w s v : plain_text "%"%char s -> (x_delayed w = true -> plain_text "!"%char s) -> escaping v s ->
  pBat_DelayedExpand w s = Ret (v, w).
Proof.
  intros P Q V. assert (X : concat (map sshow [SText s]) = s) by (simpl; apply app_nil_r).
  rewrite <- X at 1. assert (Y : Forall2 (spiece_value w) [SText s] [s]) by (constructor; [constructor; auto|constructor]).
  destruct (x_delayed w) eqn:D.
  - rewrite (C52_delayed_on w [SText s] [s] [PText s] [v]); auto.
    + simpl. rewrite app_nil_r. auto.
    + constructor; [|constructor]. constructor; auto.
  - apply (C52_delayed_off w [SText s] [s]); auto. simpl. rewrite app_nil_r. auto.
Qed.

Lemma plain_of d s v : escaping v s -> (forall i, ~ live (fun c => ceq c d) s i) -> plain_text d s.
Proof. intros H N. split; auto. exists v. auto. Qed.

Lemma quoted_whole s v : escaping v s -> (forall i, ~ live (fun c => ceq c dquote) s i) ->
  whole (dquote :: s ++ [dquote]) /\ forall b, bare b (dquote :: s ++ [dquote]) s.
Proof.
  intros V N. set (x := dquote :: s ++ [dquote]).
  assert (St : settled s) by (exists v; auto).
  assert (L0 : lq x 0) by (apply live_iff; split; [reflexivity|]; exists dquote; split; reflexivity).
  assert (LL : lq x (S (length s))).
  { unfold lq, x. apply live_tail. replace (length s) with (length s + 0) by lia. apply live_app2; auto. }
  assert (LM : forall j, 1 <= j -> j < S (length s) -> ~ lq x j).
  { intros j J1 J2 L. destruct j as [|j]; [lia|]. apply (proj1 (live_tail _ _ _)) in L. apply (N j).
    eapply live_app1; [|apply L]. lia. }
  assert (Q1 : forall j, 1 <= j -> j <= S (length s) -> quotes_before x j = 1).
  { intros j J1 J2. rewrite (quotes_const x 1 j J1). { rewrite quotes_S_lq, quotes_0; auto. } intros k K1 K2. apply LM; lia. }
  assert (Lx : length x = S (S (length s))) by (unfold x; simpl; rewrite app_length; simpl; lia).
  split.
  - split; [discriminate|]. split.
    + exists (dquote :: v ++ [dquote]). apply esc_plain; [discriminate|]. apply escaping_app; auto.
      apply esc_plain; [discriminate|constructor].
    + split.
      * rewrite Lx, quotes_S_lq, Q1 by (auto; lia). exists 1. reflexivity.
      * intros i [L1 L2]. pose proof (live_lt _ _ _ L1) as L. rewrite Lx in L.
        destruct (Nat.eq_dec i 0) as [->|].
        -- destruct L1 as [_ (c & C1 & C2)]. injection C1 as <-. discriminate.
        -- rewrite Q1 in L2 by lia. apply Nat.even_spec in L2. discriminate.
  - intros b. apply bare_both. exists s. split; [reflexivity|intros _; apply LL].
Qed.

Lemma word_whole s v : s <> [] -> escaping v s -> (forall i, ~ live (inset (dquote :: blanks)) s i) ->
  whole s /\ forall b, bare b s s.
Proof.
  intros Ne V N.
  assert (NQ : forall i, ~ lq s i).
  { intros i [L (c & C1 & C2)]. apply (N i). split; auto. exists c. split; auto. apply inset_in. left.
    apply Ascii.eqb_eq in C2. auto. }
  split.
  - split; auto. split; [eauto|]. split.
    + rewrite (quotes_const s 0 (length s)) by (auto; lia). rewrite quotes_0. exists 0. auto.
    + intros i [[L (c & C1 & C2)] _]. apply (N i). split; auto. exists c. split; auto. apply inset_in in C2. apply inset_in. right. auto.
  - intros b. constructor. intros r ->. apply (NQ 0). apply live_iff. split; [reflexivity|]. exists dquote. split; reflexivity.
Qed.

Lemma protect_escaping v : escaping v (protect v).
Proof. induction v as [|c v IH]; simpl; constructor; auto. Qed.
Lemma protect_dead p v : (forall c, p c = true -> c <> caret) -> forall i, ~ live p (protect v) i.
Proof.
  intros P. induction v as [|c v IH]; intros i L.
  - apply live_lt in L. simpl in L. lia.
  - change (protect (c :: v)) with ([caret; c] ++ protect v) in L.
    destruct i as [|[|i]].
    + apply live_iff in L. destruct L as [_ (d & D1 & D2)]. injection D1 as <-. eapply P; eauto.
    + apply live_iff in L. destruct L as [L _]. discriminate.
    + apply (IH i). apply (live_app2 p [caret; c] (protect v) i); auto. exists [c]. apply esc_prot. constructor.
Qed.
