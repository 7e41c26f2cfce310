(** Redir_Proofs.v -- redirections of a command. *)

From Verif Require Import Base Lex StrLib_Model StrLib_Spec StrLib_Proofs Estr_Proofs Path_Proofs Var_Model Expand_Model Expand_Spec Expand_Proofs
  Args_Model Args_Spec Args_Proofs Path_Model Block_Model Block_Spec Block_Proofs Parse_Model Parse_Spec Parse_Proofs Redir_Spec.

(** ** Names of files *)
Definition fset : cstr := s2l " ,;&|><)" ++ ["009"%char; "010"%char].
Lemma sep_re c : sep re_delims c = inset fset c.
Proof.
  pose proof (ascii_forall (fun c => Bool.eqb (sep re_delims c) (inset fset c)) eq_refl c) as H.
  apply Bool.eqb_prop in H. auto.
Qed.
Lemma quote_re : In dquote re_delims.
Proof. cbv. tauto. Qed.

Lemma fname_at raw rest : fname raw -> (forall c r, rest = c :: r -> file_end c) -> param_at re_delims raw rest.
Proof.
  intros (N & St & Ev & Nl) R. unfold param_at. destruct rest as [|c r].
  - intros j L. apply (Nl j). eapply live_unquoted_ext; [|apply L]. intros x. symmetry. apply sep_re.
  - split.
    + split.
      * apply live_iff. rewrite E_skip_app. split; [destruct St as (u & St); eapply escaping_est; eauto|].
        exists c. rewrite nth_error_app2, Nat.sub_diag by auto. split; auto. rewrite sep_re. apply inset_in. eapply R; eauto.
      * rewrite quotes_app. auto.
    + intros j J L. apply (Nl j). destruct L as [L1 L2]. split.
      * eapply live_app1; [apply J|]. eapply live_ext; [|apply L1]. intros x. symmetry. apply sep_re.
      * assert (X : quotes_before (raw ++ c :: r) j = quotes_before raw j).
        { clear - J. unfold quotes_before. generalize false as e. revert j J. induction raw as [|x raw IH]; intros j J e; simpl in *; [lia|].
          destruct j; auto. cbn [count_quotes]. f_equal. apply IH. lia. }
        rewrite <- X. auto.
Qed.

Lemma fname_first raw : fname raw -> forall c r, raw = c :: r -> ~ file_end c.
Proof.
  intros (N & _ & _ & Nl) c r -> B. apply (Nl 0).
  split; [|exists 0; rewrite quotes_0; reflexivity]. apply live_iff. split; [reflexivity|]. exists c. split; auto.
  apply inset_in. auto.
Qed.
Lemma blank_end c : blank c -> file_end c.
Proof. cbv. tauto. Qed.

Lemma fname_bare b raw t : fname raw -> bare b raw t -> t <> [caret].
Proof.
  intros (N & St & Ev & Nl) B ->. destruct St as (u & St).
  inversion B; subst; inversion St; subst;
    repeat match goal with H : ?x <> ?x |- _ => destruct (H eq_refl) | H : caret <> _ |- _ => destruct (H eq_refl) | H : escaping _ (_ :: _) |- _ => inversion H; clear H; subst end.
  destruct Ev as [k Ev]. vm_compute in Ev. destruct k as [|[|]]; discriminate.
Qed.

Lemma next_file w old a raw rest t : Forall blank a -> fname raw -> (forall c r, rest = c :: r -> file_end c) -> bare (nothing rest) raw t ->
  pBat_GetNextParameterEsD w re_delims old (a ++ raw ++ rest) = do (t', w') <- pBat_DelayedExpand w t; Ret (t', Some rest, w').
Proof.
  intros A W R B. pose proof (fname_first raw W) as F. assert (N : raw <> []) by apply W.
  assert (FC : forall c r, raw ++ rest = c :: r -> ~ blank c).
  { intros c r E Bl. destruct raw as [|x raw]; [congruence|]. injection E as -> _. eapply F; eauto. apply blank_end. auto. }
  destruct (next_ok w re_delims old (a ++ raw ++ rest) quote_re) as [[H _]|H].
  - exfalso. apply Forall_app in H. destruct H as [_ H]. destruct raw as [|c raw]; [congruence|].
    inversion H; subst. eapply FC; [reflexivity|auto].
  - destruct H as (a' & raw' & rest' & t' & H1 & H2 & H3 & H4 & H5 & H6 & H7).
    destruct (blank_split _ _ _ _ H1 A H2) as [_ X]; auto.
    destruct (param_at_unique re_delims raw rest raw' rest' X) as [-> ->]; auto; [apply fname_at; auto|].
    assert (t' = t) by (eapply bare_unique; eauto). subst t'.
    destruct H7 as [(-> & _)|[_ H7]]; [|auto]. exfalso. eapply fname_bare; eauto.
Qed.

(** ** The buffer *)
Lemma upto_nonul s : nonul s -> upto_nul s = s.
Proof.
  induction s as [|c s IH]; intros H; auto. apply nonul_cons in H. destruct H as [H1 H2]. cbn [upto_nul].
  destruct (ceq c "000"%char) eqn:C; [apply ceq_true in C; contradiction|]. f_equal. auto.
Qed.
Lemma upto_stop s y : nonul s -> upto_nul (s ++ "000"%char :: y) = s.
Proof.
  induction s as [|c s IH]; intros H; auto. apply nonul_cons in H. destruct H as [H1 H2]. cbn [upto_nul app].
  destruct (ceq c "000"%char) eqn:C; [apply ceq_true in C; contradiction|]. f_equal. auto.
Qed.
Lemma str_here p y n : n = length p -> nonul y -> str_at (p ++ y) n = y.
Proof. intros -> N. unfold str_at. rewrite Estr_Proofs.skipn_app_len by auto. apply upto_nonul. auto. Qed.
Lemma str_stop p s y n : n = length p -> nonul s -> str_at (p ++ s ++ "000"%char :: y) n = s.
Proof. intros -> N. unfold str_at. rewrite Estr_Proofs.skipn_app_len by auto. apply upto_stop. auto. Qed.
Lemma put_here p c y n : n = length p -> put_nul (p ++ c :: y) n = p ++ "000"%char :: y.
Proof.
  intros ->. unfold put_nul. rewrite Estr_Proofs.firstn_app_len by auto. f_equal. f_equal.
  replace (p ++ c :: y) with ((p ++ [c]) ++ y) by (rewrite <- app_assoc; auto). apply Estr_Proofs.skipn_app_len. rewrite app_length. simpl. lia.
Qed.

Lemma num_set : stopset (s2l "12<>"). Proof. split; intros Y; cbv in Y; intuition discriminate. Qed.
Lemma calm_weak st st' t : calm st t -> (forall c, In c st' -> In c st) -> calm st' t.
Proof.
  intros (A & B & C) H. split; auto. split; auto. intros i [L Q]. apply (C i). split; auto. destruct L as [L1 (c & L2 & L3)]. split; auto.
  exists c. split; auto. apply inset_In. apply H. apply inset_In. auto.
Qed.
Lemma stops_num m t : calm (stops m) t -> calm (s2l "12<>") t.
Proof. destruct m; auto. intros C. eapply calm_weak; eauto. intros c X. cbv in X. cbv. tauto. Qed.

Section Step.
Variable cur : cstr.
Notation oloop := (output_loop cur).

(** The body of the loop at a token [c]; [y] is behind it. *)
Definition tokbody (f : nat) (w : xworld) (p y : cstr) (c : ascii) (blk : option nat) (fin par : cstr) (st : stream) :=
  let buf := p ++ y in
  let nt := length p in
  let go_on ch fin par st w := oloop f w buf ch ch blk fin par st in
  let output nt :=
    match (if ceq c "2"%char then st_err st else st_out st) with
    | Some _ => Ret (inl PBAT_ALREADY_REDIRECTED, w)
    | None =>
        let trunc := negb (prefixb (s2l ">") (str_at buf nt)) in
        do (r, w') <- re_file cur w buf (if trunc then nt else nt + 1) par;
        match r with
        | None => Ret (inl PBAT_INVALID_REDIRECTION, w')
        | Some (file, ch, par) =>
            go_on ch fin par (if ceq c "2"%char then mkSt (st_out st) (Some (file, trunc)) (st_in st) (st_redir st)
                              else mkSt (Some (file, trunc)) (st_err st) (st_in st) (st_redir st)) w'
        end
    end in
  let reset r :=
    match st_redir st with
    | RE_NONE => go_on (nt + 3) fin par (mkSt (st_out st) (st_err st) (st_in st) r) w
    | _ => Ret (inl PBAT_ALREADY_REDIRECTED, w)
    end in
  if ceq c "2"%char && prefixb (s2l ">&1") (str_at buf nt) then reset RE_ERR2OUT
  else if (ceq c "2"%char || ceq c "1"%char) && prefixb (s2l ">&2") (str_at buf nt) then reset RE_OUT2ERR
  else if ceq c "2"%char || ceq c "1"%char then
    if negb (prefixb (s2l ">") (str_at buf nt)) then go_on nt (fin ++ [c]) par st w
    else output (nt + 1)
  else if ceq c ">"%char then output nt
  else
    match st_in st with
    | Some _ => Ret (inl PBAT_ALREADY_REDIRECTED, w)
    | None =>
        do (r, w') <- re_file cur w buf nt par;
        match r with
        | None => Ret (inl PBAT_INVALID_REDIRECTION, w')
        | Some (file, ch, par) => go_on ch fin par (mkSt (st_out st) (st_err st) (Some file) (st_redir st)) w'
        end
    end.

Lemma out_token f w pre q t c y blk fin par st : nonul (q ++ t ++ c :: y) -> calm (s2l "12<>") t -> In c (s2l "12<>") ->
  before blk (length (pre ++ q ++ t)) ->
  oloop (S f) w (pre ++ q ++ t ++ c :: y) (length pre) (length (pre ++ q)) blk fin par st
  = tokbody f w (pre ++ q ++ t ++ ["000"%char]) y c blk (fin ++ q ++ t) par st.
Proof.
  intros N C I B. assert (N' := N). rewrite !nonul_app in N'. destruct N' as (N1 & N2 & N3). cbn [output_loop].
  replace (pre ++ q ++ t ++ c :: y) with ((pre ++ q) ++ t ++ c :: y) by (rewrite <- app_assoc; auto).
  rewrite (str_here (pre ++ q)); auto; [|apply nonul_app; auto].
  rewrite (outq_stop _ _ _ _ num_set C I). cbv zeta.
  replace (length (pre ++ q) + length t) with (length (pre ++ q ++ t)) by (rewrite !app_length; lia).
  rewrite before_spec by auto.
  replace ((pre ++ q) ++ t ++ c :: y) with ((pre ++ q ++ t) ++ c :: y) by (rewrite <- !app_assoc; auto).
  rewrite nth_error_app2, Nat.sub_diag by auto. cbn [nth_error].
  rewrite put_here by auto.
  replace (str_at ((pre ++ q ++ t) ++ "000"%char :: y) (length pre)) with (q ++ t).
  2:{ symmetry. rewrite <- app_assoc. apply str_stop; auto. apply nonul_app; auto. }
  replace ((pre ++ q ++ t) ++ "000"%char :: y) with ((pre ++ q ++ t ++ ["000"%char]) ++ y) by (rewrite <- !app_assoc; auto).
  replace (length (pre ++ q ++ t) + 1) with (length (pre ++ q ++ t ++ ["000"%char])) by (rewrite !app_length; simpl; lia).
  reflexivity.
Qed.

Lemma file_read w p a raw s v fl w1 par :
  nonul (a ++ raw ++ s) -> Forall blank a -> fname raw -> (forall c r, s = c :: r -> file_end c) -> bare (nothing s) raw v ->
  pBat_DelayedExpand w v = Ret (fl, w1) ->
  re_file cur w (p ++ a ++ raw ++ s) (length p) par = Ret (Some (pBat_FullPathDup cur fl, length (p ++ a ++ raw), fl), w1).
Proof.
  intros N A F S B X. unfold re_file. cbv zeta. rewrite (str_here p) by auto. rewrite (next_file w par a raw s v); auto. rewrite X. cbn [bind].
  f_equal. f_equal. f_equal. f_equal. f_equal. replace (a ++ raw ++ s) with ((a ++ raw) ++ s) by (rewrite <- app_assoc; auto). rewrite offset_app. rewrite !app_length. lia.
Qed.

Definition add (st : stream) (r : red) : option stream :=
  match r with
  | ToOut f b => match st_out st with None => Some (mkSt (Some (f, b)) (st_err st) (st_in st) (st_redir st)) | _ => None end
  | ToErr f b => match st_err st with None => Some (mkSt (st_out st) (Some (f, b)) (st_in st) (st_redir st)) | _ => None end
  | FromIn f => match st_in st with None => Some (mkSt (st_out st) (st_err st) (Some f) (st_redir st)) | _ => None end
  | ErrToOut => match st_redir st with RE_NONE => Some (mkSt (st_out st) (st_err st) (st_in st) RE_ERR2OUT) | _ => None end
  | OutToErr => match st_redir st with RE_NONE => Some (mkSt (st_out st) (st_err st) (st_in st) RE_OUT2ERR) | _ => None end
  end.
Fixpoint add_all (st : stream) (l : list red) : option stream :=
  match l with [] => Some st | r :: l' => match add st r with Some st' => add_all st' l' | None => None end end.

Lemma prefixb_gt x z u : x <> ">"%char -> prefixb (">"%char :: u) (x :: z) = false.
Proof. intros H. cbn [prefixb]. destruct (ceq ">"%char x) eqn:C; auto. apply ceq_true in C. congruence. Qed.

Lemma tok_file op k f w p c o a raw s v fl w1 blk fin par st : fop op k -> op = c :: o -> nonul (o ++ a ++ raw ++ s) ->
  Forall blank a -> fname raw -> (forall c r, s = c :: r -> file_end c) -> bare (nothing s) raw v -> pBat_DelayedExpand w v = Ret (fl, w1) ->
  tokbody f w p (o ++ a ++ raw ++ s) c blk fin par st
  = match add st (k (pBat_FullPathDup cur fl)) with
    | Some st' => oloop f w1 (p ++ o ++ a ++ raw ++ s) (length (p ++ o ++ a ++ raw)) (length (p ++ o ++ a ++ raw)) blk fin fl st'
    | None => Ret (inl PBAT_ALREADY_REDIRECTED, w)
    end.
Proof.
  intros O E N A F S B X.
  assert (H : exists x z, a ++ raw ++ s = x :: z /\ x <> ">"%char /\ x <> "&"%char).
  { pose proof (fname_first raw F) as FF. destruct F as (NE & _). destruct a as [|x a].
    - destruct raw as [|x raw]; [congruence|]. exists x, (raw ++ s). split; auto. specialize (FF x raw eq_refl).
      split; intros ->; apply FF; cbv; tauto.
    - exists x, (a ++ raw ++ s). split; auto. inversion A as [|? ? Bx]; subst. split; intros ->; cbv in Bx; intuition discriminate. }
  destruct H as (x & z & H & H1 & H2).
  assert (G : forall u, prefixb (">"%char :: u) (a ++ raw ++ s) = false) by (intros u; rewrite H; apply prefixb_gt; auto).
  assert (P2 : forall u, prefixb (">"%char :: "&"%char :: u) (">"%char :: a ++ raw ++ s) = false).
  { intros u. rewrite H. cbn [prefixb]. rewrite ceq_refl. cbn [andb]. destruct (ceq "&"%char x) eqn:C; auto. apply ceq_true in C. congruence. }
  assert (P3 : forall u, prefixb (">"%char :: "&"%char :: u) (">"%char :: ">"%char :: a ++ raw ++ s) = false) by reflexivity.
  assert (NN : nonul (a ++ raw ++ s)) by (apply nonul_app in N; tauto).
  assert (N1 : nonul (">"%char :: a ++ raw ++ s)) by (apply nonul_cons; split; auto; discriminate).
  assert (S0 : str_at (p ++ a ++ raw ++ s) (length p) = a ++ raw ++ s) by (apply str_here; auto).
  assert (S1 : str_at (p ++ ">"%char :: a ++ raw ++ s) (length p) = ">"%char :: a ++ raw ++ s) by (apply str_here; auto).
  assert (S2 : str_at (p ++ ">"%char :: a ++ raw ++ s) (length p + 1) = a ++ raw ++ s).
  { replace (p ++ ">"%char :: a ++ raw ++ s) with ((p ++ [">"%char]) ++ a ++ raw ++ s) by (rewrite <- app_assoc; auto). apply str_here; auto. rewrite app_length. simpl. lia. }
  assert (S3 : str_at (p ++ ">"%char :: ">"%char :: a ++ raw ++ s) (length p) = ">"%char :: ">"%char :: a ++ raw ++ s)
    by (apply str_here; auto; apply nonul_cons; split; auto; discriminate).
  assert (S4 : str_at (p ++ ">"%char :: ">"%char :: a ++ raw ++ s) (length p + 1) = ">"%char :: a ++ raw ++ s).
  { replace (p ++ ">"%char :: ">"%char :: a ++ raw ++ s) with ((p ++ [">"%char]) ++ ">"%char :: a ++ raw ++ s) by (rewrite <- app_assoc; auto). apply str_here; auto. rewrite app_length. simpl. lia. }
  assert (G1 : forall y, prefixb [">"%char] (">"%char :: y) = true) by (intros y; reflexivity).
  assert (R : forall p', re_file cur w (p' ++ a ++ raw ++ s) (length p') par = Ret (Some (pBat_FullPathDup cur fl, length (p' ++ a ++ raw), fl), w1))
    by (intros p'; eapply file_read; eauto).
  assert (R1 : re_file cur w (p ++ ">"%char :: a ++ raw ++ s) (length p + 1) par = Ret (Some (pBat_FullPathDup cur fl, length (p ++ [">"%char] ++ a ++ raw), fl), w1)).
  { specialize (R (p ++ [">"%char])). rewrite app_length in R. cbn [length] in R. rewrite <- !app_assoc in R. exact R. }
  assert (R2 : re_file cur w (p ++ ">"%char :: ">"%char :: a ++ raw ++ s) (length p + 1 + 1) par
               = Ret (Some (pBat_FullPathDup cur fl, length (p ++ [">"%char; ">"%char] ++ a ++ raw), fl), w1)).
  { specialize (R (p ++ [">"%char; ">"%char])). rewrite app_length in R. cbn [length] in R. rewrite <- !app_assoc in R.
    replace (length p + 2) with (length p + 1 + 1) in R by lia. exact R. }
  destruct O; cbn in E; injection E as <- <-; unfold tokbody; cbv zeta; cbn [app];
    repeat match goal with |- context [ceq ?x ?y] => let b := eval vm_compute in (ceq x y) in change (ceq x y) with b end; cbn [andb orb add];
    change (s2l ">&1") with [">"%char; "&"%char; "1"%char]; change (s2l ">&2") with [">"%char; "&"%char; "2"%char]; change (s2l ">") with [">"%char];
    rewrite ?S0, ?S1, ?S2, ?S3, ?S4, ?P3; rewrite ?P2, ?G1, ?G; cbn [negb];
    rewrite ?R, ?R1, ?R2; cbn [bind];
    first [destruct (st_out st); reflexivity|destruct (st_err st); reflexivity|destruct (st_in st); reflexivity].
Qed.

(** ** Texts with redirections *)
Definition blk_of (m : mode) (L : nat) (s z : cstr) : option nat :=
  match m with Flat => None | Head => Some (L - length z) | Tail => option_map (fun q => L - length q) (nextp s) end.

Lemma blk_skip m L t s z : paren_free m t -> blk_of m L (t ++ s) z = blk_of m L s z.
Proof. intros P. destruct m; auto. cbn [blk_of]. rewrite nextp_app; auto. apply P. auto. Qed.
Lemma blk_before m L s z n : n + length s + length z < L -> before (blk_of m L s z) n.
Proof.
  intros H. destruct m; cbn [blk_of before]; auto; [lia|]. destruct (nextp s) as [q|] eqn:Q; cbn [option_map before]; auto.
  apply nextp_suffix in Q. destruct Q as [(a & ->) _]. rewrite app_length in H. lia.
Qed.
Lemma stops_paren m t : calm (stops m) t -> paren_free m t.
Proof. intros C ->. eapply calm_weak; [exact C|]. intros c X. cbv in X. cbv. tauto. Qed.
Lemma paren_app m a b : paren_free m a -> paren_free m b -> paren_free m (a ++ b).
Proof. intros A B M. apply (calm_app _ _ _ (A M) (B M)). Qed.
Lemma paren_plain m t : Forall (fun c => ~ In c (s2l "^()" ++ [dquote])) t -> paren_free m t.
Proof. intros F _. apply calm_plain. eapply Forall_impl; [|exact F]. intros c N X. apply N. cbv in X. cbv. tauto. Qed.
Lemma fop_split op k : fop op k -> exists c o, op = c :: o /\ In c (s2l "12<>") /\ Forall (fun c => ~ In c (s2l "^()" ++ [dquote])) op.
Proof. destruct 1; eexists; eexists; (split; [reflexivity|]); (split; [cbv; tauto|]); repeat (apply Forall_cons || apply Forall_nil); cbv; intuition discriminate. Qed.
Lemma blank_paren m a : Forall blank a -> paren_free m a.
Proof. intros A. apply paren_plain. eapply Forall_impl; [|exact A]. intros c B X. cbv in B, X. intuition congruence. Qed.

Lemma nextp_nil : nextp [] = None. Proof. reflexivity. Qed.

Lemma outs_quiet m w s u l w' : outs cur m w s u l w' -> forall x, tidy x -> pBat_SearchToken_OutQuotes (x ++ s) (s2l "12<>") = None ->
  u = s /\ l = [] /\ w' = w /\ tidy s.
Proof.
  assert (CT : forall t, calm (stops m) t -> tidy t) by (intros t (A & B & _); split; auto).
  induction 1 as [w t C|w t c s u l w' C I G O IH|w t s u l w' C O IH|w t s u l w' C O IH|w t op k a raw v fl w1 s u l w' C FO A F PF S1 S2 B X O IH|w t i s u l w' M C I O IH];
    intros x T Q; [split; [|split; [|split]]; auto| | | | |].
  - exfalso. destruct (outq_some (s2l "12<>") (x ++ t) c s num_set) as (k & K); [apply tidy_app; auto|apply tidy_app; auto|cbv in I; cbv; tauto|]. rewrite <- app_assoc in K. congruence.
  - exfalso. destruct (outq_some (s2l "12<>") (x ++ t) "2"%char (s2l ">&1" ++ s) num_set) as (k & K); [apply tidy_app; auto|apply tidy_app; auto|cbv; tauto|]. rewrite <- app_assoc in K. cbn [app] in K. unfold s2l in *. cbn [list_ascii_of_string app] in *. congruence.
  - exfalso. destruct (outq_some (s2l "12<>") (x ++ t) "1"%char (s2l ">&2" ++ s) num_set) as (k & K); [apply tidy_app; auto|apply tidy_app; auto|cbv; tauto|]. rewrite <- app_assoc in K. cbn [app] in K. unfold s2l in *. cbn [list_ascii_of_string app] in *. congruence.
  - exfalso. destruct (fop_split op k FO) as (c & o & -> & I & _).
    destruct (outq_some (s2l "12<>") (x ++ t) c (o ++ a ++ raw ++ s) num_set) as (j & K); [apply tidy_app; auto|apply tidy_app; auto|auto|]. rewrite <- app_assoc in K. cbn [app] in *. congruence.
  - assert (T' : tidy (t ++ "("%char :: i ++ [")"%char])).
    { apply tidy_app; auto. apply tidy_cons; try discriminate. apply tidy_app; [apply inner_tidy; auto|]. apply tidy_char; discriminate. }
    destruct (IH (x ++ t ++ "("%char :: i ++ [")"%char])) as (-> & -> & -> & E).
    + apply tidy_app; auto.
    + rewrite <- Q. f_equal. repeat (rewrite <- app_assoc; cbn [app]). auto.
    + split; auto. split; auto. split; auto.
      replace (t ++ "("%char :: i ++ ")"%char :: s) with ((t ++ "("%char :: i ++ [")"%char]) ++ s) by (repeat (rewrite <- app_assoc; cbn [app]); auto).
      apply tidy_app; auto.
Qed.

Ltac relay IH f p s z blk fin par st buf E N0 Z Z' BK FU :=
  let LB := fresh "LB" in
  assert (LB : length (p ++ s ++ z) = length buf) by (rewrite E; repeat (rewrite !app_length; cbn [length s2l list_ascii_of_string]); lia);
  specialize (IH f (p ++ s ++ z) p [] [] z blk fin par st eq_refl); cbn [app] in IH; rewrite LB in IH;
  specialize (IH N0 (or_introl eq_refl) Z Z' BK ltac:(alen FU)).

Definition outs_ok (m : mode) (w : xworld) (s t : cstr) (l : list red) (w' : xworld) : Prop := forall f buf pre q d z blk fin par st,
  buf = pre ++ q ++ d ++ s ++ z -> nonul (q ++ d ++ s ++ z) -> (d = [] \/ d = [")"%char]) ->
  (m = Head \/ z = []) -> (m = Head -> starts_with "("%char z) ->
  blk = blk_of m (length buf) s z -> length (s ++ z) < f ->
  match add_all st l with
  | Some st' => forall P : outcome ((perr + cstr * stream) * xworld) -> Prop,
      (forall f' buf' pre' q' t' fin' par', buf' = pre' ++ q' ++ t' ++ z -> calm (s2l "12<>") t' -> nonul (q' ++ t' ++ z) ->
         fin' ++ q' ++ t' = fin ++ q ++ d ++ t -> length buf' = length buf -> length z < f' ->
         P (oloop f' w' buf' (length pre') (length (pre' ++ q')) (match m with Head => Some (length buf - length z) | _ => None end) fin' par' st')) ->
      P (oloop f w buf (length pre) (length (pre ++ q)) blk fin par st)
  | None => exists w1, oloop f w buf (length pre) (length (pre ++ q)) blk fin par st = Ret (inl PBAT_ALREADY_REDIRECTED, w1)
  end.

Lemma out_blk w i s u l w' : inner i -> outs cur Tail w s u l w' -> outs_ok Tail w s u l w' -> forall f buf pre q t blk fin par st,
  buf = (pre ++ q) ++ t ++ "("%char :: i ++ ")"%char :: s -> nonul (q ++ t ++ "("%char :: i ++ ")"%char :: s) -> calm (s2l "12<>") t ->
  blk = Some (length (pre ++ q ++ t)) -> length (i ++ ")"%char :: s) < f ->
  match add_all st l with
  | Some st' => forall P : outcome ((perr + cstr * stream) * xworld) -> Prop,
      (forall f' buf' pre' q' t' fin' par', buf' = pre' ++ q' ++ t' -> calm (s2l "12<>") t' -> nonul (q' ++ t') ->
         fin' ++ q' ++ t' = fin ++ q ++ t ++ "("%char :: i ++ ")"%char :: u -> length buf' = length buf -> 0 < f' ->
         P (oloop f' w' buf' (length pre') (length (pre' ++ q')) None fin' par' st')) ->
      P (oloop f w buf (length pre) (length (pre ++ q)) blk fin par st)
  | None => exists w1, oloop f w buf (length pre) (length (pre ++ q)) blk fin par st = Ret (inl PBAT_ALREADY_REDIRECTED, w1)
  end.
Proof.
  intros I O IH f buf pre q t blk fin par st E N CD BK FU. destruct f as [|f]; [lia|].
  assert (E2 : buf = (pre ++ q ++ t) ++ "("%char :: i ++ ")"%char :: s) by (rewrite E; repeat (rewrite <- app_assoc; cbn [app]); auto).
  assert (E3 : buf = (pre ++ (q ++ t ++ "("%char :: i) ++ [")"%char]) ++ s) by (rewrite E; repeat (rewrite <- app_assoc; cbn [app]); auto).
    assert (NQ : nonul (t ++ "("%char :: i ++ ")"%char :: s)) by (apply nonul_app in N; destruct N as [_ N]; revert N; repeat (rewrite <- app_assoc; cbn [app]); auto).
    assert (NB : nonul ("("%char :: i ++ ")"%char :: s)) by (apply nonul_app in NQ; apply NQ).
    assert (NS : nonul s) by (apply nonul_cons in NB; destruct NB as [_ NB]; apply nonul_app in NB; destruct NB as [_ NB]; apply nonul_cons in NB; apply NB).
    destruct (pBat_SearchToken_OutQuotes (t ++ "("%char :: i ++ ")"%char :: s) (s2l "12<>")) as [j|] eqn:SR.
    + assert (TJ : length t <= j) by (eapply outq_beyond; [apply num_set|exact CD|exact SR]).
      assert (STEP : oloop (S f) w buf (length pre) (length (pre ++ q)) blk fin par st
        = oloop f w buf (length pre) (length (pre ++ q ++ t ++ "("%char :: i)) (blk_of Tail (length buf) s []) fin par st).
      { cbn [output_loop].
        assert (SA : str_at buf (length (pre ++ q)) = t ++ "("%char :: i ++ ")"%char :: s) by (rewrite E; apply str_here; auto).
        rewrite SA, SR. cbv zeta. rewrite BK. replace (length (pre ++ q ++ t) <=? length (pre ++ q) + j) with true by (symmetry; apply Nat.leb_le; alen TJ).
        assert (SB : str_at buf (length (pre ++ q ++ t)) = "("%char :: i ++ ")"%char :: s) by (rewrite E2; apply str_here; auto).
        rewrite !SB. cbn [pBat_GetNextBlockEnd]. replace (ceq "("%char "("%char) with true by reflexivity.
        rewrite (proj1 blocks_ok i I) by (unfold scan_fuel; cbn [length]; rewrite app_length; cbn [length]; lia). cbn [bind].
        assert (OF : offset_of ("("%char :: i ++ ")"%char :: s) (")"%char :: s) = length ("("%char :: i)) by apply (offset_app ("("%char :: i) (")"%char :: s)).
        rewrite OF. replace (length (pre ++ q ++ t) + length ("("%char :: i)) with (length (pre ++ q ++ t ++ "("%char :: i)) by (repeat (rewrite !app_length; cbn [length]); lia).
        assert (SC : str_at buf (length (pre ++ q ++ t ++ "("%char :: i) + 1) = s)
          by (rewrite E3; apply str_here; auto; repeat (rewrite !app_length; cbn [length]); lia).
        rewrite SC, nextp_eq. cbn [bind]. f_equal. cbn [blk_of]. destruct (nextp s) as [y|] eqn:NY; auto. cbn [block_at option_map]. f_equal.
        apply nextp_suffix in NY. destruct NY as [(x & ->) _]. rewrite offset_app. rewrite E3. repeat (rewrite !app_length; cbn [length]). lia. }
      rewrite STEP. specialize (IH f buf pre (q ++ t ++ "("%char :: i) [")"%char] [] (blk_of Tail (length buf) s []) fin par st).
      rewrite app_nil_r in IH.
      specialize (IH ltac:(rewrite E3; repeat (rewrite <- app_assoc; cbn [app]); auto) ltac:(revert N; repeat (rewrite <- app_assoc; cbn [app]); auto)
        (or_intror eq_refl) (or_intror eq_refl) ltac:(discriminate) eq_refl ltac:(alen FU)).
      destruct (add_all st l) as [st'|]; [|exact IH]. intros R K. apply IH. intros f' buf' pre' q' t' fin' par' F1 F2 F3 F4 F5 F6.
      rewrite app_nil_r in F1, F3. apply (K f' buf' pre' q' t' fin' par'); auto. rewrite F4. repeat (rewrite <- app_assoc; cbn [app]). auto.
    + assert (T' : tidy (t ++ "("%char :: i ++ [")"%char])).
      { apply tidy_app; [destruct CD as (C1 & C2 & _); split; auto|]. apply tidy_cons; try discriminate. apply tidy_app; [apply inner_tidy; auto|]. apply tidy_char; discriminate. }
      assert (SR' : pBat_SearchToken_OutQuotes ((t ++ "("%char :: i ++ [")"%char]) ++ s) (s2l "12<>") = None)
        by (rewrite <- SR; f_equal; repeat (rewrite <- app_assoc; cbn [app]); auto).
      destruct (outs_quiet Tail w s u l w' O _ T' SR') as (-> & -> & -> & TS). cbn [add_all]. intros R K.
      assert (CA : calm (s2l "12<>") (t ++ "("%char :: i ++ ")"%char :: s)).
      { assert (TT : tidy (t ++ "("%char :: i ++ ")"%char :: s)).
        { replace (t ++ "("%char :: i ++ ")"%char :: s) with ((t ++ "("%char :: i ++ [")"%char]) ++ s) by (repeat (rewrite <- app_assoc; cbn [app]); auto). apply tidy_app; auto. }
        destruct TT as [T1 T2]. split; auto. split; auto.
        pose proof (search_outq_spec (inset (s2l "12<>")) (t ++ "("%char :: i ++ ")"%char :: s) eq_refl eq_refl) as SP.
        unfold pBat_SearchToken_OutQuotes in SR. rewrite SR in SP. exact SP. }
      assert (END : forall b, oloop (S f) w buf (length pre) (length (pre ++ q)) b fin par st = Ret (inr (fin ++ q ++ t ++ "("%char :: i ++ ")"%char :: s, st), w)).
      { intros b. cbn [output_loop].
        assert (SA : str_at buf (length (pre ++ q)) = t ++ "("%char :: i ++ ")"%char :: s) by (rewrite E; apply str_here; auto).
        rewrite SA, SR. assert (SB : str_at buf (length pre) = q ++ t ++ "("%char :: i ++ ")"%char :: s).
        { rewrite E, <- app_assoc. apply str_here; auto. }
        rewrite SB. auto. }
      rewrite (END blk), <- (END None). apply (K (S f) buf pre q (t ++ "("%char :: i ++ ")"%char :: s) fin par); auto.
      * rewrite E, <- app_assoc. auto.
      * lia.
Qed.

Lemma out_outs m w s t l w' : outs cur m w s t l w' -> outs_ok m w s t l w'.
Proof.
  assert (DC : forall d : cstr, d = [] \/ d = [")"%char] -> calm (s2l "12<>") d).
  { intros d [-> | ->]; [apply calm_nil|]. apply calm_plain. apply Forall_cons; [cbv; intuition discriminate|constructor]. }
  induction 1 as [w t C|w t c s u l w' C I G O IH|w t s u l w' C O IH|w t s u l w' C O IH|w t op k a raw v fl w1 s u l w' C FO A F PF S1 S2 B X O IH|w t i s u l w' M C I O IH];
    unfold outs_ok in *; intros f buf pre q d z blk fin par st BUF N D Z Z' BLK FU.
  - cbn [add_all]. intros R K. apply stops_num in C as C'.
    replace blk with (match m with Head => Some (length buf - length z) | _ => None end).
    + apply (K f buf pre q (d ++ t) fin par); auto.
      * rewrite BUF, <- !app_assoc. auto.
      * apply calm_app; auto.
      * rewrite <- app_assoc. auto.
      * rewrite app_length in FU. lia.
    + rewrite BLK. destruct m; auto. cbn [blk_of]. rewrite <- (app_nil_r t), nextp_app; auto. apply (stops_paren Tail t C). auto.
  - (* a digit *)
    destruct f as [|f]; [lia|].
    assert (E : buf = pre ++ q ++ (d ++ t) ++ c :: s ++ z) by (rewrite BUF; repeat (rewrite <- app_assoc; cbn [app]); auto).
    assert (N' : nonul (q ++ (d ++ t) ++ c :: s ++ z)) by (revert N; repeat (rewrite <- app_assoc; cbn [app]); auto).
    assert (N0 : nonul (s ++ z)) by (apply nonul_app in N'; destruct N' as [_ N']; apply nonul_app in N'; destruct N' as [_ N']; apply nonul_cons in N'; apply N').
    assert (CI : In c (s2l "12<>")) by (cbv in I; cbv; tauto).
    assert (CP : Forall (fun c => ~ In c (s2l "^()" ++ [dquote])) [c]) by (apply Forall_cons; [cbv in I; destruct I as [<-|[<-|[]]]; cbv; intuition discriminate|constructor]).
    assert (BK : blk = blk_of m (length buf) s z).
    { rewrite BLK. replace (t ++ c :: s) with ((t ++ [c]) ++ s) by (rewrite <- app_assoc; auto). apply blk_skip. apply paren_app; [apply stops_paren; auto|]. apply paren_plain. auto. }
    assert (TK : oloop (S f) w buf (length pre) (length (pre ++ q)) blk fin par st
      = oloop f w ((pre ++ q ++ (d ++ t) ++ ["000"%char]) ++ s ++ z) (length (pre ++ q ++ (d ++ t) ++ ["000"%char])) (length ((pre ++ q ++ (d ++ t) ++ ["000"%char]) ++ [])) blk ((fin ++ q ++ d ++ t) ++ [c]) par st).
    { rewrite E at 1. rewrite out_token; auto; [|apply calm_app; auto; apply (stops_num m); auto|rewrite BK; apply blk_before; rewrite E; alen FU].
      rewrite app_nil_r. unfold tokbody. cbv zeta.
      rewrite (str_here _ (s ++ z)); auto.
      assert (P : forall x, prefixb (">"%char :: x) (s ++ z) = false).
      { intros x. destruct s as [|e s].
        - cbn [app]. destruct Z as [-> | ->]; auto. destruct (Z' eq_refl) as (r & ->). reflexivity.
        - cbn [app]. apply prefixb_gt. intros ->. apply G. exists s. auto. }
      change (s2l ">&1") with [">"%char; "&"%char; "1"%char]. change (s2l ">&2") with [">"%char; "&"%char; "2"%char]. change (s2l ">") with [">"%char].
      rewrite !P. rewrite !Bool.andb_false_r. replace (ceq c "2"%char || ceq c "1"%char) with true by (cbv in I; destruct I as [<-|[<-|[]]]; reflexivity).
      reflexivity. }
    rewrite TK. relay IH f (pre ++ q ++ (d ++ t) ++ ["000"%char]) s z blk ((fin ++ q ++ d ++ t) ++ [c]) par st buf E N0 Z Z' BK FU.
    destruct (add_all st l) as [st'|]; [|exact IH]. intros R K. apply IH. intros f' buf' pre' q' t' fin' par' E1 E2 E3 E4 E5 E6.
    apply (K f' buf' pre' q' t' fin' par'); auto. rewrite E4. repeat (rewrite <- app_assoc; cbn [app]). auto.
  - (* standard error *)
    destruct f as [|f]; [lia|].
    assert (E : buf = pre ++ q ++ (d ++ t) ++ "2"%char :: s2l ">&1" ++ s ++ z) by (rewrite BUF; repeat (rewrite <- app_assoc; cbn [app]); auto).
    assert (N' : nonul (q ++ (d ++ t) ++ "2"%char :: s2l ">&1" ++ s ++ z)) by (revert N; repeat (rewrite <- app_assoc; cbn [app]); auto).
    assert (N1 : nonul (s2l ">&1" ++ s ++ z)) by (apply nonul_app in N'; destruct N' as [_ N']; apply nonul_app in N'; destruct N' as [_ N']; apply nonul_cons in N'; apply N').
    assert (N0 : nonul (s ++ z)) by (apply nonul_app in N1; apply N1).
    assert (BK : blk = blk_of m (length buf) s z).
    { rewrite BLK, (app_assoc t). apply blk_skip. apply paren_app; [apply stops_paren; auto|]. apply paren_plain. repeat (apply Forall_cons; [cbv; intuition discriminate|]). constructor. }
    assert (TK : oloop (S f) w buf (length pre) (length (pre ++ q)) blk fin par st
      = tokbody f w (pre ++ q ++ (d ++ t) ++ ["000"%char]) (s2l ">&1" ++ s ++ z) "2"%char blk (fin ++ q ++ d ++ t) par st).
    { rewrite E at 1. rewrite out_token; auto; [apply calm_app; auto; apply (stops_num m); auto|cbv; tauto|rewrite BK; apply blk_before; rewrite E; alen FU]. }
    rewrite TK. unfold tokbody. cbv zeta. rewrite (str_here _ (s2l ">&1" ++ s ++ z)) by auto.
    replace (ceq "2"%char "2"%char && prefixb (s2l ">&1") (s2l ">&1" ++ s ++ z)) with true by reflexivity.
    cbn [add_all add]. destruct (st_redir st) eqn:SR; [|eexists; reflexivity|eexists; reflexivity].
    set (st1 := mkSt _ _ _ _).
    replace ((pre ++ q ++ (d ++ t) ++ ["000"%char]) ++ s2l ">&1" ++ s ++ z) with ((pre ++ q ++ (d ++ t) ++ "000"%char :: s2l ">&1") ++ s ++ z)
      by (repeat (rewrite <- app_assoc; cbn [app]); auto).
    replace (length (pre ++ q ++ (d ++ t) ++ ["000"%char]) + 3) with (length (pre ++ q ++ (d ++ t) ++ "000"%char :: s2l ">&1"))
      by (rewrite !app_length; cbn [length s2l list_ascii_of_string]; lia).
    relay IH f (pre ++ q ++ (d ++ t) ++ "000"%char :: s2l ">&1") s z blk (fin ++ q ++ d ++ t) par st1 buf E N0 Z Z' BK FU.
    rewrite app_nil_r in IH.
    destruct (add_all st1 l) as [st'|]; [|exact IH]. intros R K. apply IH. intros f' buf' pre' q' t' fin' par' E1 E2 E3 E4 E5 E6.
    apply (K f' buf' pre' q' t' fin' par'); auto. rewrite E4. repeat (rewrite <- app_assoc; cbn [app]). auto.
  - (* standard output *)
    destruct f as [|f]; [lia|].
    assert (E : buf = pre ++ q ++ (d ++ t) ++ "1"%char :: s2l ">&2" ++ s ++ z) by (rewrite BUF; repeat (rewrite <- app_assoc; cbn [app]); auto).
    assert (N' : nonul (q ++ (d ++ t) ++ "1"%char :: s2l ">&2" ++ s ++ z)) by (revert N; repeat (rewrite <- app_assoc; cbn [app]); auto).
    assert (N1 : nonul (s2l ">&2" ++ s ++ z)) by (apply nonul_app in N'; destruct N' as [_ N']; apply nonul_app in N'; destruct N' as [_ N']; apply nonul_cons in N'; apply N').
    assert (N0 : nonul (s ++ z)) by (apply nonul_app in N1; apply N1).
    assert (BK : blk = blk_of m (length buf) s z).
    { rewrite BLK, (app_assoc t). apply blk_skip. apply paren_app; [apply stops_paren; auto|]. apply paren_plain. repeat (apply Forall_cons; [cbv; intuition discriminate|]). constructor. }
    assert (TK : oloop (S f) w buf (length pre) (length (pre ++ q)) blk fin par st
      = tokbody f w (pre ++ q ++ (d ++ t) ++ ["000"%char]) (s2l ">&2" ++ s ++ z) "1"%char blk (fin ++ q ++ d ++ t) par st).
    { rewrite E at 1. rewrite out_token; auto; [apply calm_app; auto; apply (stops_num m); auto|cbv; tauto|rewrite BK; apply blk_before; rewrite E; alen FU]. }
    rewrite TK. unfold tokbody. cbv zeta. rewrite (str_here _ (s2l ">&2" ++ s ++ z)) by auto.
    replace (ceq "1"%char "2"%char && prefixb (s2l ">&1") (s2l ">&2" ++ s ++ z)) with false by reflexivity.
    replace ((ceq "1"%char "2"%char || ceq "1"%char "1"%char) && prefixb (s2l ">&2") (s2l ">&2" ++ s ++ z)) with true by reflexivity.
    cbn [add_all add]. destruct (st_redir st) eqn:SR; [|eexists; reflexivity|eexists; reflexivity].
    set (st1 := mkSt _ _ _ _).
    replace ((pre ++ q ++ (d ++ t) ++ ["000"%char]) ++ s2l ">&2" ++ s ++ z) with ((pre ++ q ++ (d ++ t) ++ "000"%char :: s2l ">&2") ++ s ++ z)
      by (repeat (rewrite <- app_assoc; cbn [app]); auto).
    replace (length (pre ++ q ++ (d ++ t) ++ ["000"%char]) + 3) with (length (pre ++ q ++ (d ++ t) ++ "000"%char :: s2l ">&2"))
      by (rewrite !app_length; cbn [length s2l list_ascii_of_string]; lia).
    relay IH f (pre ++ q ++ (d ++ t) ++ "000"%char :: s2l ">&2") s z blk (fin ++ q ++ d ++ t) par st1 buf E N0 Z Z' BK FU.
    rewrite app_nil_r in IH.
    destruct (add_all st1 l) as [st'|]; [|exact IH]. intros R K. apply IH. intros f' buf' pre' q' t' fin' par' E1 E2 E3 E4 E5 E6.
    apply (K f' buf' pre' q' t' fin' par'); auto. rewrite E4. repeat (rewrite <- app_assoc; cbn [app]). auto.
  - (* a file *)
    destruct f as [|f]; [lia|]. destruct (fop_split op k FO) as (c & o & OP & CI & CP).
    assert (E : buf = pre ++ q ++ (d ++ t) ++ c :: o ++ a ++ raw ++ s ++ z) by (rewrite BUF, OP; repeat (rewrite <- app_assoc; cbn [app]); auto).
    assert (N' : nonul (q ++ (d ++ t) ++ c :: o ++ a ++ raw ++ s ++ z)) by (revert N; rewrite OP; repeat (rewrite <- app_assoc; cbn [app]); auto).
    assert (N1 : nonul (o ++ a ++ raw ++ s ++ z)) by (apply nonul_app in N'; destruct N' as [_ N']; apply nonul_app in N'; destruct N' as [_ N']; apply nonul_cons in N'; apply N').
    assert (N0 : nonul (s ++ z)) by (rewrite !nonul_app in N1; rewrite nonul_app; tauto).
    assert (BK : blk = blk_of m (length buf) s z).
    { rewrite BLK. replace (t ++ op ++ a ++ raw ++ s) with ((t ++ op ++ a ++ raw) ++ s) by (rewrite <- !app_assoc; auto).
      apply blk_skip. apply paren_app; [apply stops_paren; auto|]. apply paren_app; [apply paren_plain; auto|]. apply paren_app; auto. apply blank_paren. auto. }
    assert (NT : nothing (s ++ z) = nothing s).
    { destruct s as [|e s]; auto. destruct Z as [-> | ->]; auto. destruct (S1 eq_refl eq_refl). }
    assert (FE : forall e r, s ++ z = e :: r -> file_end e).
    { intros e r H. destruct s as [|e' s]; [|injection H as -> _; eapply S2; eauto]. destruct Z as [-> | ->]; [destruct (S1 eq_refl eq_refl)|discriminate]. }
    subst op. cbn [app] in FU.
    assert (TK : oloop (S f) w buf (length pre) (length (pre ++ q)) blk fin par st
      = tokbody f w (pre ++ q ++ (d ++ t) ++ ["000"%char]) (o ++ a ++ raw ++ s ++ z) c blk (fin ++ q ++ d ++ t) par st).
    { rewrite E at 1. rewrite out_token; auto; [apply calm_app; auto; apply (stops_num m); auto|rewrite BK; apply blk_before; rewrite E; alen FU]. }
    rewrite TK. rewrite (tok_file (c :: o) k f w _ c o a raw (s ++ z) v fl w1); auto; [|rewrite NT; auto].
    cbn [add_all]. destruct (add st (k (pBat_FullPathDup cur fl))) as [st1|]; [|eexists; reflexivity].
    set (p := pre ++ q ++ (d ++ t) ++ "000"%char :: o ++ a ++ raw).
    replace ((pre ++ q ++ (d ++ t) ++ ["000"%char]) ++ o ++ a ++ raw ++ s ++ z) with (p ++ s ++ z)
      by (unfold p; repeat (rewrite <- app_assoc; cbn [app]); auto).
    replace ((pre ++ q ++ (d ++ t) ++ ["000"%char]) ++ o ++ a ++ raw) with p by (unfold p; repeat (rewrite <- app_assoc; cbn [app]); auto).
    assert (LB : length (p ++ s ++ z) = length buf) by (rewrite E; unfold p; repeat (rewrite !app_length; cbn [length]); lia).
    specialize (IH f (p ++ s ++ z) p [] [] z blk (fin ++ q ++ d ++ t) fl st1 eq_refl). cbn [app] in IH. rewrite LB, app_nil_r in IH.
    specialize (IH N0 (or_introl eq_refl) Z Z' BK ltac:(alen FU)).
    destruct (add_all st1 l) as [st'|]; [|exact IH]. intros R K. apply IH. intros f' buf' pre' q' t' fin' par' E1 E2 E3 E4 E5 E6.
    apply (K f' buf' pre' q' t' fin' par'); auto. rewrite E4. repeat (rewrite <- app_assoc; cbn [app]). auto.
  - (* a block *)
    subst m. destruct Z as [Z|Z]; [discriminate|]. subst z. rewrite app_nil_r in *.
    assert (E2 : buf = (pre ++ q ++ d ++ t) ++ "("%char :: i ++ ")"%char :: s) by (rewrite BUF; repeat (rewrite <- app_assoc; cbn [app]); auto).
    pose proof (out_blk w i s u l w' I O IH f buf pre q (d ++ t) blk fin par st) as H.
    assert (H' := H ltac:(rewrite BUF; repeat (rewrite <- app_assoc; cbn [app]); auto) ltac:(revert N; repeat (rewrite <- app_assoc; cbn [app]); auto)
      ltac:(apply calm_app; auto; apply (stops_num Tail); auto)
      ltac:(rewrite BLK; cbn [blk_of]; rewrite nextp_app, nextp_open by (apply (stops_paren Tail t C); auto); cbn [option_map]; f_equal; rewrite E2;
            rewrite (app_length (pre ++ q ++ d ++ t)); lia) ltac:(alen FU)).
    destruct (add_all st l) as [st'|]; [|exact H']. intros P K. apply H'. intros f' buf' pre' q' t' fin' par' F1 F2 F3 F4 F5 F6.
    apply (K f' buf' pre' q' t' fin' par'); auto; [rewrite app_nil_r; auto|rewrite app_nil_r; auto|rewrite F4; repeat (rewrite <- app_assoc; cbn [app]); auto].
Qed.

Lemma out_end f w pre q t blk fin par st : nonul (q ++ t) -> calm (s2l "12<>") t -> 0 < f ->
  oloop f w (pre ++ q ++ t) (length pre) (length (pre ++ q)) blk fin par st = Ret (inr (fin ++ q ++ t, st), w).
Proof.
  intros N C F. destruct f as [|f]; [lia|]. cbn [output_loop]. rewrite (str_here pre (q ++ t) (length pre)) by auto.
  replace (pre ++ q ++ t) with ((pre ++ q) ++ t) by (rewrite <- app_assoc; auto).
  rewrite (str_here (pre ++ q)); auto; [|apply nonul_app in N; apply N]. rewrite (outq_none _ _ num_set C). auto.
Qed.

Lemma add_app l l' : forall st, add_all st (l ++ l') = match add_all st l with Some st' => add_all st' l' | None => None end.
Proof. induction l as [|r l IH]; intros st; auto. cbn [app add_all]. destruct (add st r); auto. Qed.

Theorem out_line w s u l w' : outline cur w s u l w' -> nonul s ->
  match add_all no_redir l with
  | Some st => pBat_ParseOutput cur w s = Ret (inr (u, st), w')
  | None => exists w1, pBat_ParseOutput cur w s = Ret (inl PBAT_ALREADY_REDIRECTED, w1)
  end.
Proof.
  intros O N. unfold pBat_ParseOutput. destruct O as [w s t l w' F O|w h t l w1 i s u l' w' H O1 I O2].
  - cbn [pBat_GetNextBlockBeginEx]. rewrite flat_ok by auto. cbn [bind block_at].
    pose proof (out_outs Flat w s t l w' O (S (length s)) s [] [] [] [] None [] [] no_redir) as K.
    rewrite app_nil_r in K. specialize (K eq_refl N (or_introl eq_refl) (or_intror eq_refl) ltac:(discriminate) eq_refl ltac:(lia)).
    cbn [app length] in K. destruct (add_all no_redir l) as [st|]; [|exact K].
    apply (K (fun o => o = Ret (inr (t, st), w'))). intros f' buf' pre' q' t' fin' par' E1 E2 E3 E4 E5 E6. rewrite app_nil_r in E1, E3. subst buf'.
    rewrite out_end; auto. f_equal. f_equal. f_equal. f_equal. auto.
  - set (z := "("%char :: i ++ ")"%char :: s) in *.
    assert (Q : pBat_GetNextBlockBeginEx (h ++ z) false = Ret (Some z)).
    { cbn [pBat_GetNextBlockBeginEx]. apply heads_ok; auto. rewrite app_length. lia. }
    rewrite Q. cbn [bind block_at Nat.add]. rewrite offset_app.
    pose proof (out_outs Head w h t l w1 O1 (S (length (h ++ z))) (h ++ z) [] [] [] z (Some (length h)) [] [] no_redir) as K.
    specialize (K eq_refl N (or_introl eq_refl) (or_introl eq_refl) ltac:(intros _; eexists; reflexivity)
      ltac:(cbn [blk_of]; f_equal; rewrite app_length; lia) ltac:(lia)).
    cbn [app length] in K. rewrite add_app. destruct (add_all no_redir l) as [st|]; [|exact K].
    assert (B : forall f' buf' pre' q' t' fin' par', buf' = pre' ++ q' ++ t' ++ z -> calm (s2l "12<>") t' -> nonul (q' ++ t' ++ z) ->
      fin' ++ q' ++ t' = t -> length buf' = length (h ++ z) -> length z < f' ->
      match add_all st l' with
      | Some st' => oloop f' w1 buf' (length pre') (length (pre' ++ q')) (Some (length (h ++ z) - length z)) fin' par' st = Ret (inr (t ++ "("%char :: i ++ ")"%char :: u, st'), w')
      | None => exists w2, oloop f' w1 buf' (length pre') (length (pre' ++ q')) (Some (length (h ++ z) - length z)) fin' par' st = Ret (inl PBAT_ALREADY_REDIRECTED, w2)
      end).
    { intros f' buf' pre' q' t' fin' par' E1 E2 E3 E4 E5 E6.
      pose proof (out_blk w1 i s u l' w' I O2 (out_outs Tail w1 s u l' w' O2) f' buf' pre' q' t' (Some (length (h ++ z) - length z)) fin' par' st) as X.
      specialize (X ltac:(rewrite E1, <- app_assoc; auto) E3 E2
        ltac:(f_equal; rewrite <- E5, E1; rewrite !app_length; lia) ltac:(unfold z in E6; cbn [length] in E6; lia)).
      destruct (add_all st l') as [st'|]; [|exact X].
      apply (X (fun o => o = Ret (inr (t ++ "("%char :: i ++ ")"%char :: u, st'), w'))).
      intros f2 buf2 pre2 q2 t2 fin2 par2 G1 G2 G3 G4 G5 G6. subst buf2. rewrite out_end; auto. rewrite G4.
      replace (fin' ++ q' ++ t' ++ "("%char :: i ++ ")"%char :: u) with ((fin' ++ q' ++ t') ++ "("%char :: i ++ ")"%char :: u) by (rewrite <- !app_assoc; auto).
      rewrite E4. auto. }
    destruct (add_all st l') as [st'|].
    + apply (K (fun o => o = Ret (inr (t ++ "("%char :: i ++ ")"%char :: u, st'), w'))). exact B.
    + apply (K (fun o => exists w2, o = Ret (inl PBAT_ALREADY_REDIRECTED, w2))). exact B.
Qed.
End Step.

(** ** Streams *)
Definition free (st : stream) (k : about) : Prop :=
  match k with AOut => st_out st = None | AErr => st_err st = None | AIn => st_in st = None | ADup => st_redir st = RE_NONE end.
Lemma add_free st r : (free st (kind r) -> exists st', add st r = Some st' /\ ~ free st' (kind r) /\ forall k, k <> kind r -> free st' k <-> free st k) /\
  (~ free st (kind r) -> add st r = None).
Proof.
  destruct st as [o e i d]. destruct r; cbn; (split; [intros ->; eexists; (split; [reflexivity|]); (split; [discriminate|]); intros [] K; try (destruct (K eq_refl)); reflexivity|]);
    try (destruct o; auto; intros []; auto; fail); try (destruct e; auto; intros []; auto; fail); try (destruct i; auto; intros []; auto; fail); destruct d; auto; intros []; auto.
Qed.
Lemma about_dec (a b : about) : {a = b} + {a <> b}. Proof. decide equality. Qed.

Lemma add_nodup l : forall st, (exists st', add_all st l = Some st') <-> NoDup (map kind l) /\ forall r, In r l -> free st (kind r).
Proof.
  induction l as [|r l IH]; intros st.
  - split; [intros _; split; [constructor|intros r []]|intros _; eexists; reflexivity].
  - cbn [add_all map]. destruct (add_free st r) as [A1 A2].
    assert (D : free st (kind r) \/ ~ free st (kind r)).
    { destruct st as [o e i d]. destruct (kind r); cbn; [destruct o|destruct e|destruct i|destruct d]; auto; right; discriminate. }
    destruct D as [D|D].
    + destruct (A1 D) as (st1 & -> & B1 & B2). rewrite IH. split.
      * intros [C1 C2]. split.
        -- constructor; auto. intros I. apply in_map_iff in I. destruct I as (x & X & I). apply B1. rewrite <- X. apply C2. auto.
        -- intros x [<-|I]; auto. specialize (C2 x I). destruct (about_dec (kind x) (kind r)) as [X|X]; [rewrite X; auto|]. apply (B2 _ X). auto.
      * intros [C1 C2]. inversion C1 as [|? ? C3 C4]; subst. split; auto. intros x I. apply B2; [|apply C2; right; auto].
        intros X. apply C3. rewrite <- X. apply in_map. auto.
    + rewrite A2 by auto. split; [intros (x & X); discriminate|]. intros [_ C]. destruct (D (C r (or_introl eq_refl))).
Qed.

Lemma add_streams l : forall st0 l0 st, streams l0 st0 -> add_all st0 l = Some st -> streams (l0 ++ l) st.
Proof.
  induction l as [|r l IH]; intros st0 l0 st S A; cbn [add_all] in A.
  - injection A as <-. rewrite app_nil_r. auto.
  - destruct (add st0 r) as [st1|] eqn:D; [|discriminate]. replace (l0 ++ r :: l) with ((l0 ++ [r]) ++ l) by (rewrite <- app_assoc; auto).
    apply (IH st1); auto. clear IH A. destruct S as (S1 & S2 & S3 & S4 & S5). destruct st0 as [o e i d]. cbn [st_out st_err st_in st_redir] in *.
    destruct r; cbn [add st_out st_err st_in st_redir] in D.
    + destruct o; [discriminate|]. injection D as <-. split; [|split; [|split; [|split]]]; cbn [st_out st_err st_in st_redir]; intros; rewrite in_app_iff; cbn [In].
      * rewrite <- S1. split; [intros [= <- <-]; auto|intros [X|[X|[]]]; congruence].
      * rewrite S2. split; auto. intros [X|[X|[]]]; [auto|discriminate].
      * rewrite S3. split; auto. intros [X|[X|[]]]; [auto|discriminate].
      * rewrite S4. split; auto. intros [X|[X|[]]]; [auto|discriminate].
      * rewrite S5. split; auto. intros [X|[X|[]]]; [auto|discriminate].
    + destruct e; [discriminate|]. injection D as <-. split; [|split; [|split; [|split]]]; cbn [st_out st_err st_in st_redir]; intros; rewrite in_app_iff; cbn [In].
      * rewrite S1. split; auto. intros [X|[X|[]]]; [auto|discriminate].
      * rewrite <- S2. split; [intros [= <- <-]; auto|intros [X|[X|[]]]; congruence].
      * rewrite S3. split; auto. intros [X|[X|[]]]; [auto|discriminate].
      * rewrite S4. split; auto. intros [X|[X|[]]]; [auto|discriminate].
      * rewrite S5. split; auto. intros [X|[X|[]]]; [auto|discriminate].
    + destruct i; [discriminate|]. injection D as <-. split; [|split; [|split; [|split]]]; cbn [st_out st_err st_in st_redir]; intros; rewrite in_app_iff; cbn [In].
      * rewrite S1. split; auto. intros [X|[X|[]]]; [auto|discriminate].
      * rewrite S2. split; auto. intros [X|[X|[]]]; [auto|discriminate].
      * rewrite <- S3. split; [intros [= <-]; auto|intros [X|[X|[]]]; congruence].
      * rewrite S4. split; auto. intros [X|[X|[]]]; [auto|discriminate].
      * rewrite S5. split; auto. intros [X|[X|[]]]; [auto|discriminate].
    + destruct d; try discriminate. injection D as <-. split; [|split; [|split; [|split]]]; cbn [st_out st_err st_in st_redir]; intros; rewrite in_app_iff; cbn [In].
      * rewrite S1. split; auto. intros [X|[X|[]]]; [auto|discriminate].
      * rewrite S2. split; auto. intros [X|[X|[]]]; [auto|discriminate].
      * rewrite S3. split; auto. intros [X|[X|[]]]; [auto|discriminate].
      * split; auto.
      * rewrite <- S5. split; [discriminate|intros [X|[X|[]]]; discriminate].
    + destruct d; try discriminate. injection D as <-. split; [|split; [|split; [|split]]]; cbn [st_out st_err st_in st_redir]; intros; rewrite in_app_iff; cbn [In].
      * rewrite S1. split; auto. intros [X|[X|[]]]; [auto|discriminate].
      * rewrite S2. split; auto. intros [X|[X|[]]]; [auto|discriminate].
      * rewrite S3. split; auto. intros [X|[X|[]]]; [auto|discriminate].
      * rewrite <- S4. split; [discriminate|intros [X|[X|[]]]; discriminate].
      * split; auto.
Qed.

Lemma no_streams : streams [] no_redir.
Proof. split; [|split; [|split; [|split]]]; cbn; intros; split; try discriminate; intros []. Qed.

(** ** Every line *)
Definition count (st s : cstr) : nat := length (filter (inset st) s).
Definition todo (buf : cstr) (blk : option nat) : nat :=
  count (s2l "12<>") buf + match blk with Some b => count (s2l "(") (skipn b buf) | None => 0 end.

Lemma count_app2 st a b : count st (a ++ b) = count st a + count st b.
Proof. unfold count. rewrite filter_app, app_length. auto. Qed.
Lemma count_cons st c a : count st (c :: a) = (if inset st c then 1 else 0) + count st a.
Proof. unfold count. cbn [filter]. destruct (inset st c); auto. Qed.
Lemma count_skip st n s : count st (skipn n s) <= count st s.
Proof. rewrite <- (firstn_skipn n s) at 2. rewrite count_app2. lia. Qed.
Lemma count_sum s : count (s2l "12<>") s + count (s2l "(") s <= length s.
Proof.
  induction s as [|c s IH]; auto. rewrite !count_cons. cbn [length].
  destruct (inset (s2l "12<>") c) eqn:A; [|destruct (inset (s2l "(") c); lia].
  replace (inset (s2l "(") c) with false; [lia|]. apply inset_In in A. cbv in A. destruct A as [<-|[<-|[<-|[<-|[]]]]]; reflexivity.
Qed.

Lemma nth_split' (s : cstr) i c : nth_error s i = Some c -> exists a b, s = a ++ c :: b /\ length a = i.
Proof. apply nth_error_split. Qed.
Lemma upto_nth s : forall i c, nth_error (upto_nul s) i = Some c -> nth_error s i = Some c /\ c <> "000"%char.
Proof.
  induction s as [|x s IH]; intros i c H; cbn [upto_nul] in H; [destruct i; discriminate|].
  destruct (ceq x "000"%char) eqn:X; [destruct i; discriminate|]. destruct i as [|i]; cbn [nth_error] in *; [|auto].
  injection H as <-. split; auto. apply ceq_false. auto.
Qed.
Lemma str_nth buf n i c : nth_error (str_at buf n) i = Some c -> nth_error buf (n + i) = Some c.
Proof. unfold str_at. intros H. apply upto_nth in H. rewrite nth_error_skipn in H. apply H. Qed.

Lemma todo_token buf tok c blk : nth_error buf tok = Some c -> In c (s2l "12<>") ->
  (forall b, blk = Some b -> nth_error buf b = Some "("%char) ->
  S (todo (put_nul buf tok) blk) = todo buf blk /\ (forall b, blk = Some b -> nth_error (put_nul buf tok) b = Some "("%char).
Proof.
  intros T I B. destruct (nth_split' _ _ _ T) as (a & z & -> & L). subst tok. rewrite put_here by auto.
  assert (CC : c <> "("%char) by (cbv in I; intuition congruence).
  unfold todo. rewrite !count_app2, !count_cons. replace (inset (s2l "12<>") c) with true by (symmetry; apply inset_In; auto).
  replace (inset (s2l "12<>") "000"%char) with false by reflexivity. split.
  - destruct blk as [b|]; [|lia]. specialize (B b eq_refl).
    assert (K : count (s2l "(") (skipn b (a ++ "000"%char :: z)) = count (s2l "(") (skipn b (a ++ c :: z))).
    { destruct (Nat.le_gt_cases b (length a)) as [H|H].
      - rewrite !skipn_app. replace (b - length a) with 0 by lia. cbn [skipn]. rewrite !count_app2, !count_cons.
        replace (inset (s2l "(") "000"%char) with false by reflexivity. replace (inset (s2l "(") c) with false; [auto|].
        symmetry. destruct (inset (s2l "(") c) eqn:X; auto. apply inset_In in X. cbv in X. intuition congruence.
      - rewrite !skipn_app. destruct (b - length a) as [|k] eqn:K; [lia|]. auto. }
    rewrite K. lia.
  - intros b Hb. specialize (B b Hb). destruct (Nat.eq_dec b (length a)) as [->|N].
    + rewrite nth_error_app2, Nat.sub_diag in B by auto. injection B as B. contradiction.
    + destruct (Nat.lt_ge_cases b (length a)); [rewrite nth_error_app1 in * by lia; auto|]. rewrite nth_error_app2 in * by lia.
      destruct (b - length a) as [|k] eqn:K; [lia|]. auto.
Qed.

Definition fine {A} (w : xworld) (o : outcome (A * xworld)) : Prop :=
  (exists r, o = Ret (r, w)) \/ (o = Undef /\ exists t, pBat_DelayedExpand w t = Undef).
Lemma fine_ret {A} w (r : A) : fine w (Ret (r, w)). Proof. left. eauto. Qed.

Lemma file_total cur w buf nt old : x_delayed w = false -> fine w (re_file cur w buf nt old).
Proof.
  intros D. unfold re_file. cbv zeta.
  destruct (next_ok w re_delims old (str_at buf nt) quote_re) as [[_ ->]|(a & raw & rest & t & _ & _ & _ & _ & _ & _ & H7)]; [apply fine_ret|].
  destruct H7 as [(_ & _ & ->)|[_ ->]]; [apply fine_ret|].
  destruct (delayed_off_fuel w t D) as [F1 F2].
  destruct (pBat_DelayedExpand w t) as [[u w1]| |] eqn:X; cbn [bind]; [|right; eauto|congruence]. assert (w1 = w) by (eapply F2; eauto). subst w1. apply fine_ret.
Qed.

Lemma out_total cur w : x_delayed w = false -> forall f buf ch search blk fin par st, todo buf blk < f -> (forall b, blk = Some b -> nth_error buf b = Some "("%char) ->
  fine w (output_loop cur f w buf ch search blk fin par st).
Proof.
  intros D. induction f as [|f IH]; intros buf ch search blk fin par st F B; [lia|]. cbn [output_loop].
  destruct (pBat_SearchToken_OutQuotes (str_at buf search) (s2l "12<>")) as [k|] eqn:K; [|apply fine_ret].
  apply (outq_char _ _ _ num_set) in K. destruct K as (c & K & C). apply str_nth in K. cbv zeta.
  destruct (match blk with Some b => if b <=? search + k then Some b else None | None => None end) as [b|] eqn:BB.
  - assert (X : blk = Some b) by (destruct blk as [b'|]; [destruct (b' <=? search + k)|]; congruence). subst blk.
    specialize (B b eq_refl). destruct (block_end_total (str_at buf b)) as (r & R & RR). rewrite R. cbn [bind].
    destruct r as [q|]; [|apply fine_ret]. destruct (RR q eq_refl) as (a & y & A1 & ->). rewrite nextp_eq. cbn [bind].
    assert (O : offset_of (str_at buf b) (")"%char :: y) = S (length a)) by (rewrite A1; apply (offset_app ("("%char :: a) (")"%char :: y))).
    rewrite O. set (e := b + S (length a)).
    assert (NB : forall b', block_at (e + 1) (str_at buf (e + 1)) (nextp (str_at buf (e + 1))) = Some b' -> b < b' /\ nth_error buf b' = Some "("%char).
    { intros b' Hb. destruct (nextp (str_at buf (e + 1))) as [q|] eqn:Q; [|discriminate]. cbn [block_at] in Hb. injection Hb as <-.
      apply nextp_suffix in Q. destruct Q as ((u & H) & v & ->). rewrite H, offset_app. split; [unfold e; lia|]. apply str_nth. rewrite H.
      rewrite nth_error_app2, Nat.sub_diag by lia. auto. }
    apply IH; [|intros b' Hb; apply NB; auto].
    unfold todo in *. destruct (block_at _ _ _) as [b'|] eqn:BA.
    + destruct (NB b' eq_refl) as [N1 N2]. assert (H : count (s2l "(") (skipn b' buf) < count (s2l "(") (skipn b buf)); [|lia].
      rewrite (nth_cut buf b _ B), count_cons. replace (inset (s2l "(") "("%char) with true by reflexivity.
      replace b' with (S b + (b' - S b)) by lia. rewrite <- skip2. pose proof (count_skip (s2l "(") (b' - S b) (skipn (S b) buf)). lia.
    + rewrite (nth_cut buf b _ B), count_cons in F. replace (inset (s2l "(") "("%char) with true in F by reflexivity. lia.
  - rewrite K. destruct (todo_token buf (search + k) c blk K C B) as [T1 T2]. set (buf' := put_nul buf (search + k)) in *.
    assert (GO : forall ch fin par st, fine w (output_loop cur f w buf' ch ch blk fin par st)) by (intros; apply IH; auto; lia).
    assert (FT : forall nt old, fine w (re_file cur w buf' nt old)) by (intros; apply file_total; auto).
    assert (OUT : forall nt (s0 : option (cstr * bool)) fin st1,
      fine w (match s0 with
      | Some _ => Ret (inl PBAT_ALREADY_REDIRECTED, w)
      | None => do (r, w') <- re_file cur w buf' (if negb (prefixb (s2l ">") (str_at buf' nt)) then nt else nt + 1) par;
          match r with
          | None => Ret (inl PBAT_INVALID_REDIRECTION, w')
          | Some (file, ch, par) => output_loop cur f w' buf' ch ch blk fin par (st1 file (negb (prefixb (s2l ">") (str_at buf' nt))))
          end
      end)).
    { intros nt s0 fin0 st1. destruct s0; [apply fine_ret|]. destruct (FT (if negb (prefixb (s2l ">") (str_at buf' nt)) then nt else nt + 1) par) as [(r & ->)|[-> E]]; [|right; auto].
      cbn [bind]. destruct r as [[[file ch0] par0]|]; [apply GO|apply fine_ret]. }
    destruct (ceq c "2"%char && _); [destruct (st_redir st); [apply GO|apply fine_ret|apply fine_ret]|].
    destruct ((ceq c "2"%char || ceq c "1"%char) && _); [destruct (st_redir st); [apply GO|apply fine_ret|apply fine_ret]|].
    destruct (ceq c "2"%char || ceq c "1"%char); [destruct (negb _); [apply GO|]|].
    + destruct (ceq c "2"%char).
      * apply (OUT _ (st_err st) _ (fun file b => mkSt (st_out st) (Some (file, b)) (st_in st) (st_redir st))).
      * apply (OUT _ (st_out st) _ (fun file b => mkSt (Some (file, b)) (st_err st) (st_in st) (st_redir st))).
    + destruct (ceq c ">"%char).
      * destruct (ceq c "2"%char).
        -- apply (OUT _ (st_err st) _ (fun file b => mkSt (st_out st) (Some (file, b)) (st_in st) (st_redir st))).
        -- apply (OUT _ (st_out st) _ (fun file b => mkSt (Some (file, b)) (st_err st) (st_in st) (st_redir st))).
      * destruct (st_in st); [apply fine_ret|]. destruct (FT (search + k + 1) par) as [(r & ->)|[-> E]]; [|right; auto]. cbn [bind].
        destruct r as [[[file ch0] par0]|]; [apply GO|apply fine_ret].
Qed.

Theorem output_total cur w s : x_delayed w = false -> fine w (pBat_ParseOutput cur w s).
Proof.
  intros D. unfold pBat_ParseOutput. destruct (begin_total (S (length s)) s) as (r & R & RR); [lia|]. cbn [pBat_GetNextBlockBeginEx].
  assert (Q : begin_loop (S (length s)) s = Ret r) by exact R. rewrite Q. cbn [bind].
  apply out_total; auto.
  - unfold todo. pose proof (count_sum s). destruct (block_at 0 s r) as [b|]; [pose proof (count_skip (s2l "(") b s)|]; lia.
  - intros b Hb. destruct r as [q|]; [|discriminate]. cbn [block_at] in Hb. injection Hb as <-. destruct RR as ((u & ->) & y & ->).
    cbn [Nat.add]. rewrite offset_app, nth_error_app2, Nat.sub_diag by lia. auto.
Qed.

(** ** A name that is missing *)
Theorem missing_ok cur w t op k a : fop op k -> calm (s2l "12<>") t -> Forall blank a -> nonul (t ++ op ++ a) -> flat (t ++ op ++ a) ->
  pBat_ParseOutput cur w (t ++ op ++ a) = Ret (inl PBAT_INVALID_REDIRECTION, w).
Proof.
  intros O C A N F. unfold pBat_ParseOutput. cbn [pBat_GetNextBlockBeginEx]. rewrite flat_ok by auto. cbn [bind block_at].
  destruct (fop_split op k O) as (c & o & E & I & _). rewrite E. cbn [app].
  pose proof (out_token cur (length (t ++ c :: o ++ a)) w [] [] t c (o ++ a) None [] [] no_redir) as T. cbn [app length] in T.
  rewrite T; auto; [|rewrite E in N; auto|exact Logic.I]. clear T.
  assert (NO : forall x, x = o \/ x = [] \/ x = s2l ">" -> nonul (x ++ a)).
  { intros x X. apply nonul_app in N. destruct N as [_ N]. apply nonul_app in N. destruct N as [N1 N2]. apply nonul_app. split; auto.
    destruct X as [-> |[-> | ->]]; [rewrite E in N1; apply nonul_cons in N1; apply N1|apply nonul_nil|cbv; intuition discriminate]. }
  set (p := t ++ ["000"%char]).
  assert (G : forall u, prefixb (">"%char :: u) a = false).
  { intros u. destruct A as [|x a Bx _]; auto. apply prefixb_gt. intros ->. cbv in Bx. intuition discriminate. }
  assert (P2 : forall u, prefixb (">"%char :: "&"%char :: u) (">"%char :: a) = false).
  { intros u. cbn [prefixb]. rewrite ceq_refl. cbn [andb]. destruct A as [|x a Bx _]; auto. destruct (ceq "&"%char x) eqn:X; auto. apply ceq_true in X. subst x.
    cbv in Bx. intuition discriminate. }
  assert (P3 : forall u, prefixb (">"%char :: "&"%char :: u) (">"%char :: ">"%char :: a) = false) by reflexivity.
  assert (NA : nonul a) by (apply (NO []); auto).
  assert (N1 : nonul (">"%char :: a)) by (apply nonul_cons; split; auto; discriminate).
  assert (S0 : str_at (p ++ a) (length p) = a) by (apply str_here; auto).
  assert (S1 : str_at (p ++ ">"%char :: a) (length p) = ">"%char :: a) by (apply str_here; auto).
  assert (S2 : str_at (p ++ ">"%char :: a) (length p + 1) = a).
  { replace (p ++ ">"%char :: a) with ((p ++ [">"%char]) ++ a) by (rewrite <- app_assoc; auto). apply str_here; auto. rewrite app_length. simpl. lia. }
  assert (S3 : str_at (p ++ ">"%char :: ">"%char :: a) (length p) = ">"%char :: ">"%char :: a)
    by (apply str_here; auto; apply nonul_cons; split; auto; discriminate).
  assert (S4 : str_at (p ++ ">"%char :: ">"%char :: a) (length p + 1) = ">"%char :: a).
  { replace (p ++ ">"%char :: ">"%char :: a) with ((p ++ [">"%char]) ++ ">"%char :: a) by (rewrite <- app_assoc; auto). apply str_here; auto. rewrite app_length. simpl. lia. }
  assert (S5 : str_at (p ++ ">"%char :: ">"%char :: a) (length p + 1 + 1) = a).
  { replace (p ++ ">"%char :: ">"%char :: a) with ((p ++ [">"%char; ">"%char]) ++ a) by (rewrite <- app_assoc; auto). apply str_here; auto. rewrite app_length. simpl. lia. }
  assert (NX : forall old, pBat_GetNextParameterEsD w re_delims old a = Ret (old, None, w)).
  { intros old. destruct (next_ok w re_delims old a quote_re) as [[_ H]|(b & raw & rest & u & H1 & H2 & H3 & H4 & _)]; auto.
    exfalso. destruct (raw ++ rest) as [|x z] eqn:RR; [congruence|]. apply (H3 x z eq_refl). rewrite Forall_forall in A. apply A. rewrite H1. apply in_app_iff. right. left. auto. }
  assert (G1 : forall y, prefixb [">"%char] (">"%char :: y) = true) by (intros y; reflexivity).
  destruct O; cbn in E; injection E as <- <-; unfold tokbody, re_file; cbv zeta; cbn [app];
    repeat match goal with |- context [ceq ?x ?y] => let b := eval vm_compute in (ceq x y) in change (ceq x y) with b end; cbn [andb orb st_out st_err st_in no_redir];
    change (s2l ">&1") with [">"%char; "&"%char; "1"%char]; change (s2l ">&2") with [">"%char; "&"%char; "2"%char]; change (s2l ">") with [">"%char];
    rewrite ?S0, ?S1, ?S2, ?S3, ?S4, ?S5, ?P3; rewrite ?P2, ?G1, ?G; cbn [negb];
    rewrite ?S0, ?S1, ?S2, ?S3, ?S4, ?S5, ?NX; cbn [bind]; reflexivity.
Qed.
