(** StrLib_Proofs.v -- the searches of pBat_String.c against StrLib_Spec. *)

From Verif Require Import Base StrLib_Model StrLib_Spec.

(** ** Protection state *)

Fixpoint est (e : bool) (s : cstr) : bool :=
  match s with
  | [] => e
  | c :: r => est (negb e && Ascii.eqb c "^"%char) r
  end.

Lemma protected_length e s : length (protected_from e s) = length s.
Proof. revert e; induction s as [|c s IH]; intros e; simpl; auto. Qed.

Lemma protected_nth e s n :
  n < length s -> nth_error (protected_from e s) n = Some (est e (firstn n s)).
Proof.
  revert e n; induction s as [|c s IH]; intros e n Hn; simpl in *; [lia|].
  destruct n as [|n]; simpl; auto. apply IH; lia.
Qed.

Lemma est_app e a b : est e (a ++ b) = est (est e a) b.
Proof. revert e; induction a as [|c a IH]; intros e; simpl; auto. Qed.

Lemma protected_skipn e s k :
  skipn k (protected_from e s) = protected_from (est e (firstn k s)) (skipn k s).
Proof.
  revert e s; induction k as [|k IH]; intros e s; [reflexivity|].
  destruct s as [|c s]; simpl; auto.
Qed.

Lemma nth_error_skipn {A} (l : list A) k i : nth_error (skipn k l) i = nth_error l (k + i).
Proof.
  revert l; induction k as [|k IH]; intros [|x l]; simpl; auto.
  destruct i; reflexivity.
Qed.

Lemma caret_ok_negb r b : caret_ok r (negb b) = negb (caret_ok r b).
Proof. revert b; induction r as [|c r IH]; intros b; simpl; auto. destruct (ceq c caret); auto. Qed.

Lemma caret_ok_est l : caret_ok (rev l) true = negb (est false l).
Proof.
  induction l as [|c l IH] using rev_ind; [reflexivity|].
  rewrite rev_app_distr. simpl. rewrite est_app. simpl.
  unfold ceq. change caret with "^"%char.
  destruct (Ascii.eqb c "^"%char).
  - rewrite andb_true_r, negb_involutive.
    change false with (negb true). rewrite caret_ok_negb, IH. simpl. apply negb_involutive.
  - rewrite andb_false_r. reflexivity.
Qed.

(** Protection at an absolute position. *)
Definition E (s : cstr) (k : nat) : bool := est false (firstn k s).

Lemma firstn_S_nth {A} (l : list A) k x :
  nth_error l k = Some x -> firstn (S k) l = firstn k l ++ [x].
Proof.
  revert l; induction k as [|k IH]; intros [|y l] H; simpl in *; try discriminate.
  - congruence.
  - f_equal. apply IH; auto.
Qed.

Lemma E_S s k c : nth_error s k = Some c -> E s (S k) = negb (E s k) && Ascii.eqb c "^"%char.
Proof. intros H. unfold E. rewrite (firstn_S_nth _ _ _ H), est_app. reflexivity. Qed.

Lemma E_0 s : E s 0 = false.
Proof. reflexivity. Qed.

Lemma live_iff p s i :
  live p s i <-> E s i = false /\ exists c, nth_error s i = Some c /\ p c = true.
Proof.
  unfold live, E. split; intros [H1 (c & H2 & H3)].
  - split; eauto. rewrite protected_nth in H1; [congruence|].
    apply nth_error_Some; congruence.
  - split; eauto. rewrite protected_nth; [congruence|].
    apply nth_error_Some; congruence.
Qed.

Lemma live_lt p s i : live p s i -> i < length s.
Proof. intros [_ (c & H & _)]. apply nth_error_Some; congruence. Qed.

Lemma E_skipn s k i : E s k = false -> E (skipn k s) i = E s (k + i).
Proof.
  unfold E. intros H.
  rewrite <- (firstn_skipn k (firstn (k + i) s)), est_app.
  rewrite firstn_firstn, Nat.min_l by lia. rewrite H.
  rewrite firstn_skipn_comm. reflexivity.
Qed.

Lemma live_skipn p s k i : E s k = false -> (live p (skipn k s) i <-> live p s (k + i)).
Proof.
  intros H. rewrite !live_iff, E_skipn, nth_error_skipn by auto. reflexivity.
Qed.

Lemma find_idx_not_live p s n :
  find_idx p s = Some n -> forall j, j < n -> ~ live p s j.
Proof.
  intros H j Hj [_ (c & H1 & H2)].
  apply find_idx_Some in H as (d & _ & _ & H). specialize (H j c Hj H1). congruence.
Qed.

(** ** SearchChar / SearchToken *)

Lemma first_pos_shift (P Q : nat -> Prop) k r :
  (forall j, j < k -> ~ P j) -> (forall j, Q j <-> P (k + j)) ->
  first_pos Q r -> first_pos P (oadd k r).
Proof.
  intros H1 H2 Hr. destruct r as [i|]; simpl in *.
  - destruct Hr as [Hi Hj]. split; [apply H2; auto|].
    intros j Hlt Hp. destruct (lt_dec j k) as [Hk|Hk]; [apply (H1 j); auto|].
    apply (Hj (j - k)); [lia|]. apply H2. replace (k + (j - k)) with j by lia. auto.
  - intros j Hp. destruct (lt_dec j k) as [Hk|Hk]; [apply (H1 j); auto|].
    apply (Hr (j - k)). apply H2. replace (k + (j - k)) with j by lia. auto.
Qed.

Lemma search_loop_spec p fuel s :
  length s < fuel -> exists r, search_loop p fuel s = Ret r /\ first_pos (live p s) r.
Proof.
  revert s; induction fuel as [|fuel IH]; intros s Hf; [lia|].
  cbn [search_loop].
  destruct (find_idx p s) as [n|] eqn:En.
  - pose proof (find_idx_lt _ _ _ En) as Hlt.
    pose proof (find_idx_not_live _ _ _ En) as Hno.
    pose proof (find_idx_Some _ _ _ En) as (c & Hc & Hp & _).
    rewrite caret_ok_est. change (est false (firstn n s)) with (E s n).
    destruct (E s n) eqn:EE; simpl.
    + assert (HS : E s (S n) = false) by (rewrite (E_S _ _ _ Hc), EE; reflexivity).
      destruct (IH (skipn (S n) s)) as (r & Hr & Hfp).
      { rewrite skipn_length. lia. }
      change (match s with [] => [] | _ :: l => skipn n l end) with (skipn (S n) s).
      rewrite Hr. cbn [bind].
      eexists. split; [reflexivity|].
      change (first_pos (live p s) (oadd (S n) r)).
      eapply first_pos_shift; [| |exact Hfp].
      * intros j Hj Hl. destruct (Nat.eq_dec j n) as [->|Hne].
        -- apply live_iff in Hl as [Hl _]. congruence.
        -- apply (Hno j); [lia|auto].
      * intros j. apply live_skipn; auto.
    + exists (Some n). split; auto. split; auto.
      apply live_iff; eauto.
  - exists None. split; auto. intros j [_ (c & Hc & Hp)].
    rewrite find_idx_None in En. apply nth_error_In in Hc. rewrite En in Hp; auto. discriminate.
Qed.

Lemma search_pred_spec p s : first_pos (live p s) (search_pred p s).
Proof.
  destruct (search_loop_spec p (S (length s)) s) as (r & Hr & H); [lia|].
  unfold search_pred. rewrite Hr. exact H.
Qed.

Lemma first_pos_unique P a b : first_pos P a -> first_pos P b -> a = b.
Proof.
  destruct a as [i|], b as [j|]; simpl; intros Ha Hb; auto.
  - destruct Ha as [Ha Ha'], Hb as [Hb Hb'].
    destruct (lt_eq_lt_dec i j) as [[H|H]|H]; [|congruence|].
    + exfalso; apply (Hb' i); auto.
    + exfalso; apply (Ha' j); auto.
  - exfalso. destruct Ha as [Ha _]. apply (Hb i Ha).
  - exfalso. destruct Hb as [Hb _]. apply (Ha j Hb).
Qed.

Lemma last_pos_unique P a b : last_pos P a -> last_pos P b -> a = b.
Proof.
  destruct a as [i|], b as [j|]; simpl; intros Ha Hb; auto.
  - destruct Ha as [Ha Ha'], Hb as [Hb Hb'].
    destruct (lt_eq_lt_dec i j) as [[H|H]|H]; [|congruence|].
    + exfalso; apply (Ha' j); auto.
    + exfalso; apply (Hb' i); auto.
  - exfalso. destruct Ha as [Ha _]. apply (Hb i Ha).
  - exfalso. destruct Hb as [Hb _]. apply (Ha j Hb).
Qed.

(** ** SearchLastChar / SearchLastToken *)

Lemma search_last_loop_spec p fuel s0 base last :
  p "^"%char = false ->
  length s0 - base < fuel -> base <= length s0 ->
  E s0 base = false ->
  last_pos (fun i => live p s0 i /\ i < base) last ->
  exists r, search_last_loop p fuel base last (skipn base s0) = Ret r /\
            last_pos (live p s0) r.
Proof.
  intros Hpc. revert base last.
  induction fuel as [|fuel IH]; intros base last Hf Hb HE Hl; [lia|].
  cbn [search_last_loop].
  set (s := skipn base s0) in *.
  assert (Hlen : length s = length s0 - base) by (unfold s; apply skipn_length).
  destruct (find_idx p s) as [n|] eqn:En.
  - pose proof (find_idx_lt _ _ _ En) as Hlt.
    pose proof (find_idx_not_live _ _ _ En) as Hno.
    pose proof (find_idx_Some _ _ _ En) as (c & Hc & Hp & _).
    rewrite caret_ok_est. change (est false (firstn n s)) with (E s n).
    assert (Hc0 : nth_error s0 (base + n) = Some c)
      by (rewrite <- nth_error_skipn; exact Hc).
    assert (HS : E s0 (base + S n) = false).
    { replace (base + S n) with (S (base + n)) by lia.
      rewrite (E_S _ _ _ Hc0).
      replace (Ascii.eqb c "^"%char) with false by (symmetry; apply Ascii.eqb_neq; congruence).
      apply andb_false_r. }
    assert (Hsk : skipn (S n) s = skipn (base + S n) s0).
    { unfold s. generalize (S n) as k. intros k. clear.
      revert s0; induction base as [|b IHb]; intros s0; [reflexivity|].
      destruct s0; simpl; [destruct k; reflexivity|apply IHb]. }
    rewrite Hsk. apply IH; auto; try lia.
    assert (HEn : E s n = E s0 (base + n)) by (unfold s; apply E_skipn; auto).
    rewrite HEn.
    assert (Hmid : forall j, base <= j -> j < base + n -> ~ live p s0 j).
    { intros j Hj1 Hj2 Hlv. apply (Hno (j - base)); [lia|]. unfold s.
      apply live_skipn; auto. replace (base + (j - base)) with j by lia. auto. }
    destruct (E s0 (base + n)) eqn:EE; simpl.
    + assert (Hnl : ~ live p s0 (base + n)) by (rewrite live_iff; intros [? _]; congruence).
      destruct last as [i|]; simpl in *.
      * destruct Hl as [[Hi1 Hi2] Hi3]. split; [split; [auto|lia]|].
        intros j Hj [Hj1 Hj2]. destruct (lt_dec j base).
        -- apply (Hi3 j); auto.
        -- destruct (Nat.eq_dec j (base + n)) as [->|]; [auto|apply (Hmid j); auto; lia].
      * intros j [Hj1 Hj2]. destruct (lt_dec j base).
        -- apply (Hl j); auto.
        -- destruct (Nat.eq_dec j (base + n)) as [->|]; [auto|apply (Hmid j); auto; lia].
    + split; [split; [apply live_iff; eauto|lia]|]. intros j Hj [_ Hj2]. lia.
  - eexists. split; [reflexivity|].
    assert (Hnone : forall j, base <= j -> ~ live p s0 j).
    { intros j Hj [_ (c & Hc & Hp)]. rewrite find_idx_None in En.
      rewrite (En c) in Hp; [discriminate|]. unfold s.
      apply nth_error_In with (n := j - base). rewrite nth_error_skipn.
      replace (base + (j - base)) with j by lia. auto. }
    destruct last as [i|]; simpl in *.
    + destruct Hl as [[Hi1 Hi2] Hi3]. split; auto. intros j Hj Hlv.
      destruct (lt_dec j base); [apply (Hi3 j); auto|apply (Hnone j); auto; lia].
    + intros j Hlv. destruct (lt_dec j base); [apply (Hl j); auto|apply (Hnone j); auto; lia].
Qed.

Lemma search_last_pred_spec p s :
  p "^"%char = false -> last_pos (live p s) (search_last_pred p s).
Proof.
  intros Hp.
  destruct (search_last_loop_spec p (S (length s)) s 0 None) as (r & Hr & H);
    auto; try lia.
  { intros j [_ Hj]. lia. }
  unfold search_last_pred. simpl skipn in Hr. rewrite Hr. exact H.
Qed.

(** ** UnEscape *)

(** The left-to-right reading of [pBat_UnEscape]: a '^' is dropped and the next
    character kept. *)
Fixpoint unesc (s : cstr) : cstr :=
  match s with
  | [] => []
  | c :: r => if ceq c caret then match r with
                                  | [] => []
                                  | d :: r' => d :: unesc r'
                                  end
              else c :: unesc r
  end.

Lemma unesc_strchr_none s : strchr s caret = None -> unesc s = s.
Proof.
  unfold strchr. rewrite find_idx_None. induction s as [|c s IH]; intros H; simpl; auto.
  rewrite (H c) by (left; auto). f_equal. apply IH. intros d Hd. apply H. right; auto.
Qed.

Lemma unesc_strchr_some s k :
  strchr s caret = Some k -> unesc s = firstn k s ++ unesc (skipn k s).
Proof.
  revert k. induction s as [|c s IH]; intros k H; unfold strchr in *; simpl in H; [discriminate|].
  destruct (ceq c caret) eqn:Ec.
  - injection H as <-. reflexivity.
  - destruct (find_idx _ s) as [n|] eqn:En; [|discriminate]. injection H as <-.
    cbn [unesc firstn skipn]. rewrite Ec. simpl. f_equal. apply IH; auto.
Qed.

Definition unesc_after (s : cstr) : cstr :=
  match s with [] => [] | d :: r => d :: unesc r end.

Lemma unesc_skip s k :
  strchr s caret = Some k -> unesc (skipn k s) = unesc_after (skipn (S k) s).
Proof.
  revert k. induction s as [|c s IH]; intros k H; unfold strchr in *; simpl in H; [discriminate|].
  destruct (ceq c caret) eqn:Ec.
  - injection H as <-. simpl. rewrite Ec. destruct s; reflexivity.
  - destruct (find_idx _ s) as [n|] eqn:En; [|discriminate]. injection H as <-.
    change (skipn (S n) (c :: s)) with (skipn n s).
    change (skipn (S (S n)) (c :: s)) with (skipn (S n) s).
    apply IH; auto.
Qed.

Lemma unescape_loop_ok fuel s :
  length s < fuel -> unescape_loop fuel s = Ret (unesc_after s).
Proof.
  revert s; induction fuel as [|fuel IH]; intros s Hf; [lia|].
  cbn [unescape_loop]. destruct s as [|d r]; [reflexivity|].
  destruct (strchr r caret) as [k|] eqn:Ek.
  - rewrite IH.
    + cbn [bind]. cbn [unesc_after]. rewrite (unesc_strchr_some _ _ Ek), (unesc_skip _ _ Ek).
      reflexivity.
    + rewrite skipn_length. simpl in *. lia.
  - cbn [unesc_after]. rewrite unesc_strchr_none by auto. reflexivity.
Qed.

Lemma pBat_UnEscape_unesc s : pBat_UnEscape s = unesc s.
Proof.
  unfold pBat_UnEscape. destruct (strchr s caret) as [k|] eqn:Ek.
  - rewrite unescape_loop_ok.
    + simpl. rewrite (unesc_strchr_some _ _ Ek), (unesc_skip _ _ Ek). reflexivity.
    + rewrite skipn_length. lia.
  - symmetry; apply unesc_strchr_none; auto.
Qed.

Lemma cstr_ind2 (P : cstr -> Prop) :
  P [] -> (forall c, P [c]) ->
  (forall c d r, P r -> P (d :: r) -> P (c :: d :: r)) -> forall s, P s.
Proof.
  intros H0 H1 H2 s. assert (H : P s /\ forall c, P (c :: s)).
  { induction s as [|c s [IH1 IH2]]; split; auto. }
  apply H.
Qed.

Lemma UnEscape_escaping t s : escaping t s -> pBat_UnEscape s = t.
Proof.
  rewrite pBat_UnEscape_unesc. induction 1 as [|c t s Hc H IH|c t s H IH]; simpl; auto.
  - apply ceq_false in Hc. change "^"%char with caret in Hc. rewrite Hc. congruence.
  - congruence.
Qed.

Lemma UnEscape_total s :
  escaping (pBat_UnEscape s) s \/
  exists s', s = s' ++ ["^"%char] /\ escaping (pBat_UnEscape s) s'.
Proof.
  rewrite pBat_UnEscape_unesc.
  induction s as [|c|c d r IH1 IH2] using cstr_ind2.
  - left. constructor.
  - simpl. destruct (ceq c caret) eqn:Ec.
    + apply ceq_true in Ec. subst. right. exists []. split; auto. constructor.
    + left. apply ceq_false in Ec. constructor; auto. constructor.
  - cbn [unesc]. destruct (ceq c caret) eqn:Ec.
    + apply ceq_true in Ec. subst c. destruct IH1 as [H|(s' & -> & H)].
      * left. constructor; auto.
      * right. exists (caret :: d :: s'). split; auto. constructor; auto.
    + apply ceq_false in Ec. destruct IH2 as [H|(s' & Hs & H)].
      * left. constructor; auto.
      * right. exists (c :: s'). split; [simpl; congruence|]. constructor; auto.
Qed.

(** ** Searches outside quotes *)

Definition is_dq (c : ascii) : bool := Ascii.eqb c """"%char.

Lemma quotes_S s i :
  quotes_before s (S i) =
  quotes_before s i +
  match nth_error s i with
  | Some c => if is_dq c && negb (E s i) then 1 else 0
  | None => 0
  end.
Proof.
  unfold quotes_before, E. generalize false as e. revert s.
  induction i as [|i IH]; intros [|c s] e; simpl.
  - destruct (protected_from e []); reflexivity.
  - unfold is_dq. destruct s; simpl; lia.
  - destruct e; reflexivity.
  - specialize (IH s (negb e && Ascii.eqb c "^"%char)).
    cbn [count_quotes] in IH |- *. rewrite <- Nat.add_assoc, <- IH. reflexivity.
Qed.

Lemma quotes_0 s : quotes_before s 0 = 0.
Proof. unfold quotes_before. destruct s; reflexivity. Qed.

(** A live quote at [i]. *)
Definition lq (s : cstr) (i : nat) : Prop := live is_dq s i.

Lemma quotes_S_lq s i : lq s i -> quotes_before s (S i) = S (quotes_before s i).
Proof.
  intros H. apply live_iff in H as [HE (c & Hc & Hd)].
  rewrite quotes_S, Hc, Hd, HE. simpl. lia.
Qed.

Lemma quotes_S_not s i : ~ lq s i -> quotes_before s (S i) = quotes_before s i.
Proof.
  intros H. rewrite quotes_S. destruct (nth_error s i) as [c|] eqn:Ec; [|lia].
  destruct (is_dq c) eqn:Ed; simpl; [|lia]. destruct (E s i) eqn:EE; simpl; [lia|].
  exfalso. apply H. apply live_iff. eauto.
Qed.

Lemma quotes_const s a b :
  a <= b -> (forall j, a <= j -> j < b -> ~ lq s j) -> quotes_before s b = quotes_before s a.
Proof.
  intros Hab. induction b as [|b IH]; intros H.
  - assert (a = 0) by lia. subst; auto.
  - destruct (Nat.eq_dec a (S b)) as [->|Hne]; auto.
    rewrite quotes_S_not by (apply H; lia). apply IH; [lia|]. intros; apply H; lia.
Qed.

(** [nq] is the first live quote at or after [k]. *)
Definition fq (s : cstr) (k : nat) (nq : option nat) : Prop :=
  match nq with
  | Some q => k <= q /\ lq s q /\ forall j, k <= j -> j < q -> ~ lq s j
  | None => forall j, k <= j -> ~ lq s j
  end.

Lemma next_quote_spec s k : E s k = false -> fq s k (next_quote s k).
Proof.
  intros HE. unfold next_quote.
  pose proof (search_pred_spec (fun x => ceq x dquote) (skipn k s)) as H.
  fold (pBat_SearchChar (skipn k s) dquote) in H.
  change (fun x => ceq x dquote) with is_dq in H.
  destruct (pBat_SearchChar (skipn k s) dquote) as [n|]; simpl in *.
  - destruct H as [H1 H2]. split; [lia|]. split; [apply live_skipn; auto|].
    intros j Hj1 Hj2 Hl. apply (H2 (j - k)); [lia|]. apply live_skipn; auto.
    replace (k + (j - k)) with j by lia. auto.
  - intros j Hj Hl. apply (H (j - k)). apply live_skipn; auto.
    replace (k + (j - k)) with j by lia. auto.
Qed.

Lemma lq_E_S s q : lq s q -> E s (S q) = false.
Proof.
  intros H. apply live_iff in H as [_ (c & Hc & Hd)]. rewrite (E_S _ _ _ Hc).
  apply Ascii.eqb_eq in Hd. subst c. simpl. apply andb_false_r.
Qed.

Lemma quote_loop_spec fuel s k nq nxt i :
  fq s k nq -> k <= S nxt -> length s - k < fuel ->
  i = Nat.even (quotes_before s k) ->
  exists nq' i', quote_loop fuel s nq nxt i = Ret (nq', i') /\
    fq s (S nxt) nq' /\ i' = Nat.even (quotes_before s (S nxt)).
Proof.
  revert k nq i. induction fuel as [|fuel IH]; intros k nq i Hq Hk Hf Hi; [lia|].
  cbn [quote_loop]. destruct nq as [q|].
  - destruct Hq as (Hq1 & Hq2 & Hq3).
    pose proof (live_lt _ _ _ Hq2) as Hlt.
    destruct (q <=? nxt) eqn:Ele.
    + apply Nat.leb_le in Ele.
      apply (IH (S q)); try lia.
      * apply next_quote_spec, lq_E_S; auto.
      * rewrite quotes_S_lq by auto. rewrite Nat.even_succ, <- Nat.negb_even.
        rewrite (quotes_const s k q) by auto. congruence.
    + apply Nat.leb_gt in Ele. exists (Some q), i. split; auto. split.
      * split; [lia|split; [auto|]]. intros j Hj1 Hj2. apply Hq3; lia.
      * rewrite (quotes_const s k (S nxt)); auto. intros j Hj1 Hj2. apply Hq3; lia.
  - exists None, i. split; auto. split.
    + intros j Hj. apply Hq. lia.
    + rewrite (quotes_const s k (S nxt)); auto.
Qed.

Lemma odd_not_even n : Nat.even n = false -> ~ Nat.Even n.
Proof. intros H He. apply Nat.even_spec in He. congruence. Qed.

(** [lia] without the boolean hypotheses, which only slow it down. *)
Ltac nlia := repeat match goal with H : @eq bool _ _ |- _ => clear H end; lia.

Lemma outq_loop_spec fuel p s cur nq :
  p "^"%char = false -> p """"%char = false ->
  E s cur = false -> Nat.even (quotes_before s cur) = true -> fq s cur nq ->
  length s - cur < fuel ->
  (forall j, j < cur -> ~ live_unquoted p s j) ->
  exists r, outq_loop fuel p s cur nq = Ret r /\ first_pos (live_unquoted p s) r.
Proof.
  intros Hpc Hpd. revert cur nq.
  induction fuel as [|fuel IH]; intros cur nq HE HQ Hq Hf Hbefore; [nlia|].
  cbn [outq_loop].
  destruct (find_idx p (skipn cur s)) as [n|] eqn:En.
  2:{ simpl. exists None. split; auto. intros j Hj.
      destruct (lt_dec j cur) as [Hlt|Hge]; [apply (Hbefore j); auto|].
      destruct Hj as [[_ (c & Hc & Hp)] _]. rewrite find_idx_None in En.
      rewrite (En c) in Hp; [discriminate|].
      apply nth_error_In with (n := j - cur). rewrite nth_error_skipn.
      replace (cur + (j - cur)) with j by nlia. auto. }
  cbn [oadd]. set (nxt := cur + n) in *.
  pose proof (find_idx_Some _ _ _ En) as (c & Hc & Hp & Hnot).
  rewrite nth_error_skipn in Hc. fold nxt in Hc.
  assert (Hlt : nxt < length s) by (apply nth_error_Some; congruence).
  assert (Hno : forall j, cur <= j -> j < nxt -> ~ live p s j).
  { intros j Hj1 Hj2 [_ (d & Hd & Hpd')].
    rewrite (Hnot (j - cur) d) in Hpd'; [discriminate|unfold nxt in *; nlia|].
    rewrite nth_error_skipn. replace (cur + (j - cur)) with j by nlia. auto. }
  assert (Hnoall : forall j, j < nxt -> ~ live_unquoted p s j).
  { intros j Hj. destruct (lt_dec j cur); [auto|]. intros [Hl _].
    apply (Hno j); auto; nlia. }
  assert (Hcd : ~ lq s nxt).
  { intros [_ (d & Hd & Hd')]. apply Ascii.eqb_eq in Hd'. congruence. }
  assert (HSn : quotes_before s (S nxt) = quotes_before s nxt) by (apply quotes_S_not; auto).
  assert (Hcs : E s (S nxt) = false).
  { rewrite (E_S _ _ _ Hc).
    replace (Ascii.eqb c "^"%char) with false by (symmetry; apply Ascii.eqb_neq; congruence).
    apply andb_false_r. }
  assert (HEn : caret_ok (rev (firstn (nxt - cur) (skipn cur s))) true = negb (E s nxt)).
  { rewrite caret_ok_est. f_equal.
    change (E (skipn cur s) (nxt - cur) = E s nxt). rewrite E_skipn by auto.
    f_equal. unfold nxt; nlia. }
  (* the common tail *)
  assert (Hcheck : forall nq', fq s (S nxt) nq' ->
     Nat.even (quotes_before s (S nxt)) = true ->
     exists r, (if caret_ok (rev (firstn (nxt - cur) (skipn cur s))) true
                then Ret (Some nxt) else outq_loop fuel p s (S nxt) nq') = Ret r /\
               first_pos (live_unquoted p s) r).
  { intros nq' Hfq Hev. rewrite HEn. destruct (E s nxt) eqn:EE; simpl.
    - apply IH; auto; try nlia. intros j Hj.
      destruct (Nat.eq_dec j nxt) as [->|]; [|apply Hnoall; nlia].
      intros [Hl _]. apply live_iff in Hl as [Hl _]. congruence.
    - exists (Some nxt). split; auto. split; [|auto].
      split; [apply live_iff; eauto|]. apply Nat.even_spec. congruence. }
  destruct nq as [q|].
  - destruct (q <=? nxt) eqn:Ele.
    + apply Nat.leb_le in Ele.
      destruct (quote_loop_spec (S (length s)) s cur (Some q) nxt true)
        as (nq' & i' & Hrun & Hfq & Hi'); auto; try (unfold nxt; nlia).
      rewrite Hrun. cbn [bind]. destruct nq' as [q'|], i'.
      * apply Hcheck; auto.
      * destruct Hfq as (Hq1 & Hq2 & Hq3).
        pose proof (live_lt _ _ _ Hq2) as Hq'lt.
        assert (Hcur' : forall j, nxt <= j -> j <= q' -> quotes_before s j = quotes_before s (S nxt)).
        { intros j Hj1 Hj2. destruct (Nat.eq_dec j nxt) as [->|]; [auto|].
          apply quotes_const; [nlia|]. intros k Hk1 Hk2. apply Hq3; nlia. }
        apply IH; auto; try (unfold nxt in *; nlia).
        -- apply lq_E_S; auto.
        -- rewrite quotes_S_lq by auto. rewrite Nat.even_succ, <- Nat.negb_even.
           rewrite Hcur' by nlia. rewrite <- Hi'. reflexivity.
        -- apply next_quote_spec, lq_E_S; auto.
        -- intros j Hj. destruct (lt_dec j nxt) as [|Hge]; [apply Hnoall; auto|].
           intros [_ Hev]. rewrite Hcur' in Hev by nlia. revert Hev. apply odd_not_even. auto.
      * apply Hcheck; auto.
      * exists None. split; auto. intros j Hlv.
        destruct (lt_dec j nxt) as [|Hge]; [apply (Hnoall j); auto|].
        destruct Hlv as [_ Hev]. revert Hev. apply odd_not_even.
        destruct (Nat.eq_dec j nxt) as [->|]; [congruence|].
        rewrite (quotes_const s (S nxt) j); auto; nlia.
    + apply Nat.leb_gt in Ele. destruct Hq as (Hq1 & Hq2 & Hq3).
      apply Hcheck.
      * split; [nlia|split; [auto|]]. intros j Hj1 Hj2. apply Hq3; unfold nxt in *; nlia.
      * rewrite (quotes_const s cur (S nxt)); auto; [unfold nxt; nlia|].
        intros j Hj1 Hj2. apply Hq3; nlia.
  - apply Hcheck.
    + intros j Hj. apply Hq. unfold nxt in *; nlia.
    + rewrite (quotes_const s cur (S nxt)); auto; unfold nxt; nlia.
Qed.

Lemma search_outq_spec p s :
  p "^"%char = false -> p """"%char = false ->
  first_pos (live_unquoted p s) (search_outq p s).
Proof.
  intros H1 H2.
  destruct (outq_loop_spec (S (length s)) p s 0 (next_quote s 0)) as (r & Hr & H); auto; try lia.
  - rewrite quotes_0. reflexivity.
  - apply next_quote_spec. reflexivity.
  - unfold search_outq. rewrite Hr. exact H.
Qed.

Lemma inset_false set c : inset set c = false <-> ~ In c set.
Proof.
  destruct (inset set c) eqn:Ei.
  - apply inset_In in Ei. split; [discriminate|tauto].
  - split; auto. intros _ H. apply inset_In in H. congruence.
Qed.

(** Hybrid search: first among both kinds. *)
Lemma Hybrid_spec s d q :
  ~ In "^"%char q -> ~ In """"%char q ->
  first_pos (fun i => live (inset d) s i \/ live_unquoted (inset q) s i)
            (pBat_SearchToken_Hybrid s d q).
Proof.
  intros H1 H2.
  pose proof (search_pred_spec (inset d) s) as Ha.
  pose proof (search_outq_spec (inset q) s) as Hb.
  unfold pBat_SearchToken_Hybrid, pBat_SearchToken, pBat_SearchToken_OutQuotes.
  assert (Hb' : first_pos (live_unquoted (inset q) s) (search_outq (inset q) s))
    by (apply Hb; apply inset_false; auto).
  clear Hb. destruct (search_pred (inset d) s) as [a|], (search_outq (inset q) s) as [b|]; simpl in *.
  - destruct Ha as [Ha1 Ha2], Hb' as [Hb1 Hb2]. destruct (b <? a) eqn:El.
    + apply Nat.ltb_lt in El. split; [right; auto|]. intros j Hj [H|H].
      * apply (Ha2 j); auto; lia.
      * apply (Hb2 j); auto.
    + apply Nat.ltb_ge in El. split; [left; auto|]. intros j Hj [H|H].
      * apply (Ha2 j); auto.
      * apply (Hb2 j); auto; lia.
  - destruct Ha as [Ha1 Ha2]. split; auto. intros j Hj [H|H]; [apply (Ha2 j)|apply (Hb' j)]; auto.
  - destruct Hb' as [Hb1 Hb2]. split; auto. intros j Hj [H|H]; [apply (Ha j)|apply (Hb2 j)]; auto.
  - intros j [H|H]; [apply (Ha j)|apply (Hb' j)]; auto.
Qed.

(** StripEndDelims and SkipBlanks. *)
Lemma strip_scan_spec s pos last :
  match strip_scan s pos last with
  | Some n =>
      (Some n = last /\ Forall (fun c => pBat_IsDelim c = true) s) \/
      (exists k, n = pos + k /\ k < length s /\
         Forall (fun c => pBat_IsDelim c = true) (skipn k s) /\
         (forall c, nth_error s (k - 1) = Some c -> 0 < k -> pBat_IsDelim c = false) /\
         (k = 0 -> last = None))
  | None => (s = [] /\ last = None) \/ exists s' c, s = s' ++ [c] /\ pBat_IsDelim c = false
  end.
Proof.
  revert pos last. induction s as [|c s IH]; intros pos last; cbn [strip_scan].
  - destruct last; [left; split; auto|left; auto].
  - destruct (pBat_IsDelim c) eqn:Ec; cbn [negb].
    + specialize (IH (S pos) (match last with None => Some pos | Some _ => last end)).
      destruct (strip_scan s (S pos) _) as [n|].
      * destruct IH as [[H1 H2]|(k & H1 & H2 & H3 & H4 & H5)].
        -- destruct last as [l|].
           ++ left. split; auto.
           ++ right. exists 0. injection H1 as ->. repeat split; simpl; auto; try lia.
        -- right. exists (S k). simpl. repeat split; auto; try lia.
           intros d Hd _. rewrite Nat.sub_0_r in Hd. destruct k as [|k].
           ++ exfalso. specialize (H5 eq_refl). destruct last; discriminate.
           ++ apply H4; [|lia]. simpl in Hd. simpl. rewrite Nat.sub_0_r. auto.
      * destruct IH as [[-> H]|(s' & d & -> & Hd)].
        -- destruct last; discriminate.
        -- right. exists (c :: s'), d. auto.
    + specialize (IH (S pos) None).
      destruct (strip_scan s (S pos) None) as [n|].
      * destruct IH as [[H1 H2]|(k & H1 & H2 & H3 & H4 & H5)]; [discriminate|].
        right. exists (S k). simpl. repeat split; auto; try lia.
        intros d Hd _. rewrite Nat.sub_0_r in Hd. destruct k as [|k].
        -- simpl in Hd. congruence.
        -- apply H4; [|lia]. simpl in *. rewrite Nat.sub_0_r. auto.
      * destruct IH as [[-> H]|(s' & d & -> & Hd)].
        -- right. exists [], c. auto.
        -- right. exists (c :: s'), d. auto.
Qed.

Lemma StripEndDelims_spec s :
  exists t, s = pBat_StripEndDelims s ++ t /\
    Forall (fun c => pBat_IsDelim c = true) t /\
    forall u c, pBat_StripEndDelims s = u ++ [c] -> pBat_IsDelim c = false.
Proof.
  unfold pBat_StripEndDelims. pose proof (strip_scan_spec s 0 None) as H.
  destruct (strip_scan s 0 None) as [n|].
  - destruct H as [[H _]|(k & -> & H2 & H3 & H4 & _)]; [discriminate|].
    simpl plus in *. exists (skipn k s). split; [symmetry; apply firstn_skipn|].
    split; auto. intros u c Hu.
    assert (Hk : length (firstn k s) = k) by (rewrite firstn_length; lia).
    rewrite Hu, app_length in Hk. simpl in Hk.
    apply H4; [|lia]. replace (k - 1) with (length u) by lia.
    rewrite <- (firstn_skipn k s), Hu, nth_error_app1 by (rewrite app_length; simpl; lia).
    rewrite nth_error_app2, Nat.sub_diag by lia. reflexivity.
  - exists []. rewrite app_nil_r. split; auto. split; [constructor|].
    intros u c ->. destruct H as [[H _]|(s' & d & H & Hd)].
    + destruct u; discriminate.
    + apply app_inj_tail in H as [_ ->]. auto.
Qed.

Lemma SkipBlanks_spec s :
  exists t, s = t ++ pBat_SkipBlanks s /\
    Forall (fun c => pBat_IsDelim c = true) t /\
    forall c u, pBat_SkipBlanks s = c :: u -> pBat_IsDelim c = false.
Proof.
  induction s as [|c s (t & H1 & H2 & H3)]; simpl.
  - exists []. repeat split; auto. discriminate.
  - destruct (pBat_IsDelim c) eqn:Ec.
    + exists (c :: t). simpl. repeat split; auto. congruence.
    + exists []. repeat split; auto. intros d u Hd. congruence.
Qed.
