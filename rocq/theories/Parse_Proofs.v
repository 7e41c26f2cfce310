(** Parse_Proofs.v *)

From Verif Require Import Base Lex Num_Proofs StrLib_Model StrLib_Spec StrLib_Proofs Expand_Spec Expand_Proofs
  Args_Spec Args_Proofs Block_Model Block_Spec Block_Proofs Parse_Model Parse_Spec.

Lemma even_add a b : Nat.Even a -> Nat.Even b -> Nat.Even (a + b).
Proof. intros [x ->] [y ->]. exists (x + y). lia. Qed.
Lemma even_sub a b : Nat.Even (a + b) -> Nat.Even a -> Nat.Even b.
Proof. intros [x X] [y Y]. exists (x - y). lia. Qed.

(** ** Text without any of the stops *)
Definition calm (stops t : cstr) : Prop :=
  settled t /\ Nat.Even (quotes_before t (length t)) /\ (forall i, ~ live_unquoted (inset stops) t i).

Lemma count_app a : forall b e i, count_quotes (a ++ b) (protected_from e (a ++ b)) (length a + i) =
  count_quotes a (protected_from e a) (length a) + count_quotes b (protected_from (est e a) b) i.
Proof.
  induction a as [|c a IH]; intros b e i; [simpl; destruct i; auto|]. cbn [app protected_from length Nat.add count_quotes est].
  rewrite IH. lia.
Qed.
Lemma quotes_app2 a b i : settled a -> quotes_before (a ++ b) (length a + i) = quotes_before a (length a) + quotes_before b i.
Proof.
  intros H. unfold quotes_before. rewrite count_app. apply settled_E in H. unfold E in H. rewrite firstn_all in H. rewrite H. auto.
Qed.

Lemma calm_app st a b : calm st a -> calm st b -> calm st (a ++ b).
Proof.
  intros (A1 & A2 & A3) (B1 & B2 & B3). split; [apply settled_app; auto|]. split.
  - rewrite app_length, quotes_app2 by auto. apply even_add; auto.
  - intros i [L Q]. destruct (le_lt_dec (length a) i) as [K|K].
    + replace i with (length a + (i - length a)) in L, Q by lia. apply (B3 (i - length a)). split.
      * apply (live_app2 _ a b); auto.
      * rewrite quotes_app2 in Q by auto. eapply even_sub; eauto.
    + apply (A3 i). split; [apply (live_app1 _ a b); auto|]. rewrite quotes_app_le in Q by lia. auto.
Qed.
Lemma calm_nil st : calm st [].
Proof.
  split; [exists []; constructor|]. split; [exists 0; reflexivity|]. intros i [[_ (c & C & _)] _]. destruct i; discriminate C.
Qed.

Lemma quiet_calm st st' t : quiet st t -> (forall c, In c st' -> In c st) -> calm st' t.
Proof.
  intros (A & B & _ & C) I. split; [exact A|]. split; auto. intros i [[L1 (c & L2 & L3)] L4]. apply (C i). split; auto. split; auto.
  exists c. split; auto. apply inset_In. apply I. apply inset_In. auto.
Qed.

Lemma calm_plain st t : Forall (fun c => ~ In c (caret :: dquote :: st)) t -> calm st t.
Proof.
  induction 1 as [|c t H _ IH]; [apply calm_nil|]. apply (calm_app st [c] t); auto.
  split; [|split].
  - exists [c]. constructor; [|constructor]. intros ->. apply H. left. auto.
  - exists 0. unfold quotes_before. simpl. change (Ascii.eqb c """"%char) with (ceq c dquote).
    rewrite (proj2 (ceq_false c dquote)); auto. intros ->. apply H. right. left. auto.
  - intros i [[_ (d & D1 & D2)] _]. destruct i; [|destruct i; discriminate]. injection D1 as <-. apply inset_In in D2. apply H. right. right. auto.
Qed.

Definition special (c : ascii) : Prop := In c (s2l "^""|&()12<>").
Lemma lead_calm st b : (forall c, In c st -> In c (s2l "|&()12<>")) -> lead_nl b -> calm st b.
Proof.
  intros I B. apply calm_plain. eapply Forall_impl; [|exact B]. cbv beta. intros c C X.
  assert (Y : In c (s2l "^""|&()12<>")) by (destruct X as [<-|[<-|X]]; [cbv; tauto|cbv; tauto|apply I in X; cbv in X; cbv; tauto]).
  clear X. repeat (destruct C as [<-|C]; [cbv in Y; intuition discriminate|]). destruct C.
Qed.

Lemma outq_stop st t c r : stopset st -> calm st t -> In c st -> pBat_SearchToken_OutQuotes (t ++ c :: r) st = Some (length t).
Proof.
  intros [S1 S2] (A & B & C) I. eapply first_pos_unique; [apply (search_outq_spec (inset st)); apply inset_false; auto|]. split.
  - split.
    + apply live_iff. split; [rewrite E_app1 by auto; apply settled_E; auto|]. exists c. split; [|apply inset_In; auto].
      rewrite nth_error_app2, Nat.sub_diag by auto. auto.
    + rewrite quotes_app_le by auto. auto.
  - intros j J [L1 L2]. apply (C j). split; [apply (live_app1 _ t (c :: r)); auto|]. rewrite quotes_app_le in L2 by lia. auto.
Qed.
Lemma outq_none st t : stopset st -> calm st t -> pBat_SearchToken_OutQuotes t st = None.
Proof.
  intros [S1 S2] (A & B & C). eapply first_pos_unique; [apply (search_outq_spec (inset st)); apply inset_false; auto|]. exact C.
Qed.
(** a search that starts with calm text *)
Lemma outq_beyond st t r k : stopset st -> calm st t -> pBat_SearchToken_OutQuotes (t ++ r) st = Some k -> length t <= k.
Proof.
  intros [S1 S2] (A & B & C) H. assert (P : first_pos (live_unquoted (inset st) (t ++ r)) (Some k)).
  { rewrite <- H. apply (search_outq_spec (inset st)); apply inset_false; auto. }
  destruct P as [[L1 L2] _]. destruct (le_lt_dec (length t) k) as [K|K]; auto. exfalso. apply (C k). split.
  - apply (live_app1 _ t r); auto.
  - rewrite quotes_app_le in L2 by lia. auto.
Qed.
(** ... and has a stop at an even place *)
Lemma outq_some st t c r : stopset st -> settled t -> Nat.Even (quotes_before t (length t)) -> In c st ->
  exists k, pBat_SearchToken_OutQuotes (t ++ c :: r) st = Some k.
Proof.
  intros [S1 S2] A B I. destruct (pBat_SearchToken_OutQuotes (t ++ c :: r) st) as [k|] eqn:H; [eauto|]. exfalso.
  assert (P : first_pos (live_unquoted (inset st) (t ++ c :: r)) None).
  { rewrite <- H. apply (search_outq_spec (inset st)); apply inset_false; auto. }
  apply (P (length t)). split.
  - apply live_iff. split; [rewrite E_app1 by auto; apply settled_E; auto|]. exists c. split; [|apply inset_In; auto].
    rewrite nth_error_app2, Nat.sub_diag by auto. auto.
  - rewrite quotes_app_le by auto. auto.
Qed.
Lemma outq_char st t k : stopset st -> pBat_SearchToken_OutQuotes t st = Some k -> exists c, nth_error t k = Some c /\ In c st.
Proof.
  intros [S1 S2] H. assert (P : first_pos (live_unquoted (inset st) t) (Some k)).
  { rewrite <- H. apply (search_outq_spec (inset st)); apply inset_false; auto. }
  destruct P as [[[_ (c & C1 & C2)] _] _]. exists c. split; auto. apply inset_In. auto.
Qed.

Lemma amp_set : stopset (s2l "|&"). Proof. split; intros Y; cbv in Y; intuition discriminate. Qed.

(** Blocks have paired quotes and no '^' pending. *)
Definition tidy (t : cstr) : Prop := settled t /\ Nat.Even (quotes_before t (length t)).
Lemma tidy_calm t : tidy t <-> calm [] t.
Proof. split; [intros [A B]|intros (A & B & _)]; split; auto. split; auto. intros i [[_ (c & _ & C)] _]. discriminate C. Qed.
Lemma tidy_app a b : tidy a -> tidy b -> tidy (a ++ b).
Proof. rewrite !tidy_calm. apply calm_app. Qed.
Lemma tidy_char c : c <> caret -> c <> dquote -> tidy [c].
Proof. intros A B. apply tidy_calm. apply calm_plain. constructor; [|constructor]. simpl. intuition congruence. Qed.
Lemma tidy_cons c t : c <> caret -> c <> dquote -> tidy t -> tidy (c :: t).
Proof. intros A B C. apply (tidy_app [c]); auto. apply tidy_char; auto. Qed.
Lemma quiet_tidy st t : quiet st t -> tidy t.
Proof. intros (A & B & _). split; auto. Qed.
Lemma lead_tidy b : lead b -> tidy b.
Proof.
  intros B. apply tidy_calm. apply (lead_calm [] b); [intros c []|]. eapply Forall_impl; [|exact B]. cbv beta. intros c C. cbv in C. cbv. tauto.
Qed.
Lemma inner_tidy : (forall i, inner i -> tidy i) /\ (forall par l, line par l -> tidy l) /\ (forall par t, text par t -> tidy t).
Proof.
  apply blocks_ind; intros.
  - auto.
  - apply tidy_app; auto. apply tidy_cons; auto; intros ->; match goal with X : In _ ("010"%char :: _) |- _ => cbv in X; intuition discriminate end.
  - apply tidy_app; [apply lead_tidy; auto|]. apply tidy_cons; try discriminate. apply tidy_app; auto. apply tidy_cons; try discriminate.
    apply tidy_cons; auto; intros ->; match goal with X : In _ (_ ++ _) |- _ => cbv in X; intuition discriminate end.
  - apply tidy_app; [apply lead_tidy; auto|]. eapply quiet_tidy; eauto.
  - apply tidy_app; [apply lead_tidy; auto|]. apply tidy_cons; try discriminate. apply tidy_app; auto. apply tidy_char; discriminate.
  - apply tidy_app; [apply lead_tidy; auto|]. auto.
  - eapply quiet_tidy; eauto.
  - apply tidy_app; [eapply quiet_tidy; eauto|]. apply tidy_cons; try discriminate. apply tidy_app; auto. apply tidy_cons; auto; discriminate.
Qed.

(** ** The next parenthesis *)
Definition nextp (x : cstr) : option cstr :=
  match pBat_SearchToken_Hybrid x [] (s2l "()") with
  | Some n => match skipn n x with c :: t => if ceq c "("%char then Some (c :: t) else None | [] => None end
  | None => None
  end.
Lemma nextp_eq x : pBat_GetNextBlockBeginEx x true = Ret (nextp x).
Proof. reflexivity. Qed.

Lemma par_set : stopset (s2l "()"). Proof. split; intros Y; cbv in Y; intuition discriminate. Qed.
Lemma hybrid_nil x st : stopset st -> pBat_SearchToken_Hybrid x [] st = pBat_SearchToken_OutQuotes x st.
Proof.
  intros [S1 S2]. eapply first_pos_unique; [apply Hybrid_spec; auto|].
  assert (P : first_pos (live_unquoted (inset st) x) (pBat_SearchToken_OutQuotes x st)) by (apply (search_outq_spec (inset st)); apply inset_false; auto).
  assert (N : forall i, ~ live (inset []) x i) by (intros i [_ (c & _ & C)]; discriminate C).
  destruct (pBat_SearchToken_OutQuotes x st); simpl in *.
  - destruct P as [P1 P2]. split; [right; auto|]. intros j J [L|L]; [eapply N; eauto|eapply P2; eauto].
  - intros j [L|L]; [eapply N; eauto|eapply P; eauto].
Qed.

(** text before it does not change the answer *)
Lemma outq_shift st t x : stopset st -> calm st t -> pBat_SearchToken_OutQuotes (t ++ x) st = oadd (length t) (pBat_SearchToken_OutQuotes x st).
Proof.
  intros [S1 S2] (A & B & C).
  assert (P : first_pos (live_unquoted (inset st) x) (pBat_SearchToken_OutQuotes x st)) by (apply (search_outq_spec (inset st)); apply inset_false; auto).
  eapply first_pos_unique; [apply (search_outq_spec (inset st)); apply inset_false; auto|].
  assert (Sh : forall j, live_unquoted (inset st) (t ++ x) (length t + j) <-> live_unquoted (inset st) x j).
  { intros j. unfold live_unquoted. rewrite live_app2, quotes_app2 by auto. split; intros [X Y]; split; auto.
    - eapply even_sub; eauto.
    - apply even_add; auto. }
  assert (Lo : forall j, j < length t -> ~ live_unquoted (inset st) (t ++ x) j).
  { intros j J [L1 L2]. apply (C j). split; [apply (live_app1 _ t x); auto|]. rewrite quotes_app_le in L2 by lia. auto. }
  destruct (pBat_SearchToken_OutQuotes x st) as [k|]; simpl in *.
  - destruct P as [P1 P2]. split; [apply Sh; auto|]. intros j J L. destruct (le_lt_dec (length t) j) as [K|K]; [|eapply Lo; eauto].
    apply (P2 (j - length t)); [lia|]. apply Sh. replace (length t + (j - length t)) with j by lia. auto.
  - intros j L. destruct (le_lt_dec (length t) j) as [K|K]; [|eapply Lo; eauto].
    apply (P (j - length t)). apply Sh. replace (length t + (j - length t)) with j by lia. auto.
Qed.

Lemma nextp_app t x : calm (s2l "()") t -> nextp (t ++ x) = nextp x.
Proof.
  intros C. unfold nextp. rewrite !hybrid_nil, outq_shift by (auto using par_set).
  destruct (pBat_SearchToken_OutQuotes x (s2l "()")) as [k|]; simpl; auto. rewrite skipn_app, skipn_all2 by lia.
  replace (length t + k - length t) with k by lia. auto.
Qed.
Lemma nextp_open r : nextp ("("%char :: r) = Some ("("%char :: r).
Proof.
  unfold nextp. rewrite hybrid_nil by apply par_set.
  pose proof (outq_stop (s2l "()") [] "("%char r par_set (calm_nil _) ltac:(cbv; tauto)) as H. cbn [app length] in H. rewrite H. reflexivity.
Qed.
Lemma nextp_suffix x q : nextp x = Some q -> suffix q x /\ exists y, q = "("%char :: y.
Proof.
  unfold nextp. destruct (pBat_SearchToken_Hybrid _ _ _) as [n|]; [|discriminate]. pose proof (suffix_skipn n x) as S.
  destruct (skipn n x) as [|c t]; [discriminate|]. destruct (ceq c "("%char) eqn:C; [|discriminate]. intros [= <-]. split; auto.
  apply ceq_true in C. subst. eauto.
Qed.

(** ** Steps over the operators *)
Definition before (blk : option nat) (n : nat) : Prop := match blk with Some b => n < b | None => True end.
Lemma before_spec blk n : before blk n -> match blk with Some b => if b <=? n then Some b else None | None => None end = None.
Proof. destruct blk as [b|]; auto. simpl. intros H. destruct (Nat.leb_spec b n); auto. lia. Qed.

Lemma char_at_here p c r d : char_at (p ++ c :: r) (length p) d = ceq c d.
Proof. unfold char_at. rewrite nth_error_app2, Nat.sub_diag by auto. auto. Qed.

Lemma ops_redir f s p t r ch blk ty acc : s = p ++ t ++ s2l ">&" ++ r -> calm (s2l "|&") (t ++ s2l ">") ->
  before blk (length p + length t + 1) ->
  ops_loop (S f) s ch (length p) blk ty acc = ops_loop f s ch (length p + length t + 2) blk ty acc.
Proof.
  intros S C B. cbn [ops_loop]. rewrite S at 1. rewrite Estr_Proofs.skipn_app_len by auto.
  replace (t ++ s2l ">&" ++ r) with ((t ++ s2l ">") ++ "&"%char :: r) by (rewrite <- app_assoc; reflexivity).
  rewrite (outq_stop _ _ _ _ amp_set C) by (cbv; tauto). rewrite app_length. cbn [length s2l list_ascii_of_string].
  rewrite Nat.add_assoc, before_spec by auto.
  assert (X : s = (p ++ t ++ s2l ">") ++ "&"%char :: r) by (rewrite S, <- !app_assoc; reflexivity).
  assert (Y : s = (p ++ t) ++ ">"%char :: "&"%char :: r) by (rewrite S, <- !app_assoc; reflexivity).
  replace (char_at s (length p + length t + 1) "&"%char) with true.
  2:{ rewrite X at 1. replace (length p + length t + 1) with (length (p ++ t ++ s2l ">")) by (rewrite !app_length; simpl; lia).
      rewrite char_at_here. reflexivity. }
  replace (1 <=? length p + length t + 1) with true by (symmetry; apply Nat.leb_le; lia).
  replace (length p + length t + 1 - 1) with (length (p ++ t)) by (rewrite app_length; lia).
  replace (char_at s (length (p ++ t)) ">"%char) with true by (rewrite Y, char_at_here; reflexivity).
  cbn [andb]. f_equal. lia.
Qed.

Lemma last_char (s u : cstr) d : char_at (u ++ s) (length u - 1) d = true -> 1 <= length u -> exists v, u = v ++ [d].
Proof.
  intros H L. destruct (exists_last (l := u)) as (v & c & ->); [destruct u; [simpl in L; lia|discriminate]|].
  rewrite app_length in H. cbn [length] in H. replace (length v + 1 - 1) with (length v) in H by lia.
  rewrite <- app_assoc in H. cbn [app] in H. rewrite char_at_here in H. apply ceq_true in H. subst. eauto.
Qed.

Lemma starts_char c r : starts_with c r <-> char_at r 0 c = true.
Proof.
  unfold starts_with, char_at. destruct r as [|d r]; simpl; split; try discriminate; try (intros (x & X); discriminate).
  - intros (x & X). injection X as -> _. apply ceq_refl.
  - intros H. apply ceq_true in H. subst. eauto.
Qed.
Lemma char_at_app p r i c : char_at (p ++ r) (length p + i) c = char_at r i c.
Proof. unfold char_at. rewrite nth_error_app2 by lia. replace (length p + i - length p) with i by lia. auto. Qed.

Lemma op_split n : exists c y, op_text n = c :: y /\ In c (s2l "|&").
Proof. destruct n; eexists; eexists; (split; [reflexivity|cbv; tauto]). Qed.

Lemma op_size n : 1 <= length (op_text n).
Proof. destruct n; simpl; lia. Qed.

Lemma ops_op f s p t n r ch blk ty acc : s = p ++ t ++ op_text n ++ r -> calm (s2l "|&") t -> before blk (length p + length t) ->
  (n = NODE_NONE \/ n = NODE_YES -> ~ ends_gt (p ++ t)) ->
  (n = NODE_NONE -> ~ starts_with "&"%char r) -> (n = NODE_PIPE -> ~ starts_with "|"%char r) ->
  ops_loop (S f) s ch (length p) blk ty acc =
  ops_loop f s (length p + length t + length (op_text n)) (length p + length t + length (op_text n)) blk n
    ((ty, firstn (length p + length t - ch) (skipn ch s)) :: acc).
Proof.
  intros S C B G1 G2 G3. cbn [ops_loop]. rewrite S at 1. rewrite Estr_Proofs.skipn_app_len by auto.
  destruct (op_split n) as (c & y & O & I). rewrite O. cbn [app].
  rewrite (outq_stop _ _ _ _ amp_set C) by auto. rewrite before_spec by auto.
  assert (X : s = (p ++ t) ++ op_text n ++ r) by (rewrite S, <- app_assoc; auto).
  assert (Z : forall i d, char_at s (length p + length t + i) d = char_at (op_text n ++ r) i d).
  { intros i d. rewrite X at 1. replace (length p + length t + i) with (length (p ++ t) + i) by (rewrite app_length; lia). apply char_at_app. }
  assert (Z0 : forall d, char_at s (length p + length t) d = char_at (op_text n ++ r) 0 d) by (intros d; rewrite <- Z; f_equal; lia).
  assert (W : n = NODE_NONE \/ n = NODE_YES -> (1 <=? length p + length t) && char_at s (length p + length t - 1) ">"%char = false).
  { intros N. destruct (Nat.leb_spec 1 (length p + length t)) as [L|L]; auto. cbn [andb].
    destruct (char_at s (length p + length t - 1) ">"%char) eqn:G; auto. exfalso. apply (G1 N).
    rewrite X in G. replace (length p + length t - 1) with (length (p ++ t) - 1) in G by (rewrite app_length; lia).
    apply last_char in G; [exact G|rewrite app_length; lia]. }
  rewrite !Z0, !Z. rewrite <- Bool.andb_assoc.
  destruct n; cbn [op_text app] in *; injection O as <- <-.
  - rewrite W by auto. rewrite Bool.andb_false_r.
    replace (char_at (s2l "&" ++ r) 0 "|"%char) with false by reflexivity.
    replace (char_at (s2l "&" ++ r) 1 "&"%char) with false; [reflexivity|]. symmetry. change (char_at r 0 "&"%char = false).
    destruct (char_at r 0 "&"%char) eqn:K; auto. exfalso. apply G2; auto. apply starts_char. auto.
  - rewrite W by auto. rewrite Bool.andb_false_r. reflexivity.
  - reflexivity.
  - replace (char_at (s2l "|" ++ r) 0 "&"%char) with false by reflexivity. cbn [andb].
    replace (char_at (s2l "|" ++ r) 0 "|"%char) with true by reflexivity.
    replace (char_at (s2l "|" ++ r) 1 "|"%char) with false; [reflexivity|]. symmetry. change (char_at r 0 "|"%char = false).
    destruct (char_at r 0 "|"%char) eqn:K; auto. exfalso. apply G3; auto. apply starts_char. auto.
Qed.

Lemma ops_end f s p ch blk ty acc x : s = p ++ x -> calm (s2l "|&") x -> 
  ops_loop (S f) s ch (length p) blk ty acc = Ret (Some (rev acc ++ [(ty, skipn ch s)])).
Proof.
  intros S C. cbn [ops_loop]. rewrite S at 1. rewrite Estr_Proofs.skipn_app_len, (outq_none _ _ amp_set C) by auto. reflexivity.
Qed.

Lemma offset_app (p q : cstr) : offset_of (p ++ q) q = length p.
Proof. unfold offset_of. rewrite app_length. lia. Qed.

Lemma ops_block f s p t i r ch ty acc : s = p ++ t ++ "("%char :: i ++ ")"%char :: r -> calm (s2l "|&") t -> inner i ->
  let K := ops_loop (S f) s ch (length p) (Some (length p + length t)) ty acc in
  (pBat_SearchToken_OutQuotes (t ++ "("%char :: i ++ ")"%char :: r) (s2l "|&") = None /\
   K = Ret (Some (rev acc ++ [(ty, skipn ch s)]))) \/
  K = ops_loop f s ch (length p + length t + 1 + length i) (option_map (offset_of s) (nextp r)) ty acc.
Proof.
  intros S C I K. unfold K. clear K. cbn [ops_loop].
  assert (U : skipn (length p) s = t ++ "("%char :: i ++ ")"%char :: r) by (rewrite S; apply Estr_Proofs.skipn_app_len; auto).
  rewrite U.
  destruct (pBat_SearchToken_OutQuotes _ (s2l "|&")) as [k|] eqn:F.
  - right.
    assert (L : length t <= k) by (eapply outq_beyond; [apply amp_set|exact C|exact F]).
    replace (length p + length t <=? length p + k) with true by (symmetry; apply Nat.leb_le; lia).
    assert (X : s = (p ++ t) ++ "("%char :: i ++ ")"%char :: r) by (rewrite S, <- app_assoc; auto).
    assert (Q : skipn (length p + length t) s = "("%char :: i ++ ")"%char :: r) by (rewrite X; apply Estr_Proofs.skipn_app_len; rewrite app_length; auto).
    cbv beta iota zeta. rewrite Q. cbn [pBat_GetNextBlockEnd]. replace (ceq "("%char "("%char) with true by reflexivity.
    rewrite (proj1 blocks_ok i I) by (unfold scan_fuel; cbn [length]; rewrite app_length; cbn [length]; lia). cbn [bind].
    assert (Y : s = (p ++ t ++ "("%char :: i) ++ ")"%char :: r) by (rewrite S, <- !app_assoc; auto).
    assert (O : offset_of s (")"%char :: r) = length p + length t + 1 + length i).
    { rewrite Y, offset_app, !app_length. cbn [length]. lia. }
    rewrite O. assert (W : skipn (length p + length t + 1 + length i + 1) s = r).
    { rewrite Y. replace ((p ++ t ++ "("%char :: i) ++ ")"%char :: r) with ((p ++ t ++ "("%char :: i ++ [")"%char]) ++ r)
        by (rewrite <- !app_assoc; cbn [app]; rewrite <- !app_assoc; reflexivity).
      apply Estr_Proofs.skipn_app_len. rewrite !app_length. cbn [length]. rewrite app_length. cbn [length]. lia. }
    rewrite W, nextp_eq. cbn [bind]. f_equal. destruct (nextp r) as [q|] eqn:N; auto. cbn [block_at option_map]. f_equal.
    apply nextp_suffix in N. destruct N as [(a & A) _]. unfold offset_of. rewrite Y, A, !app_length. cbn [length]. rewrite !app_length. lia.
  - left. split; auto.
Qed.

Lemma joined_cons n t l : joined ((n, t) :: l) = op_text n ++ t ++ joined l.
Proof. unfold joined. cbn [map concat]. rewrite <- app_assoc. auto. Qed.
Lemma op_calm n : calm (s2l "()") (op_text n).
Proof. apply calm_plain. destruct n; repeat (apply Forall_cons || apply Forall_nil); cbv; intuition discriminate. Qed.
Lemma gt_calm st : ~ In ">"%char st -> ~ In "&"%char st -> calm st (s2l ">&").
Proof. intros A B. apply calm_plain. repeat (apply Forall_cons || apply Forall_nil); intros [X|[X|X]]; try discriminate X; auto. Qed.

Lemma btext_tidy r : btext r -> tidy r.
Proof.
  induction 1 as [t Q|t i r Q I R IH|t r Q R IH].
  - eapply quiet_tidy; eauto.
  - apply tidy_app; [eapply quiet_tidy; eauto|]. apply tidy_cons; try discriminate. apply tidy_app; [apply inner_tidy; auto|].
    apply tidy_cons; auto; discriminate.
  - apply quiet_tidy in Q. replace (t ++ s2l ">&" ++ r) with ((t ++ s2l ">") ++ "&"%char :: r) by (rewrite <- app_assoc; auto).
    apply tidy_app; auto. apply tidy_cons; auto; discriminate.
Qed.

Lemma in_stops1 (x : string) c : In c (s2l "|&") -> In c (s2l "()&|").
Proof. cbv. tauto. Qed.

(** a string of even length up to an operator *)
Lemma ops_found x n y : tidy x -> pBat_SearchToken_OutQuotes (x ++ op_text n ++ y) (s2l "|&") <> None.
Proof.
  intros [A B] H. destruct (op_split n) as (c & z & O & I). rewrite O in H. cbn [app] in H.
  destruct (outq_some (s2l "|&") x c (z ++ y) amp_set A B I) as (k & K). congruence.
Qed.

Ltac alen H :=
  cbn [length] in H; repeat (rewrite !app_length in H; cbn [length s2l list_ascii_of_string] in H);
  cbn [length]; repeat (rewrite !app_length; cbn [length s2l list_ascii_of_string]); lia.

(** text behind the first block *)
Definition ops_btext_ok (l : list (node * cstr)) (r : cstr) : Prop := forall s pre cur d f ty acc,
  s = pre ++ cur ++ d ++ r ++ joined l -> (d = [] \/ d = [")"%char]) ->
  clear_ops (cur ++ d ++ r) l -> ~ ends_gt pre ->
  length (d ++ r ++ joined l) < f ->
  ops_loop f s (length pre) (length (pre ++ cur)) (option_map (offset_of s) (nextp (r ++ joined l))) ty acc
  = Ret (Some (rev acc ++ (ty, cur ++ d ++ r) :: l)).

Lemma d_calm (d : cstr) st : d = [] \/ d = [")"%char] -> ~ In ")"%char st -> calm st d.
Proof.
  intros [->| ->] H; [apply calm_nil|]. apply calm_plain. repeat (apply Forall_cons || apply Forall_nil).
  intros [X|[X|X]]; try discriminate X; auto.
Qed.
Lemma par_amp : ~ In ")"%char (s2l "|&").
Proof. cbv. intuition discriminate. Qed.

Lemma ops_btext_gen l : (forall t, quiet (s2l "()&|") t -> ops_btext_ok l t) -> forall r, btext r -> ops_btext_ok l r.
Proof.
  intros Base r R. induction R as [t Q|t i r Q I R IH|t r Q R IH]; [apply Base; auto| |]; intros s pre cur d f ty acc S D O G F; (destruct f as [|f]; [lia|]).
  - assert (CC : calm (s2l "|&") (d ++ t)).
    { apply calm_app; [apply d_calm; auto using par_amp|eapply quiet_calm; [exact Q|apply (in_stops1 "")]]. }
    assert (N : nextp ((t ++ "("%char :: i ++ ")"%char :: r) ++ joined l) = Some ("("%char :: i ++ ")"%char :: r ++ joined l)).
    { rewrite <- app_assoc. cbn [app]. rewrite nextp_app, nextp_open; [rewrite <- app_assoc; auto|].
      eapply quiet_calm; [exact Q|]. intros c C. cbv in C. cbv. tauto. }
    rewrite N. cbn [option_map].
    assert (X : s = (pre ++ cur) ++ (d ++ t) ++ "("%char :: i ++ ")"%char :: r ++ joined l) by (rewrite S; repeat (rewrite <- app_assoc; cbn [app]); auto).
    assert (Y : offset_of s ("("%char :: i ++ ")"%char :: r ++ joined l) = length (pre ++ cur) + length (d ++ t)).
    { rewrite X, app_assoc, offset_app, app_length. auto. }
    rewrite Y. destruct (ops_block f s (pre ++ cur) (d ++ t) i (r ++ joined l) (length pre) ty acc X CC I) as [[NF K]|K]; rewrite K.
    + destruct l as [|[n u] l].
      * f_equal. f_equal. f_equal. f_equal. f_equal. rewrite S. rewrite Estr_Proofs.skipn_app_len by auto. cbn [joined map concat]. rewrite app_nil_r. auto.
      * exfalso. rewrite joined_cons in NF.
        apply (ops_found ((d ++ t) ++ "("%char :: i ++ ")"%char :: r) n (u ++ joined l)).
        -- apply tidy_app; [destruct CC as (C1 & C2 & _); split; auto|]. apply tidy_cons; try discriminate. apply tidy_app; [apply inner_tidy; auto|].
           apply tidy_cons; try discriminate. apply btext_tidy. auto.
        -- rewrite <- NF. f_equal. repeat (rewrite <- app_assoc; cbn [app]). auto.
    + replace (length (pre ++ cur) + length (d ++ t) + 1 + length i) with (length (pre ++ (cur ++ (d ++ t) ++ "("%char :: i)))
        by (rewrite !app_length; cbn [length]; lia).
      rewrite (IH s pre (cur ++ (d ++ t) ++ "("%char :: i) [")"%char]); auto.
      * f_equal. f_equal. f_equal. f_equal. f_equal. repeat (rewrite <- app_assoc; cbn [app]). auto.
      * rewrite X. repeat (rewrite <- app_assoc; cbn [app]). auto.
      * replace ((cur ++ (d ++ t) ++ "("%char :: i) ++ [")"%char] ++ r) with (cur ++ d ++ t ++ "("%char :: i ++ ")"%char :: r) by (repeat (rewrite <- app_assoc; cbn [app]); auto). auto.
      * alen F.
  - assert (C1 : calm (s2l "|&") ((d ++ t) ++ s2l ">")).
    { rewrite <- app_assoc. apply calm_app; [apply d_calm; auto using par_amp|eapply quiet_calm; [exact Q|apply (in_stops1 "")]]. }
    assert (X : s = (pre ++ cur) ++ (d ++ t) ++ s2l ">&" ++ r ++ joined l) by (rewrite S; repeat (rewrite <- app_assoc; cbn [app]); auto).
    assert (N : nextp ((t ++ s2l ">&" ++ r) ++ joined l) = nextp (r ++ joined l)).
    { replace ((t ++ s2l ">&" ++ r) ++ joined l) with ((t ++ s2l ">") ++ [ "&"%char ] ++ r ++ joined l) by (repeat (rewrite <- app_assoc; cbn [app s2l list_ascii_of_string]); auto).
      rewrite nextp_app by (eapply quiet_calm; [exact Q|]; intros c C; cbv in C; cbv; tauto).
      apply nextp_app. apply calm_plain. repeat (apply Forall_cons || apply Forall_nil). cbv; intuition discriminate. }
    rewrite N, (ops_redir f s (pre ++ cur) (d ++ t) (r ++ joined l) (length pre) _ ty acc X C1).
    + replace (length (pre ++ cur) + length (d ++ t) + 2) with (length (pre ++ (cur ++ (d ++ t) ++ s2l ">&")))
        by (rewrite !app_length; simpl; lia).
      rewrite (IH s pre (cur ++ (d ++ t) ++ s2l ">&") []); auto.
      * f_equal. f_equal. f_equal. f_equal. f_equal. repeat (rewrite <- app_assoc; cbn [app]). auto.
      * rewrite X. repeat (rewrite <- app_assoc; cbn [app]). auto.
      * replace ((cur ++ (d ++ t) ++ s2l ">&") ++ [] ++ r) with (cur ++ d ++ t ++ s2l ">&" ++ r) by (repeat (rewrite <- app_assoc; cbn [app]); auto). auto.
      * alen F.
    + destruct (nextp (r ++ joined l)) as [q|] eqn:Z; cbn [option_map before]; auto. apply nextp_suffix in Z. destruct Z as [Z _].
      apply suffix_len in Z. unfold offset_of. rewrite X, !app_length in *. cbn [length] in *. simpl. lia.
Qed.

Lemma ends_op p n : ~ ends_gt (p ++ op_text n).
Proof.
  intros (u & U). assert (H : exists v c, op_text n = v ++ [c] /\ c <> ">"%char).
  { destruct n; [exists [], "&"%char|exists (s2l "&"), "&"%char|exists (s2l "|"), "|"%char|exists [], "|"%char]; split; auto; discriminate. }
  destruct H as (v & c & V & N). rewrite V, app_assoc in U. apply app_inj_tail in U. destruct U as [_ U]. auto.
Qed.
Lemma ends_app p t : ~ ends_gt p -> ~ ends_gt t -> ~ ends_gt (p ++ t).
Proof.
  intros A B (u & U). destruct t as [|c t]; [rewrite app_nil_r in U; apply A; exists u; auto|].
  destruct (exists_last (l := c :: t)) as (v & e & V); [discriminate|]. rewrite V, app_assoc in U. apply app_inj_tail in U. destruct U as [_ ->].
  apply B. exists v. auto.
Qed.

Lemma cut_here (pre t x : cstr) : firstn (length pre + length t - length pre) (skipn (length pre) (pre ++ t ++ x)) = t.
Proof. rewrite Estr_Proofs.skipn_app_len by auto. replace (length pre + length t - length pre) with (length t) by lia. apply Estr_Proofs.firstn_app_len. auto. Qed.

Lemma ops_btexts l : Forall btext (map snd l) -> forall r, btext r -> ops_btext_ok l r.
Proof.
  induction l as [|[n u] l IHl]; intros L; apply ops_btext_gen; intros t Q s pre cur d f ty acc S D O G F; (destruct f as [|f]; [lia|]).
  - rewrite (ops_end f s (pre ++ cur) (length pre) _ ty acc (d ++ t)).
    + f_equal. f_equal. f_equal. f_equal. f_equal. rewrite S. rewrite Estr_Proofs.skipn_app_len by auto. cbn [joined map concat]. rewrite app_nil_r. auto.
    + rewrite S. cbn [joined map concat]. rewrite app_nil_r, <- app_assoc. auto.
    + apply calm_app; [apply d_calm; auto using par_amp|eapply quiet_calm; [exact Q|apply (in_stops1 "")]].
  - cbn [map] in L. apply Forall_cons_iff in L. destruct L as [L1 L2]. cbn [snd] in L1. cbn [clear_ops] in O. destruct O as (O1 & O2 & O3 & O4).
    rewrite joined_cons in S, F |- *.
    assert (X : s = (pre ++ cur) ++ (d ++ t) ++ op_text n ++ u ++ joined l) by (rewrite S, <- !app_assoc; auto).
    assert (N : nextp (t ++ op_text n ++ u ++ joined l) = nextp (u ++ joined l)).
    { rewrite nextp_app by (eapply quiet_calm; [exact Q|]; intros c C; cbv in C; cbv; tauto). apply nextp_app. apply op_calm. }
    rewrite N.
    rewrite (ops_op f s (pre ++ cur) (d ++ t) n (u ++ joined l) (length pre) _ ty acc X); auto.
    + replace (length (pre ++ cur) + length (d ++ t) + length (op_text n)) with (length (pre ++ cur ++ d ++ t ++ op_text n)) by (rewrite !app_length; lia).
      assert (H := IHl L2 u L1 s (pre ++ cur ++ d ++ t ++ op_text n) [] [] f n
        ((ty, firstn (length (pre ++ cur) + length (d ++ t) - length pre) (skipn (length pre) s)) :: acc)).
      rewrite app_nil_r in H. rewrite H; auto.
      * cbn [rev app]. rewrite <- !app_assoc. cbn [app]. f_equal. f_equal. f_equal. f_equal. f_equal.
        replace (length (pre ++ cur) + length (d ++ t) - length pre) with (length pre + length (cur ++ d ++ t) - length pre) by (rewrite !app_length; lia).
        rewrite S. replace (pre ++ cur ++ d ++ t ++ op_text n ++ u ++ joined l) with (pre ++ (cur ++ d ++ t) ++ op_text n ++ u ++ joined l) by (rewrite <- !app_assoc; auto).
        apply cut_here.
      * rewrite S. cbn [app]. rewrite <- !app_assoc. auto.
      * rewrite !app_assoc. apply ends_op.
      * pose proof (op_size n). alen F.
    + apply calm_app; [apply d_calm; auto using par_amp|eapply quiet_calm; [exact Q|apply (in_stops1 "")]].
    + destruct (nextp (u ++ joined l)) as [q|] eqn:Z; cbn [option_map before]; auto. apply nextp_suffix in Z. destruct Z as [Z _].
      apply suffix_len in Z. pose proof (op_size n). unfold offset_of. rewrite X. alen Z.
    + intros N'. rewrite <- app_assoc. apply ends_app; auto.
Qed.

(** ** Commands without blocks *)
Lemma command_calm_head b t : lead_nl b -> calm (s2l "|&") t -> calm (s2l "|&") (b ++ t).
Proof. intros B C. apply calm_app; auto. apply lead_calm; auto. intros c X. cbv in X. cbv. tauto. Qed.
Lemma no_block_calm t : no_block t -> calm (s2l "|&") t.
Proof. intros [[_ Q]|[_ Q]]; (eapply quiet_calm; [exact Q|]); intros c C; cbv in C; cbv; tauto. Qed.

Definition op_ok (prev : cstr) (n : node) (y : cstr) : Prop :=
  (n = NODE_NONE \/ n = NODE_YES -> ~ ends_gt prev) /\
  (n = NODE_NONE -> ~ starts_with "&"%char y) /\ (n = NODE_PIPE -> ~ starts_with "|"%char y).

Lemma ops_command c : command c -> forall s pre cur x f blk ty acc R,
  s = pre ++ cur ++ c ++ x -> length (c ++ x) < f -> ~ ends_gt pre ->
  (x = [] /\ blk = None /\ R = Ret (Some (rev acc ++ [(ty, cur ++ c)])) \/
   exists n y, x = op_text n ++ y /\ op_ok (cur ++ c) n y /\ before blk (length (pre ++ cur ++ c)) /\
     forall f', length y < f' ->
       ops_loop f' s (length (pre ++ cur ++ c ++ op_text n)) (length (pre ++ cur ++ c ++ op_text n)) blk n ((ty, cur ++ c) :: acc) = R) ->
  ops_loop f s (length pre) (length (pre ++ cur)) blk ty acc = R.
Proof.
  induction 1 as [b t B N|b t r B N R0 R1 R2 IH]; intros s pre cur x f blk ty acc R S F G H; (destruct f as [|f]; [lia|]).
  - pose proof (command_calm_head b t B (no_block_calm t N)) as C.
    destruct H as [(-> & -> & ->)|(n & y & -> & (O1 & O2 & O3) & Bl & H)].
    + rewrite (ops_end f s (pre ++ cur) (length pre) _ ty acc (b ++ t)); auto.
      * f_equal. f_equal. f_equal. f_equal. f_equal. rewrite S, app_nil_r. apply Estr_Proofs.skipn_app_len. auto.
      * rewrite S, app_nil_r, <- app_assoc. auto.
    + rewrite (ops_op f s (pre ++ cur) (b ++ t) n y (length pre) blk ty acc); auto.
      * replace (length (pre ++ cur) + length (b ++ t) + length (op_text n)) with (length (pre ++ cur ++ (b ++ t) ++ op_text n)) by (rewrite !app_length; lia).
        replace (firstn (length (pre ++ cur) + length (b ++ t) - length pre) (skipn (length pre) s)) with (cur ++ b ++ t).
        -- apply H. pose proof (op_size n). alen F.
        -- replace (length (pre ++ cur) + length (b ++ t) - length pre) with (length pre + length (cur ++ b ++ t) - length pre) by (rewrite !app_length; lia).
           rewrite S. replace (pre ++ cur ++ (b ++ t) ++ op_text n ++ y) with (pre ++ (cur ++ b ++ t) ++ op_text n ++ y) by (rewrite <- !app_assoc; auto).
           symmetry. apply cut_here.
      * rewrite S, <- !app_assoc. auto.
      * replace (length (pre ++ cur) + length (b ++ t)) with (length (pre ++ cur ++ b ++ t)) by (rewrite !app_length; lia). auto.
      * intros K. rewrite <- app_assoc. apply ends_app; auto.
  - pose proof (command_calm_head b _ B (no_block_calm _ N)) as C. rewrite app_assoc in C.
    assert (X : s = (pre ++ cur) ++ (b ++ t) ++ s2l ">&" ++ r ++ x) by (rewrite S, <- !app_assoc; auto).
    assert (Y : cur ++ b ++ t ++ s2l ">&" ++ r = (cur ++ (b ++ t) ++ s2l ">&") ++ r) by (rewrite <- !app_assoc; auto).
    rewrite (ops_redir f s (pre ++ cur) (b ++ t) (r ++ x) (length pre) blk ty acc X C).
    + replace (length (pre ++ cur) + length (b ++ t) + 2) with (length (pre ++ (cur ++ (b ++ t) ++ s2l ">&"))) by (rewrite !app_length; simpl; lia).
      apply (IH s pre (cur ++ (b ++ t) ++ s2l ">&") x); auto.
      * rewrite X, <- !app_assoc. auto.
      * alen F.
      * rewrite Y in H. destruct H as [H|(n & y & H1 & H2 & H3 & H4)]; [left; exact H|right].
        exists n, y. split; auto. split; auto. split; auto. intros f' L.
        replace (pre ++ (cur ++ (b ++ t) ++ s2l ">&") ++ r ++ op_text n) with (pre ++ cur ++ (b ++ t ++ s2l ">&" ++ r) ++ op_text n) by (rewrite <- !app_assoc; auto).
        apply H4. auto.
    + destruct H as [(_ & -> & _)|(n & y & _ & _ & Bl & _)]; [exact I|]. destruct blk as [k|]; auto. simpl in *. alen Bl.
Qed.

Lemma joined_app a b : joined (a ++ b) = joined a ++ joined b.
Proof. unfold joined. rewrite map_app, concat_app. auto. Qed.

(** commands without blocks, then [z] *)
Lemma ops_commands l : forall t, Forall command (t :: map snd l) -> forall s pre z lz f blk ty acc R,
  z = joined lz -> s = pre ++ t ++ joined l ++ z -> length (t ++ joined l ++ z) < f -> ~ ends_gt pre ->
  clear_ops t (l ++ lz) ->
  (lz = [] /\ blk = None /\ R = Ret (Some (rev acc ++ (ty, t) :: l)) \/
   exists n u lz', lz = (n, u) :: lz' /\ before blk (length (pre ++ t ++ joined l)) /\
     forall f', length (u ++ joined lz') < f' ->
       ops_loop f' s (length (pre ++ t ++ joined l ++ op_text n)) (length (pre ++ t ++ joined l ++ op_text n)) blk n (rev ((ty, t) :: l) ++ acc) = R) ->
  ops_loop f s (length pre) (length pre) blk ty acc = R.
Proof.
  induction l as [|[n u] l IH]; intros t C s pre z lz f blk ty acc R Z S F G O H; cbn [map snd] in C; apply Forall_cons_iff in C; destruct C as [C1 C2].
  - rewrite <- (app_nil_r pre) at 2. apply (ops_command t C1 s pre [] z f blk ty acc R); auto.
    destruct H as [(-> & -> & ->)|(n & u & lz' & -> & Bl & H)].
    + left. subst z. auto.
    + right. exists n, (u ++ joined lz'). rewrite joined_cons in Z. split; auto. cbn [app clear_ops] in O. destruct O as (O1 & O2 & O3 & O4).
      split; [split; auto|]. cbn [joined map concat app] in Bl, H |- *. rewrite app_nil_r in Bl. split; auto.
  - rewrite <- (app_nil_r pre) at 2. rewrite joined_cons in *.
    apply (ops_command t C1 s pre [] ((op_text n ++ u ++ joined l) ++ z) f blk ty acc R); auto.
    right. exists n, (u ++ joined l ++ z). cbn [app clear_ops] in O. destruct O as (O1 & O2 & O3 & O4). rewrite joined_app in O2, O3. rewrite Z.
    split; [rewrite <- !app_assoc; auto|]. split; [split; auto|]. cbn [app].
    split; [destruct H as [(_ & -> & _)|(m & v & lz' & _ & Bl & _)]; [exact I|]; destruct blk as [k|]; auto; simpl in *; alen Bl|].
    intros f' L. apply (IH u C2 s _ z lz f' blk n ((ty, t) :: acc)); auto.
    + rewrite S, <- !app_assoc. auto.
    + rewrite <- Z in L. auto.
    + rewrite app_assoc. apply ends_op.
    + destruct H as [(-> & -> & ->)|(m & v & lz' & -> & Bl & H)].
      * left. split; auto. split; auto. cbn [rev]. rewrite <- app_assoc. auto.
      * right. exists m, v, lz'. split; auto.
        replace ((pre ++ t ++ op_text n) ++ u ++ joined l) with (pre ++ t ++ op_text n ++ u ++ joined l) by (rewrite <- !app_assoc; auto). split; auto.
        intros f'' L'. rewrite <- (H f'' L').
        replace ((pre ++ t ++ op_text n) ++ u ++ joined l ++ op_text m) with (pre ++ t ++ (op_text n ++ u ++ joined l) ++ op_text m) by (rewrite <- !app_assoc; auto).
        cbn [rev]. rewrite <- !app_assoc. auto.
Qed.

(** ** The first block of the line *)
Lemma op_end n y : (n = NODE_NONE -> ~ starts_with "&"%char y) -> (n = NODE_PIPE -> ~ starts_with "|"%char y) -> cmd_end (op_text n) y.
Proof.
  intros A B. right. destruct n; [exists "&"%char|exists "&"%char|exists "|"%char|exists "|"%char]; (split; [cbv; tauto|]); auto.
  - right. split; auto. intros z ->. apply A; auto. exists z. auto.
  - right. split; auto. intros z ->. apply B; auto. exists z. auto.
Qed.

Section Before.
Variable G : cstr -> Prop.
Hypothesis next : forall b t op r, lead_nl b -> no_block t -> cmd_end op r -> G r -> G (b ++ t ++ op ++ r).
Lemma command_then c : command c -> forall op r, cmd_end op r -> G r -> G (c ++ op ++ r).
Proof.
  induction 1 as [b t B N|b t r B N R0 R1 R2 IH]; intros op x E H.
  - rewrite <- app_assoc. apply next; auto.
  - replace ((b ++ t ++ s2l ">&" ++ r) ++ op ++ x) with (b ++ (t ++ s2l ">") ++ s2l "&" ++ r ++ op ++ x) by (rewrite <- !app_assoc; auto).
    apply next; auto. right. exists "&"%char. split; [cbv; tauto|]. right. split; auto. intros y Y. destruct r as [|d r]; [congruence|].
    injection Y as -> _. apply R1. exists r. auto.
Qed.
Lemma commands_then l : forall t, Forall command (t :: map snd l) -> forall n u w z,
  clear_ops t (l ++ (n, u ++ w) :: z) -> G u -> G (t ++ joined l ++ op_text n ++ u).
Proof.
  induction l as [|[m v] l IH]; intros t C n u w z O H; cbn [map snd] in C; apply Forall_cons_iff in C; destruct C as [C1 C2].
  - cbn [joined map concat app clear_ops] in *. destruct O as (_ & O2 & O3 & _). apply command_then; auto. apply op_end.
    + intros K (y & ->). apply (O2 K). exists ((y ++ w) ++ joined z). auto.
    + intros K (y & ->). apply (O3 K). exists ((y ++ w) ++ joined z). auto.
  - rewrite joined_cons. cbn [app clear_ops] in O. destruct O as (_ & O2 & O3 & O4). rewrite <- !app_assoc.
    apply command_then; auto.
    + rewrite joined_app, joined_cons in O2, O3. apply op_end.
      * intros K (y & Y). apply (O2 K). exists (y ++ w ++ joined z).
        transitivity ((v ++ joined l ++ op_text n ++ u) ++ w ++ joined z); [rewrite <- !app_assoc; auto|]. rewrite Y. auto.
      * intros K (y & Y). apply (O3 K). exists (y ++ w ++ joined z).
        transitivity ((v ++ joined l ++ op_text n ++ u) ++ w ++ joined z); [rewrite <- !app_assoc; auto|]. rewrite Y. auto.
    + eapply IH; eauto.
Qed.
End Before.

Lemma command_flat c : command c -> flat c.
Proof.
  induction 1 as [b t B N|b t r B N R0 R1 R2 IH]; [constructor; auto|].
  replace (b ++ t ++ s2l ">&" ++ r) with (b ++ (t ++ s2l ">") ++ s2l "&" ++ r) by (rewrite <- !app_assoc; auto).
  apply fl_next; auto. right. exists "&"%char. split; [cbv; tauto|]. right. split; auto. intros y ->. apply R1. exists y. auto.
Qed.

Lemma commands_flat l : forall t, Forall command (t :: map snd l) -> clear_ops t l -> flat (t ++ joined l).
Proof.
  intros t C O. destruct l as [|[n u] l] using rev_ind.
  - cbn [joined map concat]. rewrite app_nil_r. apply command_flat. apply Forall_cons_iff in C. apply C.
  - rewrite joined_app. cbn [joined map concat]. rewrite app_nil_r, map_app in *. cbn [map snd] in C. rewrite app_comm_cons in C. apply Forall_app in C.
    destruct C as [C1 C2]. apply (commands_then flat fl_next l t C1 n u [] []); [rewrite app_nil_r; auto|].
    apply command_flat. apply Forall_cons_iff in C2. apply C2.
Qed.

Theorem ops_line t l : cmdline (t :: map snd l) -> clear_ops t l ->
  pBat_ParseOperators (t ++ joined l) = Ret (Some ((NODE_NONE, t) :: l)).
Proof.
  assert (G0 : ~ ends_gt []) by (intros (u & U); destruct u; discriminate).
  intros C O. unfold pBat_ParseOperators. inversion C as [l0 FC|l1 c l2 FC BC BT E].
  - subst. cbn [pBat_GetNextBlockBeginEx]. rewrite flat_ok by (auto using commands_flat). cbn [bind block_at].
    apply (ops_commands l t FC (t ++ joined l) [] [] []); auto; [rewrite app_nil_r; auto|rewrite app_nil_r; auto|rewrite app_nil_r; auto].
  - assert (D : exists h i r, c = h ++ "("%char :: i ++ ")"%char :: r /\ heads h /\ calm (s2l "|&") h /\ inner i /\ btext r).
    { inversion BC as [b i r B I R|b u i r B T Q I R]; subst.
      - exists b, i, r. split; auto. split; [constructor; auto|]. split; auto. apply lead_calm; auto. intros d X. cbv in X. cbv. tauto.
      - exists (b ++ u), i, r. split; [rewrite <- app_assoc; auto|]. split; [apply hd_cmd; auto|]. split; auto. apply command_calm_head; auto.
        eapply quiet_calm; [exact Q|]. intros d X. cbv in X. cbv. tauto. }
    destruct D as (h & i & r & -> & H & HC & I & R). clear BC.
    (* what happens from the first block on *)
    assert (K : forall s pre l' f ty acc, Forall btext (map snd l') -> s = pre ++ (h ++ "("%char :: i ++ ")"%char :: r) ++ joined l' ->
      ~ ends_gt pre -> clear_ops (h ++ "("%char :: i ++ ")"%char :: r) l' -> length ((h ++ "("%char :: i ++ ")"%char :: r) ++ joined l') < f ->
      ops_loop f s (length pre) (length pre) (Some (length pre + length h)) ty acc
      = Ret (Some (rev acc ++ (ty, h ++ "("%char :: i ++ ")"%char :: r) :: l'))).
    { intros s pre l' f ty acc BL S G O' F. destruct f as [|f]; [lia|].
      assert (X : s = pre ++ h ++ "("%char :: i ++ ")"%char :: r ++ joined l') by (rewrite S; repeat (rewrite <- app_assoc; cbn [app]); auto).
      destruct (ops_block f s pre h i (r ++ joined l') (length pre) ty acc X HC I) as [[NF Q]|Q]; rewrite Q.
      - destruct l' as [|[n u] l'].
        + f_equal. f_equal. f_equal. f_equal. f_equal. rewrite S. cbn [joined map concat]. rewrite app_nil_r. apply Estr_Proofs.skipn_app_len. auto.
        + exfalso. rewrite joined_cons in NF. apply (ops_found (h ++ "("%char :: i ++ ")"%char :: r) n (u ++ joined l')).
          * apply tidy_app; [destruct HC as (C1 & C2 & _); split; auto|]. apply tidy_cons; try discriminate. apply tidy_app; [apply inner_tidy; auto|].
            apply tidy_cons; try discriminate. apply btext_tidy. auto.
          * rewrite <- NF. f_equal. repeat (rewrite <- app_assoc; cbn [app]). auto.
      - replace (length pre + length h + 1 + length i) with (length (pre ++ (h ++ "("%char :: i))) by (rewrite !app_length; cbn [length]; lia).
        rewrite (ops_btexts l' BL r R s pre (h ++ "("%char :: i) [")"%char] f ty acc); auto.
        + f_equal. f_equal. f_equal. f_equal. f_equal. repeat (rewrite <- app_assoc; cbn [app]). auto.
        + rewrite X. repeat (rewrite <- app_assoc; cbn [app]). auto.
        + replace ((h ++ "("%char :: i) ++ [")"%char] ++ r) with (h ++ "("%char :: i ++ ")"%char :: r) by (repeat (rewrite <- app_assoc; cbn [app]); auto). auto.
        + alen F. }
    destruct l1 as [|t' l1].
    + injection E as Et El. subst t l2.
      assert (Q : pBat_GetNextBlockBeginEx ((h ++ "("%char :: i ++ ")"%char :: r) ++ joined l) false = Ret (Some ("("%char :: i ++ ")"%char :: r ++ joined l))).
      { cbn [pBat_GetNextBlockBeginEx]. rewrite <- app_assoc. cbn [app]. rewrite heads_ok; auto; [rewrite <- app_assoc; auto|]. rewrite app_length. lia. }
      rewrite Q. cbn [bind block_at].
      replace (0 + offset_of ((h ++ "("%char :: i ++ ")"%char :: r) ++ joined l) ("("%char :: i ++ ")"%char :: r ++ joined l)) with (length (@nil ascii) + length h).
      2:{ cbn [length Nat.add]. replace ((h ++ "("%char :: i ++ ")"%char :: r) ++ joined l) with (h ++ "("%char :: i ++ ")"%char :: r ++ joined l)
            by (repeat (rewrite <- app_assoc; cbn [app]); auto). rewrite offset_app. auto. }
      apply (K _ [] l); auto.
    + injection E as Et El. subst t'.
      assert (P : exists la n lb, l = la ++ (n, h ++ "("%char :: i ++ ")"%char :: r) :: lb /\ map snd la = l1 /\ map snd lb = l2).
      { clear - El. revert l El. induction l1 as [|x l1 IH]; intros [|[n u] l] El; try discriminate; cbn [map snd app] in El.
        - injection El as -> ->. exists [], n, l. auto.
        - injection El as Ex El. subst x. destruct (IH l (eq_sym (eq_sym El))) as (la & m & lb & -> & A & B). exists ((n, u) :: la), m, lb. cbn [map snd]. rewrite A. auto. }
      destruct P as (la & n & lb & -> & P1 & P2). subst l1 l2.
      set (c := h ++ "("%char :: i ++ ")"%char :: r) in *.
      assert (HH : heads (t ++ joined la ++ op_text n ++ h)).
      { apply (commands_then heads hd_next la t FC n h ("("%char :: i ++ ")"%char :: r) lb); auto. }
      assert (S : t ++ joined (la ++ (n, c) :: lb) = (t ++ joined la ++ op_text n ++ h) ++ "("%char :: i ++ ")"%char :: r ++ joined lb).
      { rewrite joined_app, joined_cons. unfold c. repeat (rewrite <- app_assoc; cbn [app]). auto. }
      assert (Q : pBat_GetNextBlockBeginEx (t ++ joined (la ++ (n, c) :: lb)) false = Ret (Some ("("%char :: i ++ ")"%char :: r ++ joined lb))).
      { cbn [pBat_GetNextBlockBeginEx]. rewrite S. rewrite heads_ok; auto. rewrite (app_length (t ++ joined la ++ op_text n ++ h)). lia. }
      rewrite Q. cbn [bind block_at Nat.add].
      assert (OF : offset_of (t ++ joined (la ++ (n, c) :: lb)) ("("%char :: i ++ ")"%char :: r ++ joined lb) = length (t ++ joined la ++ op_text n ++ h)).
      { rewrite S. apply offset_app. }
      rewrite OF.
      assert (CL : clear_ops c lb).
      { clear - O. revert t O. induction la as [|[m v] la IH]; intros t O; cbn [app clear_ops] in O; [tauto|]. apply (IH v). tauto. }
      apply (ops_commands la t FC (t ++ joined (la ++ (n, c) :: lb)) [] (joined ((n, c) :: lb)) ((n, c) :: lb)); auto.
      * rewrite joined_app. auto.
      * rewrite joined_app. auto.
      * right. exists n, c, lb. split; auto. split; [cbn [before]; rewrite !app_length; cbn [length]; pose proof (op_size n); lia|].
        intros f' L. cbn [app].
        replace (length (t ++ joined la ++ op_text n ++ h)) with (length (t ++ joined la ++ op_text n) + length h) by (rewrite !app_length; lia).
        rewrite (K _ (t ++ joined la ++ op_text n) lb f' n); auto.
        -- rewrite app_nil_r, rev_involutive. auto.
        -- rewrite joined_app, joined_cons, <- !app_assoc. auto.
        -- rewrite app_assoc. apply ends_op.
Qed.

(** ** Every line *)
Lemma char_at_true s i c : char_at s i c = true -> nth_error s i = Some c.
Proof. unfold char_at. destruct (nth_error s i) as [d|]; [|discriminate]. intros H. apply ceq_true in H. congruence. Qed.
Lemma nth_cut (s : cstr) : forall i c, nth_error s i = Some c -> skipn i s = c :: skipn (S i) s.
Proof. induction s as [|d s IH]; intros [|i] c H; simpl in *; try discriminate; [congruence|]. apply IH. auto. Qed.
Lemma skip2 (s : cstr) : forall a b, skipn a (skipn b s) = skipn (b + a) s.
Proof. induction s as [|c s IH]; intros a [|b]; simpl; auto. destruct a; auto. Qed.
Lemma block_end_total s : exists r, pBat_GetNextBlockEnd s = Ret r /\ forall q, r = Some q -> exists a y, s = "("%char :: a ++ q /\ q = ")"%char :: y.
Proof.
  unfold pBat_GetNextBlockEnd. destruct s as [|c t]; [exists None; split; auto; discriminate|].
  destruct (ceq c "("%char) eqn:C; [|exists None; split; auto; discriminate]. apply ceq_true in C. subst c.
  destruct (scan_total (scan_fuel ("("%char :: t)) MBlock t) as (r & R & X); [unfold room, scan_fuel; cbn [length]; lia|].
  exists r. split; auto. intros q ->. destruct X as [(a & ->) (y & ->)]. exists a, y. auto.
Qed.
Lemma split_at (s : cstr) ch n : ch <= n -> skipn ch s = firstn (n - ch) (skipn ch s) ++ skipn n s.
Proof. intros H. rewrite <- (firstn_skipn (n - ch) (skipn ch s)) at 1. f_equal. rewrite skip2. f_equal. lia. Qed.

Lemma ops_total s f : forall ch search blk ty acc, length s - search < f -> ch <= search <= length s ->
  (forall b, blk = Some b -> search <= b /\ nth_error s b = Some "("%char) ->
  exists r, ops_loop f s ch search blk ty acc = Ret r /\
    (r = None \/ exists t l, r = Some (rev acc ++ (ty, t) :: l) /\ skipn ch s = t ++ joined l).
Proof.
  induction f as [|f IH]; intros ch search blk ty acc F L B; [lia|]. cbn [ops_loop].
  destruct (pBat_SearchToken_OutQuotes (skipn search s) (s2l "|&")) as [k|] eqn:K.
  2:{ eexists. split; [reflexivity|]. right. exists (skipn ch s), []. cbn [rev joined map concat]. rewrite app_nil_r. auto. }
  apply (outq_char _ _ _ amp_set) in K. destruct K as (c & K & C). rewrite nth_error_skipn in K.
  cbv zeta. set (tok := search + k) in *. assert (T : tok < length s) by (apply nth_error_Some; congruence).
  destruct (match blk with Some b => if b <=? tok then Some b else None | None => None end) as [b|] eqn:BB.
  - assert (X : blk = Some b) by (destruct blk as [b'|]; [destruct (b' <=? tok)|]; congruence).
    destruct (B b X) as [B1 B2]. destruct (block_end_total (skipn b s)) as (r & R & RR). rewrite R. cbn [bind].
    destruct r as [q|]; [|exists None; auto]. destruct (RR q eq_refl) as (a & y & A1 & ->).
    rewrite nextp_eq. cbn [bind].
    assert (O : offset_of s (")"%char :: y) = b + 1 + length a).
    { unfold offset_of. apply (f_equal (@length _)) in A1. rewrite skipn_length in A1. cbn [length] in A1. rewrite app_length in A1. cbn [length] in *.
      assert (b < length s) by (apply nth_error_Some; congruence). lia. }
    rewrite O. assert (O2 : b + 1 + length a < length s).
    { apply (f_equal (@length _)) in A1. rewrite skipn_length in A1. cbn [length] in A1. rewrite app_length in A1. cbn [length] in *. lia. }
    apply IH; try lia. intros b' Hb. destruct (nextp (skipn (b + 1 + length a + 1) s)) as [q|] eqn:Q; [|discriminate]. cbn [block_at] in Hb. injection Hb as <-.
    apply nextp_suffix in Q. destruct Q as ((u & U) & v & ->). rewrite U. rewrite offset_app. split; [lia|].
    rewrite <- nth_error_skipn, U. rewrite nth_error_app2, Nat.sub_diag by lia. auto.
  - assert (NB : forall b, blk = Some b -> tok < b).
    { intros b ->. destruct (b <=? tok) eqn:Y; [discriminate|]. apply Nat.leb_gt in Y. auto. }
    destruct (char_at s tok "&"%char && (1 <=? tok) && char_at s (tok - 1) ">"%char) eqn:G.
    + apply IH; try lia. intros b Hb. specialize (NB b Hb). destruct (B b Hb). split; auto. lia.
    + clear G. set (acc' := (ty, firstn (tok - ch) (skipn ch s)) :: acc).
      assert (STEP : forall n, skipn tok s = op_text n ++ skipn (tok + length (op_text n)) s -> tok + length (op_text n) <= length s ->
        (forall b, blk = Some b -> tok + length (op_text n) <= b) ->
        exists r, ops_loop f s (tok + length (op_text n)) (tok + length (op_text n)) blk n acc' = Ret r /\
          (r = None \/ exists t l, r = Some (rev acc ++ (ty, t) :: l) /\ skipn ch s = t ++ joined l)).
      { intros n N NL NB'. pose proof (op_size n). destruct (IH (tok + length (op_text n)) (tok + length (op_text n)) blk n acc') as (r & R & RR).
        - lia. - lia. - intros b Hb. split; auto. apply B; auto.
        - exists r. split; auto. destruct RR as [->|(t & l & -> & E)]; [auto|right]. exists (firstn (tok - ch) (skipn ch s)), ((n, t) :: l).
          split; [unfold acc'; cbn [rev]; rewrite <- app_assoc; auto|]. rewrite joined_cons, <- E, <- N. apply split_at. lia. }
      assert (TK : skipn tok s = c :: skipn (S tok) s) by (apply nth_cut; auto).
      assert (NEXT : forall d, char_at s (tok + 1) d = true -> skipn tok s = c :: d :: skipn (tok + 2) s /\ tok + 2 <= length s /\
        (d <> "("%char -> forall b, blk = Some b -> tok + 2 <= b)).
      { intros d D. apply char_at_true in D. split; [|split].
        - rewrite TK. f_equal. replace (S tok) with (tok + 1) by lia. rewrite (nth_cut s _ _ D). f_equal. f_equal. lia.
        - assert (tok + 1 < length s) by (apply nth_error_Some; congruence). lia.
        - intros Nd b Hb. specialize (NB b Hb). destruct (B b Hb) as [_ B2]. assert (b <> tok + 1) by (intros ->; congruence). lia. }
      assert (C' : c = "|"%char \/ c = "&"%char) by (cbv in C; intuition auto). unfold char_at at 1. rewrite K.
      destruct C' as [-> | ->]; cbn [ceq].
      * rewrite ceq_refl. destruct (char_at s (tok + 1) "|"%char) eqn:N.
        -- destruct (NEXT _ N) as (N1 & N2 & N3). apply (STEP NODE_NOT); auto. apply N3. discriminate.
        -- apply (STEP NODE_PIPE); change (length (op_text NODE_PIPE)) with 1; [rewrite TK; replace (tok + 1) with (S tok) by lia; auto|lia|]. intros b Hb. specialize (NB b Hb). lia.
      * replace (ceq "&"%char "|"%char) with false by reflexivity. destruct (char_at s (tok + 1) "&"%char) eqn:N.
        -- destruct (NEXT _ N) as (N1 & N2 & N3). apply (STEP NODE_YES); auto. apply N3. discriminate.
        -- apply (STEP NODE_NONE); change (length (op_text NODE_NONE)) with 1; [rewrite TK; replace (tok + 1) with (S tok) by lia; auto|lia|]. intros b Hb. specialize (NB b Hb). lia.
Qed.

Theorem ops_lossless s : exists r, pBat_ParseOperators s = Ret r /\
  (r = None \/ exists t l, r = Some ((NODE_NONE, t) :: l) /\ s = t ++ joined l).
Proof.
  unfold pBat_ParseOperators. destruct (begin_total (S (length s)) s) as (r & R & RR); [lia|]. cbn [pBat_GetNextBlockBeginEx].
  assert (Q : begin_loop (S (length s)) s = Ret r) by exact R. rewrite Q. cbn [bind].
  destruct (ops_total s (S (length s)) 0 0 (block_at 0 s r) NODE_NONE []) as (r' & R' & H); try lia.
  - intros b Hb. split; [lia|]. destruct r as [q|]; [|discriminate]. cbn [block_at] in Hb. injection Hb as <-. destruct RR as ((u & ->) & y & ->).
    cbn [Nat.add]. rewrite offset_app, nth_error_app2, Nat.sub_diag by lia. auto.
  - exists r'. split; auto.
Qed.

(** ** Checks for examples *)
Fixpoint settledb (e : bool) (t : cstr) : bool :=
  match t with [] => negb e | c :: r => settledb (negb e && ceq c caret) r end.
Lemma settledb_ok t : settledb false t = true -> exists u, escaping u t.
Proof.
  assert (G : forall n t, length t <= n -> settledb false t = true -> exists u, escaping u t).
  { clear t. induction n as [|n IH]; intros [|c t] L H; simpl in L; try lia; try (exists []; constructor).
    cbn [settledb negb andb] in H. destruct (ceq c caret) eqn:C.
    - apply ceq_true in C. subst c. destruct t as [|d t]; [discriminate|]. cbn [settledb negb andb] in H. simpl in L.
      destruct (IH t) as (u & U); auto; [lia|]. exists (d :: u). constructor. auto.
    - apply ceq_false in C. destruct (IH t) as (u & U); auto; [lia|]. exists (c :: u). constructor; auto. }
  apply (G (length t)). auto.
Qed.
Definition calmb (st t : cstr) : bool :=
  settledb false t && Nat.even (quotes_before t (length t)) && negb (inset st caret) && negb (inset st dquote) &&
  match search_outq (inset st) t with None => true | _ => false end.
Lemma calmb_ok st t : calmb st t = true -> calm st t.
Proof.
  unfold calmb. rewrite !Bool.andb_true_iff, !Bool.negb_true_iff. intros ((((A & B) & C) & D) & E). split; [apply settledb_ok; auto|].
  split; [apply Nat.even_spec; auto|]. pose proof (search_outq_spec (inset st) t C D) as S. destruct (search_outq (inset st) t); [discriminate|]. exact S.
Qed.
Definition quietb (st t : cstr) : bool := calmb st t && negb (inset t nl).
Lemma quietb_ok st t : quietb st t = true -> quiet st t.
Proof.
  unfold quietb. rewrite Bool.andb_true_iff, Bool.negb_true_iff. intros [A B]. apply calmb_ok in A. destruct A as (A1 & A2 & A3).
  split; auto. split; auto. split; auto. intros i (_ & c & C1 & C2). apply ceq_true in C2. subst c. apply nth_error_In in C1. apply (inset_In t nl) in C1. congruence.
Qed.
Definition no_blockb (t : cstr) : bool :=
  quietb (s2l "&|") t && negb (block_cmd (t ++ [nl])) && match t with c :: _ => negb (inset (s2l " ,;@(" ++ ["009"%char]) c) | [] => true end.
Lemma no_blockb_ok t : no_blockb t = true -> no_block t.
Proof.
  unfold no_blockb. rewrite !Bool.andb_true_iff, !Bool.negb_true_iff. intros ((A & B) & C). left. split; [|apply quietb_ok; auto]. split.
  - intros c r -> I. apply inset_In in I. rewrite I in C. discriminate.
  - intros X. apply block_cmd_iff in X. unfold nl in B. congruence.
Qed.
