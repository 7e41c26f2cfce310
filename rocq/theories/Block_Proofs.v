(** Block_Proofs.v *)

From Verif Require Import Base Lex Num_Proofs StrLib_Model StrLib_Spec StrLib_Proofs Expand_Spec Expand_Proofs
  Args_Spec Args_Proofs Block_Model Block_Spec.

Lemma quotes_app_le a b j : j <= length a -> quotes_before (a ++ b) j = quotes_before a j.
Proof.
  unfold quotes_before. generalize false as e. revert j. induction a as [|x a IH]; intros j e J; simpl in *.
  - assert (j = 0) by lia. subst j. destruct b; auto.
  - destruct j; auto. cbn [count_quotes]. f_equal. apply IH. lia.
Qed.

Lemma inset1 c d : inset [c] d = ceq d c.
Proof. unfold inset. simpl. apply Bool.orb_false_r. Qed.

Definition stopset (s : cstr) : Prop := ~ In caret s /\ ~ In dquote s.

Lemma hybrid_stop stops t c r : stopset stops -> quiet stops t -> In c (nl :: stops) ->
  pBat_SearchToken_Hybrid (t ++ c :: r) [nl] stops = Some (length t).
Proof.
  intros [S1 S2] (St & Ev & N1 & N2) C.
  assert (St' : settled t) by exact St.
  pose proof (Hybrid_spec (t ++ c :: r) [nl] stops S1 S2) as H.
  eapply first_pos_unique; [apply H|]. split.
  - assert (EE : E (t ++ c :: r) (length t) = false) by (rewrite E_app1 by auto; apply settled_E; auto).
    assert (NT : nth_error (t ++ c :: r) (length t) = Some c) by (rewrite nth_error_app2, Nat.sub_diag by auto; auto).
    destruct C as [<-|C].
    + left. apply live_iff. split; auto. exists nl. split; auto.
    + right. split.
      * apply live_iff. split; auto. exists c. split; auto. apply inset_In. auto.
      * rewrite quotes_app_le by auto. auto.
  - intros j J [L|[L1 L2]].
    + apply (N1 j). apply (live_app1 _ t (c :: r)); auto. destruct L as [L1 (d & D1 & D2)]. split; auto. exists d. split; auto.
      rewrite inset1 in D2. auto.
    + apply (N2 j). split; [apply (live_app1 _ t (c :: r)); auto|]. rewrite quotes_app_le in L2 by lia. auto.
Qed.

Lemma hybrid_end stops t : stopset stops -> quiet stops t -> pBat_SearchToken_Hybrid t [nl] stops = None.
Proof.
  intros [S1 S2] (St & Ev & N1 & N2). pose proof (Hybrid_spec t [nl] stops S1 S2) as H.
  eapply first_pos_unique; [apply H|]. intros j [L|L]; [|apply (N2 j); auto].
  apply (N1 j). destruct L as [L1 (d & D1 & D2)]. split; auto. exists d. split; auto. rewrite inset1 in D2. auto.
Qed.

Lemma stops_ok (par : bool) : stopset (s2l (if par then ")&|" else "&|")) /\ stopset (s2l (if par then "()&|" else "(&|")).
Proof. destruct par; repeat split; intros X; cbv in X; intuition discriminate. Qed.

(** ** Commands with blocks *)
Lemma strnicmp_kw k : nonul k -> forall s, strnicmp s k (length k) = 0%Z <->
  exists a r, s = a ++ r /\ same_name a k.
Proof.
  induction k as [|y k IH]; intros N s; cbn [length strnicmp].
  - split; [intros _; exists [], s; split; [|unfold same_name]; reflexivity|destruct s; reflexivity].
  - apply nonul_cons_inv in N. destruct N as [N1 N2]. destruct s as [|x s].
    + split.
      * intros H. apply tolower_nonul in N1. cbn [strnicmp] in H. lia.
      * intros (a & r & A & B). destruct a; [|discriminate]. discriminate B.
    + cbn [strnicmp]. destruct (ceq (tolower x) (tolower y)) eqn:C.
      * apply ceq_true in C. rewrite (IH N2 s). split; intros (a & r & A & B).
        -- exists (x :: a), r. subst s. split; auto. unfold same_name in *. simpl. congruence.
        -- destruct a as [|z a]; [discriminate B|]. injection A as <- ->. exists a, r. split; auto.
           unfold same_name in *. simpl in B. congruence.
      * apply ceq_false in C. split.
        -- intros H. exfalso. apply C. apply code_inj. lia.
        -- intros (a & r & A & B). destruct a as [|z a]; [discriminate B|]. injection A as <- ->.
           unfold same_name in B. simpl in B. congruence.
Qed.

Lemma kw_delim k s : nonul k -> strnicmp s k (length k) = 0%Z -> delim_at s (length k) = true ->
  exists n d r, s = n ++ d :: r /\ blank d /\ same_name n k.
Proof.
  intros N H D. apply strnicmp_kw in H; auto. destruct H as (a & r & -> & B).
  assert (L : length a = length k) by (apply (f_equal (@length _)) in B; rewrite !map_length in B; auto).
  unfold delim_at in D. rewrite nth_error_app2 in D by lia. rewrite L, Nat.sub_diag in D.
  destruct r as [|d r]; [discriminate|]. simpl in D. exists a, d, r. split; auto. split; auto. apply Args_Proofs.delim_blank. auto.
Qed.

Lemma kw_delim' k n d r : nonul k -> blank d -> same_name n k ->
  strnicmp (n ++ d :: r) k (length k) = 0%Z /\ delim_at (n ++ d :: r) (length k) = true.
Proof.
  intros N B H. split; [apply strnicmp_kw; eauto|].
  assert (L : length n = length k) by (apply (f_equal (@length _)) in H; rewrite !map_length in H; auto).
  unfold delim_at. rewrite <- L, nth_error_app2, Nat.sub_diag by auto. simpl. apply Args_Proofs.delim_blank. auto.
Qed.

Lemma block_cmd_iff s : block_cmd s = true <-> takes_blocks s.
Proof.
  unfold block_cmd, takes_blocks. rewrite !Bool.orb_true_iff, !Bool.andb_true_iff, !Z.eqb_eq. split.
  - intros [[[A B]|[A B]]|[A B]].
    + destruct (kw_delim (s2l "if") s (Path_Proofs.nonul_s2l "if" eq_refl) A B) as (n & d & r & X). exists n, d, r. tauto.
    + destruct (kw_delim (s2l "for") s (Path_Proofs.nonul_s2l "for" eq_refl) A B) as (n & d & r & X). exists n, d, r. tauto.
    + destruct (kw_delim (s2l "def") s (Path_Proofs.nonul_s2l "def" eq_refl) A B) as (n & d & r & X). exists n, d, r. tauto.
  - intros (n & d & r & -> & B & [S|[S|S]]).
    + left. left. apply (kw_delim' (s2l "if")); auto. apply Path_Proofs.nonul_s2l. reflexivity.
    + left. right. apply (kw_delim' (s2l "for")); auto. apply Path_Proofs.nonul_s2l. reflexivity.
    + right. apply (kw_delim' (s2l "def")); auto. apply Path_Proofs.nonul_s2l. reflexivity.
Qed.

Lemma takes_app t x : takes_blocks t -> takes_blocks (t ++ x).
Proof. intros (n & d & r & -> & B & S). exists n, d, (r ++ x). rewrite <- app_assoc. auto. Qed.

Lemma simple_app t c r : simple t -> In c (nl :: s2l ")&|") -> block_cmd (t ++ c :: r) = false.
Proof.
  intros [_ H] C. destruct (block_cmd (t ++ c :: r)) eqn:B; auto. exfalso. apply block_cmd_iff in B.
  destruct B as (n & d & y & A & Bl & Nm). apply H. clear H.
  destruct (le_lt_dec (length t) (length n)) as [L|L].
  - (* the name and the blank reach beyond the text *)
    assert (X : firstn (length t) n = t).
    { apply (f_equal (firstn (length t))) in A. rewrite Estr_Proofs.firstn_app_len in A by auto.
      rewrite firstn_app in A. replace (length t - length n) with 0 in A by lia. simpl in A. rewrite app_nil_r in A. auto. }
    assert (Y : nth_error (n ++ d :: y) (length t) = Some c) by (rewrite <- A, nth_error_app2, Nat.sub_diag by auto; auto).
    destruct (Nat.eq_dec (length t) (length n)) as [Q|Q].
    + rewrite Q, nth_error_app2, Nat.sub_diag in Y by auto. injection Y as ->. rewrite Q, firstn_all in X. subst n.
      exists t, nl, []. split; auto. split; auto. cbv. tauto.
    + rewrite nth_error_app1 in Y by lia. apply nth_error_In in Y. exfalso.
      assert (Z : In (tolower c) (map tolower n)) by (apply in_map; auto).
      repeat (destruct C as [<-|C]; [destruct Nm as [Nm|[Nm|Nm]]; rewrite Nm in Z; vm_compute in Z; intuition discriminate|]).
      destruct C.
  - assert (X : exists z, t = n ++ d :: z).
    { destruct (app_eq_app _ _ _ _ A) as (l & [[A1 A2]|[A1 A2]]); [|apply (f_equal (@length _)) in A1; rewrite app_length in A1; lia].
      destruct l as [|e l]; [rewrite app_nil_r in A1; subst; lia|]. injection A2 as <- _. eauto. }
    destruct X as (z & ->). exists n, d, (z ++ [nl]). rewrite <- app_assoc. auto.
Qed.
Lemma simple_end t : simple t -> block_cmd t = false.
Proof.
  intros [_ H]. destruct (block_cmd t) eqn:B; auto. exfalso. apply H. apply takes_app. apply block_cmd_iff. auto.
Qed.

(** ** Well formed blocks *)
Lemma lead_skip c : In c (s2l " ,;@" ++ ["009"%char]) -> ((pBat_IsDelim c || ceq c "@"%char) && negb (ceq c nl)) = true.
Proof. intros H. repeat (destruct H as [<-|H]; [reflexivity|]). destruct H. Qed.
Lemma lead_skip' c : ~ In c (s2l " ,;@" ++ ["009"%char]) -> ((pBat_IsDelim c || ceq c "@"%char) && negb (ceq c nl)) = false.
Proof.
  intros H. destruct (ceq c nl) eqn:N; [apply Bool.andb_false_r|]. rewrite Bool.andb_true_r. apply Bool.orb_false_iff. split.
  - destruct (pBat_IsDelim c) eqn:D; auto. apply delim_blank in D. exfalso. apply ceq_false in N. cbv in D. cbv in H. cbv in N. intuition.
  - apply ceq_false. intros ->. apply H. cbv. tauto.
Qed.

Lemma skip_at_lead b s : lead b -> skip_at (b ++ s) = skip_at s.
Proof. induction 1; auto. simpl. rewrite lead_skip; auto. Qed.
Lemma skip_at_stop c s : ~ In c (s2l " ,;@" ++ ["009"%char]) -> skip_at (c :: s) = c :: s.
Proof. intros H. simpl. rewrite lead_skip'; auto. Qed.

Lemma after_not_lead par c r : after_line par (c :: r) -> ~ In c (s2l " ,;@(" ++ ["009"%char]).
Proof.
  intros [H|(d & y & H & D)]; [discriminate|]. injection H as <- <-. intros X.
  destruct par; cbv in D, X; intuition (subst; discriminate).
Qed.
Lemma not_lead c : ~ In c (s2l " ,;@(" ++ ["009"%char]) -> ~ In c (s2l " ,;@" ++ ["009"%char]) /\ ceq c "("%char = false.
Proof. intros H. split; [intros X; apply H; cbv in *; tauto|]. apply ceq_false. intros ->. apply H. cbv. tauto. Qed.

Lemma after_stop par c r : after_line par (c :: r) -> In c (nl :: s2l (if par then ")&|" else "&|")).
Proof. intros [H|(d & y & H & D)]; [discriminate|]. injection H as <- <-. exact D. Qed.
Lemma after_stop' (par : bool) c : In c (nl :: s2l (if par then ")&|" else "&|")) -> In c (nl :: s2l ")&|").
Proof. destruct par; cbv; tauto. Qed.
Lemma after_stop2 (par : bool) c : In c (nl :: s2l (if par then ")&|" else "&|")) -> In c (nl :: s2l (if par then "()&|" else "(&|")).
Proof. destruct par; cbv; tauto. Qed.

Lemma takes_head t : takes_blocks t -> exists c r, t = c :: r /\ ceq c "("%char = false.
Proof.
  intros (n & d & r & -> & B & Nm). destruct n as [|c n].
  - exfalso. destruct Nm as [Nm|[Nm|Nm]]; discriminate Nm.
  - exists c, (n ++ d :: r). split; auto. apply ceq_false. intros ->.
    destruct Nm as [Nm|[Nm|Nm]]; apply (f_equal (hd "000"%char)) in Nm; vm_compute in Nm; discriminate Nm.
Qed.

Lemma scan_close f r : scan (S (S f)) MBlock (")"%char :: r) = Ret (Some (")"%char :: r)).
Proof.
  cbn [scan]. rewrite skip_at_stop by (cbv; intuition discriminate). cbn [ceq].
  replace (ceq ")"%char "("%char) with false by reflexivity.
  assert (B : block_cmd (")"%char :: r) = false) by reflexivity.
  rewrite B.
  assert (H : pBat_SearchToken_Hybrid (")"%char :: r) [nl] (s2l ")&|") = Some 0).
  { apply (hybrid_stop (s2l ")&|") [] ")"%char r); [apply (stops_ok true)| |cbv; tauto]. split; [exists []; constructor|].
    split; [exists 0; reflexivity|]. split; intros i; [intros [_ (z & Z & _)]|intros [[_ (z & Z & _)] _]]; destruct i; discriminate Z. }
  rewrite H. reflexivity.
Qed.

Definition okB (i : cstr) := forall f rest, 3 * length i + 3 <= f ->
  scan f MBlock (i ++ ")"%char :: rest) = Ret (Some (")"%char :: rest)).
Definition okL par (l : cstr) := forall f rest, 3 * length l + 2 <= f -> after_line par rest ->
  scan f (MLine par) (l ++ rest) = Ret (Some rest).
Definition okT par (t : cstr) := forall f rest, 3 * length t + 1 <= f -> after_line par rest ->
  scan f (MText par) (t ++ rest) = Ret (Some rest).

Lemma okB_head r : okB r -> forall x, r <> ")"%char :: x.
Proof.
  intros H x ->. specialize (H (3 * length (")"%char :: x) + 3) [] (le_n _)).
  replace (3 * length (")"%char :: x) + 3) with (S (S (3 * length (")"%char :: x) + 1))) in H by lia.
  cbn [app] in H. rewrite scan_close in H. injection H as H. destruct x; discriminate H.
Qed.

(** the end of one turn of the loop over the lines of a block *)
Lemma block_turn f s c r rest : ceq c ")"%char = false -> scan f (MLine true) s = Ret (Some (c :: r ++ ")"%char :: rest)) ->
  okB r -> 3 * length r + 3 <= f -> scan (S f) MBlock s = Ret (Some (")"%char :: rest)).
Proof.
  intros C H R F. cbn [scan]. rewrite H. cbn [bind]. rewrite C.
  destruct (r ++ ")"%char :: rest) as [|d y] eqn:Y; [destruct r; discriminate|].
  destruct (ceq d ")"%char) eqn:D.
  - apply ceq_true in D. subst d. destruct r as [|e r]; [injection Y as <-; auto|]. injection Y as -> _.
    exfalso. exact (okB_head _ R r eq_refl).
  - rewrite <- Y. apply R. auto.
Qed.

Lemma after_close (par : bool) rest : par = true -> after_line par (")"%char :: rest).
Proof. intros ->. right. exists ")"%char, rest. split; auto. cbv. tauto. Qed.

Lemma okB_line l : okL true l -> okB l.
Proof.
  intros L f rest F. destruct f as [|f]; [lia|]. cbn [scan]. rewrite L; [|lia|apply after_close; auto]. reflexivity.
Qed.

Lemma okL_block par b i f rest : lead b -> okB i -> 3 * length i + 4 <= f ->
  scan f (MLine par) (b ++ "("%char :: i ++ ")"%char :: rest) = Ret (Some rest).
Proof.
  intros B I F. destruct f as [|f]; [lia|]. cbn [scan]. rewrite skip_at_lead by auto.
  rewrite skip_at_stop by (cbv; intuition discriminate). replace (ceq "("%char "("%char) with true by reflexivity.
  rewrite I by lia. reflexivity.
Qed.

Theorem blocks_ok : (forall i, inner i -> okB i) /\ (forall par l, line par l -> okL par l) /\ (forall par t, text par t -> okT par t).
Proof.
  apply blocks_ind.
  - intros l _ L. apply okB_line. auto.
  - intros l c r _ L C _ R f rest F. rewrite app_length in F. cbn [length] in F. destruct f as [|f]; [lia|].
    rewrite <- app_assoc. cbn [app]. eapply block_turn with (c := c); [| |exact R|lia].
    + repeat (destruct C as [<-|C]; [reflexivity|]). destruct C.
    + apply L; [lia|]. right. exists c, (r ++ ")"%char :: rest). split; auto. cbv in C. cbv. tauto.
  - intros b i c r B _ I C _ R f rest F. rewrite !app_length in F. cbn [length] in F. rewrite app_length in F. cbn [length] in F.
    destruct f as [|f]; [lia|]. rewrite <- app_assoc. cbn [app]. rewrite <- app_assoc. cbn [app].
    eapply block_turn with (c := c); [| |exact R|lia].
    + repeat (destruct C as [<-|C]; [reflexivity|]). destruct C.
    + apply okL_block; auto. lia.
  - intros par b t B [S1 S2] Q f rest F A. destruct f as [|f]; [lia|]. cbn [scan]. rewrite <- app_assoc, skip_at_lead by auto.
    destruct (stops_ok par) as [K _].
    assert (Z : exists c y, t ++ rest = c :: y /\ ~ In c (s2l " ,;@(" ++ ["009"%char]) \/ t ++ rest = []).
    { destruct t as [|c t]; [destruct rest as [|c r]|].
      - exists "000"%char, []. right. auto.
      - exists c, r. left. split; auto. eapply after_not_lead; eauto.
      - exists c, (t ++ rest). left. split; auto. apply (S1 c t eq_refl). }
    destruct Z as (c & y & [[Z1 Z2]|Z]).
    + apply not_lead in Z2. destruct Z2 as [Z2 Z3]. rewrite Z1, skip_at_stop by auto. rewrite Z3, <- Z1.
      destruct rest as [|d r].
      * rewrite app_nil_r, simple_end by (split; auto). rewrite hybrid_end; auto.
      * rewrite (simple_app t d r) by (try (split; auto); eapply after_stop'; eapply after_stop; eauto).
        rewrite (hybrid_stop _ t d r K Q) by (eapply after_stop; eauto). rewrite Estr_Proofs.skipn_app_len; auto.
    + rewrite Z. simpl. apply app_eq_nil in Z. destruct Z as [_ ->]. auto.
  - intros par b i B _ I f rest F A. rewrite app_length in F. cbn [length] in F. rewrite app_length in F. cbn [length] in F.
    rewrite <- app_assoc. cbn [app]. rewrite <- app_assoc. cbn [app]. apply okL_block; auto. lia.
  - intros par b t B H1 H2 _ T f rest F A. destruct f as [|f]; [lia|]. rewrite app_length in F. cbn [scan].
    rewrite <- app_assoc, skip_at_lead by auto. destruct (takes_head t H2) as (c & y & Q & N).
    assert (W : skip_at (t ++ rest) = t ++ rest) by (rewrite Q; apply skip_at_stop; apply (H1 c y Q)).
    rewrite W. rewrite (proj2 (block_cmd_iff _) (takes_app t rest H2)).
    assert (X : t ++ rest = c :: y ++ rest) by (rewrite Q; auto). rewrite X at 1. rewrite N.
    apply T; [|auto]. rewrite Q in *. cbn [length] in *. lia.
  - intros par t Q f rest F A. destruct f as [|f]; [lia|]. cbn [scan]. destruct (stops_ok par) as [_ K].
    destruct rest as [|d r].
    + rewrite app_nil_r, hybrid_end; auto.
    + rewrite (hybrid_stop _ t d r K Q) by (apply after_stop2; eapply after_stop; eauto). rewrite Estr_Proofs.skipn_app_len by auto.
      assert (N : ceq d "("%char = false) by (apply (not_lead d); eapply after_not_lead; eauto). rewrite N. auto.
  - intros par t i r Q _ I _ R f rest F A. destruct f as [|f]; [lia|]. rewrite app_length in F. cbn [length] in F. rewrite app_length in F. cbn [length] in F.
    cbn [scan]. destruct (stops_ok par) as [_ K]. rewrite <- app_assoc. cbn [app]. rewrite <- app_assoc. cbn [app].
    rewrite (hybrid_stop _ t "("%char _ K Q) by (destruct par; cbv; tauto). rewrite Estr_Proofs.skipn_app_len by auto.
    replace (ceq "("%char "("%char) with true by reflexivity. rewrite I by lia. cbn [bind skipn].
    destruct (r ++ rest) as [|z y] eqn:Z.
    + apply app_eq_nil in Z. destruct Z as [_ ->]. auto.
    + rewrite <- Z. apply R; auto. lia.
Qed.

(** ** Every text *)
Definition suffix (q s : cstr) : Prop := exists a, s = a ++ q.
Lemma suffix_refl s : suffix s s. Proof. exists []. auto. Qed.
Lemma suffix_trans a b c : suffix a b -> suffix b c -> suffix a c.
Proof. intros (x & ->) (y & ->). exists (y ++ x). rewrite app_assoc. auto. Qed.
Lemma suffix_cons c s : suffix s (c :: s). Proof. exists [c]. auto. Qed.
Lemma suffix_skipn n s : suffix (skipn n s) s.
Proof. exists (firstn n s). rewrite firstn_skipn. auto. Qed.
Lemma suffix_nil s : suffix [] s. Proof. exists s. rewrite app_nil_r. auto. Qed.
Lemma suffix_len q s : suffix q s -> length q <= length s.
Proof. intros (a & ->). rewrite app_length. lia. Qed.
Lemma skip_at_suffix s : suffix (skip_at s) s.
Proof. induction s as [|c s IH]; [apply suffix_refl|]. simpl. destruct (_ && _); [|apply suffix_refl]. eapply suffix_trans; [eauto|apply suffix_cons]. Qed.

Definition at_end (m : mode) (s : cstr) (r : option cstr) : Prop :=
  match r with
  | None => True
  | Some q => suffix q s /\ match m with
                            | MBlock => exists y, q = ")"%char :: y
                            | MLine _ => True
                            | MText par => True
                            end
  end.
Definition room (m : mode) (s : cstr) : nat :=
  3 * length s + match m with MBlock => 3 | MLine _ => 2 | MText _ => 1 end.

Lemma hybrid_room (s quot unq : cstr) n : stopset unq -> pBat_SearchToken_Hybrid s quot unq = Some n ->
  exists c t, skipn n s = c :: t /\ (In c quot \/ In c unq).
Proof.
  intros [S1 S2] H. pose proof (Hybrid_spec s quot unq S1 S2) as P. rewrite H in P. destruct P as [P _].
  assert (X : exists c, nth_error s n = Some c /\ (In c quot \/ In c unq)).
  { destruct P as [L|[L _]]; apply live_iff in L; destruct L as [_ (c & C1 & C2)]; exists c; split; auto; apply inset_In in C2; auto. }
  destruct X as (c & X & Y). exists c, (skipn (S n) s). split; auto.
  clear - X. revert s X. induction n; intros [|z s] X; try discriminate; simpl in *; [injection X as ->; auto|]. apply IHn. auto.
Qed.

Lemma scan_total f : forall m s, room m s <= f -> exists r, scan f m s = Ret r /\ at_end m s r.
Proof.
  induction f as [|f IH]; intros m s F; [destruct m; unfold room in F; lia|]. unfold room in F. cbn [scan]. destruct m as [|par|par].
  - destruct (IH (MLine true) s) as (r & R & X); [unfold room; lia|]. rewrite R. cbn [bind].
    destruct r as [[|c p]|]; [exists None; simpl; auto| |exists None; simpl; auto]. destruct X as [X _].
    destruct (ceq c ")"%char) eqn:C.
    + rewrite C. exists (Some (c :: p)). split; auto. split; auto. apply ceq_true in C. subst. eauto.
    + destruct p as [|d p]; [exists None; simpl; auto|]. destruct (ceq d ")"%char) eqn:D.
      * exists (Some (d :: p)). split; auto. split; [eapply suffix_trans; [apply suffix_cons|eauto]|]. apply ceq_true in D. subst. eauto.
      * destruct (IH MBlock (d :: p)) as (r & R' & X'); [unfold room; apply suffix_len in X; cbn [length] in *; lia|].
        exists r. split; auto. destruct r; simpl in *; auto. destruct X' as [X1 X2]. split; auto. eapply suffix_trans; [eauto|].
        eapply suffix_trans; [apply suffix_cons|eauto].
  - pose proof (skip_at_suffix s) as K. cbv zeta. destruct (skip_at s) as [|c t] eqn:Q.
    + exists (Some []). split; auto. simpl. auto.
    + destruct (ceq c "("%char).
      * destruct (IH MBlock t) as (r & R & X); [unfold room; apply suffix_len in K; cbn [length] in *; lia|].
        rewrite R. cbn [bind]. eexists. split; [reflexivity|]. destruct r as [q|]; [|exact I]. destruct X as [X _]. split; auto.
        eapply suffix_trans; [apply suffix_skipn|]. eapply suffix_trans; [eauto|]. eapply suffix_trans; [apply suffix_cons|eauto].
      * destruct (block_cmd (c :: t)).
        -- destruct (IH (MText par) (c :: t)) as (r & R & X); [unfold room; apply suffix_len in K; cbn [length] in *; lia|].
           exists r. split; auto. destruct r as [q|]; simpl; auto. destruct X as [X _]. split; auto. eapply suffix_trans; eauto.
        -- eexists. split; [reflexivity|]. destruct (pBat_SearchToken_Hybrid _ _ _).
           ++ split; auto. eapply suffix_trans; [apply suffix_skipn|eauto].
           ++ split; auto. apply suffix_nil.
  - destruct (pBat_SearchToken_Hybrid s [nl] _) as [n|] eqn:H; [|exists (Some []); split; auto; split; auto; apply suffix_nil].
    destruct (hybrid_room s _ _ n (proj2 (stops_ok par)) H) as (c & t & S1 & _). pose proof (suffix_skipn n s) as K. rewrite S1 in K |- *.
    destruct (ceq c "("%char); [|exists (Some (c :: t)); split; auto; split; auto].
    destruct (IH MBlock t) as (r & R & X); [unfold room; apply suffix_len in K; cbn [length] in *; lia|].
    rewrite R. cbn [bind]. destruct r as [q|]; [|exists None; simpl; auto]. destruct X as [X (y & ->)]. cbn [skipn].
    destruct y as [|z y]; [exists (Some []); split; auto; split; auto; apply suffix_nil|].
    assert (X' : suffix (z :: y) s) by (eapply suffix_trans; [apply suffix_cons|]; eapply suffix_trans; [eauto|]; eapply suffix_trans; [apply suffix_cons|eauto]).
    destruct (IH (MText par) (z :: y)) as (r & R' & W).
    { unfold room. apply suffix_len in X. apply suffix_len in K. cbn [length] in *. lia. }
    exists r. split; auto. destruct r as [w|]; simpl; auto. destruct W as [W _]. split; auto. eapply suffix_trans; eauto.
Qed.

(** ** The first block *)
Lemma allskip b s : lead_nl b -> pBat_SkipAllBlanks (b ++ s) = pBat_SkipAllBlanks s.
Proof.
  induction 1; auto. simpl. assert (X : pBat_IsDelim x || ceq x "@"%char = true).
  { repeat (destruct H as [<-|H]; [reflexivity|]). destruct H. }
  rewrite X. auto.
Qed.
Lemma allskip_stop c s : ~ In c (s2l " ,;@" ++ ["009"%char; "010"%char]) -> pBat_SkipAllBlanks (c :: s) = c :: s.
Proof.
  intros H. simpl. assert (X : pBat_IsDelim c || ceq c "@"%char = false).
  { apply Bool.orb_false_iff. split; [|apply ceq_false; intros ->; apply H; cbv; tauto].
    destruct (pBat_IsDelim c) eqn:D; auto. apply delim_blank in D. exfalso. cbv in D, H. tauto. }
  rewrite X. auto.
Qed.

Lemma quiet_nl stops c r : quiet stops (c :: r) -> c <> nl.
Proof.
  intros (_ & _ & N & _) ->. apply (N 0). apply live_iff. split; [reflexivity|]. exists nl. auto.
Qed.
Lemma takes_head' t : takes_blocks t -> exists c r, t = c :: r /\ ~ In c (s2l " ,;@(" ++ ["009"%char; "010"%char]).
Proof.
  intros (n & d & r & -> & B & Nm). destruct n as [|c n].
  - exfalso. destruct Nm as [Nm|[Nm|Nm]]; discriminate Nm.
  - exists c, (n ++ d :: r). split; auto. intros C.
    repeat (destruct C as [<-|C]; [destruct Nm as [Nm|[Nm|Nm]]; apply (f_equal (hd "000"%char)) in Nm; vm_compute in Nm; discriminate Nm|]).
    destruct C.
Qed.

(** what [begin_loop] does with a command that has no block *)
Lemma no_block_head t : no_block t -> forall c r, t = c :: r -> ~ In c (s2l " ,;@(" ++ ["009"%char; "010"%char]).
Proof.
  intros [[[S1 _] Q]|[T _]] c r ->.
  - specialize (S1 c r eq_refl). apply quiet_nl in Q. intros X. cbv in X, S1, Q. intuition.
  - destruct (takes_head' _ T) as (d & y & D & N). injection D as <- <-. auto.
Qed.

Definition turn_stops (s : cstr) := s2l (if block_cmd s || match s with c :: _ => ceq c "("%char | [] => false end then "(&|" else "&|").
Lemma turn_stopset s : stopset (turn_stops s).
Proof. unfold turn_stops. destruct (_ || _); repeat split; intros X; cbv in X; intuition discriminate. Qed.

Lemma not_open t c r : (forall c r, t = c :: r -> ~ In c (s2l " ,;@(" ++ ["009"%char; "010"%char])) -> ceq c "("%char = false ->
  match t ++ c :: r with c :: _ => ceq c "("%char | [] => false end = false.
Proof.
  intros H C. destruct t as [|d t]; auto. simpl. apply ceq_false. intros ->. apply (H _ _ eq_refl). cbv. tauto.
Qed.

Lemma turn_search t c r : no_block t -> In c (nl :: s2l "&|") ->
  pBat_SearchToken_Hybrid (t ++ c :: r) [nl] (turn_stops (t ++ c :: r)) = Some (length t).
Proof.
  intros N C. pose proof (no_block_head t N) as H. unfold turn_stops. rewrite not_open; auto.
  2:{ repeat (destruct C as [<-|C]; [reflexivity|]). destruct C. }
  rewrite Bool.orb_false_r. destruct N as [[S1 Q]|[T Q]].
  - rewrite simple_app; auto; [|cbv in C; cbv; tauto]. apply hybrid_stop; auto. split; intros X; cbv in X; intuition discriminate.
  - rewrite (proj2 (block_cmd_iff _) (takes_app t _ T)). apply hybrid_stop; auto.
    + split; intros X; cbv in X; intuition discriminate.
    + cbv in C; cbv; tauto.
Qed.
Lemma turn_end t : no_block t -> pBat_SearchToken_Hybrid t [nl] (turn_stops t) = None.
Proof.
  intros N. pose proof (no_block_head t N) as H. unfold turn_stops.
  replace (match t with c :: _ => ceq c "("%char | [] => false end) with false.
  2:{ destruct t as [|d t]; auto. symmetry. apply ceq_false. intros ->. apply (H _ _ eq_refl). cbv. tauto. }
  rewrite Bool.orb_false_r. destruct N as [[S1 Q]|[T Q]].
  - rewrite simple_end; auto. apply hybrid_end; auto. split; intros X; cbv in X; intuition discriminate.
  - rewrite (proj2 (block_cmd_iff _) T). apply hybrid_end; auto. split; intros X; cbv in X; intuition discriminate.
Qed.

Lemma begin_unfold f s : begin_loop (S f) s =
  let s := pBat_SkipAllBlanks s in
  match pBat_SearchToken_Hybrid s [nl] (turn_stops s) with
  | None => Ret None
  | Some n =>
      match skipn n s with
      | c :: t =>
          if ceq c nl then begin_loop f t
          else if ceq c "("%char then Ret (Some (c :: t))
          else begin_loop f (match t with d :: u => if ceq d c then u else t | [] => t end)
      | [] => Undef
      end
  end.
Proof. reflexivity. Qed.

Lemma begin_skip f b s : lead_nl b -> begin_loop f (b ++ s) = begin_loop f s.
Proof. intros B. destruct f; auto. rewrite !begin_unfold, allskip; auto. Qed.

(** Without a command before, the blanks of the next line are skipped at once. *)
Lemma begin_nl f s : begin_loop f (nl :: s) = begin_loop f s.
Proof. apply (begin_skip f [nl]). apply Forall_cons; [cbv; tauto|apply Forall_nil]. Qed.

Lemma begin_next f t op r : no_block t -> cmd_end op r -> (t = [] -> op <> [nl]) ->
  begin_loop (S f) (t ++ op ++ r) = begin_loop f r.
Proof.
  intros N C Z. rewrite begin_unfold. pose proof (no_block_head t N) as H.
  assert (O : exists c y, op = c :: y /\ In c (nl :: s2l "&|")).
  { destruct C as [->|(c & C & [->|[-> _]])]; eexists; eexists; (split; [reflexivity|]); [cbv; tauto|right; auto|right; auto]. }
  destruct O as (c & y & -> & O).
  assert (K : pBat_SkipAllBlanks (t ++ (c :: y) ++ r) = t ++ c :: y ++ r).
  { destruct t as [|d t].
    - cbn [app]. apply allskip_stop. destruct O as [<-|O].
      + destruct C as [C|(e & E & [C|[C _]])]; [exfalso; apply Z; auto| |]; injection C as <-; cbv in E; intuition discriminate.
      + repeat (destruct O as [<-|O]; [cbv; intuition discriminate|]). destruct O.
    - cbn [app]. apply allskip_stop. intros X. apply (H d t eq_refl). cbv in X. cbv. tauto. }
  cbv zeta. rewrite K, turn_search, Estr_Proofs.skipn_app_len by auto.
  destruct C as [C|(e & E & C)].
  - injection C as -> ->. reflexivity.
  - assert (c = e) by (destruct C as [C|[C _]]; injection C; auto). subst e.
    assert (E1 : ceq c nl = false) by (repeat (destruct E as [<-|E]; [reflexivity|]); destruct E).
    assert (E2 : ceq c "("%char = false) by (repeat (destruct E as [<-|E]; [reflexivity|]); destruct E).
    rewrite E1, E2. destruct C as [C|[C Nx]]; injection C as ->.
    + cbn [app]. rewrite ceq_refl. auto.
    + cbn [app]. destruct r as [|d u]; auto. destruct (ceq d c) eqn:D; auto. apply ceq_true in D. subst. exfalso. eapply Nx; eauto.
Qed.

Lemma op_len op r : cmd_end op r -> 1 <= length op.
Proof. intros [->|(c & _ & [->|[-> _]])]; simpl; lia. Qed.

Lemma begin_step f b t op r : lead_nl b -> no_block t -> cmd_end op r -> 1 <= f ->
  exists f', begin_loop f (b ++ t ++ op ++ r) = begin_loop f' r /\ f <= S f'.
Proof.
  intros B N C F. destruct f as [|f]; [lia|].
  rewrite begin_skip by auto.
  destruct t as [|c t]; [|exists f; split; auto; apply (begin_next f (c :: t)); auto; discriminate].
  destruct (list_eq_dec ascii_dec op [nl]) as [->|D].
  - exists (S f). split; [|lia]. apply (begin_nl (S f)).
  - exists f. split; auto. apply (begin_next f []); auto.
Qed.

Lemma flat_ok s : flat s -> forall f, length s < f -> begin_loop f s = Ret None.
Proof.
  induction 1 as [b t B N|b t op r B N C _ IH]; intros f F.
  - destruct f as [|f]; [lia|]. rewrite begin_skip, begin_unfold by auto.
    assert (K : pBat_SkipAllBlanks t = t).
    { destruct t as [|d t]; auto. apply allskip_stop. intros X. apply (no_block_head _ N d t eq_refl). cbv in X. cbv. tauto. }
    cbv zeta. rewrite K, turn_end; auto.
  - rewrite !app_length in F. pose proof (op_len _ _ C). destruct (begin_step f b t op r B N C ltac:(lia)) as (f' & -> & L). apply IH. lia.
Qed.

Lemma heads_ok h : heads h -> forall f rest, length h < f -> begin_loop f (h ++ "("%char :: rest) = Ret (Some ("("%char :: rest)).
Proof.
  induction 1 as [b B|b t B T Q|b t op r B N C _ IH]; intros f rest F.
  - destruct f as [|f]; [lia|]. rewrite begin_skip, begin_unfold by auto. cbv zeta.
    rewrite allskip_stop by (cbv; intuition discriminate).
    assert (X : turn_stops ("("%char :: rest) = s2l "(&|").
    { unfold turn_stops. replace (ceq "("%char "("%char) with true by reflexivity. rewrite Bool.orb_true_r. auto. }
    rewrite X. change ("("%char :: rest) with ([] ++ "("%char :: rest) at 1. rewrite (hybrid_stop (s2l "(&|") [] "("%char rest); auto.
    + split; intros Y; cbv in Y; intuition discriminate.
    + split; [exists []; constructor|]. split; [exists 0; reflexivity|].
      split; intros i; [intros [_ (z & Z & _)]|intros [[_ (z & Z & _)] _]]; destruct i; discriminate Z.
    + cbv. tauto.
  - destruct f as [|f]; [lia|]. rewrite <- app_assoc, begin_skip, begin_unfold by auto. cbv zeta.
    assert (K : pBat_SkipAllBlanks (t ++ "("%char :: rest) = t ++ "("%char :: rest).
    { destruct (takes_head' t T) as (c & r & -> & N). apply allskip_stop. intros X. apply N. cbv in X. cbv. tauto. }
    rewrite K. unfold turn_stops. rewrite (proj2 (block_cmd_iff _) (takes_app t _ T)). cbn [orb].
    rewrite (hybrid_stop (s2l "(&|") t "("%char rest); auto; [rewrite Estr_Proofs.skipn_app_len; auto| |cbv; tauto].
    split; intros Y; cbv in Y; intuition discriminate.
  - rewrite !app_length in F. pose proof (op_len _ _ C). rewrite <- !app_assoc.
    assert (C' : cmd_end op (r ++ "("%char :: rest)).
    { destruct C as [C|(c & C & [C1|[C1 C2]])]; [left; auto|right; exists c; auto|]. right. exists c. split; auto. right. split; auto.
      intros y Y. destruct r as [|d r]; [injection Y as <- _; cbv in C; intuition discriminate|]. injection Y as -> _. apply (C2 r). auto. }
    destruct (begin_step f b t op _ B N C' ltac:(lia)) as (f' & -> & L). apply IH. lia.
Qed.

Lemma allskip_suffix s : suffix (pBat_SkipAllBlanks s) s.
Proof. induction s as [|c s IH]; [apply suffix_refl|]. simpl. destruct (_ || _); [|apply suffix_refl]. eapply suffix_trans; [eauto|apply suffix_cons]. Qed.

Lemma begin_total f : forall s, length s < f -> exists r, begin_loop f s = Ret r /\
  match r with Some q => suffix q s /\ exists y, q = "("%char :: y | None => True end.
Proof.
  induction f as [|f IH]; intros s F; [lia|]. rewrite begin_unfold. cbv zeta. pose proof (allskip_suffix s) as K.
  destruct (pBat_SearchToken_Hybrid _ _ _) as [n|] eqn:H; [|exists None; auto].
  destruct (hybrid_room _ _ _ n (turn_stopset _) H) as (c & t & S1 & _). rewrite S1.
  pose proof (suffix_skipn n (pBat_SkipAllBlanks s)) as K2. rewrite S1 in K2.
  assert (K3 : suffix (c :: t) s) by (eapply suffix_trans; eauto).
  assert (G : forall q, suffix q t -> exists r, begin_loop f q = Ret r /\ match r with Some q => suffix q s /\ exists y, q = "("%char :: y | None => True end).
  { intros q Q. assert (Q' : suffix q s) by (eapply suffix_trans; [exact Q|]; eapply suffix_trans; [apply suffix_cons|eauto]).
    apply suffix_len in K3. apply suffix_len in Q. cbn [length] in K3. destruct (IH q ltac:(lia)) as (r & R & X). exists r. split; auto.
    destruct r; auto. destruct X as [X Y]. split; auto. eapply suffix_trans; eauto. }
  destruct (ceq c nl); [apply G; apply suffix_refl|].
  destruct (ceq c "("%char) eqn:C; [exists (Some (c :: t)); split; auto; split; auto; apply ceq_true in C; subst; eauto|].
  apply G. destruct t as [|d u]; [apply suffix_refl|]. destruct (ceq d c); [apply suffix_cons|apply suffix_refl].
Qed.

(** [quiet] for texts without quotes nor '^' *)
Definition plainly (stops t : cstr) : bool :=
  forallb (fun c => negb (ceq c caret) && negb (ceq c dquote) && negb (ceq c nl) && negb (inset stops c)) t.
Lemma plainly_quiet stops t : plainly stops t = true -> quiet stops t.
Proof.
  intros H. unfold plainly in H. rewrite forallb_forall in H.
  assert (K : forall c, In c t -> c <> caret /\ c <> dquote /\ ceq c nl = false /\ inset stops c = false).
  { intros c C. apply H in C. rewrite !Bool.andb_true_iff, !Bool.negb_true_iff in C. destruct C as [[[C1 C2] C3] C4].
    apply ceq_false in C1. apply ceq_false in C2. auto. }
  split; [|split; [|split]].
  - exists t. clear H. induction t as [|c t IH]; [constructor|]. constructor; [apply K; simpl; auto|]. apply IH. intros; apply K; simpl; auto.
  - exists 0. unfold quotes_before. clear H. generalize (protected_from false t) as e. generalize (length t) as n.
    induction t as [|c t IH]; intros n e; [destruct n; auto|].
    destruct n; auto. destruct e; auto. cbn [count_quotes]. destruct (K c (or_introl eq_refl)) as (K1 & K2 & _).
    change (Ascii.eqb c """"%char) with (ceq c dquote). rewrite (proj2 (ceq_false c dquote) K2). simpl. apply IH. intros; apply K; simpl; auto.
  - intros i [_ (c & C1 & C2)]. apply nth_error_In in C1. apply K in C1. destruct C1 as (_ & _ & C1 & _). change (ceq c nl = true) in C2. congruence.
  - intros i [[_ (c & C1 & C2)] _]. apply nth_error_In in C1. apply K in C1. destruct C1 as (_ & _ & _ & C1). congruence.
Qed.

