(** Gettext_Proofs.v *)
From Verif Require Import Base Gettext_Model Gettext_Spec.

(** ** Numbers *)
Lemma skipn_nth {A} (f : list A) : forall o k, nth_error (skipn o f) k = nth_error f (o + k).
Proof. induction f as [|a f IH]; intros o k; [rewrite skipn_nil; destruct o, k; reflexivity|]. destruct o; cbn; auto. Qed.
Lemma byte_nth f o c : nth_error f o = Some c -> byte f (Z.of_nat o) = Ret c.
Proof. intros H. unfold byte. rewrite (proj2 (Z.ltb_ge _ _)) by lia. rewrite Nat2Z.id, H. reflexivity. Qed.
Lemma number_len f o n : number_at f o n -> o + 4 <= length f.
Proof. intros (a & b & c & d & E & _). apply (f_equal (@length _)) in E. rewrite firstn_length, skipn_length in E. cbn [length] in E. lia. Qed.
Lemma number_ok f o n : number_at f o n -> (Z.of_nat n < 2 ^ 31)%Z -> int_at f (Z.of_nat o) = Ret (Z.of_nat n).
Proof.
  intros (a & b & c & d & E & N) L. assert (B : forall k x, nth_error [a; b; c; d] k = Some x -> nth_error f (o + k) = Some x).
  { intros k x H. rewrite <- E in H. rewrite <- skipn_nth. rewrite <- (firstn_skipn 4 (skipn o f)). rewrite nth_error_app1; auto. apply nth_error_Some. congruence. }
  unfold int_at. pose proof (B 0 a eq_refl) as B0. rewrite Nat.add_0_r in B0. rewrite (byte_nth _ _ _ B0). cbn [bind].
  replace (Z.of_nat o + 1)%Z with (Z.of_nat (o + 1)) by lia. rewrite (byte_nth _ _ _ (B 1 b eq_refl)). cbn [bind].
  replace (Z.of_nat o + 2)%Z with (Z.of_nat (o + 2)) by lia. rewrite (byte_nth _ _ _ (B 2 c eq_refl)). cbn [bind].
  replace (Z.of_nat o + 3)%Z with (Z.of_nat (o + 3)) by lia. rewrite (byte_nth _ _ _ (B 3 d eq_refl)). cbn [bind].
  replace (code a + 256 * (code b + 256 * (code c + 256 * code d)))%Z with (Z.of_nat n) by (rewrite N; lia).
  rewrite (proj2 (Z.ltb_ge _ _)); [reflexivity|]. unfold INT_MAX. lia.
Qed.
Lemma in_bounds len x : (0 <= x < len)%Z -> (len < 2 ^ 31)%Z -> out_of_bounds len x = false.
Proof. intros H L. unfold out_of_bounds, two_64. rewrite Z.mod_small by lia. apply Z.ltb_ge. lia. Qed.

(** ** Texts *)
Lemma text_len f o s : text_at f o s -> o + length s < length f.
Proof. intros [_ (r & E)]. apply (f_equal (@length _)) in E. rewrite skipn_length, app_length in E. cbn [length] in E. lia. Qed.
Lemma upto_ok s r : nonul s -> upto_nul (s ++ "000"%char :: r) = Ret s.
Proof.
  induction s as [|c s IH]; intros N; [reflexivity|]. cbn [app upto_nul]. rewrite (proj2 (ceq_false _ _)); [|intros ->; apply N; cbn; auto]. rewrite IH; [reflexivity|]. intros I. apply N. cbn. auto.
Qed.
Lemma text_ok f o s : text_at f o s -> text f (Z.of_nat o) = Ret s.
Proof. intros [N (r & E)]. unfold text. rewrite (proj2 (Z.ltb_ge _ _)) by lia. rewrite Nat2Z.id, E. apply upto_ok. auto. Qed.
Lemma skipn_S {A} (l : list A) : forall n a r, skipn n l = a :: r -> skipn (S n) l = r.
Proof. induction l as [|b l IH]; intros n a r E; [rewrite skipn_nil in E; discriminate|]. destruct n; [cbn in *; congruence|]. cbn [skipn] in E. apply IH in E. exact E. Qed.
Lemma text_tail f o c s : text_at f o (c :: s) -> text_at f (S o) s.
Proof. intros [N (r & E)]. split; [intros I; apply N; cbn; auto|]. exists r. eapply skipn_S. exact E. Qed.
Lemma text_byte f o s : text_at f o s -> byte f (Z.of_nat o) = Ret (match s with [] => "000"%char | c :: _ => c end).
Proof. intros [_ (r & E)]. apply byte_nth. rewrite <- (Nat.add_0_r o), <- skipn_nth, E. destruct s; reflexivity. Qed.
Lemma code_nul : code "000"%char = 0%Z. Proof. reflexivity. Qed.
Lemma code_pos c : c <> "000"%char -> (0 < code c)%Z.
Proof. intros N. pose proof (code_range c). assert (code c <> 0%Z); [|lia]. intros Z. apply N. apply code_inj. rewrite Z. reflexivity. Qed.
Lemma cmp_ok f : forall msg o s, nonul msg -> text_at f o s -> strcmp_at f msg (Z.of_nat o) = Ret (strcmp msg s).
Proof.
  induction msg as [|c msg IH]; intros o s N T; cbn [strcmp_at]; rewrite (text_byte _ _ _ T); cbn [bind]; pose proof T as [Ns _].
  - destruct s as [|x s]; [reflexivity|]. cbn [strcmp]. f_equal. apply Z.compare_lt_iff. apply code_pos. intros ->. apply Ns. cbn. auto.
  - destruct s as [|x s].
    + assert (C : c <> "000"%char) by (intros ->; apply N; cbn; auto). rewrite (proj2 (ceq_false _ _) C). cbn [strcmp]. f_equal. rewrite code_nul. apply Z.compare_gt_iff. apply code_pos. auto.
    + cbn [strcmp]. destruct (ceq c x) eqn:E; [|reflexivity]. apply ceq_true in E. subst x. replace (Z.of_nat o + 1)%Z with (Z.of_nat (S o)) by lia. apply IH; [|eapply text_tail; eauto]. intros I. apply N. cbn. auto.
Qed.
(** The order *)
Lemma cmp_eq : forall a b, strcmp a b = Eq <-> a = b.
Proof.
  induction a as [|x a IH]; intros [|y b]; cbn [strcmp]; try (split; discriminate); [tauto|]. destruct (ceq x y) eqn:E.
  - apply ceq_true in E. subst y. rewrite IH. split; congruence.
  - apply ceq_false in E. split; [|congruence]. intros H. apply Z.compare_eq_iff in H. apply code_inj in H. contradiction.
Qed.
Lemma cmp_lt : forall a b, strcmp a b = Lt <-> before a b.
Proof.
  induction a as [|x a IH]; intros [|y b]; cbn [strcmp]; try (split; [discriminate|intros H; inversion H]; fail); [split; auto; intros _; constructor|]. destruct (ceq x y) eqn:E.
  - apply ceq_true in E. subst y. rewrite IH. split; [apply be_same|]. intros H. inversion H; subst; auto. lia.
  - apply ceq_false in E. rewrite Z.compare_lt_iff. split; [apply be_less|]. intros H. inversion H; subst; auto. contradiction.
Qed.
Lemma cmp_flip : forall a b, strcmp b a = CompOpp (strcmp a b).
Proof.
  induction a as [|x a IH]; intros [|y b]; cbn [strcmp]; auto. destruct (ceq x y) eqn:E.
  - apply ceq_true in E. subst y. rewrite ceq_refl. auto.
  - apply ceq_false in E. rewrite (proj2 (ceq_false y x)) by congruence. apply Z.compare_antisym.
Qed.
Lemma cmp_gt a b : strcmp a b = Gt <-> before b a.
Proof. rewrite <- cmp_lt, cmp_flip. destruct (strcmp b a); cbn; split; congruence. Qed.
Lemma before_trans : forall a b c, before a b -> before b c -> before a c.
Proof.
  intros a b c H. revert c. induction H as [y b|x y a b L|x a b H IH]; intros c Hc; inversion Hc; subst; try constructor; auto; lia.
Qed.

(** ** Binary search *)
Lemma bsearch_ok (cmp : nat -> outcome comparison) (g : nat -> comparison) (n : nat) :
  (forall i, i < n -> cmp i = Ret (g i)) -> (forall i j, i < j -> j < n -> g i = Lt -> g j = Lt) -> (forall i j, i < j -> j < n -> g j = Gt -> g i = Gt) ->
  forall fuel l u, u <= n -> u - l < fuel ->
  exists r, bsearch fuel cmp l u = Ret r /\ match r with Some i => i < n /\ g i = Eq | None => forall i, l <= i < u -> g i <> Eq end.
Proof.
  intros C G1 G2. induction fuel as [|fuel IH]; intros l u U F; [lia|]. cbn [bsearch]. destruct (Nat.ltb_spec l u) as [L|L]; [|exists None; split; auto; intros; lia].
  set (m := (l + u) / 2). assert (M : l <= m < u). { unfold m. split; [apply Nat.div_le_lower_bound; lia|apply Nat.div_lt_upper_bound; lia]. }
  rewrite C by lia. cbn [bind]. destruct (g m) eqn:Gm.
  - exists (Some m). split; auto. split; auto. lia.
  - destruct (IH l m) as (r & E & R); [lia|lia|]. exists r. split; auto. destruct r; auto. intros i I. destruct (Nat.lt_trichotomy i m) as [Q|[->|Q]]; [apply R; lia|congruence|].
    rewrite (G1 m i); try lia; congruence.
  - destruct (IH (S m) u) as (r & E & R); [lia|lia|]. exists r. split; auto. destruct r; auto. intros i I. destruct (Nat.lt_trichotomy i m) as [Q|[->|Q]]; [|congruence|apply R; lia].
    rewrite (G2 i m); try lia; congruence.
Qed.
(** Of a sorted list of texts *)
Lemma bsearch_sorted (l : list cstr) (key : cstr) (cmp : nat -> outcome comparison) :
  (forall i j a b, i < j -> nth_error l i = Some a -> nth_error l j = Some b -> a = b \/ before a b) ->
  (forall i s, nth_error l i = Some s -> cmp i = Ret (strcmp key s)) ->
  exists r, bsearch (S (length l)) cmp 0 (length l) = Ret r /\ match r with Some i => nth_error l i = Some key | None => ~ In key l end.
Proof.
  intros Sr C. assert (N : forall i, i < length l -> nth_error l i = Some (nth i l [])) by (intros i H; apply nth_error_nth'; auto).
  destruct (bsearch_ok cmp (fun i => strcmp key (nth i l [])) (length l)) with (fuel := S (length l)) (l := 0) (u := length l) as (r & E & R); try lia.
  - intros i H. apply C. apply N. auto.
  - intros i j H J G. assert (B : nth i l [] = nth j l [] \/ before (nth i l []) (nth j l [])) by (apply (Sr i j _ _ H); apply N; lia). apply cmp_lt. apply cmp_lt in G. destruct B as [<-|B]; auto. eapply before_trans; eauto.
  - intros i j H J G. assert (B : nth i l [] = nth j l [] \/ before (nth i l []) (nth j l [])) by (apply (Sr i j _ _ H); apply N; lia). apply cmp_gt. apply cmp_gt in G. destruct B as [->|B]; auto. eapply before_trans; eauto.
  - exists r. split; auto. destruct r as [i|].
    + destruct R as [I K]. apply cmp_eq in K. rewrite N by auto. congruence.
    + intros I. apply In_nth with (d := []) in I. destruct I as (i & L & Q). apply (R i); [lia|]. apply cmp_eq. auto.
Qed.

(** ** Loading *)
Definition points (f : cstr) (p : Z) (s : cstr) : Prop := exists q, p = Z.of_nat q /\ text_at f q s.
Lemma fill_ok f o n : (Z.of_nat (length f) < 2 ^ 31)%Z -> n <= length f -> forall l i fuel,
  (forall k s, nth_error l k = Some s -> exists p, number_at f (o + 8 * (i + k) + 4) p /\ text_at f p s) -> i + length l = n -> length l < fuel ->
  exists ps, fill fuel f (Z.of_nat n) (Z.of_nat o) (Z.of_nat i) = Ret (Some ps) /\ Forall2 (points f) ps l.
Proof.
  intros L N. induction l as [|s l IH]; intros i fuel T E F; cbn [length] in *; (destruct fuel as [|fuel]; [lia|]); cbn [fill].
  - rewrite (proj2 (Z.ltb_ge _ _)) by lia. exists []. split; auto.
  - rewrite (proj2 (Z.ltb_lt _ _)) by lia. destruct (T 0 s eq_refl) as (p & Np & Tp). pose proof (text_len _ _ _ Tp) as Lp.
    replace (Z.of_nat o + 4 * (2 * Z.of_nat i + 1))%Z with (Z.of_nat (o + 8 * (i + 0) + 4)) by lia. rewrite (number_ok _ _ _ Np) by lia. cbn [bind].
    rewrite (proj2 (Z.eqb_neq _ _)) by (unfold INT_MAX; lia). rewrite in_bounds by lia. rewrite (proj2 (Z.ltb_lt _ _)) by lia.
    replace (Z.of_nat i + 1)%Z with (Z.of_nat (S i)) by lia. destruct (IH (S i) fuel) as (ps & Ef & Fp); try lia.
    { intros k x H. destruct (T (S k) x H) as (q & Q). exists q. replace (S i + k) with (i + S k) by lia. exact Q. }
    rewrite Ef. cbn. exists (Z.of_nat p :: ps). split; auto. constructor; auto. exists p. auto.
Qed.
Lemma array_ok f o l : (Z.of_nat (length f) < 2 ^ 31)%Z -> table_at f o l -> o + 8 * length l < length f ->
  exists ps, microgettext_make_array f (Z.of_nat (length l)) (Z.of_nat o) = Ret (Some ps) /\ Forall2 (points f) ps l.
Proof.
  intros L T B. unfold microgettext_make_array. rewrite in_bounds by lia. change 0%Z with (Z.of_nat 0). apply (fill_ok f o (length l)); auto; lia.
Qed.
Lemma load_ok f l : catalogue_file f l -> exists s t, microgettext_load_mofile f = Ret (Some (s, t)) /\ Forall2 (points f) s (map fst l) /\ Forall2 (points f) t (map snd l).
Proof.
  intros (o & t & L & N1 & N2 & N3 & T1 & T2 & B1 & B2 & _). unfold microgettext_load_mofile. pose proof (number_len _ _ _ N3).
  rewrite (proj2 (Z.ltb_ge _ _)) by lia. cbn [bind]. change 8%Z with (Z.of_nat 8). change 12%Z with (Z.of_nat 12). change 16%Z with (Z.of_nat 16).
  rewrite (number_ok _ _ _ N1), (number_ok _ _ _ N2), (number_ok _ _ _ N3) by lia. cbn [bind]. rewrite Z.mod_small by (unfold two_64; lia).
  destruct (array_ok f o (map fst l)) as (s & E1 & F1); auto; [rewrite map_length; lia|]. rewrite map_length in E1. rewrite E1. cbn [bind].
  destruct (array_ok f t (map snd l)) as (s' & E2 & F2); auto; [rewrite map_length; lia|]. rewrite map_length in E2. rewrite E2. cbn [bind]. eauto.
Qed.
Lemma F2_nth {A B} (P : A -> B -> Prop) l m : Forall2 P l m -> forall i y, nth_error m i = Some y -> exists x, nth_error l i = Some x /\ P x y.
Proof. intros F. induction F as [|a b l m H F IH]; intros [|i] y E; try discriminate; cbn in *; [injection E as <-; eauto|eauto]. Qed.
Lemma F2_len {A B} (P : A -> B -> Prop) l m : Forall2 P l m -> length l = length m. Proof. induction 1; cbn; congruence. Qed.
Lemma translate_ok f l s t msg : catalogue_file f l -> Forall2 (points f) s (map fst l) -> Forall2 (points f) t (map snd l) -> nonul msg ->
  exists r, translate (mkC f s t) msg = Ret r /\ translation l msg r.
Proof.
  intros (_ & _ & _ & _ & _ & _ & _ & _ & _ & _ & Srt) F1 F2 N. unfold translate. cbn [c_file c_strings c_translations]. rewrite (F2_len _ _ _ F1).
  destruct (bsearch_sorted (map fst l) msg (fun i => do o <- element s i; strcmp_at f msg o)) as (r & E & R).
  { intros i j a b H A B. right. eapply Srt; eauto. }
  { intros i x H. destruct (F2_nth _ _ _ F1 _ _ H) as (p & Ep & q & -> & T). unfold element. rewrite Ep. cbn [bind]. apply cmp_ok; auto. }
  rewrite E. cbn [bind]. destruct r as [i|].
  - rewrite nth_error_map in R. destruct (nth_error l i) as [[a b]|] eqn:El; [|discriminate]. cbn in R. injection R as ->.
    assert (H : nth_error (map snd l) i = Some b) by (rewrite nth_error_map, El; reflexivity). destruct (F2_nth _ _ _ F2 _ _ H) as (p & Ep & q & -> & T). unfold element. rewrite Ep. cbn [bind].
    exists b. split; [apply text_ok; auto|]. left. eapply nth_error_In; eauto.
  - exists msg. split; auto. right. split; auto. intros t' I. apply R. apply in_map_iff. exists (msg, t'). auto.
Qed.

(** ** Languages *)
Lemma until_ok s : start_of s (until_underscore s).
Proof.
  unfold until_underscore, strchr. destruct (find_idx _ s) as [n|] eqn:E.
  - pose proof (find_idx_lt _ _ _ E) as L. apply find_idx_Some in E as (c & E & C & F). apply ceq_true in C. subst c. split.
    + intros I. apply In_nth_error in I. destruct I as (k & K). assert (k < length (firstn n s)) by (apply nth_error_Some; congruence). rewrite firstn_length in H.
      assert (K' : nth_error s k = Some "_"%char). { rewrite <- (firstn_skipn n s). rewrite nth_error_app1; auto. rewrite firstn_length. lia. }
      specialize (F k "_"%char). rewrite ceq_refl in F. assert (true = false) by (apply F; auto; lia). discriminate.
    + right. exists (skipn (S n) s). rewrite <- (firstn_skipn n s) at 1. f_equal. clear - E. revert s E. induction n as [|n IH]; intros [|a s] E; cbn in *; try discriminate; [congruence|]. apply IH. exact E.
  - split; auto. intros I. rewrite find_idx_None in E. specialize (E _ I). rewrite ceq_refl in E. discriminate.
Qed.
Lemma start_unique name s s' : start_of name s -> start_of name s' -> s = s'.
Proof.
  intros [N E] [N' E']. assert (X : forall a b r r', ~ In "_"%char a -> ~ In "_"%char b -> a ++ "_"%char :: r = b ++ "_"%char :: r' -> a = b).
  { clear. induction a as [|c a IH]; intros [|d b] r r' A B E; cbn in *; auto; injection E as E1 E2; subst; try tauto. f_equal. eapply IH; eauto. }
  destruct E as [->|(r & ->)], E' as [E'|(r' & E')]; auto.
  - exfalso. apply N. rewrite E'. apply in_or_app. cbn. auto.
  - exfalso. apply N'. rewrite <- E'. apply in_or_app. cbn. auto.
  - eapply X; eauto.
Qed.
Definition names : list cstr := map (fun x => s2l (snd x)) iso639.
Fixpoint pairs_ok {A} (f : A -> A -> bool) (l : list A) : bool := match l with [] => true | a :: r => forallb (f a) r && pairs_ok f r end.
Lemma pairs_nth {A} (f : A -> A -> bool) l : pairs_ok f l = true -> forall i j a b, i < j -> nth_error l i = Some a -> nth_error l j = Some b -> f a b = true.
Proof.
  induction l as [|x l IH]; intros P i j a b H A1 B1; [destruct i; discriminate|]. cbn in P. apply Bool.andb_true_iff in P. destruct P as [P1 P2]. destruct j as [|j]; [lia|]. cbn in B1.
  destruct i as [|i]; [|eapply IH; [exact P2| |exact A1|exact B1]; lia]. cbn in A1. injection A1 as <-. rewrite forallb_forall in P1. apply P1. eapply nth_error_In; eauto.
Qed.
Lemma names_sorted : forall i j a b, i < j -> nth_error names i = Some a -> nth_error names j = Some b -> a = b \/ before a b.
Proof.
  assert (P : pairs_ok (fun a b => match strcmp a b with Gt => false | _ => true end) names = true) by (vm_compute; reflexivity).
  intros i j a b H A B. pose proof (pairs_nth _ _ P i j a b H A B) as Q. cbn beta in Q. destruct (strcmp a b) eqn:E; [left; apply cmp_eq; auto|right; apply cmp_lt; auto|discriminate].
Qed.
Lemma codes_unique c c' n : In (c, n) iso639 -> In (c', n) iso639 -> c = c'.
Proof.
  assert (P : pairs_ok (fun x y => negb (String.eqb (snd x) (snd y)) || String.eqb (fst x) (fst y)) iso639 = true) by (vm_compute; reflexivity).
  assert (Q : forall i j a b, i < j -> nth_error iso639 i = Some (a, n) -> nth_error iso639 j = Some (b, n) -> a = b).
  { intros i j a b H A B. pose proof (pairs_nth _ _ P i j _ _ H A B) as Q. cbn [fst snd] in Q. rewrite String.eqb_refl in Q. cbn in Q. apply String.eqb_eq. exact Q. }
  intros A B. apply In_nth_error in A, B. destruct A as (i & A), B as (j & B). destruct (Nat.lt_trichotomy i j) as [H|[->|H]]; [eauto|congruence|symmetry; eauto].
Qed.
Lemma s2l_inj a b : s2l a = s2l b -> a = b.
Proof. unfold s2l. intros H. rewrite <- (string_of_list_ascii_of_string a), H. apply string_of_list_ascii_of_string. Qed.
Lemma lang_unique name a b : language name a -> language name b -> a = b.
Proof.
  intros (s & S1 & A) (s' & S2 & B). assert (s' = s) by (eapply start_unique; eauto). subst s'.
  destruct A as [(c & n & I & E & ->)|[A ->]], B as [(c' & n' & I' & E' & ->)|[B ->]]; auto.
  - assert (n' = n) by (apply s2l_inj; congruence). subst n'. f_equal. eapply codes_unique; eauto.
  - exfalso. eapply B; eauto.
  - exfalso. eapply A; eauto.
Qed.
Lemma lang_ok name : length name < 100 -> exists lang, microgettext_get_lang name = Ret lang /\ language name lang.
Proof.
  intros L. unfold microgettext_get_lang. rewrite firstn_all2 by lia. set (loc := lower (until_underscore name)).
  destruct (bsearch_sorted names loc (fun i => do x <- element iso639 i; Ret (strcmp loc (s2l (snd x)))) names_sorted) as (r & E & R).
  { intros i s H. unfold names in H. rewrite nth_error_map in H. unfold element. destruct (nth_error iso639 i); [|discriminate]. cbn in H. injection H as <-. reflexivity. }
  replace (length names) with (length iso639) in E by (symmetry; apply map_length). rewrite E. cbn [bind]. destruct r as [i|].
  - unfold names in R. rewrite nth_error_map in R. unfold element. destruct (nth_error iso639 i) as [[c n]|] eqn:En; [|discriminate]. cbn in R. injection R as R. cbn [bind fst]. exists (s2l c). split; auto.
    exists (until_underscore name). split; [apply until_ok|]. left. exists c, n. split; [eapply nth_error_In; eauto|]. auto.
  - exists loc. split; auto. exists (until_underscore name). split; [apply until_ok|]. right. split; auto. intros c n I H. apply R. unfold names. apply in_map_iff. exists (c, n). auto.
Qed.

(** ** Histories *)
Lemma streqb_refl s : streqb s s = true. Proof. apply streqb_true. reflexivity. Qed.
Lemma bound_app l d d' x acc : bound (l ++ [Bind d' x]) d acc = if streqb d' d then Some x else bound l d acc.
Proof. revert acc. induction l as [|[a b|a|a b c e] l IH]; intros acc; cbn [app bound]; auto. Qed.
Lemma bound_other l d r acc : (forall a b, r <> Bind a b) -> bound (l ++ [r]) d acc = bound l d acc.
Proof. intros N. revert acc. induction l as [|[a b|a|a b c e] l IH]; intros acc; cbn [app bound]; auto. destruct r; auto. exfalso. eapply N; eauto. Qed.
Lemma assoc_replace d dir k l : assoc k (replace d dir l) = match assoc d l with Some _ => if streqb d k then Some dir else assoc k l | None => assoc k l end.
Proof.
  induction l as [|[a x] l IH]; [reflexivity|]. cbn [replace assoc]. destruct (streqb a d) eqn:E.
  - apply streqb_true in E. subst a. cbn [assoc]. destruct (streqb d k); reflexivity.
  - cbn [assoc]. rewrite IH. destruct (assoc d l); auto. destruct (streqb a k) eqn:Ek; auto. apply streqb_true in Ek. subst k. destruct (streqb d a) eqn:Eq; auto. apply streqb_true in Eq. subst d. rewrite streqb_refl in E. discriminate.
Qed.
Definition sound (files : cstr -> option cstr) (st : gstate) : Prop :=
  forall p c, assoc p (g_domains st) = Some c -> files p = Some (c_file c) /\ microgettext_load_mofile (c_file c) = Ret (Some (c_strings c, c_translations c)).
Lemma after_ok files l st : after files l st -> short_names l -> sound files st /\ (forall d, assoc d (g_basedirs st) = bound l d None) /\ g_current st = firstn 127 (last_domain l []).
Proof.
  intros A. induction A as [|l st d dir A IH|l st d A IH|l st loc d msg cat r st' A IH E]; intros Sh.
  - split; [intros p c H; discriminate|]. auto.
  - destruct IH as (I1 & I2 & I3). { intros a b I. eapply Sh. apply in_or_app. eauto. } split; [exact I1|]. assert (Ld : length d < 100) by (eapply Sh; apply in_or_app; cbn; eauto). split.
    + intros k. rewrite bound_app. cbn [bindtextdomain g_basedirs]. destruct (assoc d (g_basedirs st)) eqn:Ed.
      * rewrite assoc_replace, Ed, I2. reflexivity.
      * cbn [assoc]. rewrite firstn_all2 by lia. rewrite I2. reflexivity.
    + cbn [bindtextdomain g_current]. rewrite I3. f_equal. clear. generalize (@nil ascii). induction l as [|[a b|a|a b c e] l IH]; intros cur; cbn [app last_domain]; auto.
  - destruct IH as (I1 & I2 & I3). { intros a b I. eapply Sh. apply in_or_app. eauto. } split; [exact I1|]. split; [intros k; rewrite bound_other by discriminate; apply I2|].
    cbn [textdomain g_current]. f_equal. clear. generalize (@nil ascii). induction l as [|[a b|a|a b c e] l IH]; intros cur; cbn [app last_domain]; auto.
  - destruct IH as (I1 & I2 & I3). { intros a b I. eapply Sh. apply in_or_app. eauto. }
    assert (X : sound files st' /\ g_basedirs st' = g_basedirs st /\ g_current st' = g_current st).
    { unfold dcgettext in E. destruct (microgettext_make_domain_path st loc d cat) as [p| |]; try discriminate. cbn [bind] in E. destruct (assoc p (g_domains st)) as [c|] eqn:Ec.
      - destruct (translate c msg); try discriminate. cbn [bind] in E. injection E as <- <-. auto.
      - destruct (files p) as [f|] eqn:Ef; [|injection E as <- <-; auto]. destruct (microgettext_load_mofile f) as [[[s t]|]| |] eqn:El; try discriminate; cbn [bind] in E; [|injection E as <- <-; auto].
        destruct (translate (mkC f s t) msg); try discriminate. cbn [bind] in E. injection E as <- <-. split; auto. intros q c H. cbn [g_domains assoc] in H. destruct (streqb p q) eqn:Eq; [|auto].
        apply streqb_true in Eq. subst q. injection H as <-. auto. }
    destruct X as (X1 & X2 & X3). split; auto. rewrite X2, X3. split.
    + intros k. rewrite bound_other by discriminate. auto.
    + rewrite I3. f_equal. clear. generalize (@nil ascii). induction l as [|[a b|a|a b c e] l IH]; intros cur; cbn [app last_domain]; auto.
Qed.
Lemma path_ok files l st locale d cat p : after files l st -> short_names l -> length (locale cat) < 100 -> catalogue_path l locale d cat p ->
  microgettext_make_domain_path st locale d cat = Ret p.
Proof.
  intros A Sh L (lang & Lg & ->). destruct (after_ok _ _ _ A Sh) as (_ & B & _). unfold microgettext_make_domain_path. destruct (lang_ok _ L) as (lang' & E & Lg'). rewrite E. cbn [bind].
  assert (lang' = lang) by (eapply lang_unique; eauto). subst lang'. rewrite B. f_equal. replace (category_name cat) with (directory_of cat) by (destruct cat; reflexivity). destruct (bound l d None); [rewrite <- app_assoc|]; reflexivity.
Qed.
Lemma dc_file files l st locale d cat p f msg : after files l st -> short_names l -> length (locale cat) < 100 -> catalogue_path l locale d cat p -> files p = Some f ->
  forall s t, microgettext_load_mofile f = Ret (Some (s, t)) -> forall r, translate (mkC f s t) msg = Ret r -> exists st', dcgettext files locale st d msg cat = Ret (r, st').
Proof.
  intros A Sh L P F s t Ld r T. unfold dcgettext. rewrite (path_ok _ _ _ _ _ _ _ A Sh L P). cbn [bind]. destruct (after_ok _ _ _ A Sh) as (So & _). destruct (assoc p (g_domains st)) as [c|] eqn:Ec.
  - destruct (So _ _ Ec) as [F' Ld']. destruct c as [cf cs ct]. cbn [c_file c_strings c_translations] in *. rewrite F in F'. injection F' as ->. rewrite Ld in Ld'. injection Ld' as -> ->. rewrite T. cbn. eauto.
  - rewrite F, Ld. cbn [bind]. rewrite T. cbn [bind]. eauto.
Qed.
Lemma dc_none files l st locale d cat p msg : after files l st -> short_names l -> length (locale cat) < 100 -> catalogue_path l locale d cat p -> files p = None ->
  dcgettext files locale st d msg cat = Ret (msg, st).
Proof.
  intros A Sh L P F. unfold dcgettext. rewrite (path_ok _ _ _ _ _ _ _ A Sh L P). cbn [bind]. destruct (after_ok _ _ _ A Sh) as (So & _). destruct (assoc p (g_domains st)) as [c|] eqn:Ec; [|rewrite F; reflexivity].
  destruct (So _ _ Ec). congruence.
Qed.
