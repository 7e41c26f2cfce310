(** Clone_Proofs.v *)
From Verif Require Import Base Clone_Model Clone_Spec.

(** ** Copies are new blocks that point only to new blocks. *)
Definition fresh (b : nat) (h : heap) (p : field) : Prop := forall l, p = Ptr l -> b <= l < length h.
Definition ext (b : nat) (h h' : heap) : Prop :=
  exists new, h' = h ++ new /\ forall c, In (Some c) new -> forall l, In (Ptr l) c -> b <= l < length h'.
Lemma ext_refl b h : ext b h h. Proof. exists []. split; [symmetry; apply app_nil_r|]. intros c []. Qed.
Lemma ext_len b h h' : ext b h h' -> length h <= length h'. Proof. intros (n & -> & _). rewrite app_length. lia. Qed.
Lemma ext_trans b h h1 h2 : ext b h h1 -> ext b h1 h2 -> ext b h h2.
Proof.
  intros E1 E2. pose proof (ext_len _ _ _ E2) as L. destruct E1 as (n1 & -> & H1), E2 as (n2 & -> & H2). exists (n1 ++ n2). rewrite app_assoc. split; [reflexivity|].
  intros c I l Il. apply in_app_or in I. destruct I as [I|I]; [|eapply H2; eauto]. specialize (H1 c I l Il). lia.
Qed.
Lemma fresh_ext b h h' p : ext b h h' -> fresh b h p -> fresh b h' p.
Proof. intros E F l H. apply ext_len in E. specialize (F l H). lia. Qed.
Lemma ext_at b h h' l x : ext b h h' -> nth_error h l = Some x -> nth_error h' l = Some x.
Proof. intros (n & -> & _) H. rewrite nth_error_app1; auto. apply nth_error_Some. congruence. Qed.
Lemma fresh_null b h : fresh b h Null. Proof. intros l [=]. Qed.
Lemma fresh_int b h z : fresh b h (Int z). Proof. intros l [=]. Qed.
Lemma fresh_junk b h : fresh b h Junk. Proof. intros l [=]. Qed.
Lemma fresh_text b h s : fresh b h (Text s). Proof. intros l [=]. Qed.
Global Hint Resolve fresh_null fresh_int fresh_junk fresh_text fresh_ext ext_refl : clone.
Ltac fa := repeat (apply Forall_cons || apply Forall_nil); auto with clone.
Lemma alloc_ok b h c : b <= length h -> Forall (fresh b h) c ->
  ext b h (snd (alloc c h)) /\ fresh b (snd (alloc c h)) (fst (alloc c h)) /\ nth_error (snd (alloc c h)) (length h) = Some (Some c).
Proof.
  intros B F. cbn. split; [|split].
  - exists [Some c]. split; auto. intros c' [[= <-]|[]] l I. rewrite Forall_forall in F. specialize (F _ I l eq_refl). rewrite app_length. cbn. lia.
  - intros l [= <-]. rewrite app_length. cbn. lia.
  - rewrite nth_error_app2, Nat.sub_diag by lia. reflexivity.
Qed.

(** [f] makes a new copy, if it succeeds *)
Definition apart (f : field -> heap -> outcome (field * heap)) : Prop :=
  forall b p h q h', b <= length h -> f p h = Ret (q, h') -> ext b h h' /\ fresh b h' q.
Lemma strdup_apart : apart strdup.
Proof.
  intros b p h q h' B E. unfold strdup in E. destruct (load h p 0) as [x| |]; try discriminate. cbn [bind] in E. destruct x; try discriminate. injection E as <- <-.
  destruct (alloc_ok b h [Text s] B) as (H1 & H2 & _); [fa|]. split; assumption.
Qed.
Lemma strdup_opt_apart : apart strdup_opt.
Proof. intros b p h q h' B E. destruct p; cbn [strdup_opt] in E; try (eapply strdup_apart; eauto; fail). injection E as <- <-. auto with clone. Qed.
Lemma each_apart f : apart f -> forall l b h q h', b <= length h -> dup_each f l h = Ret (q, h') -> ext b h h' /\ Forall (fresh b h') q.
Proof.
  intros A. induction l as [|p l IH]; intros b h q h' B E; cbn [dup_each] in E; [injection E as <- <-; auto with clone|].
  destruct (f p h) as [[x h1]| |] eqn:E1; try discriminate. cbn [bind] in E. destruct (dup_each f l h1) as [[xs h2]| |] eqn:E2; try discriminate. cbn [bind] in E. injection E as <- <-.
  destruct (A b p h x h1 B E1) as [X1 X2]. pose proof (ext_len _ _ _ X1). destruct (IH b h1 xs h2) as [Y1 Y2]; auto; [lia|].
  split; [eapply ext_trans; eauto|]. constructor; auto. eapply fresh_ext; eauto.
Qed.
Tactic Notation "bnd" ident(E) "as" simple_intropattern(x) := match type of E with bind ?e _ = _ => let E1 := fresh "E" in destruct e as [x| |] eqn:E1; [cbn [bind] in E|discriminate E..] end.
Lemma var_apart : apart dup_var.
Proof.
  intros b p h q h' B E. unfold dup_var in E. bnd E as f. bnd E as f0.
  assert (X : (q, h') = alloc [Null; Null; Null; Int 0; Junk] h -> ext b h h' /\ fresh b h' q).
  { intros [= -> ->]. destruct (alloc_ok b h [Null; Null; Null; Int 0; Junk] B) as (H1 & H2 & _); [fa|]. split; assumption. }
  assert (Y : (do (n, h) <- strdup f h; do (c, h) <- strdup f0 h; Ret (alloc [n; c; Null; Int 0; Junk] h)) = Ret (q, h') -> ext b h h' /\ fresh b h' q).
  { intros Z. bnd Z as [n h1]. bnd Z as [c h2]. injection Z as <- <-.
    destruct (strdup_apart b _ _ _ _ B E2) as [X1 X2]. pose proof (ext_len _ _ _ X1). destruct (strdup_apart b f0 h1 c h2) as [Y1 Y2]; auto; [lia|].
    pose proof (ext_len _ _ _ Y1). edestruct (alloc_ok b h2 [n; c; Null; Int 0; Junk]) as (H1 & H2 & _); [lia| |].
    - fa. eapply fresh_ext; eauto.
    - split; auto. eapply ext_trans; [exact X1|]. eapply ext_trans; eauto. }
  destruct f, f0; try (apply X; congruence); apply Y; exact E.
Qed.
Lemma env_apart : apart pBat_EnvDup.
Proof.
  intros b p h q h' B E. unfold pBat_EnvDup in E. bnd E as f. bnd E as f0. bnd E as buf. bnd E as vars. destruct f as [| |nb| |]; try discriminate. destruct f0 as [| |index| |]; try discriminate.
  match type of E with (if ?c then _ else _) = _ => destruct c; [|discriminate] end. bnd E as [l h1]. injection E as <- <-.
  destruct (each_apart _ var_apart _ b _ _ _ B E4) as [X1 X2]. pose proof (ext_len _ _ _ X1).
  edestruct (alloc_ok b h1 (l ++ repeat Junk (Z.to_nat nb - Z.to_nat index))) as (Y1 & Y2 & _); [lia| |].
  { apply Forall_app. split; auto. apply Forall_forall. intros x I. apply repeat_spec in I. subst x. auto with clone. }
  cbn [alloc fst snd] in Y1, Y2. edestruct (alloc_ok b (h1 ++ [Some (l ++ repeat Junk (Z.to_nat nb - Z.to_nat index))]) [Int nb; Int index; Ptr (length h1)]) as (Z1 & Z2 & _).
  - rewrite app_length. lia.
  - fa.
  - cbn [alloc fst snd] in Z1, Z2. split; auto. eapply ext_trans; [exact X1|]. eapply ext_trans; eauto.
Qed.
Lemma block_apart : apart pBat_DuplicateLocalVar.
Proof.
  intros b p h q h' B E. unfold pBat_DuplicateLocalVar in E. bnd E as fs. destruct (_ =? _); [|discriminate]. bnd E as [l h1]. injection E as <- <-.
  destruct (each_apart _ strdup_opt_apart _ b _ _ _ B E1) as [X1 X2]. pose proof (ext_len _ _ _ X1).
  edestruct (alloc_ok b h1 l) as (Y1 & Y2 & _); [lia|auto|]. split; auto. eapply ext_trans; eauto.
Qed.
Lemma dirs_apart n : apart (fun p => pBat_DirStackCopy p n).
Proof.
  intros b p h q h' B E. unfold pBat_DirStackCopy in E. destruct n as [|n].
  - injection E as <- <-. edestruct (alloc_ok b h []) as (Y1 & Y2 & _); auto.
  - bnd E as fs. destruct (_ <=? _); [|discriminate]. bnd E as [l h1]. injection E as <- <-.
    destruct (each_apart _ strdup_apart _ b _ _ _ B E1) as [X1 X2]. pose proof (ext_len _ _ _ X1).
    edestruct (alloc_ok b h1 l) as (Y1 & Y2 & _); [lia|auto|]. split; auto. eapply ext_trans; eauto.
Qed.
Lemma commands_apart fuel : apart (pBat_DuplicateCommandList fuel).
Proof.
  induction fuel as [|fuel IH]; intros b p h q h' B E; cbn [pBat_DuplicateCommandList] in E; [discriminate|].
  assert (X : p = Null \/ (do name <- load h p 0; do flag <- load h p 1; do len <- load h p 2; do proc <- load h p 3; do lft <- load h p 4; do rgt <- load h p 5;
    match flag, len with
    | Int flag, Int len => do (name, h) <- strdup name h;
              do (proc, h) <- (if is_def flag then strdup proc h else match proc with Int z => Ret (Int z, h) | _ => Undef end);
              do (lft, h) <- pBat_DuplicateCommandList fuel lft h; do (rgt, h) <- pBat_DuplicateCommandList fuel rgt h; Ret (alloc [name; Int flag; Int len; proc; lft; rgt] h)
    | _, _ => Undef end) = Ret (q, h')) by (destruct p; auto).
  destruct X as [->|X]; [injection E as <- <-; auto with clone|]. clear E. bnd X as f. bnd X as f0. bnd X as f1. bnd X as f2. bnd X as f3. bnd X as f4. destruct f0 as [| |flag| |]; try discriminate. destruct f1 as [| |len| |]; try discriminate.
  bnd X as [n h1]. bnd X as [pr h2]. bnd X as [lf h3]. bnd X as [rg h4]. injection X as <- <-.
  destruct (strdup_apart b _ _ _ _ B E5) as [A1 A2]. pose proof (ext_len _ _ _ A1).
  assert (P : ext b h1 h2 /\ fresh b h2 pr).
  { destruct (is_def flag); [eapply strdup_apart; [|eauto]; lia|]. destruct f2; try discriminate. injection E6 as <- <-. auto with clone. }
  destruct P as [B1 B2]. pose proof (ext_len _ _ _ B1). destruct (IH b f3 h2 lf h3) as [C1 C2]; auto; [lia|]. pose proof (ext_len _ _ _ C1).
  destruct (IH b f4 h3 rg h4) as [D1 D2]; auto; [lia|]. pose proof (ext_len _ _ _ D1).
  edestruct (alloc_ok b h4 [n; Int flag; Int len; pr; lf; rg]) as (Y1 & Y2 & _); [lia| |].
  - assert (T3 : ext b h2 h4) by (eapply ext_trans; eauto). assert (T2 : ext b h1 h4) by (eapply ext_trans; eauto). fa; (eapply fresh_ext; [|eassumption]; eassumption).
  - split; auto. eapply ext_trans; [exact A1|]. eapply ext_trans; [exact B1|]. eapply ext_trans; [exact C1|]. eapply ext_trans; eauto.
Qed.
Definition inst_fresh (b : nat) (h : heap) (i : instance) : Prop := forall r v, inst_field i r = Some v -> fresh b h v.
Lemma data_apart fuel i h i' h' : pBat_DuplicateData fuel i h = Ret (i', h') -> ext (length h) h h' /\ inst_fresh (length h) h' i'.
Proof.
  intros E. unfold pBat_DuplicateData in E. bnd E as [a h1]. bnd E as [b h2]. bnd E as [c h3]. bnd E as [d h4]. bnd E as [e h5]. injection E as <- <-.
  set (n := length h). destruct (commands_apart _ n _ _ _ _ (le_n _) E0) as [A1 A2]. pose proof (ext_len _ _ _ A1).
  destruct (block_apart n _ _ _ _ H E1) as [B1 B2]. pose proof (ext_len _ _ _ B1). assert (N2 : n <= length h2) by lia.
  destruct (block_apart n _ _ _ _ N2 E2) as [C1 C2]. pose proof (ext_len _ _ _ C1). assert (N3 : n <= length h3) by lia.
  destruct (dirs_apart _ n _ _ _ _ N3 E3) as [D1 D2]. pose proof (ext_len _ _ _ D1). assert (N4 : n <= length h4) by lia.
  destruct (env_apart n _ _ _ _ N4 E4) as [F1 F2].
  assert (T4 : ext n h3 h5) by (eapply ext_trans; eauto). assert (T3 : ext n h2 h5) by (eapply ext_trans; eauto). assert (T2 : ext n h1 h5) by (eapply ext_trans; eauto).
  split; [eapply ext_trans; eauto|]. intros r v R. unfold inst_field in R. cbn [i_commands i_locals i_args i_paths i_env i_setlocal] in R.
  destruct r as [|[|[|[|[|[|r]]]]]]; cbn [nth_error] in R; [injection R as <-..|destruct r; discriminate R]; auto with clone; (eapply fresh_ext; [|eassumption]; eassumption).
Qed.

(** ** Copies say the same. *)
Lemma F2_impl {A B} (P Q : A -> B -> Prop) l m : (forall x y, P x y -> Q x y) -> Forall2 P l m -> Forall2 Q l m.
Proof. intros H F. induction F; constructor; auto. Qed.
Definition grows (h h' : heap) : Prop := exists new, h' = h ++ new.
Lemma ext_grows b h h' : ext b h h' -> grows h h'. Proof. intros (n & -> & _). exists n. reflexivity. Qed.
Lemma grows_refl h : grows h h. Proof. exists []. symmetry. apply app_nil_r. Qed.
Lemma grows_trans h h1 h2 : grows h h1 -> grows h1 h2 -> grows h h2. Proof. intros (a & ->) (b & ->). exists (a ++ b). symmetry. apply app_assoc. Qed.
Lemma grows_app h n : grows h (h ++ n). Proof. exists n. reflexivity. Qed.
Lemma grows_at h h' l x : grows h h' -> nth_error h l = Some x -> nth_error h' l = Some x.
Proof. intros (n & ->) H. rewrite nth_error_app1; auto. apply nth_error_Some. congruence. Qed.
Lemma at_end {A} (h : list A) x : nth_error (h ++ [x]) (length h) = Some x. Proof. rewrite nth_error_app2, Nat.sub_diag by lia. reflexivity. Qed.
Global Hint Resolve grows_refl grows_app ext_grows : clone.
Lemma text_ext h h' p s : grows h h' -> text_at h p s -> text_at h' p s.
Proof. intros E (l & -> & H). exists l. split; auto. eapply grows_at; eauto. Qed.
Lemma var_ext h h' p v : grows h h' -> var_at h p v -> var_at h' p v.
Proof.
  intros E (l & n & c & r & -> & H1 & H2). exists l, n, c, r. split; auto. split; [eapply grows_at; eauto|]. destruct v as [[x y]|]; auto. destruct H2 as [H2 H3]. split; eapply text_ext; eauto.
Qed.
Lemma opt_ext h h' p o : grows h h' -> opt_text_at h p o -> opt_text_at h' p o.
Proof. intros E. destruct o; cbn; auto. eapply text_ext; eauto. Qed.
Lemma commands_ext h h' : grows h h' -> forall p c, commands_at h p c -> commands_at h' p c.
Proof.
  intros E p c H. induction H as [|a n flag len pr l r name proc lft rgt H1 H2 H3 _ IH1 _ IH2]; [constructor|]. econstructor; eauto.
  - eapply grows_at; eauto.
  - eapply text_ext; eauto.
  - destruct proc; auto. destruct H3. split; auto. eapply text_ext; eauto.
Qed.
Lemma block_ext h h' p v : grows h h' -> block_at h p v -> block_at h' p v.
Proof.
  intros E (l & fs & -> & H1 & H2 & H3). exists l, fs. repeat split; auto. { eapply grows_at; eauto. } eapply F2_impl; [|exact H3]. intros x y. eapply opt_ext; eauto.
Qed.
Lemma dirs_ext h h' p n v : grows h h' -> dirs_at h p n v -> dirs_at h' p n v.
Proof.
  intros E (-> & H). split; auto. intros N. destruct (H N) as (l & fs & -> & H1 & H2 & H3). exists l, fs. repeat split; auto. { eapply grows_at; eauto. } eapply F2_impl; [|exact H3]. intros x y. eapply text_ext; eauto.
Qed.
Lemma env_ext h h' p v : grows h h' -> env_at h p v -> env_at h' p v.
Proof.
  intros E (l & a & nb & fs & -> & H1 & H2 & H3 & H4 & H5). exists l, a, nb, fs. repeat split; auto; try (eapply grows_at; eauto; fail). eapply F2_impl; [|exact H5]. intros x y. eapply var_ext; eauto.
Qed.

Definition copies {A} (f : field -> heap -> outcome (field * heap)) (P : heap -> field -> A -> Prop) : Prop :=
  forall h p v, P h p v -> exists q h', f p h = Ret (q, h') /\ P h' q v.
Lemma strdup_copies : copies strdup text_at.
Proof.
  intros h p v (l & -> & H). unfold strdup, load, get. rewrite H. cbn. eexists _, _. split; [reflexivity|]. exists (length h). split; auto. rewrite nth_error_app2, Nat.sub_diag by lia. reflexivity.
Qed.
Lemma opt_copies : copies strdup_opt opt_text_at.
Proof.
  intros h p [s|] H; cbn in H.
  - destruct (strdup_copies _ _ _ H) as (q & h' & E & T). exists q, h'. split; auto. destruct H as (l & -> & _). exact E.
  - subst p. exists Null, h. split; reflexivity.
Qed.

Lemma each_copies {A} f (P : heap -> field -> A -> Prop) : apart f -> copies f P -> (forall h h' p v, grows h h' -> P h p v -> P h' p v) ->
  forall l vs h, Forall2 (P h) l vs -> exists qs h', dup_each f l h = Ret (qs, h') /\ Forall2 (P h') qs vs.
Proof.
  intros Ap C M. induction l as [|p l IH]; intros vs h F; inversion F as [|? v ? vs' F1 F2]; subst; cbn [dup_each]; [exists [], h; repeat split; auto with clone|].
  destruct (C _ _ _ F1) as (q & h1 & E1 & P1). rewrite E1. cbn [bind]. destruct (Ap (length h) _ _ _ _ (le_n _) E1) as [X _]. apply ext_grows in X.
  destruct (IH vs' h1) as (qs & h2 & E2 & P2). { eapply F2_impl; [|exact F2]. intros x y. eapply M; eauto. }
  rewrite E2. cbn [bind]. exists (q :: qs), h2. split; auto. destruct (each_apart f Ap l _ h1 qs h2 (le_n _) E2) as [X3 _]; auto.
  constructor; auto. eapply M; eauto. eapply ext_grows; eauto.
Qed.
Lemma var_copies : copies dup_var var_at.
Proof.
  intros h p v (l & n & c & r & -> & H1 & H2). unfold dup_var, load, get. rewrite H1. cbn [bind nth_error]. destruct v as [[x y]|].
  - destruct H2 as [T1 T2]. destruct (strdup_copies _ _ _ T1) as (n' & h1 & E1 & P1). destruct (strdup_apart (length h) _ _ _ _ (le_n _) E1) as [X1 _]. apply ext_grows in X1.
    destruct (strdup_copies h1 c y) as (c' & h2 & E2 & P2); [eapply text_ext; eauto|]. pose proof T1 as (ln & -> & _). pose proof T2 as (lc & -> & _). rewrite E1. cbn [bind]. rewrite E2. cbn [bind].
    eexists _, _. split; [reflexivity|]. destruct (strdup_apart (length h1) _ _ _ _ (le_n _) E2) as [X2 _]. apply ext_grows in X2.
    exists (length h2), n', c', [Null; Int 0; Junk]. split; [reflexivity|]. split; [apply at_end|].
    split; (eapply text_ext; [apply grows_app|]); eauto. eapply text_ext; eauto.
  - subst n. eexists _, _. split; [reflexivity|]. exists (length h), Null, Null, [Null; Int 0; Junk]. split; [reflexivity|]. split; auto. apply at_end.
Qed.
Lemma F2_len {A B} (P : A -> B -> Prop) l m : Forall2 P l m -> length l = length m. Proof. induction 1; cbn; congruence. Qed.
Lemma env_copies : copies pBat_EnvDup env_at.
Proof.
  intros h p v (l & a & nb & fs & -> & H1 & H2 & H3 & H4 & H5). unfold pBat_EnvDup, load, get. rewrite H1. cbn [bind nth_error]. rewrite H2. cbn [bind]. rewrite Nat2Z.id.
  destruct (_ && _)%bool eqn:C.
  2:{ apply Bool.andb_false_iff in C. rewrite Bool.andb_false_iff in C. rewrite !Z.leb_gt, Nat.leb_gt in C. lia. }
  destruct (each_copies _ _ var_apart var_copies var_ext _ _ _ H5) as (qs & h1 & E & P). rewrite E. cbn [bind].
  set (c := qs ++ repeat Junk (Z.to_nat nb - length v)). cbn [alloc]. eexists _, _. split; [reflexivity|]. pose proof (F2_len _ _ _ P) as L.
  exists (length (h1 ++ [Some c])), (length h1), nb, c. split; [reflexivity|]. split; [apply at_end|]. split.
  { eapply grows_at; [apply grows_app|apply at_end]. }
  split; [exact H3|]. split; [unfold c; rewrite app_length; lia|]. unfold c at 2. rewrite <- L, firstn_app, Nat.sub_diag, firstn_O, app_nil_r, firstn_all.
  eapply F2_impl; [|exact P]. intros x y. apply var_ext. rewrite <- app_assoc. apply grows_app.
Qed.
Lemma block_copies : copies pBat_DuplicateLocalVar block_at.
Proof.
  intros h p v (l & fs & -> & H1 & H2 & H3). unfold pBat_DuplicateLocalVar, get. rewrite H1. cbn [bind]. rewrite H2, Nat.eqb_refl.
  destruct (each_copies _ _ strdup_opt_apart opt_copies opt_ext _ _ _ H3) as (qs & h1 & E & P). rewrite E. cbn [bind alloc]. eexists _, _. split; [reflexivity|].
  exists (length h1), qs. split; auto. split; [apply at_end|]. split; [rewrite (F2_len _ _ _ P), <- (F2_len _ _ _ H3); auto|].
  eapply F2_impl; [|exact P]. intros x y. apply opt_ext. apply grows_app.
Qed.
Lemma dirs_copies n : copies (fun p => pBat_DirStackCopy p n) (fun h p v => dirs_at h p n v).
Proof.
  intros h p v [N H]. unfold pBat_DirStackCopy. destruct v as [|d v].
  - cbn in N. subst n. cbn [alloc]. eexists _, _. split; [reflexivity|]. split; auto. congruence.
  - destruct H as (l & fs & -> & H1 & H2 & H3); [discriminate|]. rewrite <- N in *. destruct n as [|n]; [discriminate|]. unfold get. rewrite H1. cbn [bind]. rewrite (proj2 (Nat.leb_le _ _) H2).
    destruct (each_copies _ _ strdup_apart strdup_copies text_ext _ _ _ H3) as (qs & h1 & E & P). rewrite E. cbn [bind alloc]. eexists _, _. split; [reflexivity|]. split; auto. intros _.
    pose proof (F2_len _ _ _ P) as L. rewrite <- L. exists (length h1), qs. split; auto. split; [apply at_end|]. split; [lia|]. rewrite firstn_all. eapply F2_impl; [|exact P]. intros x y. apply text_ext. apply grows_app.
Qed.
Lemma commands_copies fuel : forall h p v, depth v < fuel -> commands_at h p v -> exists q h', pBat_DuplicateCommandList fuel p h = Ret (q, h') /\ commands_at h' q v.
Proof.
  induction fuel as [|fuel IH]; intros h p v D H; [lia|]. destruct H as [|a n flag len pr l r name proc lft rgt H1 H2 H3 H4 H5]; [exists Null, h; split; [reflexivity|constructor]|].
  cbn [depth] in D. cbn [pBat_DuplicateCommandList]. unfold load, get. rewrite H1. cbn [bind nth_error].
  destruct (strdup_copies _ _ _ H2) as (n' & h1 & E1 & P1). rewrite E1. cbn [bind]. destruct (strdup_apart _ _ _ _ _ (le_n _) E1) as [X1 _]. apply ext_grows in X1.
  assert (Q : exists pr' h2, (if is_def flag then strdup pr h1 else match pr with Int z => Ret (Int z, h1) | _ => Undef end) = Ret (pr', h2) /\ grows h1 h2 /\
     match proc with Builtin z => is_def flag = false /\ pr' = Int z | Defined s => is_def flag = true /\ text_at h2 pr' s end).
  { destruct proc as [z|s]; destruct H3 as [-> H3].
    - subst pr. eexists _, _. split; [reflexivity|]. auto with clone.
    - destruct (strdup_copies h1 pr s) as (q & h2 & E & P); [eapply text_ext; eauto|]. exists q, h2. destruct (strdup_apart _ _ _ _ _ (le_n _) E) as [X _]. apply ext_grows in X. auto. }
  destruct Q as (pr' & h2 & E2 & X2 & P2). rewrite E2. cbn [bind]. assert (G2 : grows h h2) by (eapply grows_trans; eauto).
  destruct (IH h2 l lft) as (l' & h3 & E3 & P3); [lia|eapply commands_ext; eauto|]. rewrite E3. cbn [bind]. destruct (commands_apart _ _ _ _ _ _ (le_n _) E3) as [X3 _]. apply ext_grows in X3.
  assert (G3 : grows h h3) by (eapply grows_trans; eauto).
  destruct (IH h3 r rgt) as (r' & h4 & E4 & P4); [lia|eapply commands_ext; eauto|]. rewrite E4. cbn [bind]. destruct (commands_apart _ _ _ _ _ _ (le_n _) E4) as [X4 _]. apply ext_grows in X4.
  cbn [alloc]. set (c := [n'; Int flag; Int len; pr'; l'; r']). eexists _, _. split; [reflexivity|].
  assert (K4 : grows h4 (h4 ++ [Some c])) by apply grows_app. assert (K3 : grows h3 (h4 ++ [Some c])) by (eapply grows_trans; eauto). assert (K2 : grows h2 (h4 ++ [Some c])) by (eapply grows_trans; eauto).
  assert (K1 : grows h1 (h4 ++ [Some c])) by (eapply grows_trans; eauto).
  econstructor; [apply at_end| | | |].
  - eapply text_ext; [exact K1|auto].
  - destruct proc; auto. destruct P2. split; auto. eapply text_ext; [exact K2|auto].
  - eapply commands_ext; [exact K3|auto].
  - eapply commands_ext; [exact K4|auto].
Qed.
Lemma knows_ext h h' i k : grows h h' -> knows h i k -> knows h' i k.
Proof.
  intros G (A & B & C & D & E & F). repeat split; auto; try (eapply commands_ext; eauto; fail); try (eapply block_ext; eauto; fail); try (eapply env_ext; eauto; fail); eapply dirs_ext; eauto.
Qed.
Lemma data_copies fuel h i k : knows h i k -> depth (k_commands k) < fuel ->
  exists i' h', pBat_DuplicateData fuel i h = Ret (i', h') /\ knows h' i' k /\ i_setlocal i' = Null /\ i_count i' = i_count i.
Proof.
  intros (A & B & C & D & E & F) N. unfold pBat_DuplicateData.
  destruct (commands_copies _ _ _ _ N A) as (a & h1 & E1 & P1). rewrite E1. cbn [bind]. destruct (commands_apart _ _ _ _ _ _ (le_n _) E1) as [X1 _]. apply ext_grows in X1.
  destruct (block_copies h1 (i_locals i) (k_locals k)) as (b & h2 & E2 & P2); [eapply block_ext; eauto|]. rewrite E2. cbn [bind]. destruct (block_apart _ _ _ _ _ (le_n _) E2) as [X2 _]. apply ext_grows in X2.
  assert (G2 : grows h h2) by (eapply grows_trans; eauto).
  destruct (block_copies h2 (i_args i) (k_args k)) as (c & h3 & E3 & P3); [eapply block_ext; eauto|]. rewrite E3. cbn [bind]. destruct (block_apart _ _ _ _ _ (le_n _) E3) as [X3 _]. apply ext_grows in X3.
  assert (G3 : grows h h3) by (eapply grows_trans; eauto).
  destruct (dirs_copies (i_count i) h3 (i_paths i) (k_dirs k)) as (d & h4 & E4 & P4); [eapply dirs_ext; eauto|]. cbv beta in E4. rewrite E4. cbn [bind]. destruct (dirs_apart _ _ _ _ _ _ (le_n _) E4) as [X4 _]. apply ext_grows in X4.
  assert (G4 : grows h h4) by (eapply grows_trans; eauto).
  destruct (env_copies h4 (i_env i) (k_env k)) as (e & h5 & E5 & P5); [eapply env_ext; eauto|]. rewrite E5. cbn [bind]. destruct (env_apart _ _ _ _ _ (le_n _) E5) as [X5 _]. apply ext_grows in X5.
  eexists _, _. split; [reflexivity|]. split; [|split; reflexivity].
  assert (T4 : grows h3 h5) by (eapply grows_trans; eauto). assert (T3 : grows h2 h5) by (eapply grows_trans; eauto). assert (T2 : grows h1 h5) by (eapply grows_trans; eauto).
  refine (conj _ (conj _ (conj _ (conj _ (conj _ F))))); cbn [i_commands i_locals i_args i_paths i_count i_env].
  - exact (commands_ext _ _ T2 _ _ P1).
  - exact (block_ext _ _ _ _ T3 P2).
  - exact (block_ext _ _ _ _ T4 P3).
  - exact (dirs_ext _ _ _ _ _ X5 P4).
  - exact P5.
Qed.

(** ** Who owns what *)
Definition owned (own : nat -> nat) (s : system) : Prop :=
  honest s /\
  (forall k t, nth_error (snd s) k = Some t -> forall r l, reg t r = Ptr l -> own l = k) /\
  (forall l c, nth_error (fst s) l = Some (Some c) -> forall l', In (Ptr l') c -> own l' = own l).
Lemma reach_own own s k t l : owned own s -> nth_error (snd s) k = Some t -> reaches (fst s) t l -> own l = k /\ l < length (fst s).
Proof.
  intros (H & O1 & O2) T R. induction R as [r l R|l c l' R IH C I].
  - split; [eauto|]. destruct H as [_ H]. eapply H; eauto. eapply nth_error_In; eauto.
  - split; [rewrite (O2 _ _ C _ I); apply IH|]. destruct H as [H _]. eapply H; eauto. eapply nth_error_In; eauto.
Qed.
Lemma at_set_same {A} (l : list A) i x : i < length l -> nth_error (set_at i x l) i = Some x.
Proof. intros L. unfold set_at. rewrite nth_error_app2; rewrite firstn_length_le by lia; [|lia]. rewrite Nat.sub_diag. reflexivity. Qed.
Lemma nth_firstn {A} (l : list A) : forall i j, j < i -> nth_error (firstn i l) j = nth_error l j.
Proof. induction l as [|a l IH]; intros i j L; [rewrite firstn_nil; reflexivity|]. destruct i; [lia|]. destruct j; cbn; auto. apply IH. lia. Qed.
Lemma nth_skipn {A} (l : list A) : forall i j, nth_error (skipn i l) j = nth_error l (i + j).
Proof. induction l as [|a l IH]; intros i j; [rewrite skipn_nil; destruct j, i; reflexivity|]. destruct i; cbn; auto. Qed.
Lemma at_set_other {A} (l : list A) i j x : i < length l -> i <> j -> nth_error (set_at i x l) j = nth_error l j.
Proof.
  intros L N. unfold set_at. destruct (Nat.lt_ge_cases j i).
  - rewrite nth_error_app1 by (rewrite firstn_length_le; lia). apply nth_firstn. lia.
  - rewrite nth_error_app2; rewrite firstn_length_le by lia; [|lia]. destruct (j - i) as [|m] eqn:E; [lia|]. cbn [nth_error]. rewrite nth_skipn. f_equal. lia.
Qed.
Lemma set_length {A} (l : list A) i x : i < length l -> length (set_at i x l) = length l.
Proof. intros L. unfold set_at. rewrite app_length, firstn_length_le by lia. cbn [length]. rewrite skipn_length. lia. Qed.
Lemma set_in {A} (l : list A) i x y : In y (set_at i x l) -> y = x \/ In y l.
Proof.
  unfold set_at. intros I. apply in_app_or in I. destruct I as [I|[I|I]]; auto; right.
  - rewrite <- (firstn_skipn i l). apply in_or_app. auto.
  - rewrite <- (firstn_skipn (S i) l). apply in_or_app. auto.
Qed.
Lemma reg_set t r v q : reg (set_reg t r v) q = if q =? r then v else reg t q.
Proof.
  unfold set_reg. destruct (r <? 6) eqn:R.
  - apply Nat.ltb_lt in R. destruct r as [|[|[|[|[|[|r]]]]]]; [..|lia]; destruct q as [|[|[|[|[|[|q]]]]]]; try reflexivity; unfold reg, inst_field; cbn; destruct q; reflexivity.
  - apply Nat.ltb_ge in R. unfold reg at 1. cbn [t_inst t_regs]. destruct q as [|[|[|[|[|[|q]]]]]]; [do 6 (destruct r as [|r]; [lia|]); reflexivity..|].
    unfold inst_field. cbn [nth_error]. replace (nth_error [] q) with (@None field) by (destruct q; reflexivity). replace (S (S (S (S (S (S q))))) - 6) with q by lia.
    replace (S (S (S (S (S (S q))))) =? r) with (q =? r - 6). 2:{ destruct (Nat.eqb_spec q (r - 6)), (Nat.eqb_spec (S (S (S (S (S (S q)))))) r); try reflexivity; lia. }
    destruct (q =? r - 6); auto. unfold reg, inst_field. cbn [nth_error]. replace (nth_error [] q) with (@None field) by (destruct q; reflexivity). f_equal. lia.
Qed.
Lemma reg_state t n l r : reg (set_state t n l) r = reg t r. Proof. reflexivity. Qed.
Lemma own_reg own h ts k t r l : owned own (h, ts) -> nth_error ts k = Some t -> reg t r = Ptr l -> own l = k /\ l < length h.
Proof. intros O T R. eapply (reach_own own (h, ts)); eauto. eapply re_here; eauto. Qed.
Lemma own_cell own h ts k l c l' : owned own (h, ts) -> own l = k -> nth_error h l = Some (Some c) -> In (Ptr l') c -> own l' = k /\ l' < length h.
Proof. intros ((H & _) & _ & O) K C I. split; [rewrite (O _ _ C _ I); auto|]. eapply H; eauto. eapply nth_error_In; eauto. Qed.
Lemma own_put own h ts k t' : owned own (h, ts) -> k < length ts -> (forall r l, reg t' r = Ptr l -> own l = k /\ l < length h) -> owned own (h, set_at k t' ts).
Proof.
  intros ((H1 & H2) & O1 & O2) K R. cbn [fst snd] in *. split; [split|split]; cbn [fst snd]; auto.
  - intros t r l I E. apply set_in in I. destruct I as [->|I]; [apply (R r l E)|eauto].
  - intros j t T r l E. destruct (Nat.eq_dec k j) as [<-|N]; [rewrite at_set_same in T by auto; injection T as <-; apply (R r l E)|]. rewrite at_set_other in T by auto. eauto.
Qed.
Lemma own_reg_put own h ts k t r v : owned own (h, ts) -> nth_error ts k = Some t -> (forall l, v = Ptr l -> own l = k /\ l < length h) -> owned own (h, set_at k (set_reg t r v) ts).
Proof.
  intros O T V. eapply own_put; eauto; [apply nth_error_Some; congruence|]. intros q l E. rewrite reg_set in E. destruct (q =? r); [auto|]. eapply own_reg; eauto.
Qed.
Lemma set_id {A} (l : list A) k x : nth_error l k = Some x -> set_at k x l = l.
Proof. unfold set_at. revert k. induction l as [|a l IH]; intros [|k] E; cbn in *; try discriminate; [injection E as ->; reflexivity|]. rewrite IH; auto. Qed.
Lemma own_heap own h ts l x : owned own (h, ts) -> l < length h -> (forall c l', x = Some c -> In (Ptr l') c -> own l' = own l /\ l' < length h) -> owned own (set_at l x h, ts).
Proof.
  intros ((H1 & H2) & O1 & O2) L X. cbn [fst snd] in *. split; [split|split]; cbn [fst snd]; auto; try rewrite set_length by auto; auto.
  - intros c l' I J. apply set_in in I. destruct I as [I|I]; [|eauto]. eapply X; eauto.
  - intros j c C l' J. destruct (Nat.eq_dec l j) as [<-|N]; [rewrite at_set_same in C by auto; injection C as C; eapply X; eauto|]. rewrite at_set_other in C by auto. eauto.
Qed.
(** New blocks *)
Lemma own_grow own h ts new k : owned own (h, ts) -> (forall c l, In (Some c) new -> In (Ptr l) c -> length h <= l < length (h ++ new)) ->
  owned (fun l => if l <? length h then own l else k) (h ++ new, ts).
Proof.
  intros ((H1 & H2) & O1 & O2) N. cbn [fst snd] in *. split; [split|split]; cbn [fst snd].
  - intros c l I J. apply in_app_or in I. destruct I as [I|I]; [specialize (H1 _ _ I J); rewrite app_length; lia|]. specialize (N _ _ I J). lia.
  - intros t r l I E. specialize (H2 _ _ _ I E). rewrite app_length. lia.
  - intros j t T r l E. assert (L : l < length h) by (eapply H2; eauto; eapply nth_error_In; eauto). rewrite (proj2 (Nat.ltb_lt _ _) L). eauto.
  - intros l c C l' I. destruct (Nat.ltb_spec l (length h)) as [L|L].
    + rewrite nth_error_app1 in C by auto. assert (L' : l' < length h) by (eapply H1; eauto; eapply nth_error_In; eauto). rewrite (proj2 (Nat.ltb_lt _ _) L'). eauto.
    + rewrite nth_error_app2 in C by auto. apply nth_error_In in C. specialize (N _ _ C I). destruct (Nat.ltb_spec l' (length h)); [lia|reflexivity].
Qed.
Lemma own_new own h ts t : owned own (h, ts) -> (forall r l, reg t r = Ptr l -> own l = length ts /\ l < length h) -> owned own (h, ts ++ [t]).
Proof.
  intros ((H1 & H2) & O1 & O2) R. cbn [fst snd] in *. split; [split|split]; cbn [fst snd]; auto.
  - intros t' r l I E. apply in_app_or in I. destruct I as [I|[<-|[]]]; [eauto|]. apply (R r l E).
  - intros j t' T r l E. destruct (Nat.lt_ge_cases j (length ts)); [rewrite nth_error_app1 in T by auto; eauto|]. rewrite nth_error_app2 in T by auto.
    destruct (j - length ts) as [|m] eqn:M; [|destruct m; discriminate]. injection T as <-. destruct (R r l E). lia.
Qed.

(** A step keeps the ownership, and changes only blocks of the one that does it *)
Lemma step_owned own s k s' : owned own s -> step s k s' ->
  exists own', owned own' s' /\ (forall l, l < length (fst s) -> own l <> k -> nth_error (fst s') l = nth_error (fst s) l) /\
               (forall u t, u <> k -> nth_error (snd s) u = Some t -> nth_error (snd s') u = Some t).
Proof.
  intros O St. destruct St as [h ts k t o h' t' T D|h ts k t n l T|h ts k t fuel i h1 args T E]; cbn [fst snd].
  - assert (K : k < length ts) by (apply nth_error_Some; congruence).
    assert (U : forall u t0, u <> k -> nth_error ts u = Some t0 -> nth_error (set_at k t' ts) u = Some t0) by (intros u t0 N; rewrite at_set_other; auto).
    destruct D as [r p i h t q x Rp Ld|p i r h t l x c Rp Rr C L|r n h t|p h t l c Rp C|r s h t x R|r v h t V].
    + exists own. split; [|auto]. eapply own_reg_put; eauto. intros l ->. unfold load, get in Ld. destruct q as [|lq| | |]; try discriminate. destruct (nth_error h lq) as [[c|]|] eqn:C; try discriminate. cbn [bind] in Ld.
      destruct (nth_error c i) eqn:Ci; try discriminate. injection Ld as ->. apply nth_error_In in Ci. destruct (own_reg _ _ _ _ _ _ _ O T Rp). eapply own_cell; eauto.
    + destruct (own_reg _ _ _ _ _ _ _ O T Rp) as [Ol Ll]. exists own. split; [|split; auto].
      * rewrite (set_id ts k t T). eapply own_heap; eauto. intros c' l' [= <-] I. apply set_in in I. destruct I as [I|I]; [|rewrite Ol; eapply own_cell; eauto]. rewrite Ol. eapply (own_reg _ _ _ _ _ r); [exact O|exact T|congruence].
      * intros j J N. apply at_set_other; auto. congruence.
    + assert (Nw : forall c l, In (Some c) [Some (repeat Junk n)] -> In (Ptr l) c -> length h <= l < length (h ++ [Some (repeat Junk n)])).
      { intros c l [[= <-]|[]] I. apply repeat_spec in I. discriminate. }
      exists (fun l => if l <? length h then own l else k). split; [|split; auto].
      * eapply own_reg_put; eauto; [eapply own_grow; eauto|]. intros l [= <-]. rewrite Nat.ltb_irrefl, app_length. cbn. lia.
      * intros l L _. apply nth_error_app1. auto.
    + destruct (own_reg _ _ _ _ _ _ _ O T Rp) as [Ol Ll]. exists own. split; [|split; auto].
      * rewrite (set_id ts k t T). eapply own_heap; eauto. discriminate.
      * intros j J N. apply at_set_other; auto. congruence.
    + exists own. split; [|auto]. eapply own_reg_put; eauto. intros l ->. eapply own_reg; eauto.
    + exists own. split; [|auto]. eapply own_reg_put; eauto. intros l ->. destruct (V l eq_refl).
  - assert (K : k < length ts) by (apply nth_error_Some; congruence). exists own. split; [|split; auto].
    + eapply own_put; eauto. intros r j E. rewrite reg_state in E. eapply own_reg; eauto.
    + intros u t0 N. rewrite at_set_other; auto.
  - destruct (data_apart _ _ _ _ _ E) as [(new & -> & Nw) Fr]. rewrite <- app_assoc. set (texts := map (fun s => Some [Text s]) args). set (h' := h ++ new ++ texts).
    assert (Len : length h' = length (h ++ new) + length args) by (unfold h', texts; rewrite !app_length, map_length; lia).
    exists (fun l => if l <? length h then own l else length ts). split; [|split].
    + eapply own_new; [eapply own_grow; eauto|].
      * intros c l I J. fold h'. apply in_app_or in I. destruct I as [I|I]; [specialize (Nw _ I _ J); lia|]. apply in_map_iff in I. destruct I as (s & [= <-] & _). destruct J as [J|[]]; discriminate.
      * intros r l Rg. fold h'. assert (B : length h <= l < length h').
        { unfold reg in Rg. cbn [t_inst t_regs] in Rg. destruct (inst_field i r) eqn:If.
          - subst f. specialize (Fr _ _ If l eq_refl). lia.
          - destruct (Nat.ltb_spec (r - 6) (length args)); [|discriminate]. injection Rg as <-. rewrite Len. rewrite app_length. lia. }
        destruct (Nat.ltb_spec l (length h)); lia.
    + intros l L _. apply nth_error_app1. auto.
    + intros u t0 _ U. rewrite nth_error_app1; auto. apply nth_error_Some. congruence.
Qed.
Lemma steps_owned own s s' : owned own s -> steps s s' -> exists own', owned own' s'.
Proof. intros O St. induction St as [s|s k s1 s2 _ IH St]; [eauto|]. destruct (IH O) as (o1 & O1). destruct (step_owned _ _ _ _ O1 St) as (o2 & O2 & _). eauto. Qed.
Lemma start_owned h t : honest (h, [t]) -> owned (fun _ => 0) (h, [t]).
Proof. intros H. split; auto. split; auto. intros k t' T. destruct k; auto. destruct k; discriminate. Qed.

(** ** What is known depends on what can be reached. *)
Section Frame.
  Variables (h h' : heap) (R : nat -> Prop).
  Hypothesis R_next : forall l c l', R l -> nth_error h l = Some (Some c) -> In (Ptr l') c -> R l'.
  Hypothesis R_same : forall l, R l -> nth_error h' l = nth_error h l.
  Definition ok (p : field) : Prop := forall l, p = Ptr l -> R l.
  Lemma ok_next l c p : R l -> nth_error h l = Some (Some c) -> In p c -> ok p. Proof. intros A B C j ->. eauto. Qed.
  Lemma fr_text p s : ok p -> text_at h p s -> text_at h' p s. Proof. intros K (l & -> & H). exists l. split; auto. rewrite R_same; auto. Qed.
  Lemma fr_opt p s : ok p -> opt_text_at h p s -> opt_text_at h' p s. Proof. destruct s; cbn; auto. apply fr_text. Qed.
  Lemma fr_var p v : ok p -> var_at h p v -> var_at h' p v.
  Proof.
    intros K (l & n & c & r & -> & H1 & H2). assert (Rl : R l) by auto. exists l, n, c, r. split; auto. split; [rewrite R_same; auto|]. destruct v as [[x y]|]; auto. destruct H2. split; (eapply fr_text; eauto; eapply ok_next; eauto; cbn; auto).
  Qed.
  Lemma F2_frame {A} (P Q : field -> A -> Prop) : (forall p v, ok p -> P p v -> Q p v) -> forall l m, (forall p, In p l -> ok p) -> Forall2 P l m -> Forall2 Q l m.
  Proof. intros H l m K F. induction F; constructor; [apply H; auto; apply K; cbn; auto|apply IHF; intros; apply K; cbn; auto]. Qed.
  Lemma in_firstn {A} n (x : A) l : In x (firstn n l) -> In x l. Proof. intros I. rewrite <- (firstn_skipn n l). apply in_or_app. auto. Qed.
  Lemma fr_env p v : ok p -> env_at h p v -> env_at h' p v.
  Proof.
    intros K (l & a & nb & fs & -> & H1 & H2 & H3 & H4 & H5). assert (Rl : R l) by auto. assert (Ra : R a) by (eapply R_next; eauto; cbn; auto). exists l, a, nb, fs. split; auto. split; [rewrite R_same; auto|]. split; [rewrite R_same; auto|]. split; [auto|]. split; [auto|].
    eapply F2_frame; [apply fr_var| |exact H5]. intros p I. apply in_firstn in I. eapply ok_next; eauto.
  Qed.
  Lemma fr_block p v : ok p -> block_at h p v -> block_at h' p v.
  Proof.
    intros K (l & fs & -> & H1 & H2 & H3). assert (Rl : R l) by auto. exists l, fs. split; auto. split; [rewrite R_same; auto|]. split; auto. eapply F2_frame; [apply fr_opt| |exact H3]. intros p I. eapply ok_next; eauto.
  Qed.
  Lemma fr_dirs p n v : ok p -> dirs_at h p n v -> dirs_at h' p n v.
  Proof.
    intros K (N & H). split; auto. intros V. destruct (H V) as (l & fs & -> & H1 & H2 & H3). assert (Rl : R l) by auto. exists l, fs. split; auto. split; [rewrite R_same; auto|]. split; auto.
    eapply F2_frame; [apply fr_text| |exact H3]. intros p I. apply in_firstn in I. eapply ok_next; eauto.
  Qed.
  Lemma fr_commands p c : commands_at h p c -> ok p -> commands_at h' p c.
  Proof.
    intros H. induction H as [|a n flag len pr l r name proc lft rgt H1 H2 H3 _ IH1 _ IH2]; intros K; [constructor|]. assert (Ra : R a) by auto.
    assert (N : forall p, In p [n; Int flag; Int len; pr; l; r] -> ok p) by (intros p I; eapply ok_next; eauto).
    econstructor; [rewrite R_same; eauto|eapply fr_text; eauto; apply N; cbn; auto| |apply IH1, N; cbn; auto 10|apply IH2, N; cbn; auto 10].
    destruct proc; auto. destruct H3. split; auto. eapply fr_text; eauto; apply N; cbn; auto 10.
  Qed.
  Lemma fr_knows i k : (forall r v, inst_field i r = Some v -> ok v) -> knows h i k -> knows h' i k.
  Proof.
    intros K (A & B & C & D & E & F). refine (conj _ (conj _ (conj _ (conj _ (conj _ F))))).
    - apply fr_commands; auto. apply (K 0). reflexivity.
    - apply fr_block; auto. apply (K 1). reflexivity.
    - apply fr_block; auto. apply (K 2). reflexivity.
    - apply fr_dirs; auto. apply (K 3). reflexivity.
    - apply fr_env; auto. apply (K 4). reflexivity.
  Qed.
End Frame.
Lemma same_knows h h' t k : (forall l, reaches h t l -> nth_error h' l = nth_error h l) -> knows h (t_inst t) k -> knows h' (t_inst t) k.
Proof.
  intros S. eapply fr_knows with (R := reaches h t); auto.
  - intros l c l' A B C. eapply re_next; eauto.
  - intros r v E l ->. eapply (re_here h t r). unfold reg. rewrite E. reflexivity.
Qed.
Lemma same_reach h h' t : (forall l, reaches h t l -> nth_error h' l = nth_error h l) -> forall l, reaches h' t l -> reaches h t l.
Proof. intros S l R. induction R as [r l E|l c l' R IH C I]; [eapply re_here; eauto|]. eapply re_next; eauto. rewrite <- S; auto. Qed.
