(** LocalVar_Proofs.v *)

From Verif Require Import Base Num_Model Num_Proofs StrLib_Model StrLib_Spec StrLib_Proofs
  Path_Model Path_Spec Path_Proofs LocalVar_Model LocalVar_Spec.

Lemma inset_In l c : inset l c = true <-> In c l.
Proof.
  unfold inset. rewrite existsb_exists. split.
  - intros (x & H1 & H2). apply ceq_true in H2. subst. auto.
  - intros H. exists c. split; auto. apply ceq_refl.
Qed.

Lemma name_ok_iff c : name_ok c = true <-> valid_name c.
Proof.
  unfold name_ok, valid_name. rewrite Bool.andb_true_iff, !Bool.negb_true_iff, !Z.leb_gt. lia.
Qed.

Lemma modifier_valid c : modifier c -> valid_name c.
Proof. unfold modifier. simpl. intros H. repeat (destruct H as [<-|H]; [cbv; auto|]). destruct H. Qed.

Lemma at_block_valid b c : valid_name c -> at_block b c = Ret (b c).
Proof. unfold valid_name, at_block. intros H. destruct (Z.ltb_spec (code c) 128); auto. lia. Qed.

Lemma flags_run_ok n : forall s, exists t, s = flags_run n s ++ t /\ Forall modifier (flags_run n s) /\
  length (flags_run n s) <= n.
Proof.
  induction n as [|n IH]; intros [|c s]; cbn [flags_run]; try (eexists; split; [reflexivity|]; simpl; auto with arith; fail).
  destruct (inset (s2l "fdnpxzta") c) eqn:E.
  - destruct (IH s) as (t & H1 & H2 & H3). exists t. split; [simpl; congruence|]. split; [|simpl; lia].
    constructor; auto. apply inset_In. auto.
  - eexists. split; [reflexivity|]. simpl. split; auto. lia.
Qed.

Lemma flags_run_max fl : forall n x, Forall modifier fl -> length fl <= n ->
  exists y, flags_run n (fl ++ x) = fl ++ y.
Proof.
  induction fl as [|c fl IH]; intros n x F L.
  - exists (flags_run n x). auto.
  - inversion F; subst. destruct n as [|n]; simpl in L; [lia|]. cbn [app flags_run].
    assert (E : inset (s2l "fdnpxzta") c = true) by (apply inset_In; auto). rewrite E.
    destruct (IH n x) as (y & ->); auto; try lia. exists y. auto.
Qed.

Lemma backtrack_ok b flags : forall i, i <= length flags ->
  match backtrack b i flags with
  | Some j => j < i /\ (exists c, nth_error flags j = Some c /\ b c <> None) /\
              forall k c, j < k -> k < i -> nth_error flags k = Some c -> b c = None
  | None => forall k c, k < i -> nth_error flags k = Some c -> b c = None
  end.
Proof.
  induction i as [|i IH]; intros L; cbn [backtrack]; [intros; lia|].
  destruct (nth_error flags i) as [c|] eqn:E.
  2:{ apply nth_error_None in E. lia. }
  destruct (b c) eqn:Eb.
  - split; [lia|]. split; [exists c; split; congruence|]. intros; lia.
  - specialize (IH ltac:(lia)). destruct (backtrack b i flags) as [j|].
    + destruct IH as (H1 & H2 & H3). split; [lia|]. split; auto. intros k d Hk1 Hk2 Hd.
      destruct (Nat.eq_dec k i) as [->|]; [congruence|]. apply (H3 k); auto. lia.
    + intros k d Hk Hd. destruct (Nat.eq_dec k i) as [->|]; [congruence|]. apply (IH k); auto. lia.
Qed.

(** Which variable is read. *)
Lemma longest_run b r fl c rest : longest_ref b r fl c rest ->
  exists y, flags_run PBAT_VAR_MAX_OPTION r = fl ++ y /\
    ((y = [] /\ skipn (length fl) r = c :: rest) \/
     (exists y', y = c :: y' /\ skipn (S (length fl)) r = rest)).
Proof.
  intros [(E & F & L & V & D) M]. subst r.
  destruct (flags_run_max fl PBAT_VAR_MAX_OPTION (c :: rest) F L) as (y & Y). exists y. split; auto.
  destruct (flags_run_ok PBAT_VAR_MAX_OPTION (fl ++ c :: rest)) as (t & T1 & T2 & T3). rewrite Y in T1.
  rewrite <- app_assoc in T1. apply app_inv_head in T1.
  destruct y as [|d y]; [left|right].
  - split; auto. apply (Estr_Proofs.skipn_app_len fl (c :: rest) (length fl) eq_refl).
  - simpl in T1. injection T1 as <- T1. exists y. split; auto.
    replace (fl ++ c :: rest) with ((fl ++ [c]) ++ rest) by (rewrite <- app_assoc; auto).
    apply Estr_Proofs.skipn_app_len. rewrite app_length. simpl. lia.
Qed.

Section Get.
Variables (cur script : cstr) (stat : cstr -> option finfo) (cap : cstr -> nat).
Notation get := (pBat_GetLocalVar cur script stat cap).
Notation text_of := (local_text cur script stat cap).

(** The two stages of reading after '~': the character after the flags, then the
    flags themselves. *)
Lemma get_direct b r d rest v fl : flags_run PBAT_VAR_MAX_OPTION r = fl -> skipn (length fl) r = d :: rest ->
  valid_name d -> b d = Some v ->
  get b ("~"%char :: r) = do x <- text_of d v fl; Ret (Some (x, rest)).
Proof.
  intros F S V B. unfold pBat_GetLocalVar. cbn [negb ceq]. rewrite ceq_refl. cbn [negb].
  destruct r as [|r0 r]; [subst; simpl in S; discriminate|].
  rewrite F, S. rewrite (proj2 (name_ok_iff d) V), at_block_valid, B by auto. cbn [bind]. auto.
Qed.

Lemma get_back b r fl : flags_run PBAT_VAR_MAX_OPTION r = fl ->
  (forall d rest, skipn (length fl) r = d :: rest -> valid_name d -> b d = None) ->
  get b ("~"%char :: r) =
  match backtrack b (length fl) fl with
  | None => Ret None
  | Some j => match nth_error fl j with
              | Some d => match b d with
                          | Some t => do x <- text_of d t (firstn j fl); Ret (Some (x, skipn (S j) r))
                          | None => Undef
                          end
              | None => Undef
              end
  end.
Proof.
  intros F N. unfold pBat_GetLocalVar. cbn [negb]. rewrite ceq_refl. cbn [negb].
  destruct r as [|r0 r]; [subst; reflexivity|].
  rewrite F. destruct (skipn (length fl) (r0 :: r)) as [|d rest] eqn:S; [reflexivity|].
  destruct (name_ok d) eqn:K; [|reflexivity].
  apply name_ok_iff in K. rewrite at_block_valid by auto. rewrite (N d rest) by auto. reflexivity.
Qed.

Lemma firstn_nth_split {A} (l : list A) j c : nth_error l j = Some c -> l = firstn j l ++ c :: skipn (S j) l.
Proof.
  revert j. induction l as [|x l IH]; intros [|j]; simpl; try discriminate; intros H.
  - congruence.
  - f_equal. apply IH. auto.
Qed.

Lemma ref_of_run b r j c : let fl := flags_run PBAT_VAR_MAX_OPTION r in
  nth_error fl j = Some c -> b c <> None -> ref_at b r (firstn j fl) c (skipn (S j) r).
Proof.
  intros fl H D. destruct (flags_run_ok PBAT_VAR_MAX_OPTION r) as (t & T1 & T2 & T3). fold fl in T1, T2, T3.
  assert (Hj : j < length fl) by (apply nth_error_Some; congruence).
  assert (Hr : nth_error r j = Some c) by (rewrite T1, nth_error_app1; auto).
  assert (Hf : firstn j fl = firstn j r).
  { rewrite T1. rewrite firstn_app. replace (j - length fl) with 0 by lia. rewrite app_nil_r. auto. }
  split; [rewrite Hf; apply firstn_nth_split; auto|]. split.
  - apply Forall_forall. intros x Hx. rewrite Forall_forall in T2. apply T2. rewrite <- (firstn_skipn j fl). apply in_or_app. auto.
  - split; [rewrite firstn_length; unfold PBAT_VAR_MAX_OPTION in *; lia|]. split; auto.
    apply modifier_valid. rewrite Forall_forall in T2. apply T2. eapply nth_error_In; eauto.
Qed.

Lemma ref_after b r d rest : let fl := flags_run PBAT_VAR_MAX_OPTION r in
  skipn (length fl) r = d :: rest -> valid_name d -> b d <> None -> ref_at b r fl d rest.
Proof.
  intros fl S V D. destruct (flags_run_ok PBAT_VAR_MAX_OPTION r) as (t & T1 & T2 & T3). fold fl in T1, T2, T3.
  assert (t = d :: rest). { rewrite T1, Estr_Proofs.skipn_app_len in S by auto. auto. }
  subst t. split; [exact T1|]. split; [exact T2|]. split; [exact T3|]. auto.
Qed.

Lemma get_longest b r fl c rest v : longest_ref b r fl c rest -> b c = Some v ->
  get b ("~"%char :: r) = do x <- text_of c v fl; Ret (Some (x, rest)).
Proof.
  intros L B. destruct (longest_run _ _ _ _ _ L) as (y & Y & [[-> Sk]|(y' & -> & Sk)]).
  - rewrite app_nil_r in Y. apply get_direct; auto. apply L.
  - destruct L as [R M]. set (run := flags_run PBAT_VAR_MAX_OPTION r) in *.
    assert (Lr : length run = length fl + S (length y')) by (rewrite Y, app_length; simpl; lia).
    rewrite (get_back b r run eq_refl).
    2:{ intros d rs Sd Vd. destruct (b d) eqn:Eb; auto.
        assert (X : ref_at b r run d rs) by (apply ref_after; auto; congruence). apply M in X. lia. }
    pose proof (backtrack_ok b run (length run) (Nat.le_refl _)) as K.
    assert (Nc : nth_error run (length fl) = Some c) by (rewrite Y, nth_error_app2, Nat.sub_diag; auto).
    destruct (backtrack b (length run) run) as [j|].
    + destruct K as (K1 & (c' & K2 & K3) & K4).
      assert (X : ref_at b r (firstn j run) c' (skipn (S j) r)) by (apply ref_of_run; auto). apply M in X.
      rewrite firstn_length in X.
      destruct (Nat.eq_dec j (length fl)) as [->|].
      * rewrite Nc, B, Sk. rewrite Y, (Estr_Proofs.firstn_app_len fl) by auto. auto.
      * rewrite (K4 (length fl) c) in B; [discriminate|lia|lia|auto].
    + rewrite (K (length fl) c) in B; [discriminate|lia|auto].
Qed.

Lemma get_nothing b r : (forall fl c rest, ~ ref_at b r fl c rest) -> get b ("~"%char :: r) = Ret None.
Proof.
  intros N. rewrite (get_back b r _ eq_refl).
  2:{ intros d rs Sd Vd. destruct (b d) eqn:Eb; auto. exfalso. eapply N. apply ref_after; eauto. congruence. }
  pose proof (backtrack_ok b (flags_run PBAT_VAR_MAX_OPTION r) _ (Nat.le_refl _)) as K.
  destruct (backtrack b _ _) as [j|]; auto. destruct K as (K1 & (c' & K2 & K3) & K4). exfalso. eapply N.
  apply ref_of_run; eauto.
Qed.

Lemma get_plain b c r : c <> "~"%char ->
  get b (c :: r) = Ret (if name_ok c then match b c with Some t => Some (t, r) | None => None end else None).
Proof.
  intros H. unfold pBat_GetLocalVar. apply ceq_neq in H. rewrite H. cbn [negb].
  destruct (name_ok c) eqn:K; auto. apply name_ok_iff in K. rewrite at_block_valid by auto. reflexivity.
Qed.

(** *** Quotes *)
Lemma strrchr_none c : forall s pos last, ~ In c s -> strrchr_from s c pos last = last.
Proof.
  induction s as [|x s IH]; intros pos last H; auto. cbn [strrchr_from].
  assert (X : ceq x c = false) by (apply ceq_neq; intros ->; apply H; left; auto). rewrite X. apply IH.
  intros I. apply H. right. auto.
Qed.
Lemma strrchr_some c a u : ~ In c u -> forall pos last, strrchr_from (a ++ c :: u) c pos last = Some (pos + length a).
Proof.
  intros H. induction a as [|x a IH]; intros pos last; cbn [app strrchr_from].
  - rewrite ceq_refl, strrchr_none by auto. f_equal. simpl. lia.
  - rewrite IH. f_equal. simpl. lia.
Qed.

Lemma strip_quotes_ok s t : unquoted s t -> strip_quotes s = t.
Proof.
  intros [s' H|q t' Q H|q t' u Q H].
  - destruct s' as [|q r]; auto. destruct (H q r eq_refl) as [H1 H2]. unfold strip_quotes.
    apply ceq_neq in H1, H2. rewrite H1, H2. auto.
  - assert (X : ceq q """"%char || ceq q "'"%char = true) by (destruct Q; subst; reflexivity).
    unfold strip_quotes. rewrite X. cbn [strrchr_from]. rewrite ceq_refl, strrchr_none by auto. auto.
  - assert (X : ceq q """"%char || ceq q "'"%char = true) by (destruct Q; subst; reflexivity).
    unfold strip_quotes. rewrite X. rewrite (strrchr_some q (q :: t') u) by auto. simpl.
    apply Estr_Proofs.firstn_app_len. auto.
Qed.

Lemma unquoted_exists s : exists t, unquoted s t.
Proof.
  destruct s as [|q r]; [exists []; constructor; discriminate|].
  destruct (ascii_dec q """"%char) as [Q|Q1]; [|destruct (ascii_dec q "'"%char) as [Q|Q2]].
  3:{ exists (q :: r). constructor. intros q' r' [= <- <-]. auto. }
  all: assert (HQ : q = """"%char \/ q = "'"%char) by auto;
    destruct (in_dec ascii_dec q r) as [I|I]; [|exists r; constructor; auto];
    assert (X : exists t u, r = t ++ q :: u /\ ~ In q u).
  1,3: clear - I; induction r as [|x r IH]; [destruct I|];
    destruct (in_dec ascii_dec q r) as [J|J];
    [destruct (IH J) as (t & u & -> & N); exists (x :: t), u; auto
    |destruct I as [->|I]; [exists [], r; auto|tauto]].
  all: destruct X as (t & u & -> & N); exists t; constructor; auto.
Qed.

(** *** Modifiers *)
Lemma tab_unless_spec c d r : modifier c ->
  (ceq c "f"%char || ceq c "x"%char || ceq c "z"%char || ceq c "t"%char || ceq c "a"%char = true ->
     ~ adjacent c d /\ tab_unless (d :: r) None = ["009"%char]).
Proof.
  intros M H. split; auto. intros [[-> ->]|[[-> ->]|[-> ->]]]; discriminate.
Qed.

Lemma tab_adj c e d r : In (c, e) [("d"%char, "p"%char); ("p"%char, "n"%char); ("n"%char, "x"%char)] ->
  (adjacent c d /\ tab_unless (d :: r) (Some e) = []) \/ (~ adjacent c d /\ tab_unless (d :: r) (Some e) = ["009"%char]).
Proof.
  intros H. unfold tab_unless. cbn [nextflag]. destruct (ceq d e) eqn:X.
  - apply ceq_true in X. subst. left. split; auto. simpl in H.
    destruct H as [H|[H|[H|[]]]]; injection H as <- <-; unfold adjacent; auto.
  - apply ceq_false in X. right. split; auto. simpl in H.
    destruct H as [H|[H|[H|[]]]]; injection H as <- <-; unfold adjacent; intuition congruence.
Qed.

Lemma render_ok full dir name ext i info fl : Forall modifier fl -> fl <> [] ->
  (asks_file fl -> info = Some i) ->
  exists t, render_flags fl full [] dir name ext info = Ret t /\
            modifiers_text (modifier_text full dir name ext i) fl t.
Proof.
  induction fl as [|c r IH]; intros F N A; [congruence|]. apply Forall_cons_iff in F. destruct F as [Fc Fr].
  assert (P : exists t e, (In (c, e) [("d"%char, "p"%char); ("p"%char, "n"%char); ("n"%char, "x"%char)] /\
      (forall u, render_flags (c :: r) full [] dir name ext info = u <->
         (do t2 <- render_flags r full [] dir name ext info; Ret ((t ++ tab_unless r (Some e)) ++ t2)) = u) \/
      (ceq c "f"%char || ceq c "x"%char || ceq c "z"%char || ceq c "t"%char || ceq c "a"%char = true /\
      (forall u, render_flags (c :: r) full [] dir name ext info = u <->
         (do t2 <- render_flags r full [] dir name ext info; Ret ((t ++ tab_unless r None) ++ t2)) = u))) /\
      modifier_text full dir name ext i c t).
  { cbn [render_flags]. unfold modifier in Fc. simpl in Fc.
    assert (Az : In c (s2l "azt") -> info = Some i) by (intros X; apply A; exists c; split; [left; auto|auto]).
    unfold modifier_text.
    destruct Fc as [<-|[<-|[<-|[<-|[<-|[<-|[<-|[<-|[]]]]]]]]].
    - exists full, "f"%char. split; [right|tauto]. split; [reflexivity|]. intros u. reflexivity.
    - exists [], "p"%char. split; [left|tauto]. split; [simpl; auto|]. intros u. reflexivity.
    - exists name, "x"%char. split; [left|tauto]. split; [simpl; auto|]. intros u. reflexivity.
    - exists dir, "n"%char. split; [left|tauto]. split; [simpl; auto|]. intros u. reflexivity.
    - exists ext, "f"%char. split; [right|tauto]. split; [reflexivity|]. intros u. reflexivity.
    - rewrite Az by (simpl; auto). exists (dec (to_int (fi_size i))), "f"%char. split; [right|tauto]. split; [reflexivity|]. intros u. reflexivity.
    - rewrite Az by (simpl; auto). exists (fi_time i), "f"%char. split; [right|tauto]. split; [reflexivity|]. intros u. reflexivity.
    - rewrite Az by (simpl; auto). exists (if fi_dir i then s2l "D      " else s2l "       "), "f"%char. split; [right|tauto]. split; [reflexivity|].
      intros u. destruct (fi_dir i); reflexivity. }
  destruct P as (t & e & P & T). destruct r as [|d r].
  - exists t. split; [|constructor; auto]. destruct P as [[_ P]|[_ P]]; apply P; simpl; rewrite !app_nil_r; auto.
  - destruct (IH Fr) as (u & U1 & U2); [discriminate| |].
    { intros (x & X1 & X2). apply A. exists x. split; [right; auto|auto]. }
    destruct P as [[P1 P]|[P1 P]].
    + destruct (tab_adj c e d r P1) as [[J K]|[J K]].
      * exists (t ++ u). split; [|constructor; auto]. apply P. rewrite U1, K, app_nil_r. reflexivity.
      * exists (t ++ "009"%char :: u). split; [|apply mt_tab; auto]. apply P. rewrite U1, K. cbn [bind]. rewrite <- app_assoc. auto.
    + destruct (tab_unless_spec c d r Fc P1) as [J K].
      exists (t ++ "009"%char :: u). split; [|apply mt_tab; auto]. apply P. rewrite U1, K. cbn [bind]. rewrite <- app_assoc. auto.
Qed.

(** *** The file named *)
Lemma absolute_ordinary p : absolute p -> ordinary p.
Proof.
  intros (r & -> & _). split; intros w Hw; simpl in Hw; intuition subst; try discriminate.
Qed.

Lemma from_dir_absolute p full : absolute cur -> cur <> s2l "/" -> from_dir cur p full -> absolute full.
Proof.
  intros (r & -> & H) N [[A ->]|[A ->]]; auto. destruct r as [|d r]; [exfalso; apply N; reflexivity|].
  exists ((d :: r) ++ "/"%char :: p). split; auto. intros r'. simpl. intros X. injection X as -> X. eapply H. eauto.
Qed.

Lemma EsToFullPath_ok p full : nonul p -> ordinary p -> from_dir cur p full -> length full < cap p ->
  pBat_EsToFullPath cur p (cap p) = Ret full.
Proof.
  intros Hn Ho F L. unfold pBat_EsToFullPath. rewrite (TRANS_ordinary _ Hn Ho). destruct F as [[A ->]|[A ->]].
  - apply absolute_iff in A. rewrite A. auto.
  - destruct (PBAT_TEST_ABSOLUTE_PATH p) eqn:X; [apply absolute_iff in X; tauto|].
    rewrite app_length in L. simpl length in L. destruct (Nat.ltb_spec (cap p) (length p + 1 + length cur + 1)); [lia|]. auto.
Qed.

Lemma file_of_ok c text file : names_file cur script cap c text file -> nonul file ->
  file_of cur script cap c text = Ret file /\ file_of cur script cap c file = Ret file.
Proof.
  intros [[-> ->]|(C & Hn & Ho & A & N & F & L)] Hf; unfold file_of; [auto|].
  apply ceq_neq in C. rewrite C. split; [apply EsToFullPath_ok; auto|].
  pose proof (from_dir_absolute _ _ A N F) as A2. unfold pBat_EsToFullPath.
  rewrite (TRANS_ordinary _ Hf (absolute_ordinary _ A2)). apply absolute_iff in A2. rewrite A2. auto.
Qed.

Lemma SplitPath_ok path : ~ has_drive path -> length path < FILENAME_MAX ->
  exists dir name ext, pBat_SplitPath path = Ret ([], dir, name, ext) /\ parts_of path dir name ext.
Proof.
  intros Hd Hl. unfold pBat_SplitPath.
  assert (X : match path with
    | c :: r => if prefixb (s2l ":\") r || prefixb (s2l ":/") r
                then ([c; ":"%char], skipn 3 path) else ([], path)
    | [] => ([], path) end = ([] : cstr, path)).
  { destruct path as [|c r]; auto. destruct (_ || _) eqn:Y; auto. exfalso. apply Hd.
    destruct r as [|a [|b r]]; try (vm_compute in Y; destruct a as [[] [] [] [] [] [] [] []]; discriminate).
    - discriminate.
    - exists c, b, r. cbn [prefixb s2l list_ascii_of_string] in Y.
      apply Bool.orb_true_iff in Y. destruct Y as [Y|Y]; apply Bool.andb_true_iff in Y; destruct Y as [Y1 Y2];
        apply Bool.andb_true_iff in Y2; destruct Y2 as [Y2 _]; apply ceq_true in Y1; apply ceq_true in Y2; subst; auto. }
  rewrite X. apply (split_ok [] path Hl).
Qed.

Lemma existsb_inset l fl : existsb (inset l) fl = true <-> exists c, In c fl /\ In c l.
Proof.
  rewrite existsb_exists. split; intros (c & H1 & H2); exists c; split; auto; apply inset_In; auto.
Qed.

Lemma text_ok c v fl text file i :
  unquoted v text -> fl <> [] -> Forall modifier fl ->
  names_file cur script cap c text file -> nonul file -> length file < FILENAME_MAX -> ~ has_drive file ->
  (asks_file fl -> stat file = Some i) ->
  exists dir name ext t, parts_of file dir name ext /\ text_of c v fl = Ret t /\
    modifiers_text (modifier_text file dir name ext i) fl t.
Proof.
  intros U N F NF Hf Hl Hd Hs. destruct (file_of_ok c text file NF Hf) as [F1 F2].
  destruct (SplitPath_ok file Hd Hl) as (dir & name & ext & Sp & P).
  unfold local_text. rewrite (strip_quotes_ok _ _ U).
  assert (Pick : exists info, (asks_file fl -> info = Some i) /\
    (if existsb (inset (s2l "azt")) fl then do t <- file_of cur script cap c text; Ret (t, stat t) else Ret (text, None))
    = Ret (if existsb (inset (s2l "azt")) fl then file else text, info)).
  { destruct (existsb (inset (s2l "azt")) fl) eqn:X.
    - exists (stat file). split; auto. rewrite F1. auto.
    - exists None. split; auto. intros (d & D1 & D2).
      assert (existsb (inset (s2l "azt")) fl = true) by (apply existsb_inset; eauto). congruence. }
  destruct Pick as (info & I & ->). cbn [bind].
  set (tx := if existsb (inset (s2l "azt")) fl then file else text).
  assert (Ft : file_of cur script cap c tx = Ret file) by (unfold tx; destruct (existsb _ fl); auto).
  exists dir, name, ext.
  destruct (existsb (inset (s2l "fdnpx")) fl) eqn:Y.
  - rewrite Ft. cbn [bind]. rewrite Sp. cbn [bind].
    destruct (render_ok file dir name ext i info fl F N I) as (t & T1 & T2). exists t.
    split; auto. split; auto. destruct fl; [congruence|]. rewrite firstn_all2 by lia. auto.
  - cbn [bind].
    (* only z, t and a: the other texts do not matter *)
    destruct (render_ok file dir name ext i info fl F N I) as (t & T1 & T2). exists t.
    split; auto. split; auto. destruct fl as [|c0 fl0]; [congruence|].
    assert (G : forall l, Forall modifier l -> existsb (inset (s2l "fdnpx")) l = false ->
      render_flags l (firstn (FILENAME_MAX - 1) tx) [] [] [] [] info = render_flags l file [] dir name ext info).
    { induction l as [|d l IH]; intros Fl Yl; auto. apply Forall_cons_iff in Fl. destruct Fl as [Fd Fl].
      cbn [existsb] in Yl. apply Bool.orb_false_iff in Yl. destruct Yl as [Y1 Y2]. cbn [render_flags].
      rewrite IH by auto. unfold modifier in Fd. simpl in Fd.
      destruct Fd as [<-|[<-|[<-|[<-|[<-|[<-|[<-|[<-|[]]]]]]]]]; try discriminate Y1; reflexivity. }
    rewrite G by auto. exact T1.
Qed.

Lemma text_plain c v text : unquoted v text -> text_of c v [] = Ret text.
Proof. intros U. unfold local_text. cbn [existsb bind]. rewrite (strip_quotes_ok _ _ U). auto. Qed.
End Get.

(** *** Assignments *)
Lemma last_assigned_ok : forall h b c, valid_name c ->
  fold_right (fun '(d, v) b => pBat_SetLocalVar b d v) b h c = last_assigned h c (b c).
Proof.
  induction h as [|[d v] h IH]; intros b c V; cbn [fold_right last_assigned]; auto.
  unfold pBat_SetLocalVar at 1. destruct (ascii_dec d c) as [->|N].
  - rewrite (proj2 (name_ok_iff c) V), ceq_refl. auto.
  - destruct (name_ok d); auto. assert (X : ceq c d = false) by (apply ceq_neq; congruence). rewrite X. auto.
Qed.
