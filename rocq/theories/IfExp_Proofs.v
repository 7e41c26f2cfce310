(** IfExp_Proofs.v -- expressions between brackets. *)

From Coq Require Import QArith.
From Verif Require Import Base Lex Num_Model StrLib_Model StrLib_Spec Env_Model Var_Model Var_Proofs Path_Model Path_Proofs
  Expand_Model Args_Model Args_Spec Args_Proofs Args_Props If_Model If_Spec If_Proofs.
Open Scope nat_scope.

Lemma word_true t s : nonul t -> nonul (s2l s) -> word t s = true <-> same_name t (s2l s).
Proof. intros. unfold word. apply stricmp_eqb; auto. Qed.
Lemma word_false t s : nonul t -> nonul (s2l s) -> ~ same_name t (s2l s) -> word t s = false.
Proof. intros. destruct (word t s) eqn:E; auto. apply word_true in E; auto. tauto. Qed.
Lemma word_same t s : same_name t (s2l s) -> word t s = true.
Proof.
  intros H. unfold word. rewrite (stricmp_same t (s2l s) (s2l s) H).
  assert (X : forall l, stricmp l l = 0%Z) by (induction l as [|c l IH]; simpl; auto; rewrite ceq_refl; auto).
  rewrite X. reflexivity.
Qed.

Definition prepend (l : list cstr) (r : option (list cstr * list cstr)) : option (list cstr * list cstr) :=
  match r with Some (a, b) => Some (l ++ a, b) | None => None end.
Lemma prepend_app l m r : prepend l (prepend m r) = prepend (l ++ m) r.
Proof. destruct r as [[a b]|]; simpl; auto. rewrite app_assoc. reflexivity. Qed.

Definition passes (tok : string) (n : Z) (l : list cstr) : Prop :=
  forall r, cut_loop tok n (l ++ r) = prepend l (cut_loop tok n r).
Lemma passes_nil tok n : passes tok n [].
Proof. intros r. simpl. destruct (cut_loop tok n r) as [[a b]|]; auto. Qed.
Lemma passes_app tok n a b : passes tok n a -> passes tok n b -> passes tok n (a ++ b).
Proof. intros A B r. rewrite <- app_assoc, A, B, prepend_app. reflexivity. Qed.
Lemma cut_pass tok n t r n' :
  (if is_open t then n' = n + 1 else if is_close t then n' = n - 1 else (n' = n /\ ((n =? 0) && word t tok = false)))%Z ->
  cut_loop tok n (t :: r) = prepend [t] (cut_loop tok n' r).
Proof.
  intros H. cbn [cut_loop]. destruct (is_open t) eqn:O; [|destruct (is_close t) eqn:C].
  - subst n'. destruct cut_loop as [[a b]|]; reflexivity.
  - subst n'. destruct cut_loop as [[a b]|]; reflexivity.
  - destruct H as [-> H]. rewrite H. destruct cut_loop as [[a b]|]; reflexivity.
Qed.

Definition token (tok : string) : Prop := tok = "AND"%string \/ tok = "OR"%string.
Definition free_of (tok : string) (lv : level) : Prop :=
  match lv with Atom => True | Disj => tok = "AND"%string | Conj => False end.

Lemma ordinary_word t tok : token tok -> nonul t -> ordinary t -> word t tok = false.
Proof.
  intros [-> | ->] N (_ & _ & A & O); apply word_false; auto; cbv; intuition discriminate.
Qed.
Lemma ordinary_bracket t : ordinary t -> is_open t = false /\ is_close t = false.
Proof.
  intros (A & B & _). unfold is_open, is_close. split.
  - destruct (streqb t (s2l "[")) eqn:E; auto. apply streqb_true in E. congruence.
  - destruct (streqb t (s2l "]")) eqn:E; auto. apply streqb_true in E. congruence.
Qed.

Lemma pass_words lv e : shaped lv e -> forall tok n, token tok -> (1 <= n \/ n = 0 /\ free_of tok lv)%Z -> passes tok n (words e).
Proof.
  induction 1 as [l N O U|e H IH|a b Ha IHa Hb IHb|e H IH|a b Ha IHa Hb IHb|e H IH]; intros tok n T L; cbn [words].
  - clear N. induction l as [|t l IHl]; [apply passes_nil|]. inversion O; subst. inversion U; subst.
    intros r. cbn [app]. rewrite (cut_pass tok n t _ n).
    + rewrite (IHl H2 H4). rewrite prepend_app. reflexivity.
    + destruct (ordinary_bracket t H1) as [-> ->]. split; auto. rewrite (ordinary_word t tok); auto. apply andb_false_r.
  - intros r. cbn [app]. rewrite (cut_pass tok n _ _ (n + 1)%Z) by reflexivity.
    rewrite <- app_assoc. rewrite (IH tok (n + 1)%Z T) by lia. cbn [app].
    rewrite (cut_pass tok (n + 1)%Z _ _ n) by (cbn; lia). rewrite !prepend_app. cbn [app]. rewrite <- ?app_assoc. reflexivity.
  - apply passes_app.
    + apply IHa; auto. destruct L as [L|[L F]]; [auto|right; split; simpl; auto].
    + intros r. cbn [app]. rewrite (cut_pass tok n _ _ n).
      * rewrite IHb by auto. rewrite prepend_app. reflexivity.
      * cbn [is_open is_close]. split; auto. destruct L as [L|[-> F]].
        -- destruct (Z.eqb_spec n 0); [lia|reflexivity].
        -- simpl in F. subst tok. reflexivity.
  - apply IH; auto. destruct L as [L|[L F]]; [auto|right; split; simpl; auto].
  - destruct L as [L|[L F]]; [|destruct F].
    apply passes_app; [apply IHa; auto|].
    intros r. cbn [app]. rewrite (cut_pass tok n _ _ n).
    * rewrite IHb by auto. rewrite prepend_app. reflexivity.
    * cbn [is_open is_close]. split; auto. destruct (Z.eqb_spec n 0); [lia|reflexivity].
  - apply IH; auto. destruct L as [L|[L F]]; [auto|destruct F].
Qed.

Lemma words_first lv e : shaped lv e -> exists t r, words e = t :: r /\ is_close t = false /\
  (forall tok, token tok -> word t tok = false).
Proof.
  induction 1 as [l N O U|e H IH|a b Ha IHa Hb IHb|e H IH|a b Ha IHa Hb IHb|e H IH]; cbn [words]; auto.
  - destruct l as [|t l]; [congruence|]. exists t, l. inversion O; subst. inversion U; subst. repeat split.
    + apply ordinary_bracket; auto.
    + intros tok T. apply ordinary_word; auto.
  - exists (s2l "["), (words e ++ [s2l "]"]). repeat split. intros tok [-> | ->]; reflexivity.
  - destruct IHa as (t & r & -> & C). exists t, (r ++ s2l "OR" :: words b). auto.
  - destruct IHa as (t & r & -> & C). exists t, (r ++ s2l "AND" :: words b). auto.
Qed.

Lemma cut_words lv e tok : shaped lv e -> token tok -> pBat_IfExp_Cut tok (words e) = Ret (cut_loop tok 0 (words e)).
Proof.
  intros H T. destruct (words_first lv e H) as (t & r & E & C & W). rewrite E. unfold pBat_IfExp_Cut. rewrite W by auto.
  f_equal. cbn [cut_loop]. rewrite C, W by auto. rewrite andb_false_r. destruct (is_open t); reflexivity.
Qed.

(** *** Brackets around *)
Lemma scan_words lv e : shaped lv e -> forall n r, r <> [] -> pair_scan (S n) (words e ++ r) = pair_scan (S n) r.
Proof.
  induction 1 as [l N O U|e H IH|a b Ha IHa Hb IHb|e H IH|a b Ha IHa Hb IHb|e H IH]; intros n r R; cbn [words]; auto.
  - clear N. induction l as [|t l IHl]; auto. inversion O; subst. inversion U; subst. cbn [app pair_scan].
    destruct (ordinary_bracket t H1) as [-> ->]. auto.
  - cbn [app pair_scan]. change (is_open (s2l "[")) with true. cbn iota.
    rewrite <- app_assoc. rewrite IH by discriminate. cbn [app pair_scan].
    change (is_open (s2l "]")) with false. change (is_close (s2l "]")) with true. cbn iota. cbn [Nat.pred]. reflexivity.
  - rewrite <- app_assoc. rewrite IHa by discriminate. cbn [app pair_scan].
    change (is_open (s2l "OR")) with false. change (is_close (s2l "OR")) with false. cbn iota. auto.
  - rewrite <- app_assoc. rewrite IHa by discriminate. cbn [app pair_scan].
    change (is_open (s2l "AND")) with false. change (is_close (s2l "AND")) with false. cbn iota. auto.
Qed.

Lemma one_pair_par e : shaped Conj e -> pBat_IfExp_SuppressOneBracketPair (words (BPar e)) = Ret (Some (words e)).
Proof.
  intros H. cbn [words]. unfold pBat_IfExp_SuppressOneBracketPair. change (is_open (s2l "[")) with true. cbn [negb].
  destruct (words e ++ [s2l "]"]) as [|t r] eqn:E; [destruct (words e); discriminate|]. rewrite <- E.
  rewrite (scan_words Conj e H 0) by discriminate. rewrite removelast_last. reflexivity.
Qed.

Definition lead_ok (a : bexp) (r : list cstr) : Prop :=
  forall t r', words a ++ r = t :: r' -> negb (is_open t) = false -> r' <> [] /\ pair_scan 1 r' = false.
Lemma lead_words lv a : shaped lv a -> forall r, r <> [] -> lead_ok a r.
Proof.
  induction 1 as [l N O U|e H IH|a b Ha IHa Hb IHb|e H IH|a b Ha IHa Hb IHb|e H IH]; intros r R; unfold lead_ok; cbn [words]; auto.
  - intros t r' E B. destruct l as [|t0 l]; [congruence|]. simpl in E. injection E as -> _. inversion O; subst.
    destruct (ordinary_bracket t H1) as [X _]. rewrite X in B. discriminate.
  - intros t r' E _. cbn [app] in E. injection E as _ <-. rewrite <- app_assoc. split.
    + intros X. destruct (words e); discriminate.
    + rewrite (scan_words Conj e H 0) by discriminate. cbn [app pair_scan].
      change (is_open (s2l "]")) with false. change (is_close (s2l "]")) with true. cbn iota. cbn [Nat.pred].
      destruct r; [congruence|reflexivity].
  - intros t r' E B. rewrite <- app_assoc in E. apply (IHa (s2l "OR" :: words b ++ r) ltac:(discriminate) t r' E B).
  - apply (IH r R).
  - intros t r' E B. rewrite <- app_assoc in E. apply (IHa (s2l "AND" :: words b ++ r) ltac:(discriminate) t r' E B).
  - apply (IH r R).
Qed.
Lemma one_pair_none a r : lead_ok a r -> words a ++ r <> [] -> pBat_IfExp_SuppressOneBracketPair (words a ++ r) = Ret None.
Proof.
  intros L N. unfold pBat_IfExp_SuppressOneBracketPair. destruct (words a ++ r) as [|t r'] eqn:E; [congruence|].
  destruct (negb (is_open t)) eqn:B; auto. destruct (L t r' E B) as [X Y]. rewrite Y. destruct r'; [congruence|reflexivity].
Qed.

Fixpoint strip (e : bexp) : bexp := match e with BPar a => strip a | _ => e end.
Lemma strip_shaped lv e : shaped lv e -> shaped Conj (strip e) /\ forall a, strip e <> BPar a.
Proof.
  induction 1 as [l N O U|e H IH|a b Ha IHa Hb IHb|e H IH|a b Ha IHa Hb IHb|e H IH]; cbn [strip]; auto;
    (split; [|discriminate]); repeat (constructor; auto).
Qed.
Lemma strip_truth v e : truth v (strip e) = truth v e /\ trap v (strip e) = trap v e /\ tests (strip e) = tests e.
Proof. induction e; cbn [strip truth trap tests]; auto. Qed.
Lemma strip_len e : length (words (strip e)) <= length (words e).
Proof. induction e; cbn [strip words]; auto. cbn [length]. rewrite app_length. simpl. lia. Qed.
Lemma strip_id e : (forall a, e <> BPar a) -> strip e = e.
Proof. destruct e; auto. intros H. destruct (H e eq_refl). Qed.

Lemma shaped_conj_inv e : shaped Conj e -> (forall a, e <> BPar a) ->
  match e with
  | BTest l => l <> [] /\ Forall ordinary l /\ Forall nonul l
  | BAnd a b => shaped Disj a /\ shaped Conj b
  | BOr a b => shaped Atom a /\ shaped Disj b
  | BPar _ => False
  end.
Proof.
  intros H N. inversion H; subst; auto.
  inversion H0; subst; auto.
  inversion H1; subst; auto.
  destruct (N e0 eq_refl).
Qed.
Lemma shaped_atom lv e : shaped lv e -> shaped Conj e.
Proof. intros H. destruct lv; auto; repeat (constructor; auto). Qed.

Lemma suppress_none e : shaped Conj e -> (forall a, e <> BPar a) -> pBat_IfExp_SuppressOneBracketPair (words e) = Ret None.
Proof.
  intros H N. pose proof (shaped_conj_inv e H N) as I. destruct e as [l|a b|a b|a]; cbn [words].
  - destruct I as (A & B & C). unfold pBat_IfExp_SuppressOneBracketPair. destruct l as [|t l]; auto. inversion B; subst.
    destruct (ordinary_bracket t H2) as [-> _]. reflexivity.
  - destruct I as [A B]. apply one_pair_none; [apply (lead_words Disj); auto; discriminate|]. destruct (words a); discriminate.
  - destruct I as [A B]. apply one_pair_none; [apply (lead_words Atom); auto; discriminate|]. destruct (words a); discriminate.
  - destruct I.
Qed.

Lemma suppress_ok e : shaped Conj e -> forall f, length (words e) < f -> suppress f (words e) = Ret (words (strip e)).
Proof.
  intros H f. revert e H. induction f as [|f IH]; intros e H L; [lia|]. cbn [suppress].
  destruct e as [l|a b|a b|a].
  1-3: rewrite suppress_none by (auto; discriminate); reflexivity.
  assert (X : shaped Conj a).
  { inversion H; subst. inversion H0; subst. inversion H1; subst; auto. }
  rewrite one_pair_par by auto. cbn [bind]. rewrite IH; auto. cbn [words length] in L. rewrite app_length in L. simpl in L. lia.
Qed.

Lemma supp_ok e : shaped Conj e -> pBat_IfExp_SuppressBrackets (words e) = Ret (words (strip e)).
Proof. intros H. unfold pBat_IfExp_SuppressBrackets. apply suppress_ok; auto. Qed.

Section E.
Variable strtod : cstr -> dbl * nat.
Variable exists_file : cstr -> bool.
Variable ka : Z.
Notation eval := (pBat_IfExp_Evaluate strtod exists_file ka).
Notation exec := (pBat_IfExp_ExecuteTest strtod exists_file ka).

Definition result (val : list cstr -> bool) (e : bexp) : outcome (option bool) :=
  if trap val e then Undef else Ret (Some (truth val e)).

Lemma words_len lv e : shaped lv e -> 0 < length (words e).
Proof. intros H. destruct (words_first lv e H) as (t & r & -> & _). simpl. lia. Qed.

Lemma parse_ok w i val : forall f e, shaped Conj e -> length (words e) < f ->
  (forall l, In l (tests e) -> exec w l i = Ret (Some (val l))) ->
  exists x, parse_exp f (words e) = Ret (Some x) /\ eval w x i = result val e.
Proof.
  induction f as [|f IH]; intros e H L V; [lia|].
  pose proof (strip_shaped Conj e H) as [Hs Ns]. destruct (strip_truth val e) as (St & Sp & Sv). pose proof (strip_len e) as Sl.
  cbn [parse_exp]. rewrite supp_ok by auto. cbn [bind].
  unfold result. rewrite <- St, <- Sp. fold (result val (strip e)).
  rewrite <- Sv in V. assert (L' : length (words (strip e)) < S f) by lia.
  revert Hs Ns V L'. generalize (strip e). clear e H L St Sp Sv Sl. intros e H N V L.
  assert (fill : forall lv a, shaped lv a -> length (words a) < f -> (forall l, In l (tests a) -> exec w l i = Ret (Some (val l))) ->
    exists x, (do l <- pBat_IfExp_SuppressBrackets (words a);
        do r <- parse_exp f l;
        match r with
        | Some e => Ret (ChExp e)
        | None =>
            do l' <- match l with
                     | [] => Ret []
                     | _ => do a <- pBat_IfExp_Cut "AND" l;
                            match a with
                            | Some (x, _) => Ret x
                            | None => do b <- pBat_IfExp_Cut "OR" l;
                                      Ret (match b with Some (x, _) => x | None => l end)
                            end
                     end;
            Ret (ChOps l')
        end) = Ret (ChExp x) /\ eval w x i = result val a).
  { intros lv a Ha La Va. destruct (strip_truth val a) as (St & Sp & Sv). pose proof (strip_len a).
    destruct (strip_shaped lv a Ha) as [Hs Ns].
    rewrite supp_ok by (eauto using shaped_atom). cbn [bind].
    destruct (IH (strip a) Hs ltac:(lia)) as (x & E & R); [rewrite Sv; auto|].
    rewrite E. cbn [bind]. exists x. split; auto. rewrite R. unfold result. rewrite St, Sp. reflexivity. }
  pose proof (shaped_conj_inv e H N) as I. destruct (words_first _ _ H) as (t0 & r0 & E0 & _). rewrite E0. rewrite <- E0.
  rewrite (cut_words Conj) by (auto; left; auto). cbn [bind].
  destruct e as [l|a b|a b|a]; cbn [words] in *.
  - destruct I as (A & B & C). assert (Hl : shaped Atom (BTest l)) by (constructor; auto).
    assert (P : forall tok, token tok -> cut_loop tok 0 l = None).
    { intros tok T. pose proof (pass_words Atom (BTest l) Hl tok 0%Z T ltac:(right; simpl; auto) []) as X. cbn [words] in X.
      rewrite app_nil_r in X. rewrite X. reflexivity. }
    rewrite P by (left; auto). pose proof (cut_words Atom (BTest l) "OR" Hl ltac:(right; auto)) as Q. cbn [words] in Q. rewrite Q. cbn [bind].
    rewrite P by (right; auto). exists (IfNone l). split; auto. cbn [pBat_IfExp_Evaluate]. rewrite V by (simpl; auto). reflexivity.
  - destruct I as (A & B).
    rewrite (pass_words Disj a A "AND" 0%Z ltac:(left; auto) ltac:(right; simpl; auto)).
    cbn [cut_loop]. change (is_open (s2l "AND")) with false. change (is_close (s2l "AND")) with false.
    change (word (s2l "AND") "AND") with true. cbn [Z.eqb andb prepend]. rewrite app_nil_r.
    rewrite app_length in L. cbn [length] in L.
    destruct (fill Disj a A ltac:(lia)) as (x & Fx & Ex); [intros; apply V; simpl; apply in_or_app; auto|].
    destruct (fill Conj b B ltac:(lia)) as (y & Fy & Ey); [intros; apply V; simpl; apply in_or_app; auto|].
    destruct (words_first _ _ B) as (t1 & r1 & E1 & _). rewrite E1. rewrite <- E1.
    rewrite Fx. cbn [bind]. rewrite Fy. cbn [bind]. eexists. split; [reflexivity|]. cbn [pBat_IfExp_Evaluate]. rewrite Ex.
    unfold result. cbn [trap truth]. destruct (trap val a); cbn [bind orb]; auto. destruct (truth val a); reflexivity.
  - destruct I as (A & B).
    assert (P : cut_loop "AND" 0 (words a ++ s2l "OR" :: words b) = None).
    { assert (Hd : shaped Disj (BOr a b)) by (constructor; auto).
      pose proof (pass_words Disj _ Hd "AND" 0%Z ltac:(left; auto) ltac:(right; simpl; auto) []) as X. cbn [words] in X.
      rewrite app_nil_r in X. rewrite X. reflexivity. }
    rewrite P. pose proof (cut_words Conj (BOr a b) "OR" H ltac:(right; auto)) as Q. cbn [words] in Q. rewrite Q. cbn [bind].
    rewrite (pass_words Atom a A "OR" 0%Z ltac:(right; auto) ltac:(right; simpl; auto)).
    cbn [cut_loop]. change (is_open (s2l "OR")) with false. change (is_close (s2l "OR")) with false.
    change (word (s2l "OR") "OR") with true. cbn [Z.eqb andb prepend]. rewrite app_nil_r.
    rewrite app_length in L. cbn [length] in L.
    destruct (fill Atom a A ltac:(lia)) as (x & Fx & Ex); [intros; apply V; simpl; apply in_or_app; auto|].
    destruct (fill Disj b B ltac:(lia)) as (y & Fy & Ey); [intros; apply V; simpl; apply in_or_app; auto|].
    destruct (words_first _ _ B) as (t1 & r1 & E1 & _). rewrite E1. rewrite <- E1.
    rewrite Fx. cbn [bind]. rewrite Fy. cbn [bind]. eexists. split; [reflexivity|]. cbn [pBat_IfExp_Evaluate]. rewrite Ex.
    unfold result. cbn [trap truth]. destruct (trap val a); cbn [bind orb]; auto. rewrite Ey. unfold result.
    destruct (trap val b); reflexivity.
  - destruct I.
Qed.
End E.

(** *** Reading the words *)
Lemma param_shorter w line t rest : param w line t rest -> length rest < length line.
Proof.
  unfold param. intros H. destruct (C21_next w [] line) as [[_ X]|(a & raw & r & t' & E & _ & N & _ & _ & X)].
  - rewrite X in H. discriminate.
  - destruct X as [(_ & _ & X)|(_ & X)]; rewrite X in H; [discriminate|].
    destruct (pBat_DelayedExpand w t') as [[u w']| |]; cbn [bind] in H; try discriminate.
    injection H as _ <- _. subst line. rewrite !app_length. destruct raw; [congruence|simpl; lia].
Qed.

Definition depth (l : list cstr) (n : Z) (n' : Z) : Prop :=
  forall w f s rest k, params w s l rest -> length s < f -> (1 <= n)%Z ->
    (forall f', length rest < f' -> parse_line f' w n' rest = k) ->
    parse_line f w n s = do (r, x, w2) <- k; Ret (l ++ r, x, w2).

Lemma depth_nil n : depth [] n n.
Proof.
  intros w f s rest k P L N K. inversion P; subst. rewrite (K f L). destruct k as [[[r x] w2]| |]; reflexivity.
Qed.
Lemma depth_cons t l n n1 n' : (if is_open t then n1 = n + 1 else if is_close t then n1 = n - 1 else n1 = n)%Z ->
  (1 <= n1)%Z -> depth l n1 n' -> depth (t :: l) n n'.
Proof.
  intros E P1 D w f s rest k P L N K. destruct f as [|f]; [lia|]. inversion P as [|s0 t0 r l0 e0 Hp Hr]; subst.
  cbn [parse_line]. unfold param in Hp. rewrite Hp. cbn [bind].
  assert (X : (if is_open t then n + 1 else if is_close t then n - 1 else n)%Z = n1) by (destruct (is_open t), (is_close t); auto).
  rewrite X. destruct (Z.leb_spec n1 0); [lia|].
  pose proof (param_shorter w s t r Hp). rewrite (D w f r rest k Hr ltac:(lia) P1 K).
  destruct k as [[[a x] w2]| |]; reflexivity.
Qed.
Lemma params_app w s a b e : params w s (a ++ b) e <-> exists m, params w s a m /\ params w m b e.
Proof.
  revert s. induction a as [|t a IH]; intros s; simpl.
  - split; [intros H; exists s; split; auto; constructor|]. intros (m & H1 & H2). inversion H1; subst. auto.
  - split.
    + intros H. inversion H as [|s0 t0 r l0 e0 Hp Hr]; subst. apply IH in Hr. destruct Hr as (m & H1 & H2).
      exists m. split; auto. econstructor; eauto.
    + intros (m & H1 & H2). inversion H1 as [|s0 t0 r l0 e0 Hp Hr]; subst. econstructor; eauto. apply IH. eauto.
Qed.
Lemma depth_app a b n n' n'' : (1 <= n')%Z -> depth a n n' -> depth b n' n'' -> depth (a ++ b) n n''.
Proof.
  intros N' A B w f s rest k P L N K. apply params_app in P. destruct P as (m & P1 & P2).
  rewrite (A w f s m (do (r, x, w2) <- k; Ret (b ++ r, x, w2)) P1 L N).
  - destruct k as [[[r x] w2]| |]; cbn [bind]; auto. rewrite app_assoc. reflexivity.
  - intros f' L'. apply (B w f' m rest k P2 L' N' K).
Qed.

Lemma depth_words lv e : shaped lv e -> forall n, (1 <= n)%Z -> depth (words e) n n.
Proof.
  induction 1 as [l N O U|e H IH|a b Ha IHa Hb IHb|e H IH|a b Ha IHa Hb IHb|e H IH]; intros n L; cbn [words]; auto.
  - clear N. induction l as [|t l IHl]; [apply depth_nil|]. inversion O; subst. inversion U; subst.
    apply (depth_cons t l n n); auto. destruct (ordinary_bracket t H1) as [-> ->]. reflexivity.
  - apply (depth_cons _ _ n (n + 1)%Z); [reflexivity|lia|].
    apply (depth_app _ _ _ (n + 1)%Z); [lia|apply IH; lia|].
    apply (depth_cons _ _ _ n); [change (n = n + 1 - 1)%Z; lia|lia|apply depth_nil].
  - apply (depth_app _ _ _ n); auto. apply (depth_cons _ _ n n); auto. reflexivity.
  - apply (depth_app _ _ _ n); auto. apply (depth_cons _ _ n n); auto. reflexivity.
Qed.

Lemma line_step f w n n1 s t r : param w s t r ->
  n1 = (if is_open t then n + 1 else if is_close t then n - 1 else n)%Z ->
  parse_line (S f) w n s = if (n1 <=? 0)%Z then Ret ([t], Some r, w)
                           else do (l, r', w2) <- parse_line f w n1 r; Ret (t :: l, r', w2).
Proof. unfold param. intros H ->. cbn [parse_line]. rewrite H. reflexivity. Qed.
Lemma line_ok w e s rest : shaped Conj e -> params w s (words (BPar e)) rest ->
  parse_line (S (length s)) w 0 s = Ret (words (BPar e), Some rest, w).
Proof.
  intros H P. cbn [words] in *. inversion P as [|s0 t0 r l0 e0 Hp Hr]; subst.
  apply params_app in Hr. destruct Hr as (m & P1 & P2).
  inversion P2 as [|s1 t1 r1 l1 e1 Hp1 Hr1]; subst. inversion Hr1; subst. pose proof (param_shorter w s _ r Hp).
  rewrite (line_step _ w 0 1 s _ r Hp eq_refl). change (1 <=? 0)%Z with false. cbn iota.
  rewrite (depth_words Conj e H 1%Z ltac:(lia) w (length s) r m (Ret ([s2l "]"], Some rest, w)) P1); [reflexivity|lia|lia|].
  intros f' L. destruct f' as [|f']; [lia|]. rewrite (line_step _ w 1 0 m _ rest Hp1 eq_refl). reflexivity.
Qed.

(** *** The switches *)
Lemma word_cut n t s : length (s2l s) < n -> word (firstn n t) s = word t s.
Proof.
  unfold word. intros L. generalize dependent (s2l s). clear s. revert n. induction t as [|c t IH]; intros n l L.
  - rewrite firstn_nil. reflexivity.
  - destruct n as [|n]; [lia|]. cbn [firstn]. destruct l as [|d l].
    + reflexivity.
    + simpl. simpl in L. destruct (ceq _ _); auto. apply IH. lia.
Qed.
Lemma word_iff t s : nonul t -> nonul (s2l s) -> word t s = true <-> same_name t (s2l s).
Proof. intros A B. unfold word. rewrite stricmp_eqb; auto. reflexivity. Qed.
Lemma word_no t s : nonul t -> nonul (s2l s) -> ~ same_name t (s2l s) -> word t s = false.
Proof. intros A B C. destruct (word t s) eqn:E; auto. apply word_iff in E; auto. destruct (C E). Qed.

Lemma nonul_lit s : forallb (fun c => negb (ceq c "000"%char)) (s2l s) = true -> nonul (s2l s).
Proof. intros H. apply nonul_s2l. exact H. Qed.
Lemma no_question t n : n > 2 -> t <> s2l "/?" -> streqb (firstn n t) (s2l "/?") = false.
Proof.
  intros N H. apply streqb_false. intros E. apply H. destruct n as [|[|[|n]]]; try lia.
  destruct t as [|a [|b [|c t]]]; cbn in E |- *; congruence.
Qed.
Lemma switch_no t : not_switch t -> streqb (firstn 10 t) (s2l "/?") = false /\ word (firstn 10 t) "/i" = false /\ word (firstn 10 t) "NOT" = false.
Proof.
  intros (N & Q & I & O). repeat split.
  - apply no_question; [lia|auto].
  - rewrite word_cut by (cbn; lia). apply word_no; auto. apply nonul_lit; reflexivity.
  - rewrite word_cut by (cbn; lia). apply word_no; auto. apply nonul_lit; reflexivity.
Qed.
Lemma is_i t : nonul t -> same_name t (s2l "/i") ->
  streqb (firstn 10 t) (s2l "/?") = false /\ word (firstn 10 t) "/i" = true.
Proof.
  intros N S. split.
  - apply no_question; [lia|]. intros ->. vm_compute in S. discriminate.
  - rewrite word_cut by (cbn; lia). apply word_iff; auto. apply nonul_lit; reflexivity.
Qed.
Lemma is_not t : nonul t -> same_name t (s2l "not") ->
  streqb (firstn 10 t) (s2l "/?") = false /\ word (firstn 10 t) "/i" = false /\ word (firstn 10 t) "NOT" = true.
Proof.
  intros N S. repeat split.
  - apply no_question; [lia|]. intros ->. vm_compute in S. discriminate.
  - rewrite word_cut by (cbn; lia). apply word_no; auto. { apply nonul_lit; reflexivity. }
    intros S2. unfold same_name in *. rewrite S in S2. vm_compute in S2. discriminate.
  - rewrite word_cut by (cbn; lia). apply word_iff; auto. apply nonul_lit; reflexivity.
Qed.

Definition keyb (t : cstr) : bool := word t "EXIST" || word t "DEFINED" || word t "ERRORLEVEL".
Lemma keyb_iff t : nonul t -> keyb (firstn 10 t) = true <-> keyword t.
Proof.
  intros N. assert (M : nonul (firstn 10 t)) by (intros H; apply N; rewrite <- (firstn_skipn 10 t); apply in_or_app; auto).
  unfold keyb, keyword. rewrite !orb_true_iff, !word_iff by (auto; apply nonul_lit; reflexivity). split.
  - intros [[H|H]|H]; [exists (s2l "exist")|exists (s2l "defined")|exists (s2l "errorlevel")]; (split; [cbn; auto|exact H]).
  - intros (k & I & H). destruct I as [<-|[<-|[<-|[]]]]; auto.
Qed.
Section C.
Variable strtod : cstr -> dbl * nat.
Variable exists_file : cstr -> bool.
Variable ka : Z.
Notation exec := (pBat_IfExp_ExecuteTest strtod exists_file ka).

Definition answer (val : list cstr -> bool) (e : bexp) (rest : cstr) (w : xworld) : outcome (ifres * xworld) :=
  if trap val e then Undef else Ret (IfGo (truth val e) rest, w).

Lemma compare_brackets w e s rest i neg val : shaped Conj e -> params w s (words (BPar e)) rest ->
  (forall l, In l (tests e) -> exec w l i = Ret (Some (val l))) ->
  if_compare strtod exists_file ka w s i neg = answer val e rest w.
Proof.
  intros H P V. unfold if_compare. inversion P as [|s0 t0 r l0 e0 Hp Hr]; subst. unfold param in Hp. rewrite Hp. cbn [bind].
  change (is_open (s2l "[")) with true. cbn iota. unfold pBat_IfExp_Compute.
  rewrite (line_ok w e s rest H P). cbn [bind]. destruct (words (BPar e)) eqn:E; [discriminate|]. rewrite <- E. clear E.
  assert (S1 : shaped Conj (BPar e)) by (repeat (constructor; auto)).
  destruct (parse_ok strtod exists_file ka w i val (S (length (words (BPar e)))) (BPar e) S1 ltac:(lia) V) as (x & Px & Ex).
  unfold pBat_IfExp_Parse. rewrite Px. cbn [bind]. rewrite Ex. unfold result, answer. cbn [trap truth].
  destruct (trap val e); reflexivity.
Qed.

Lemma get_cut w line n t rest : param w line t rest -> pBat_GetNextParameter w line (S n) = Ret (firstn n t, Some rest, w).
Proof. intros H. unfold pBat_GetNextParameter. unfold param in H. rewrite H. reflexivity. Qed.

Lemma kind_brackets w p nx i neg : if_kind strtod exists_file ka w p (s2l "[") nx i neg = if_compare strtod exists_file ka w p i neg.
Proof. unfold if_kind. cbn. rewrite andb_false_r. reflexivity. Qed.

Notation cond := (if_cond strtod exists_file ka).
Notation kind := (if_kind strtod exists_file ka).
Lemma cond_kind w p i neg q t nx : switches w p i neg q -> param w q t nx -> not_switch t ->
  cond w (s2l "if" ++ p) = kind w q (firstn 10 t) nx i neg.
Proof.
  intros S P N. destruct (switch_no t N) as (Q & I & O). unfold if_cond. change (skipn 2 (s2l "if" ++ p)) with p.
  destruct S as [p|p u q P1 U S|p u q P1 U S|p u q v r P1 U S P2 V S2].
  - rewrite (get_cut w p 10 t nx P). cbn [bind]. rewrite Q, I. unfold if_not. rewrite O. reflexivity.
  - destruct (is_i u U S) as (X & Y). rewrite (get_cut w p 10 u q P1). cbn [bind]. rewrite X, Y.
    rewrite (get_cut w q 10 t nx P). cbn [bind]. unfold if_not. rewrite O. reflexivity.
  - destruct (is_not u U S) as (X & Y & Z). rewrite (get_cut w p 10 u q P1). cbn [bind]. rewrite X, Y. unfold if_not. rewrite Z.
    rewrite (get_cut w q 10 t nx P). reflexivity.
  - destruct (is_i u U S) as (X & Y). rewrite (get_cut w p 10 u q P1). cbn [bind]. rewrite X, Y.
    destruct (is_not v V S2) as (_ & _ & Z). rewrite (get_cut w q 10 v r P2). cbn [bind]. unfold if_not. rewrite Z.
    rewrite (get_cut w r 10 t nx P). reflexivity.
Qed.

End C.
