(** Script_Proofs.v -- proofs about scripts. *)

From Verif Require Import Base Lex StrLib_Model StrLib_Spec StrLib_Proofs Estr_Spec Estr_Proofs Args_Spec Args_Proofs Block_Model Block_Spec Block_Proofs
  Block_Props Num_Proofs Var_Model Expand_Model Expand_Spec Expand_Proofs Args_Model Stream_Model If_Model Body_Model For_Model Run_Model RunBlock_Spec Run_Proofs RunBlock_Proofs For_Proofs Args_Props Script_Model Script_Spec.
Open Scope nat_scope.

(** ** Loading *)
Lemma rm_cases s : (exists u, s = u ++ [nl] /\ pBat_RmTrailingNl s = u) \/ ((forall u, s <> u ++ [nl]) /\ pBat_RmTrailingNl s = s).
Proof.
  induction s as [|c s IH]; [right; split; auto; intros [|? ?]; discriminate|].
  destruct s as [|d s].
  - cbn. destruct (ceq c nl) eqn:E.
    + apply ceq_true in E. subst. left. exists []. auto.
    + apply ceq_false in E. right. split; auto. intros [|x [|y u]] H; try discriminate. injection H as ->. auto.
  - change (pBat_RmTrailingNl (c :: d :: s)) with (c :: pBat_RmTrailingNl (d :: s)). destruct IH as [(u & E & ->)|[N ->]].
    + left. exists (c :: u). rewrite E. auto.
    + right. split; auto. intros [|x u] H; [discriminate|]. injection H as -> H. apply (N u). auto.
Qed.
Definition trimmed (t n e : cstr) : Prop := t = n ++ e /\ Forall blank e /\ forall u c, n = u ++ [c] -> ~ blank c.
Lemma trimmed_unique t n e n' e' : trimmed t n e -> trimmed t n' e' -> n = n'.
Proof.
  intros (E & B & N) (E' & B' & N'). subst t. revert n' e' E' B' N'. induction n as [|c n IH]; intros n' e' E' B' N'.
  - destruct n' as [|x n' _] using rev_ind; auto. exfalso. apply (N' n' x eq_refl). cbn [app] in E'. rewrite E', <- app_assoc in B. apply Forall_app in B. destruct B as [_ B]. inversion B; auto.
  - destruct n' as [|c' n'].
    + exfalso. destruct (@exists_last _ (c :: n) ltac:(discriminate)) as (u & x & X). apply (N u x X). cbn [app] in E'. rewrite <- E' in B'. change (c :: n ++ e) with ((c :: n) ++ e) in B'. rewrite X, <- app_assoc in B'. apply Forall_app in B'. destruct B' as [_ B']. inversion B'; auto.
    + injection E' as -> E'. f_equal. eapply IH; eauto.
      * intros u x ->. apply (N (c' :: u) x). reflexivity.
      * intros u x ->. apply (N' (c' :: u) x). reflexivity.
Qed.
Lemma strip_trimmed t n e : trimmed t n e -> pBat_StripEndDelims t = n.
Proof.
  intros T. destruct (StripEndDelims_spec t) as (x & E & B & N). eapply trimmed_unique; [|exact T]. split; [exact E|]. split.
  - eapply Forall_impl; [|exact B]. intros c. apply delim_blank.
  - intros u c H I. apply N in H. apply delim_blank in I. congruence.
Qed.
Lemma blank_nl : blank nl.
Proof. cbv. tauto. Qed.
Lemma label_trim n e : Forall blank e -> (forall u c, n = u ++ [c] -> ~ blank c) -> n <> [] -> pBat_StripEndDelims (pBat_RmTrailingNl (n ++ e)) = n.
Proof.
  intros B N Ne. destruct (rm_cases (n ++ e)) as [(u & E & ->)|[_ ->]]; [|eapply strip_trimmed; split; eauto].
  destruct e as [|x e _] using rev_ind.
  - rewrite app_nil_r in E. exfalso. apply (N u nl E). apply blank_nl.
  - rewrite app_assoc in E. apply app_inj_tail in E. destruct E as [E _]. subst u. apply Forall_app in B. destruct B as [B _]. eapply strip_trimmed. split; eauto.
Qed.
Lemma strchr_in t c : match strchr t c with Some _ => In c t | None => ~ In c t end.
Proof.
  unfold strchr. induction t as [|x t IH]; simpl; [auto|]. destruct (ceq x c) eqn:E; [apply ceq_true in E; auto|]. apply ceq_false in E.
  destruct (find_idx _ t); simpl; auto. intros [H|H]; auto.
Qed.
Lemma colon_not_blank : ~ blank ":"%char.
Proof. cbv. intuition discriminate. Qed.
Lemma hash_not_blank : ~ blank "#"%char.
Proof. cbv. intuition discriminate. Qed.

Definition add (s : script) (e : option entry) : script :=
  match e with
  | None => s
  | Some (Cmd t) => mkScript (s_cmds s ++ [t]) (s_lbls s)
  | Some (Label t) => mkScript (s_cmds s) (s_lbls s ++ [(t, length (s_cmds s))])
  end.
Lemma load_line_ok nb l e s : is_line (nb =? 0) l e -> load_line nb l s = add s e.
Proof.
  intros H. unfold load_line. destruct H as [l B|b r B F|b r B|b n e B Be N1 N2|b t B (c & r & -> & Nb) N1 N2 I|b t B (c & r & -> & Nb) N1 N2 I].
  - assert (X : pBat_SkipBlanks l = []) by (rewrite <- (app_nil_r l); apply skip_blanks; auto; discriminate). rewrite X. rewrite Bool.andb_false_r. reflexivity.
  - rewrite skip_blanks by (auto; intros c x [= <- _]; apply hash_not_blank). rewrite F. reflexivity.
  - rewrite skip_blanks by (auto; intros c x [= <- _]; apply colon_not_blank). cbn [prefixb s2l String.list_ascii_of_string]. rewrite Bool.andb_false_r. reflexivity.
  - rewrite skip_blanks by (auto; intros c x [= <- _]; apply colon_not_blank). 
    replace (prefixb (s2l "#!") (":"%char :: n ++ e)) with false by reflexivity. rewrite Bool.andb_false_r, ceq_refl.
    assert (X : match n ++ e with d :: _ => ceq d ":"%char | [] => false end = false).
    { destruct n as [|d n]; cbn [app].
      - destruct e as [|d e]; auto. apply ceq_false. intros ->. inversion Be; subst. apply colon_not_blank. auto.
      - apply ceq_false. intros ->. apply (N1 n). reflexivity. }
    rewrite X. cbn [add]. change (":"%char :: n ++ e) with ((":"%char :: n) ++ e). rewrite label_trim; auto; [|discriminate].
    intros u c E. destruct u as [|x u]; [injection E as <- _; apply colon_not_blank|]. injection E as _ E. eapply N2; eauto.
  - rewrite skip_blanks by (auto; intros d x [= <- _]; auto).
    assert (X : (nb =? 0) && prefixb (s2l "#!") (c :: r) = false).
    { destruct (nb =? 0); auto. cbn [andb]. destruct (prefixb _ _) eqn:E; auto. exfalso. cbn [prefixb s2l String.list_ascii_of_string] in E.
      apply andb_prop in E. destruct E as [E1 E2]. destruct r as [|d r]; [discriminate|]. apply andb_prop in E2. destruct E2 as [E2 _]. apply ceq_true in E1, E2. subst. eapply N2; eauto. }
    rewrite X. assert (Y : ceq c ":"%char = false) by (apply ceq_false; intros ->; eapply N1; eauto). rewrite Y.
    pose proof (strchr_in (c :: r) nl) as Z. destruct (strchr (c :: r) nl); [reflexivity|contradiction].
  - rewrite skip_blanks by (auto; intros d x [= <- _]; auto).
    assert (X : (nb =? 0) && prefixb (s2l "#!") (c :: r) = false).
    { destruct (nb =? 0); auto. cbn [andb]. destruct (prefixb _ _) eqn:E; auto. exfalso. cbn [prefixb s2l String.list_ascii_of_string] in E.
      apply andb_prop in E. destruct E as [E1 E2]. destruct r as [|d r]; [discriminate|]. apply andb_prop in E2. destruct E2 as [E2 _]. apply ceq_true in E1, E2. subst. eapply N2; eauto. }
    rewrite X. assert (Y : ceq c ":"%char = false) by (apply ceq_false; intros ->; eapply N1; eauto). rewrite Y.
    pose proof (strchr_in (c :: r) nl) as Z. destruct (strchr (c :: r) nl); [contradiction|reflexivity].
Qed.
Definition adds (s : script) (es : list entry) : script := fold_left (fun s e => add s (Some e)) es s.
Lemma load_lines_ok first ls es : is_script first ls es -> forall nb s, first = (nb =? 0) -> load_lines nb ls s = adds s es.
Proof.
  induction 1 as [first|first l ls es L H IH|first l e ls es L H IH]; intros nb s F; cbn [load_lines]; subst; auto;
    rewrite (load_line_ok _ _ _ _ L); apply IH; reflexivity.
Qed.
Lemma adds_cmds es : forall s, s_cmds (adds s es) = s_cmds s ++ commands es.
Proof.
  induction es as [|[t|t] es IH]; intros s; cbn [adds commands fold_left flat_map]; [rewrite app_nil_r; auto| |];
    unfold adds in IH; rewrite IH; cbn [add s_cmds]; [rewrite <- app_assoc|]; reflexivity.
Qed.
Lemma adds_lbls es : forall s l, labels (s_cmds s) es l -> s_lbls (adds s es) = s_lbls s ++ map (fun x => (fst x, length (snd x))) l.
Proof.
  induction es as [|[t|t] es IH]; intros s l H; inversion H; subst; cbn [adds fold_left].
  - rewrite app_nil_r. auto.
  - unfold adds in IH. rewrite (IH _ l); auto.
  - unfold adds in IH. rewrite (IH _ l0); auto. cbn [add s_lbls map fst snd]. rewrite <- app_assoc. reflexivity.
Qed.
Lemma labels_ex es : forall before, exists l, labels before es l.
Proof.
  induction es as [|[t|t] es IH]; intros before; [exists []; constructor| |].
  - destruct (IH (before ++ [t])) as (l & L). exists l. constructor; auto.
  - destruct (IH before) as (l & L). eexists. constructor; eauto.
Qed.
(** Each line is of one kind. *)
Lemma is_line_total first l : exists e, is_line first l e.
Proof.
  assert (X : exists b t, l = b ++ t /\ Forall blank b /\ (t = [] \/ not_blank t)).
  { induction l as [|c l (b & t & E & B & T)]; [exists [], []; auto|]. destruct (in_dec Ascii.ascii_dec c blanks) as [Y|Y].
    - exists (c :: b), t. subst. auto.
    - exists [], (c :: l). split; auto. split; auto. right. exists c, l. auto. }
  destruct X as (b & t & -> & B & [->|T]); [rewrite app_nil_r; eexists; apply il_blank; auto|].
  assert (Sh : (first = true /\ exists r, t = "#"%char :: "!"%char :: r) \/ (first = true -> forall r, t <> "#"%char :: "!"%char :: r)).
  { destruct first; [|right; discriminate]. destruct t as [|x [|y t]]; try (right; intros _ r; discriminate).
    destruct (Ascii.ascii_dec x "#"%char) as [->|N]; [destruct (Ascii.ascii_dec y "!"%char) as [->|N]; [left; split; eauto|]|]; right; intros _ r; congruence. }
  destruct Sh as [[-> (r & ->)]|Sh]; [eexists; apply il_shebang; auto|].
  destruct T as (c & r & -> & Nb). destruct (Ascii.ascii_dec c ":"%char) as [->|Nc].
  - destruct r as [|d r].
    + eexists. apply (il_label first b [] []); auto; [discriminate|]. intros [|? ?]; discriminate.
    + destruct (Ascii.ascii_dec d ":"%char) as [->|Nd]; [eexists; apply il_comment; auto|].
      destruct (StripEndDelims_spec (d :: r)) as (x & E & Bx & Nx). rewrite E. eexists. apply il_label; auto.
      * eapply Forall_impl; [|exact Bx]. intros q. apply delim_blank.
      * intros q Q. rewrite Q in E. injection E as -> _. auto.
      * intros u q Q I. apply Nx in Q. apply delim_blank in I. congruence.
  - assert (N1 : forall q, c :: r <> ":"%char :: q) by congruence. assert (T : not_blank (c :: r)) by (exists c, r; auto).
    destruct (in_dec Ascii.ascii_dec "010"%char (c :: r)); eexists; [apply il_cmd|apply il_last]; auto.
Qed.
Lemma is_script_total ls : forall first, exists es, is_script first ls es.
Proof.
  induction ls as [|l ls IH]; intros first; [exists []; constructor|]. destruct (IH false) as (es & H). destruct (is_line_total first l) as ([e|] & L).
  - exists (e :: es). apply is_cons; auto.
  - exists es. apply is_skip; auto.
Qed.

(** ** Labels *)
Lemma label_for_ok n t : nonul n -> (strnicmp t n (length n) =? 0)%Z && match nth_error t (length n) with Some c => pBat_IsDelim c | None => true end = true <-> label_for n t.
Proof.
  intros N. rewrite Bool.andb_true_iff, Z.eqb_eq, (strnicmp_kw n N t). split.
  - intros [(k & r & -> & S) D]. exists k, r. split; auto. split; auto.
    assert (L : length k = length n) by (apply (f_equal (@length _)) in S; rewrite !map_length in S; auto).
    rewrite <- L, nth_error_app2, Nat.sub_diag in D by auto. destruct r as [|c x]; auto. right. exists c, x. split; auto. apply delim_blank. auto.
  - intros (k & r & -> & S & R). split; [eauto|].
    assert (L : length k = length n) by (apply (f_equal (@length _)) in S; rewrite !map_length in S; auto).
    rewrite <- L, nth_error_app2, Nat.sub_diag by auto. destruct R as [->|(c & x & -> & B)]; auto. apply delim_blank. auto.
Qed.
Lemma find_after n es : nonul n -> forall before l, labels before es l ->
  match find_label n (map (fun x => (fst x, length (snd x))) l) with
  | Some k => after_label n es (skipn k (before ++ commands es))
  | None => forall rest, ~ after_label n es rest
  end.
Proof.
  intros N. induction es as [|[t|t] es IH]; intros before l H; inversion H; subst; cbn [map find_label].
  - intros rest A. inversion A.
  - match goal with H : labels _ es l |- _ => pose proof (IH _ _ H) as X end. destruct (find_label n _).
    + rewrite <- app_assoc in X. apply al_cmd. exact X.
    + intros rest A. inversion A; subst. eapply X; eauto.
  - match goal with H : labels _ es ?l0 |- _ => pose proof (IH _ _ H) as X end.
    cbn [fst snd]. pose proof (label_for_ok n t N) as L. destruct (_ && _).
    + cbn [commands flat_map app]. rewrite Estr_Proofs.skipn_app_len by auto. apply al_here. apply L. auto.
    + assert (NL : ~ label_for n t) by (intros Y; apply L in Y; discriminate). destruct (find_label n _).
      * apply al_other; auto.
      * intros rest A. inversion A; subst; auto. eapply X; eauto.
Qed.
Lemma after_unique n es l : after_label n es l -> forall l', after_label n es l' -> l = l'.
Proof. induction 1; intros l' A; inversion A; subst; auto; contradiction. Qed.

(** ** Complete texts *)
Lemma hybrid_more s quot unq n r : stopset unq -> pBat_SearchToken_Hybrid s quot unq = Some n -> pBat_SearchToken_Hybrid (s ++ r) quot unq = Some n.
Proof.
  intros ST H. destruct (hybrid_room s quot unq n ST H) as (c & t & K & _). destruct ST as [S1 S2].
  assert (L : n < length s). { destruct (Nat.lt_ge_cases n (length s)) as [?|G]; auto. rewrite skipn_all2 in K by auto. discriminate. }
  pose proof (Hybrid_spec s quot unq S1 S2) as P. rewrite H in P. pose proof (Hybrid_spec (s ++ r) quot unq S1 S2) as Q.
  eapply first_pos_unique; [exact Q|]. destruct P as [P1 P2].
  assert (X : forall j p, j < length s -> (live p (s ++ r) j <-> live p s j)) by (intros; apply live_app1; auto).
  split.
  - destruct P1 as [P1|[P1 E]]; [left|right]; [|split]; try (apply X; auto; fail). rewrite quotes_app_le by lia. auto.
  - intros j J [A|[A E]]; apply (P2 j J); [left|right; split]; try (apply X; auto; lia). rewrite quotes_app_le in E by lia. auto.
Qed.
Lemma skip_at_more p r : skip_at p <> [] -> skip_at (p ++ r) = skip_at p ++ r.
Proof. induction p as [|c p IH]; [intros H; destruct H; auto|]. cbn [skip_at app]. destruct (_ && _); auto. Qed.
Lemma same_name_len a b : same_name a b -> length a = length b.
Proof. intros H. apply (f_equal (@length _)) in H. rewrite !map_length in H. auto. Qed.
Lemma letters n c : same_name n (s2l "if") \/ same_name n (s2l "for") \/ same_name n (s2l "def") -> In c n -> ~ In c (nl :: s2l "()&|").
Proof.
  intros H I J. assert (K : In (tolower c) (map tolower n)) by (apply in_map; auto).
  destruct H as [H|[H|H]]; rewrite H in K; cbv in J; cbv in K; intuition (subst; discriminate).
Qed.
Lemma block_cmd_more s r c : In c s -> In c (nl :: s2l "()&|") -> block_cmd (s ++ r) = block_cmd s.
Proof.
  intros I C. destruct (block_cmd s) eqn:B.
  - apply block_cmd_iff. apply takes_app. apply block_cmd_iff. auto.
  - destruct (block_cmd (s ++ r)) eqn:E; auto. exfalso. apply block_cmd_iff in E. destruct E as (n & d & x & E & D & K).
    assert (X : exists y, n = s ++ y \/ s = n ++ d :: y).
    { clear - E. revert s E. induction n as [|a n IH]; intros s E.
      - destruct s as [|z s]; [exists []; left; auto|]. cbn [app] in E. injection E as -> E. exists s. right. reflexivity.
      - destruct s as [|z s]; [exists (a :: n); left; auto|]. cbn [app] in E. injection E as -> E. destruct (IH _ E) as (y & [->| ->]); exists y; auto. }
    destruct X as (y & [->| ->]).
    + apply (letters _ c K); auto. apply in_app_iff. auto.
    + assert (T : takes_blocks (n ++ d :: y)) by (exists n, d, y; auto). apply block_cmd_iff in T. congruence.
Qed.
Lemma skipn_in {A} n (s : list A) c t : skipn n s = c :: t -> In c s.
Proof. intros H. rewrite <- (firstn_skipn n s), H. apply in_app_iff. right. left. auto. Qed.
Lemma skipn_more {A} n (s r : list A) c t : skipn n s = c :: t -> skipn n (s ++ r) = c :: t ++ r.
Proof. intros H. rewrite skipn_app, H. replace (n - length s) with 0; auto. destruct (Nat.lt_ge_cases n (length s)); [lia|]. rewrite skipn_all2 in H by auto. discriminate. Qed.
Lemma scan_block_head f s q : scan f MBlock s = Ret (Some q) -> exists y, q = ")"%char :: y.
Proof.
  revert s. induction f as [|f IH]; intros s H; [discriminate|]. cbn [scan] in H. destruct (scan f (MLine true) s) as [r| |]; try discriminate. cbn [bind] in H.
  destruct r as [[|c p]|]; try discriminate. destruct (ceq c ")"%char) eqn:C.
  - rewrite C in H. injection H as <-. apply ceq_true in C. subst. eauto.
  - destruct p as [|d p]; [discriminate|]. destruct (ceq d ")"%char) eqn:D; [|eauto]. injection H as <-. apply ceq_true in D. subst. eauto.
Qed.
Lemma scan_more f : forall m p c q r, scan f m p = Ret (Some (c :: q)) -> scan f m (p ++ r) = Ret (Some (c :: q ++ r)).
Proof.
  induction f as [|f IH]; intros m p c q r H; [discriminate|]. cbn [scan] in H |- *. destruct m as [|par|par].
  - destruct (scan f (MLine true) p) as [[[|d t]|]| |] eqn:E; try discriminate. rewrite (IH _ _ _ _ r E). cbn [bind] in H |- *.
    destruct (ceq d ")"%char) eqn:D.
    + rewrite D in *. injection H as -> ->. reflexivity.
    + destruct t as [|x t]; [discriminate|]. cbn [app]. destruct (ceq x ")"%char); [injection H as -> ->; reflexivity|]. apply (IH MBlock (x :: t)). auto.
  - cbv zeta in *. destruct (skip_at p) as [|d t] eqn:K; [discriminate|]. rewrite skip_at_more, K by congruence. cbn [app].
    destruct (ceq d "("%char) eqn:D.
    + destruct (scan f MBlock t) as [[x|]| |] eqn:E; try discriminate. destruct (scan_block_head _ _ _ E) as (y & ->). rewrite (IH _ _ _ _ r E).
      cbn [bind skipn] in H |- *. injection H as ->. reflexivity.
    + change (d :: t ++ r) with ((d :: t) ++ r). destruct (block_cmd (d :: t)) eqn:B.
      * assert (X : block_cmd ((d :: t) ++ r) = true) by (apply block_cmd_iff, takes_app, block_cmd_iff; auto). rewrite X. apply IH. auto.
      * destruct (pBat_SearchToken_Hybrid (d :: t) [nl] _) as [n|] eqn:Hn; [|discriminate].
        destruct (hybrid_room _ _ _ n (proj1 (stops_ok par)) Hn) as (x & y & S1 & S2).
        rewrite (block_cmd_more _ r x (skipn_in _ _ _ _ S1)), B.
        2: { destruct S2 as [S2|S2]; [left; destruct S2 as [S2|[]]; auto|]. right. destruct par; cbv in S2 |- *; tauto. }
        rewrite (hybrid_more _ _ _ _ r (proj1 (stops_ok par)) Hn). rewrite S1 in H. injection H as -> ->. rewrite (skipn_more _ _ _ _ _ S1). reflexivity.
  - destruct (pBat_SearchToken_Hybrid p [nl] _) as [n|] eqn:Hn; [|discriminate].
    destruct (hybrid_room _ _ _ n (proj2 (stops_ok par)) Hn) as (x & y & S1 & S2). rewrite (hybrid_more _ _ _ _ r (proj2 (stops_ok par)) Hn).
    rewrite (skipn_more _ _ _ _ _ S1). rewrite S1 in H. destruct (ceq x "("%char).
    + destruct (scan f MBlock y) as [[z|]| |] eqn:E; try discriminate. destruct (scan_block_head _ _ _ E) as (u & ->). rewrite (IH _ _ _ _ r E).
      cbn [bind skipn] in H |- *. destruct u as [|v u]; [discriminate|]. cbn [app]. apply (IH (MText par) (v :: u)). auto.
    + injection H as -> ->. reflexivity.
Qed.
Lemma scan_fuel_more f : forall m s x, scan f m s = Ret x -> forall g, f <= g -> scan g m s = Ret x.
Proof.
  induction f as [|f IH]; intros m s x H g G; [discriminate|]. destruct g as [|g]; [lia|]. assert (G' : f <= g) by lia. cbn [scan] in H |- *. destruct m as [|par|par].
  - destruct (scan f (MLine true) s) as [y| |] eqn:E; try discriminate. rewrite (IH _ _ _ E _ G'). cbn [bind] in *.
    destruct y as [[|c p]|]; auto. destruct (if ceq c ")"%char then c :: p else p) as [|d q]; auto. destruct (ceq d ")"%char); eauto.
  - cbv zeta in *. destruct (skip_at s) as [|c t]; auto. destruct (ceq c "("%char).
    + destruct (scan f MBlock t) as [y| |] eqn:E; try discriminate. rewrite (IH _ _ _ E _ G'). auto.
    + destruct (block_cmd _); eauto.
  - destruct (pBat_SearchToken_Hybrid s [nl] _) as [n|]; auto. destruct (skipn n s) as [|c t]; auto. destruct (ceq c "("%char); auto.
    destruct (scan f MBlock t) as [y| |] eqn:E; try discriminate. rewrite (IH _ _ _ E _ G'). cbn [bind] in *. destruct y as [p|]; auto.
    destruct (skipn 1 p) as [|v u]; eauto.
Qed.
Lemma line_end_more p c q r par : pBat_GetBlockLineEndEx p par = Ret (Some (c :: q)) -> pBat_GetBlockLineEndEx (p ++ r) par = Ret (Some (c :: q ++ r)).
Proof.
  unfold pBat_GetBlockLineEndEx. intros H. apply (scan_more _ _ _ _ _ r) in H. eapply scan_fuel_more; [exact H|]. unfold scan_fuel. rewrite app_length. lia.
Qed.

Lemma skip_op_more p r : skip_op p <> [] -> skip_op (p ++ r) = skip_op p ++ r.
Proof. destruct p as [|c p]; [intros H; destruct H; auto|]. cbn [skip_op app]. destruct (_ || _); auto. Qed.
Lemma check_more f : forall p r, check_loop f p = Ret (Some true) -> check_loop f (p ++ r) = Ret (Some true).
Proof.
  induction f as [|f IH]; intros p r H; [discriminate|]. cbn [check_loop] in H |- *.
  assert (N : skip_op p <> []) by (intros N; rewrite N in H; discriminate). rewrite skip_op_more by auto.
  destruct (pBat_GetBlockLineEndEx (skip_op p) false) as [[[|c e]|]| |] eqn:E; try discriminate. rewrite (line_end_more _ _ _ r _ E). cbn [bind] in H |- *.
  destruct (ceq c nl); auto. apply (IH (c :: e) r). auto.
Qed.
Lemma check_fuel f : forall s x, check_loop f s = Ret x -> forall g, f <= g -> check_loop g s = Ret x.
Proof.
  induction f as [|f IH]; intros s x H g G; [discriminate|]. destruct g as [|g]; [lia|]. cbn [check_loop] in H |- *.
  destruct (pBat_GetBlockLineEndEx (skip_op s) false) as [[[|c e]|]| |]; try discriminate; auto. cbn [bind] in H |- *. destruct (ceq c nl); auto. eapply IH; eauto. lia.
Qed.
Lemma check_blocks_more p r : pBat_CheckBlocks p = Ret (Some true) -> pBat_CheckBlocks (p ++ r) = Ret (Some true).
Proof. unfold pBat_CheckBlocks. intros H. apply (check_more _ _ r) in H. eapply check_fuel; [exact H|]. rewrite app_length. lia. Qed.

(** The end of the loop *)
Lemma line_end_less s e : pBat_GetBlockLineEndEx s false = Ret (Some e) -> length e < length s \/ e = [] \/ exists c r, e = c :: r /\ In c (nl :: s2l "&|").
Proof.
  unfold pBat_GetBlockLineEndEx. remember (scan_fuel s) as f. clear Heqf.
  assert (T : forall f par s e, scan f (MText par) s = Ret (Some e) -> e = [] \/ exists c r, e = c :: r /\ In c (nl :: s2l (if par then "()&|" else "(&|")) /\ c <> "("%char).
  { clear. induction f as [|f IH]; intros par s e H; [discriminate|]. cbn [scan] in H. destruct (pBat_SearchToken_Hybrid s [nl] _) as [n|] eqn:Hn; [|injection H as <-; auto].
    destruct (hybrid_room _ _ _ n (proj2 (stops_ok par)) Hn) as (x & y & S1 & S2). rewrite S1 in H. destruct (ceq x "("%char) eqn:X.
    - destruct (scan f MBlock y) as [[z|]| |]; try discriminate. cbn [bind] in H. destruct (skipn 1 z); [injection H as <-; auto|]. eapply IH; eauto.
    - injection H as <-. apply ceq_false in X. right. exists x, y. split; auto. split; auto. destruct S2 as [[<-|[]]|S2]; [left; auto|right; auto]. }
  destruct f as [|f]; intros H; [discriminate|]. cbn [scan] in H. cbv zeta in H. pose proof (suffix_len _ _ (skip_at_suffix s)) as L.
  destruct (skip_at s) as [|c t] eqn:K; [injection H as <-; auto|]. destruct (ceq c "("%char).
  - destruct (scan f MBlock t) as [[z|]| |] eqn:E; try discriminate. cbn [bind] in H. injection H as <-. left.
    assert (Z : suffix z t).
    { destruct (scan_total (f + room MBlock t) MBlock t) as (r & R & A); [lia|]. rewrite (scan_fuel_more _ _ _ _ E) in R by lia. injection R as <-. apply A. }
    apply suffix_len in Z. destruct z; simpl in *; lia.
  - destruct (block_cmd _).
    + destruct (T _ _ _ _ H) as [->|(d & r & -> & I & N)]; auto. right. right. exists d, r. split; auto. cbv in I, N |- *. intuition.
    + injection H as <-. destruct (pBat_SearchToken_Hybrid (c :: t) [nl] _) as [n|] eqn:Hn; auto.
      destruct (hybrid_room _ _ _ n (proj1 (stops_ok false)) Hn) as (x & y & S1 & S2). rewrite S1. right. right. exists x, y. split; auto.
      destruct S2 as [[<-|[]]|S2]; [left; auto|right; auto].
Qed.
Lemma skip_op_len s : length (skip_op s) <= length s.
Proof. destruct s as [|c s]; auto. cbn [skip_op]. destruct (_ || _); simpl; lia. Qed.
Lemma check_total f : forall s, length s < f -> exists x, check_loop f s = Ret x.
Proof.
  induction f as [|f IH]; intros s L; [lia|]. cbn [check_loop].
  destruct (scan_total (scan_fuel (skip_op s)) (MLine false) (skip_op s)) as (r & R & X); [unfold room, scan_fuel; lia|].
  unfold pBat_GetBlockLineEndEx. rewrite R. cbn [bind]. destruct r as [[|c e]|]; eauto. destruct (ceq c nl) eqn:N; eauto. apply IH.
  apply (line_end_less (skip_op s)) in R. destruct X as [X _]. pose proof (suffix_len _ _ X) as XL. pose proof (skip_op_len s) as K.
  destruct R as [R|[R|(d & r & [= <- <-] & I)]]; [lia|discriminate|].
  destruct s as [|d s]; [simpl in XL; lia|]. cbn [skip_op] in *. destruct (ceq d "&"%char || ceq d "|"%char) eqn:D; [simpl in *; lia|].
  destruct X as ([|a y] & X).
  - injection X as -> ->. apply ceq_false in N. apply Bool.orb_false_iff in D. rewrite !ceq_false in D. cbv in I, N, D. intuition congruence.
  - rewrite X in L. cbn [app length] in L. rewrite app_length in L. lia.
Qed.
Lemma check_ret s : exists x, pBat_CheckBlocks s = Ret x.
Proof. apply check_total. auto. Qed.

(** Commands and the end of a line are complete, and not before. *)
Lemma line_not_op p l : line p l -> forall rest, l <> [] -> skip_op (l ++ rest) = l ++ rest.
Proof.
  intros H rest N. destruct l as [|c l]; [contradiction|]. cbn [skip_op app].
  assert (X : ~ In c (s2l "&|")); [|destruct (ceq c "&"%char) eqn:A; [apply ceq_true in A; subst; destruct X; cbv; auto|]; destruct (ceq c "|"%char) eqn:B; auto; apply ceq_true in B; subst; destruct X; cbv; auto].
  intros I. assert (Lc : ~ In c (s2l " ,;@" ++ ["009"%char])) by (intros J; cbv in I, J; intuition congruence).
  remember (c :: l) as z eqn:E. destruct H as [par b t B T Q|par b i B J|par b t B HD T X].
  - destruct b as [|d b]; cbn [app] in E; [|injection E as E1 E; pose proof (Forall_inv B) as Y; rewrite E1 in Y; destruct (Lc Y)]. subst t. destruct Q as (_ & _ & _ & Q). apply (Q 0).
    split; [apply live_iff; split; [reflexivity|exists c; split; auto; apply inset_In; clear - I; destruct par; cbv in I; cbv; intuition auto]|exists 0; reflexivity].
  - destruct b as [|d b]; cbn [app] in E; [injection E as <- E; cbv in I; intuition discriminate|injection E as E1 E; pose proof (Forall_inv B) as Y; rewrite E1 in Y; destruct (Lc Y)].
  - destruct b as [|d b]; cbn [app] in E; [|injection E as E1 E; pose proof (Forall_inv B) as Y; rewrite E1 in Y; destruct (Lc Y)]. subst t. destruct T as (n & d & x & E & _ & K).
    destruct n as [|y n]; [destruct K as [K|[K|K]]; discriminate K|]. injection E as -> E.
    apply (letters _ y K); [left; auto|]. right. cbv in I |- *. tauto.
Qed.
Definition status (rest : cstr) : option bool := match rest with [] => None | _ => Some true end.
Lemma skip_one c y : In c (s2l "&|") -> skip_op (c :: y) = y.
Proof. intros [<-|[<-|[]]]; reflexivity. Qed.
Lemma check_ops op x f v : Forall (fun c => In c (s2l "&|")) op -> length op = 1 \/ length op = 2 -> skip_op x = x -> check_loop (S f) x = Ret v ->
  forall g, f + length op <= g -> check_loop g (op ++ x) = Ret v.
Proof.
  intros O L K H g G. assert (A : forall c, In c (s2l "&|") -> check_loop (S f) (c :: x) = Ret v).
  { intros c C. rewrite <- H. cbn [check_loop]. rewrite skip_one, K by auto. reflexivity. }
  destruct op as [|c [|d [|? op]]]; simpl in L; try lia; inversion O as [|? ? C O']; subst; cbn [app].
  - eapply check_fuel; [apply A; auto|]. simpl in G. lia.
  - inversion O' as [|? ? D]; subst. apply (check_fuel (S (S f))); [|simpl in G; lia]. cbn [check_loop]. rewrite skip_one by auto.
    pose proof (C53_line false [] (d :: x) line_nil) as P. cbn [app] in P. rewrite P by (right; exists d, x; split; auto; cbv in D |- *; tauto). cbn [bind].
    replace (ceq d nl) with false by (symmetry; apply ceq_false; intros ->; cbv in D; intuition discriminate). apply (A d D).
Qed.
Lemma check_bline l : bline l -> forall rest f, eol rest -> length l < f -> check_loop f (l ++ rest) = Ret (status rest).
Proof.
  intros H rest f E. remember (length l) as n eqn:N. revert l H f N. induction n as [n IH] using lt_wf_ind. intros l H f N F. subst n.
  assert (End : forall f x, check_loop (S f) x = (do e <- pBat_GetBlockLineEndEx (skip_op x) false; match e with None => Ret (Some false) | Some [] => Ret None | Some ((c :: _) as e) => if ceq c nl then Ret (Some true) else check_loop f e end)) by reflexivity.
  assert (ER : forall g, check_loop (S g) rest = Ret (status rest)).
  { intros g. rewrite End, skip_op_eol by auto. pose proof (C53_line false [] rest line_nil) as P. cbn [app] in P.
    destruct E as [->|(r & ->)]; rewrite P by (solve [left; auto|right; exists nl, r; split; auto; cbv; tauto]); reflexivity. }
  destruct H as [l H|l op r H O LO R|b i r B I St W H].
  - destruct l as [|c l]; [simpl; destruct f as [|f]; [lia|apply ER]|]. destruct f as [|f]; [lia|]. rewrite End, (line_not_op false) by (auto; discriminate).
    rewrite C53_line; auto; [|destruct E as [->|(r & ->)]; [left; auto|right; exists nl, r; split; auto; cbv; tauto]].
    cbn [bind]. destruct E as [->|(r & ->)]; reflexivity.
  - rewrite !app_length in F. assert (OP : forall g, length op + length r <= g -> check_loop g (op ++ r ++ rest) = Ret (status rest)).
    { intros g G. destruct R as [->|(St & W & R)].
      - apply check_ops with (f := 0); auto; [apply skip_op_eol; auto|]. simpl in G. lia.
      - apply check_ops with (f := length r); auto; [apply skip_op_start; auto| |lia].
        apply (IH (length r)) with (l := r); auto. rewrite !app_length. destruct op; simpl in *; lia. }
    rewrite <- !app_assoc. destruct l as [|c l]; [apply OP; simpl in F; lia|]. destruct f as [|f]; [lia|]. rewrite End, (line_not_op false) by (auto; discriminate).
    rewrite C53_line; auto.
    2: { right. destruct op as [|d op]; [simpl in LO; lia|]. inversion O as [|? ? C]; subst. exists d, (op ++ r ++ rest). split; auto. cbv in C |- *. tauto. }
    cbn [bind]. specialize (OP f). simpl length in F. destruct op as [|d op]; [simpl in LO; lia|]. inversion O as [|? ? C]; subst. cbn [app] in OP |- *.
    replace (ceq d nl) with false by (symmetry; apply ceq_false; intros ->; cbv in C; intuition discriminate). apply OP. lia.
  - rewrite app_length in F. simpl length in F. rewrite app_length in F. simpl length in F. destruct f as [|f]; [lia|]. rewrite End.
    replace ((b ++ "("%char :: i ++ ")"%char :: r) ++ rest) with (b ++ "("%char :: i ++ ")"%char :: r ++ rest)
      by (rewrite <- !app_assoc; simpl; rewrite <- !app_assoc; reflexivity).
    assert (SB : skip_op (b ++ "("%char :: i ++ ")"%char :: r ++ rest) = b ++ "("%char :: i ++ ")"%char :: r ++ rest).
    { destruct b as [|c b]; [reflexivity|]. inversion B as [|? ? C]; subst. cbn [app skip_op]. destruct (ceq c "&"%char) eqn:X; [apply ceq_true in X; subst; cbv in C; intuition discriminate|].
      destruct (ceq c "|"%char) eqn:Y; auto. apply ceq_true in Y. subst. cbv in C. intuition discriminate. }
    rewrite SB. unfold pBat_GetBlockLineEndEx. rewrite okL_block; auto; [|apply (proj1 blocks_ok i I)|].
    2: { unfold scan_fuel. rewrite !app_length. simpl. rewrite app_length. lia. }
    cbn [bind]. pose proof St as (c & x & -> & K). cbn [app].
    replace (ceq c nl) with false by (symmetry; apply ceq_false; intros ->; apply K; cbv; tauto).
    apply (IH (length (c :: x))) with (l := c :: x); auto; try (rewrite !app_length; simpl; rewrite app_length; simpl; lia). simpl in *; lia.
Qed.
Lemma check_complete l rest : bline l -> pBat_CheckBlocks (l ++ nl :: rest) = Ret (Some true).
Proof. intros H. unfold pBat_CheckBlocks. rewrite check_bline; auto; [right; eauto|rewrite app_length; lia]. Qed.
Lemma check_prefix l p q : bline l -> l ++ [nl] = p ++ q -> q <> [] -> pBat_CheckBlocks p <> Ret (Some true).
Proof.
  intros H E N C. destruct q as [|c q _] using rev_ind; [contradiction|]. rewrite app_assoc in E. apply app_inj_tail in E. destruct E as [-> _].
  apply (check_blocks_more _ q) in C. pose proof (check_bline _ H [] (S (length (p ++ q))) (or_introl eq_refl) (Nat.lt_succ_diag_r _)) as X.
  rewrite app_nil_r in X. unfold pBat_CheckBlocks in C. rewrite X in C. discriminate.
Qed.

(** ** Reading *)
Lemma rm_nl l : pBat_RmTrailingNl (l ++ [nl]) = l.
Proof. destruct (rm_cases (l ++ [nl])) as [(u & E & ->)|[N _]]; [|destruct (N l eq_refl)]. apply app_inj_tail in E. destruct E as [-> _]. auto. Qed.
Lemma replaced_nil w g w' t : replaced w g t w' -> t = [] -> g = [].
Proof. intros [|]; auto. intros E. apply app_eq_nil in E. tauto. Qed.
Lemma replaced_none w t w' : replaced w [] t w' -> t = [].
Proof. intros H. inversion H. auto. Qed.
Lemma join_ok w g u w' : replaced w g u w' -> forall l acc rest, acc ++ u = l ++ [nl] -> bline l -> g <> [] ->
  join_lines w acc (g ++ rest) = Ret (l ++ [nl], length g, true, w').
Proof.
  induction 1 as [w|w x t w1 ls u w2 Rv N R IH]; intros l acc rest E B G; [contradiction|]. cbn [app join_lines]. rewrite Rv. cbn [bind].
  rewrite app_assoc in E. destruct ls as [|y ls].
  - inversion R; subst. rewrite app_nil_r in E. rewrite E, (check_complete l [] B). reflexivity.
  - assert (Nu : u <> []) by (intros X; apply (replaced_nil _ _ _ _ R) in X; discriminate).
    pose proof (check_prefix l _ _ B (eq_sym E) Nu) as C. destruct (check_ret (acc ++ t)) as (v & V). rewrite V in C |- *. cbn [bind].
    destruct v as [[|]|]; [contradiction| |]; cbn [app]; pose proof (IH l (acc ++ t) rest E B ltac:(discriminate)) as J; cbn [app] in J; rewrite J; reflexivity.
Qed.
Lemma no_close f b u : lead b -> ~ In ")"%char u -> forall par r, scan f (MLine par) (b ++ "("%char :: u) = Ret r -> r = None.
Proof.
  intros B N par r H. destruct f as [|f]; [discriminate|]. cbn [scan] in H. rewrite skip_at_lead in H by auto. rewrite skip_at_stop in H by (cbv; intuition discriminate).
  cbv zeta in H. rewrite ceq_refl in H. destruct (scan f MBlock u) as [[z|]| |] eqn:E; try discriminate; cbn [bind] in H; [|injection H as <-; reflexivity].
  exfalso. destruct (scan_total (f + room MBlock u) MBlock u) as (x & X & A); [lia|]. rewrite (scan_fuel_more _ _ _ _ E) in X by lia. injection X as <-.
  destruct A as [(a & ->) (y & ->)]. apply N. apply in_app_iff. right. left. auto.
Qed.
Lemma check_unclosed b u : lead b -> ~ In ")"%char u -> pBat_CheckBlocks (b ++ "("%char :: u) = Ret (Some false).
Proof.
  intros B N. unfold pBat_CheckBlocks. cbn [check_loop].
  assert (SB : skip_op (b ++ "("%char :: u) = b ++ "("%char :: u).
  { destruct b as [|c b]; [reflexivity|]. inversion B as [|? ? C]; subst. cbn [app skip_op]. destruct (ceq c "&"%char) eqn:X; [apply ceq_true in X; subst; cbv in C; intuition discriminate|].
    destruct (ceq c "|"%char) eqn:Y; auto. apply ceq_true in Y. subst. cbv in C. intuition discriminate. }
  rewrite SB. destruct (scan_total (scan_fuel (b ++ "("%char :: u)) (MLine false) (b ++ "("%char :: u)) as (r & R & _); [unfold room, scan_fuel; lia|].
  unfold pBat_GetBlockLineEndEx. rewrite R, (no_close _ _ _ B N _ _ R). reflexivity.
Qed.
Lemma join_unclosed w g t w' : replaced w g t w' -> forall b u acc, acc ++ t = b ++ "("%char :: u -> lead b -> ~ In ")"%char u -> g <> [] ->
  exists x n, join_lines w acc g = Ret (x, n, false, w').
Proof.
  induction 1 as [w|w x t w1 ls v w2 Rv N R IH]; intros b u acc E B C G; [contradiction|]. cbn [join_lines]. rewrite Rv. cbn [bind]. rewrite app_assoc in E.
  assert (K : pBat_CheckBlocks (acc ++ t) <> Ret (Some true)).
  { intros K. apply (check_blocks_more _ v) in K. rewrite E, check_unclosed in K by auto. discriminate. }
  destruct (check_ret (acc ++ t)) as (z & V). rewrite V in K |- *. cbn [bind].
  destruct ls as [|y ls]; [inversion R; subst; destruct z as [[|]|]; [contradiction| |]; eauto|].
  destruct (IH b u _ E B C) as (x' & n & J); [discriminate|]. rewrite J. destruct z as [[|]|]; [contradiction| |]; cbn [bind]; eauto.
Qed.

(** ** Running *)
Section B.
Variable leaf : list event -> xworld -> cstr -> leafres.
Variable can_open : list event -> cstr -> std -> bool -> bool.
Variable fio : forio.
Variable table : CmdList_Model.tree.
Variable strtod : cstr -> dbl * nat.
Variable exists_file : list event -> cstr -> bool.
Variable ka : Z.
Variable sio : scriptio.
Variable jumped : list event -> option (cstr * option cstr).
Notation batch := (batch leaf can_open fio table strtod exists_file ka sio jumped).
Notation run_line := (run_line leaf can_open fio table strtod exists_file ka).
Notation line_goes := (line_goes leaf can_open fio table strtod exists_file ka).

Lemma batch_more f : forall i r x, batch f i r = Ret x -> forall g, f <= g -> batch g i r = Ret x.
Proof.
  induction f as [|f IH]; intros i r x H g G; [discriminate|]. destruct g as [|g]; [lia|]. assert (G' : f <= g) by lia. cbn [Script_Model.batch] in H |- *.
  destruct (in_eof i); auto. destruct (pBat_GetLine sio (r_log r) (r_x r) i) as [[[[l|] i'] w]| |]; try discriminate; cbn [bind] in H |- *; [|eapply IH; eauto].
  destruct (run_line f l (set_x r w)) as [r1| |] eqn:E; try discriminate. rewrite (more_line _ _ _ _ _ _ _ f g _ _ _ G' E). cbn [bind] in H |- *.
  destruct (if length (r_log r1) =? _ then _ else _) as [j| |]; try discriminate. cbn [bind] in H |- *. destruct (r_abort r1 =? -1)%Z; eauto.
Qed.

(** The file of a script that nobody changes. *)
Definition steady (file : cstr) (ls : list cstr) (size : Z) : Prop := file <> [] /\ forall log, sio_file sio log file = Some (ls, size).
Definition loaded (file : cstr) (ls : list cstr) (size : Z) (at_ : nat) (e : bool) : input := mkIn file file (pBat_LoadBatchScript ls) size at_ e.
(** At the command [at_] of it: loaded, or at the beginning and not yet loaded. *)
Definition reads (file : cstr) (ls : list cstr) (size : Z) (at_ : nat) (i : input) : Prop :=
  i = loaded file ls size at_ false \/ (at_ = 0 /\ in_eof i = false /\ in_file i = file /\ in_name i = []).
Lemma update_ok file ls size n i log : steady file ls size -> reads file ls size n i -> pBat_UpdateScript sio log i = (true, loaded file ls size n false).
Proof.
  intros [Nf St] R. unfold pBat_UpdateScript. destruct R as [->|(-> & E & F & N)].
  - cbn [loaded in_file in_name in_size in_curr]. destruct file as [|c f]; [contradiction|]. assert (X : streqb (c :: f) (c :: f) = true) by (apply streqb_true; auto). rewrite X. cbn [negb].
    rewrite St, Z.eqb_refl. reflexivity.
  - rewrite F, N. destruct file as [|c f]; [contradiction|]. unfold open_input. rewrite F, St, E. reflexivity.
Qed.
Lemma getline_group file ls size n i log w g l w' rest : steady file ls size -> reads file ls size n i ->
  skipn n (s_cmds (pBat_LoadBatchScript ls)) = g ++ rest -> group w g l w' ->
  pBat_GetLine sio log w i = Ret (Some l, loaded file ls size (n + length g) false, w').
Proof.
  intros St R K [G B]. assert (Gn : g <> []) by (intros ->; apply replaced_none in G; destruct l; discriminate G).
  unfold pBat_GetLine. assert (F : in_file i = file) by (destruct R as [->|(_ & _ & F & _)]; auto). rewrite F. destruct file as [|c f]; [destruct St as [X _]; contradiction|].
  rewrite (update_ok _ _ _ _ _ log St R). cbn [negb loaded in_curr in_script]. rewrite K.
  destruct g as [|x g]; [contradiction|]. cbn [app]. change (x :: g ++ rest) with ((x :: g) ++ rest). rewrite (join_ok _ _ _ _ G l []) by (auto; discriminate). cbn [bind].
  rewrite rm_nl. reflexivity.
Qed.
Lemma getline_unclosed file ls size n i log w g w' : steady file ls size -> reads file ls size n i ->
  skipn n (s_cmds (pBat_LoadBatchScript ls)) = g -> g <> [] -> unclosed w g w' ->
  exists k, pBat_GetLine sio log w i = Ret (None, loaded file ls size k true, w').
Proof.
  intros St R K Gn (b & u & G & B & N).
  unfold pBat_GetLine. assert (F : in_file i = file) by (destruct R as [->|(_ & _ & F & _)]; auto). rewrite F. destruct file as [|c f]; [destruct St as [X _]; contradiction|].
  rewrite (update_ok _ _ _ _ _ log St R). cbn [negb loaded in_curr in_script]. rewrite K.
  destruct (join_unclosed _ _ _ _ G b u [] eq_refl B N Gn) as (x & k & J). destruct g as [|y g]; [contradiction|]. rewrite J. cbn [bind]. eexists. reflexivity.
Qed.
Lemma getline_end file ls size n i log w : steady file ls size -> reads file ls size n i ->
  skipn n (s_cmds (pBat_LoadBatchScript ls)) = [] -> pBat_GetLine sio log w i = Ret (None, loaded file ls size n true, w).
Proof.
  intros St R K. unfold pBat_GetLine. assert (F : in_file i = file) by (destruct R as [->|(_ & _ & F & _)]; auto). rewrite F. destruct file as [|c f]; [destruct St as [X _]; contradiction|].
  rewrite (update_ok _ _ _ _ _ log St R). cbn [negb loaded in_curr in_script]. rewrite K. reflexivity.
Qed.
Lemma jump_ok file ls size n i log name es l : steady file ls size -> reads file ls size n i -> is_script true ls es -> nonul name -> after_label name es l ->
  exists k, pBat_JumpToLabel sio log i name None = Ret (true, loaded file ls size k false) /\ skipn k (s_cmds (pBat_LoadBatchScript ls)) = l.
Proof.
  intros St R Sc Nn A. unfold pBat_JumpToLabel. assert (F : in_file i = file) by (destruct R as [->|(_ & _ & F & _)]; auto). rewrite F.
  destruct file as [|c f]; [destruct St as [X _]; contradiction|]. rewrite (update_ok _ _ _ _ _ log St R). cbn [negb loaded in_script].
  unfold pBat_LoadBatchScript. rewrite (load_lines_ok _ _ _ Sc) by auto. destruct (labels_ex es []) as (lb & L). rewrite (adds_lbls es (mkScript [] []) lb L). cbn [app s_lbls].
  pose proof (find_after name es Nn [] lb L) as X. destruct (find_label name _) as [k|]; [|destruct (X _ A)]. exists k. split.
  - unfold set_curr, loaded, pBat_LoadBatchScript. cbn [in_file in_name in_script in_size in_eof]. rewrite (load_lines_ok _ _ _ Sc) by auto. reflexivity.
  - rewrite adds_cmds. cbn [s_cmds app] in *. eapply after_unique; eauto.
Qed.
Lemma reads_loaded file ls size n : reads file ls size n (loaded file ls size n false).
Proof. left. reflexivity. Qed.
Lemma skipn_group {A} n (s g rest : list A) : skipn n s = g ++ rest -> skipn (n + length g) s = rest.
Proof.
  revert s. induction n as [|n IH]; intros s H.
  - simpl in H |- *. subst s. apply Estr_Proofs.skipn_app_len. auto.
  - destruct s as [|x s]; [|apply (IH s H)]. simpl in H. symmetry in H. apply app_eq_nil in H. destruct H as [-> ->]. reflexivity.
Qed.
Lemma set_same r : set_x r (r_x r) = r.
Proof. destruct r. reflexivity. Qed.

Lemma batch_ok file ls size es : steady file ls size -> is_script true ls es ->
  forall rest r r', script_goes leaf can_open fio table strtod exists_file ka jumped es rest r r' ->
  forall n i, reads file ls size n i -> skipn n (s_cmds (pBat_LoadBatchScript ls)) = rest -> exists f i', batch f i r = Ret (i', r').
Proof.
  intros St Sc rest r r' H. assert (NE : forall n i, reads file ls size n i -> in_eof i = false) by (intros n i [->|(_ & E & _)]; auto).
  induction H as [r|g r w Gn U|g l rest r w r1 r2 G L J A H IH|g l rest r w r1 r2 nm ls' G L J Nn Af A H IH|g l rest r w r1 G L J A]; intros n i R K.
  - exists 2. eexists. cbn [Script_Model.batch]. rewrite (NE _ _ R), (getline_end _ _ _ _ _ _ _ St R K). cbn [bind loaded in_eof]. rewrite set_same. reflexivity.
  - exists 2. destruct (getline_unclosed _ _ _ _ _ (r_log r) _ _ _ St R K Gn U) as (k & X). eexists. cbn [Script_Model.batch]. rewrite (NE _ _ R), X. cbn [bind loaded in_eof]. reflexivity.
  - destruct L as (f1 & L). destruct (IH (n + length g) _ (reads_loaded _ _ _ _) (skipn_group _ _ _ _ K)) as (f2 & i' & B2).
    exists (S (f1 + f2)), i'. cbn [Script_Model.batch]. rewrite (NE _ _ R), (getline_group _ _ _ _ _ (r_log r) _ _ _ _ _ St R K G). cbn [bind].
    change (set_x r w) with (with_x r w). rewrite (more_line _ _ _ _ _ _ _ f1 (f1 + f2) _ _ _ ltac:(lia) L). cbn [bind].
    unfold goes_to in J. change (r_log (with_x r w)) with (r_log r). destruct (_ =? _)%nat; [|rewrite J]; cbn [bind];
      apply Z.eqb_neq in A; rewrite A; eapply batch_more; eauto; lia.
  - destruct L as (f1 & L). destruct (jump_ok _ _ _ (n + length g) (loaded file ls size (n + length g) false) (r_log r1) nm es ls' St (reads_loaded _ _ _ _) Sc Nn Af) as (k & X & Y).
    destruct (IH k _ (reads_loaded _ _ _ _) Y) as (f2 & i' & B2).
    exists (S (f1 + f2)), i'. cbn [Script_Model.batch]. rewrite (NE _ _ R), (getline_group _ _ _ _ _ (r_log r) _ _ _ _ _ St R K G). cbn [bind].
    change (set_x r w) with (with_x r w). rewrite (more_line _ _ _ _ _ _ _ f1 (f1 + f2) _ _ _ ltac:(lia) L). cbn [bind].
    unfold goes_to in J. change (r_log (with_x r w)) with (r_log r). destruct (_ =? _)%nat; [discriminate|]. rewrite J, X. cbn [bind].
    apply Z.eqb_neq in A; rewrite A; eapply batch_more; eauto; lia.
  - destruct L as (f1 & L). exists (S f1). eexists. cbn [Script_Model.batch]. rewrite (NE _ _ R), (getline_group _ _ _ _ _ (r_log r) _ _ _ _ _ St R K G). cbn [bind].
    change (set_x r w) with (with_x r w). rewrite L. cbn [bind].
    unfold goes_to in J. change (r_log (with_x r w)) with (r_log r). destruct (_ =? _)%nat; [|rewrite J]; cbn [bind]; rewrite A; reflexivity.
Qed.
Lemma batch_det f g i r x y : batch f i r = Ret x -> batch g i r = Ret y -> x = y.
Proof. intros A B. apply (batch_more _ _ _ _) with (g := f + g) in A; [|lia]. apply (batch_more _ _ _ _) with (g := f + g) in B; [|lia]. congruence. Qed.
End B.

(** ** GOTO *)
Lemma calm_delayed w n : calm_line n -> pBat_DelayedExpand w n = Ret (n, w).
Proof.
  intros C. assert (E : escaping n n) by (induction C as [|c s H _ IH]; constructor; auto; intros ->; apply H; simpl; auto).
  assert (P : forall d, In d (s2l "%!") -> plain_text d n).
  { intros d D. eapply plain_of; [exact E|]. intros i L. apply live_in in L. destruct L as (c & I & X). apply ceq_true in X. subst c.
    unfold calm_line in C. rewrite Forall_forall in C. apply (C d I). cbv in D |- *. tauto. }
  apply delayed_plain; auto; [apply P; cbv; auto|intros _; apply P; cbv; auto].
Qed.
Lemma calm_tame n : calm_word n -> tame n.
Proof.
  intros [A B]. unfold tame, calm_line in *. rewrite Forall_forall in *. intros c I X. unfold wild in X. apply in_app_iff in X. destruct X as [X|X]; [apply (A c I X)|apply (B c I X)].
Qed.
Lemma split_word n : n <> [] -> (forall c r, n = c :: r -> ~ blank c) -> exists k r, n = k ++ r /\ k <> [] /\ Forall (fun c => ~ blank c) k /\ ends r.
Proof.
  intros N H. assert (X : exists k r, n = k ++ r /\ Forall (fun c => ~ blank c) k /\ ends r).
  { clear. induction n as [|c n (k & r & -> & K & E)]; [exists [], []; repeat split; auto; discriminate|].
    destruct (in_dec Ascii.ascii_dec c blanks) as [I|I].
    - exists [], (c :: k ++ r). repeat split; auto. intros d x [= <- _]. auto.
    - exists (c :: k), r. repeat split; auto. }
  destruct X as (k & r & E & K & R). exists k, r. repeat split; auto. intros ->. destruct r as [|c r]; [contradiction|]. apply (H c r); [auto|]. apply (R c r). auto.
Qed.
Lemma same_tame k t : same_name k t -> forallb (fun b => negb (existsb (fun d => ceq (tolower b) (tolower d)) t)) wild = true -> tame k.
Proof. apply name_tame. Qed.
Lemma tame_app a b : tame a -> tame b -> tame (a ++ b).
Proof. intros A B. apply Forall_app. auto. Qed.
Definition full (w : xworld) : cstr -> cstr := Path_Model.pBat_MakeFullPathEs (vw_cd (x_var w)).
Lemma low_cases c d : tolower c = tolower d -> c = d \/ (exists l u, In (l, u) (combine (s2l "abcdefghijklmnopqrstuvwxyz") (s2l "ABCDEFGHIJKLMNOPQRSTUVWXYZ")) /\ ((c = l /\ d = u) \/ (c = u /\ d = l))).
Proof.
  intros H. assert (X : ceq c d || existsb (fun p => (ceq c (fst p) && ceq d (snd p)) || (ceq c (snd p) && ceq d (fst p))) (combine (s2l "abcdefghijklmnopqrstuvwxyz") (s2l "ABCDEFGHIJKLMNOPQRSTUVWXYZ")) = true).
  { assert (K : forall c, forallb (fun d => negb (ceq (tolower c) (tolower d)) || (ceq c d || existsb (fun p => (ceq c (fst p) && ceq d (snd p)) || (ceq c (snd p) && ceq d (fst p))) (combine (s2l "abcdefghijklmnopqrstuvwxyz") (s2l "ABCDEFGHIJKLMNOPQRSTUVWXYZ")))) all_ascii = true).
    { apply (ascii_forall (fun c => forallb _ all_ascii)). vm_compute. reflexivity. }
    specialize (K c). rewrite forallb_forall in K. specialize (K d (all_ascii_In d)). rewrite H, ceq_refl in K. exact K. }
  apply Bool.orb_true_iff in X. destruct X as [X|X]; [apply ceq_true in X; auto|]. right. apply existsb_exists in X. destruct X as ([l u] & I & X). exists l, u. split; auto.
  apply Bool.orb_true_iff in X. rewrite !Bool.andb_true_iff, !ceq_true in X. exact X.
Qed.
Lemma opt_q k : same_name k (s2l "/q") -> k = s2l "/q" \/ k = s2l "/Q".
Proof.
  destruct k as [|a [|b [|? k]]]; try discriminate. intros [= A B]. destruct (low_cases a "/"%char A) as [->|(l & u & I & X)]; [|cbv in I; intuition congruence].
  destruct (low_cases b "q"%char B) as [->|(l & u & I & X)]; auto. right. cbv in I. cbn [s2l String.list_ascii_of_string]. intuition congruence.
Qed.
Lemma opt_f k : same_name k (s2l "/f") -> k = s2l "/f" \/ k = s2l "/F".
Proof.
  destruct k as [|a [|b [|? k]]]; try discriminate. intros [= A B]. destruct (low_cases a "/"%char A) as [->|(l & u & I & X)]; [|cbv in I; intuition congruence].
  destruct (low_cases b "f"%char B) as [->|(l & u & I & X)]; auto. right. cbv in I. cbn [s2l String.list_ascii_of_string]. intuition congruence.
Qed.
Lemma opt_f' k : same_name k (s2l "/f:") -> k = s2l "/f:" \/ k = s2l "/F:".
Proof.
  destruct k as [|a [|b [|c [|? k]]]]; try discriminate. intros [= A B C]. destruct (low_cases a "/"%char A) as [->|(l & u & I & X)]; [|cbv in I; intuition congruence].
  destruct (low_cases c ":"%char C) as [->|(l & u & I & X)]; [|cbv in I; intuition congruence].
  destruct (low_cases b "f"%char B) as [->|(l & u & I & X)]; auto. right. cbv in I. cbn [s2l String.list_ascii_of_string]. intuition congruence.
Qed.
Lemma opts_ends F f u f' tail : goto_opts F f u f' -> (u = [] -> ends tail) -> ends (u ++ tail).
Proof.
  intros H T. destruct H as [f|f a k u f' A N|f a k p u f' A N|f a k p u f' A N]; [auto| | |];
    (destruct a as [|c a]; [contradiction|]; intros d r E; cbn [app] in E; injection E as <- _; inversion A; auto).
Qed.
Lemma nonul_F : nonul (s2l "/F").
Proof. intros H. cbv in H. intuition discriminate. Qed.
Lemma goto_gen w f u f' : goto_opts (full w) f u f' -> forall a t, Forall blank a -> u = [] \/ a <> [] \/ t = [] ->
  (forall fuel old f, goto_options (Datatypes.S fuel) w old (a ++ t) f = Ret (Some (a ++ t, f), w)) ->
  forall fuel old, length u < fuel -> goto_options fuel w old (u ++ a ++ t) f = Ret (Some (a ++ t, f'), w).
Proof.
  intros H. induction H as [f|f a k u f' A N K H IH|f a k p u f' A N K P Q H IH|f a k p u f' A N K P H IH]; intros b t B U D fuel old Fu; (destruct fuel as [|fuel]; [lia|]); [apply D| | |]; cbn [goto_options].
  - assert (T : tame k) by (apply (same_tame _ _ K); reflexivity). assert (Kn : k <> []) by (intros ->; discriminate).
    rewrite <- !app_assoc, tame_word; auto; [|apply (opts_ends _ _ _ _ _ H); intros ->; destruct U as [U|[U|U]]; [destruct a; [contradiction|discriminate]| |]; [destruct b as [|c b]; [contradiction|]; intros d y Y; cbn [app] in Y; injection Y as <- _; inversion B; auto|subst t; rewrite app_nil_r; intros d y ->; inversion B; auto]].
    cbn [bind]. rewrite app_length, app_length in Fu. destruct k as [|c k]; [contradiction|]. cbn [length] in Fu.
    assert (S1 : streqb (c :: k) (s2l "/?") = false) by (destruct (opt_q _ K) as [-> | ->]; reflexivity).
    assert (S2 : (stricmp (c :: k) (s2l "/Q") =? 0)%Z = true) by (destruct (opt_q _ K) as [-> | ->]; reflexivity).
    rewrite S1, S2. apply IH; auto; [right; destruct U as [U|[U|U]]; auto; destruct a; [contradiction|discriminate]|lia].
  - assert (T : tame (k ++ p)) by (apply tame_app; [apply (same_tame _ _ K); reflexivity|apply calm_tame; auto]). assert (Kn : k ++ p <> []) by (destruct k; discriminate).
    rewrite <- !app_assoc, (app_assoc k p), tame_word; auto; [|apply (opts_ends _ _ _ _ _ H); intros ->; destruct U as [U|[U|U]]; [destruct a; [contradiction|discriminate]| |]; [destruct b as [|c b]; [contradiction|]; intros d y Y; cbn [app] in Y; injection Y as <- _; inversion B; auto|subst t; rewrite app_nil_r; intros d y ->; inversion B; auto]].
    cbn [bind]. rewrite !app_length in Fu. destruct k as [|c k]; [discriminate|]. cbn [length] in Fu.
    assert (U' : u = [] \/ b <> [] \/ t = []) by (right; destruct U as [U|[U|U]]; auto; destruct a; [contradiction|discriminate]).
    assert (S1 : streqb ((c :: k) ++ p) (s2l "/?") = false) by (destruct (opt_f _ K) as [-> | ->]; reflexivity).
    assert (S2 : (stricmp ((c :: k) ++ p) (s2l "/Q") =? 0)%Z = false) by (destruct (opt_f _ K) as [-> | ->]; reflexivity).
    assert (S3 : (strnicmp ((c :: k) ++ p) (s2l "/F") 2 =? 0)%Z = true) by (apply Z.eqb_eq; apply (strnicmp_kw (s2l "/F") nonul_F); exists (c :: k), p; split; [reflexivity|unfold same_name in *; rewrite K; reflexivity]).
    assert (S4 : skipn 2 ((c :: k) ++ p) = p) by (destruct (opt_f _ K) as [-> | ->]; reflexivity).
    rewrite S1, S2, S3. cbv zeta. rewrite S4.
    match goal with |- goto_options _ _ _ _ (Some (_ _ ?X)) = _ => replace X with p end; [apply IH; auto; lia|].
    destruct p as [|z p]; auto; destruct (Ascii.ascii_dec z ":"%char) as [->|Nz]; [destruct (Q p eq_refl)|]; clear - Nz; destruct z as [[] [] [] [] [] [] [] []]; try reflexivity; destruct Nz; reflexivity.
  - assert (T : tame (k ++ p)) by (apply tame_app; [apply (same_tame _ _ K); reflexivity|apply calm_tame; auto]). assert (Kn : k ++ p <> []) by (destruct k; discriminate).
    rewrite <- !app_assoc, (app_assoc k p), tame_word; auto; [|apply (opts_ends _ _ _ _ _ H); intros ->; destruct U as [U|[U|U]]; [destruct a; [contradiction|discriminate]| |]; [destruct b as [|c b]; [contradiction|]; intros d y Y; cbn [app] in Y; injection Y as <- _; inversion B; auto|subst t; rewrite app_nil_r; intros d y ->; inversion B; auto]].
    cbn [bind]. rewrite !app_length in Fu. destruct k as [|c k]; [discriminate|]. cbn [length] in Fu.
    assert (U' : u = [] \/ b <> [] \/ t = []) by (right; destruct U as [U|[U|U]]; auto; destruct a; [contradiction|discriminate]).
    assert (S1 : streqb ((c :: k) ++ p) (s2l "/?") = false) by (destruct (opt_f' _ K) as [-> | ->]; reflexivity).
    assert (S2 : (stricmp ((c :: k) ++ p) (s2l "/Q") =? 0)%Z = false) by (destruct (opt_f' _ K) as [-> | ->]; reflexivity).
    assert (S3 : (strnicmp ((c :: k) ++ p) (s2l "/F") 2 =? 0)%Z = true) by (apply Z.eqb_eq; apply (strnicmp_kw (s2l "/F") nonul_F); destruct (opt_f' _ K) as [-> | ->]; [exists (s2l "/f"), (":"%char :: p)|exists (s2l "/F"), (":"%char :: p)]; split; reflexivity).
    assert (S4 : skipn 2 ((c :: k) ++ p) = ":"%char :: p) by (destruct (opt_f' _ K) as [-> | ->]; reflexivity).
    rewrite S1, S2, S3, S4. apply IH; auto; lia.
Qed.
Lemma goto_loop w f u f' : goto_opts (full w) f u f' -> forall a n e, Forall blank a -> u = [] \/ a <> [] -> calm_line n ->
  (exists c r, n = c :: r /\ ~ blank c /\ c <> "/"%char) -> Forall blank e ->
  forall fuel old, length u < fuel -> goto_options fuel w old (u ++ a ++ n ++ e) f = Ret (Some (a ++ n ++ e, f'), w).
Proof.
  intros H b n e B U C D E fuel old Fu. apply (goto_gen _ _ _ _ H); auto; [tauto|]. clear u f f' H U fuel old Fu. intros fuel old f. cbn [goto_options].
  destruct D as (c & r & -> & Nc & Ns). destruct (split_word (c :: r)) as (k & x & X & Kn & Kb & Ex); [discriminate|intros ? ? [= <- _]; auto|].
    rewrite X, <- app_assoc. rewrite tame_word; auto.
    + cbn [bind]. destruct k as [|c' k]; [contradiction|]. injection X as <- X.
      assert (S1 : streqb (c :: k) (s2l "/?") = false) by (apply streqb_false; intros Y; injection Y as Y _; contradiction).
      assert (L : tolower c <> tolower "/"%char) by (intros L; destruct (low_cases _ _ L) as [L'|(l & v & I & Y)]; [contradiction|cbv in I; intuition congruence]).
      assert (CL : ceq (tolower c) (tolower "/"%char) = false) by (apply ceq_false; auto).
      assert (CD : (code (tolower c) - code (tolower "/"%char))%Z <> 0%Z) by (intros Y; apply L; apply code_inj; lia).
      assert (S2 : (stricmp (c :: k) (s2l "/Q") =? 0)%Z = false) by (apply Z.eqb_neq; cbn [stricmp s2l String.list_ascii_of_string]; rewrite CL; auto).
      assert (S3 : (strnicmp (c :: k) (s2l "/F") 2 =? 0)%Z = false) by (apply Z.eqb_neq; cbn [strnicmp s2l String.list_ascii_of_string]; rewrite CL; auto).
      rewrite S1, S2, S3. reflexivity.
    + intros d y Y. destruct x as [|z x]; [destruct e; [discriminate|]; cbn [app] in Y; injection Y as <- _; inversion E; auto|]. cbn [app] in Y. injection Y as <- _. eapply Ex; eauto.
    + apply calm_tame. split; auto. rewrite X in C. apply Forall_app in C. apply C.
Qed.
Lemma goto_none w old s : Forall blank s -> pBat_GetNextParameterEs w old s = Ret (old, None, w).
Proof.
  intros B. unfold pBat_GetNextParameterEs.
  destruct (next_ok w PBAT_DELIMITERS old s quote_std) as [[_ H]|(a & raw & rest & t & H1 & H2 & H3 & H4 & _)]; auto.
  exfalso. subst s. apply Forall_app in B. destruct B as [_ B]. destruct (raw ++ rest) as [|c r] eqn:X; [congruence|].
  inversion B; subst. eapply H3; eauto.
Qed.
Lemma goto_end w u f e : goto_opts (full w) None u f -> Forall blank e -> pBat_CmdGoto w (u ++ e) = Ret (GLabel (s2l ":") f, w).
Proof.
  intros H E. unfold pBat_CmdGoto. pose proof (goto_gen _ _ _ _ H e [] E (or_intror (or_intror eq_refl))) as G. rewrite app_nil_r in G.
  rewrite G; [|intros fuel old f'; cbn [goto_options]; rewrite goto_none by auto; reflexivity|rewrite app_length; lia].
  cbn [bind]. pose proof (skip_blanks e [] E ltac:(discriminate)) as K. rewrite app_nil_r in K. rewrite K.
  change (pBat_StripEndDelims []) with (@nil ascii). unfold pBat_GetEndOfLine. rewrite (calm_delayed w []) by constructor. reflexivity.
Qed.
Lemma goto_ok w u f a n e l : goto_opts (full w) None u f -> Forall blank a -> u = [] \/ a <> [] -> calm_line n ->
  (exists c r, n = c :: r /\ ~ blank c /\ c <> "/"%char) -> (forall v c, n = v ++ [c] -> ~ blank c) -> Forall blank e -> label_name n l -> length l < 4096 ->
  pBat_CmdGoto w (u ++ a ++ n ++ e) = Ret (if (stricmp l (s2l ":EOF") =? 0)%Z then GEof else GLabel l f, w).
Proof.
  intros O A U C D L E N Len. unfold pBat_CmdGoto. rewrite (goto_loop _ _ _ _ O a n e A U C D E).
  2: { rewrite app_length. lia. }
  cbn [bind]. rewrite skip_blanks; auto.
  2: { intros c r Y. destruct D as (d & x & -> & Nd & _). cbn [app] in Y. injection Y as <- _. auto. }
  rewrite (strip_trimmed (n ++ e) n e) by (split; auto). unfold pBat_GetEndOfLine. rewrite calm_delayed by auto. cbn [bind].
  replace (match n with ":"%char :: _ => n | _ => ":"%char :: n end) with l.
  - rewrite (firstn_all2 l) by lia. reflexivity.
  - destruct N as [(-> & r & ->)|[N ->]]; [reflexivity|]. destruct n as [|z n]; auto.
    assert (Nz : z <> ":"%char) by (intros ->; apply (N n); auto). clear - Nz. destruct z as [[] [] [] [] [] [] [] []]; try reflexivity. destruct Nz. reflexivity.
Qed.
