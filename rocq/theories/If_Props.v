(** If_Props.v -- C32, C33, C55, C56: the conditions of IF. *)

From Coq Require Import QArith.
From Verif Require Import Base Lex StrLib_Model Env_Model Var_Model Expand_Model Args_Spec Args_Model Args_Props Estr_Spec Estr_Proofs
  If_Model If_Spec If_Proofs IfExp_Proofs.
Open Scope nat_scope.

Section If.
Variable strtod : cstr -> dbl * nat.
Variable exists_file : cstr -> bool.
Variable ka : Z.
Notation exec := (pBat_IfExp_ExecuteTest strtod exists_file ka).
Notation cond := (if_cond strtod exists_file ka).
Notation compare := (pBat_PerformExtendedTest strtod).
Notation IF := (s2l "if").

(** ** C32: expressions between brackets.  [truth] is the usual meaning; [trap]
    holds when the left side of some AND is found true. *)
Theorem C32_if w p i neg q e rest val : switches w p i neg q -> shaped Conj e -> params w q (words (BPar e)) rest ->
  (forall l, In l (tests e) -> exec w l i = Ret (Some (val l))) ->
  cond w (IF ++ p) = if trap val e then Undef else Ret (IfGo (truth val e) rest, w).
Proof.
  intros S H P V. pose proof P as P'. cbn [words] in P'. inversion P' as [|s0 t0 r l0 e0 Hp Hr]; subst.
  assert (N : not_switch (s2l "[")).
  { repeat split; try (intros X; vm_compute in X; discriminate). intros [X|[]]. discriminate. }
  rewrite (cond_kind strtod exists_file ka w p i neg q _ r S Hp N). change (firstn 10 (s2l "[")) with (s2l "[").
  rewrite kind_brackets. apply (compare_brackets strtod exists_file ka w e q rest i neg val H P V).
Qed.

(** Without AND, expressions are always computed. *)
Fixpoint no_and (e : bexp) : bool :=
  match e with BTest _ => true | BAnd _ _ => false | BOr a b => no_and a && no_and b | BPar a => no_and a end.
Lemma no_and_trap val e : no_and e = true -> trap val e = false.
Proof.
  induction e; simpl; auto; try discriminate. intros H. apply andb_prop in H. destruct H. rewrite IHe1, IHe2; auto.
Qed.
Theorem C32_or w p i neg q e rest val : no_and e = true -> switches w p i neg q -> shaped Conj e ->
  params w q (words (BPar e)) rest -> (forall l, In l (tests e) -> exec w l i = Ret (Some (val l))) ->
  cond w (IF ++ p) = Ret (IfGo (truth val e) rest, w).
Proof. intros A S H P V. rewrite (C32_if w p i neg q e rest val S H P V), no_and_trap; auto. Qed.

(** The tests are those that IF does without brackets. *)
Theorem C32_compare w p i neg q a op b rest : switches w p i neg q -> params w q [a; op; b] rest ->
  not_switch a -> ~ keyword a -> a <> s2l "[" -> (forall k, ~ occurs_at (s2l "==") a k) ->
  cond w (IF ++ p) = do r <- exec w [a; op; b] i;
                     Ret (match r with Some x => IfGo x rest | None => IfStop (-1) true end, w).
Proof.
  intros S P N K O E. inversion P as [|s0 t0 r l0 e0 Hp Hr]; subst.
  inversion Hr as [|s1 t1 r1 l1 e1 Hp1 Hr1]; subst. inversion Hr1 as [|s2 t2 r2 l2 e2 Hp2 Hr2]; subst. inversion Hr2; subst.
  rewrite (cond_kind strtod exists_file ka w p i neg q a r S Hp N). unfold if_kind.
  destruct (keyb (firstn 10 a)) eqn:KB; [apply keyb_iff in KB; [tauto|apply N]|].
  unfold keyb in KB. rewrite KB. apply orb_false_elim in KB. destruct KB as [KB K3]. apply orb_false_elim in KB. destruct KB as [K1 K2].
  rewrite K1, K2, K3, andb_false_r. unfold if_compare. unfold param in Hp. rewrite Hp. cbn [bind].
  destruct (is_open a) eqn:IO; [apply streqb_true in IO; tauto|].
  destruct (strstr a (s2l "==")) as [k|] eqn:ES.
  { apply strstr_Some in ES. destruct ES as (x & y & X & L & _). exfalso. apply (E k). exists x, y. auto. }
  rewrite (get_cut w r 10 op r1 Hp1). cbn [bind]. unfold param in Hp2. rewrite Hp2. cbn [bind].
  assert (X : compare (firstn 10 op) a b i = compare op a b i).
  { unfold pBat_PerformExtendedTest. destruct (match pBat_GetCmpValue strtod a with Some _ => _ | None => _ end) as [x y]. cbv zeta.
    pose proof (word_cut 10 op) as W. unfold word in W. rewrite !W by (cbn; lia). reflexivity. }
  rewrite X.
  assert (NW : forall s, length (s2l s) < 10 -> word (firstn 10 a) s = word a s) by (intros; apply word_cut; auto).
  rewrite (NW "EXIST"%string) in K1 by (cbn; lia). rewrite (NW "DEFINED"%string) in K2 by (cbn; lia).
  destruct N as (N1 & N2 & N3 & N4).
  assert (NN : word a "NOT" = false) by (apply word_no; auto; apply nonul_lit; reflexivity).
  assert (NE : word a "ERRORLEVEL" = false).
  { destruct (word a "ERRORLEVEL") eqn:WE; auto. apply word_iff in WE; auto; [|apply nonul_lit; reflexivity].
    exfalso. apply K. exists (s2l "errorlevel"). split; [cbn; auto|]. unfold same_name in *.
    rewrite firstn_all2; auto. apply (f_equal (@length _)) in WE. rewrite !map_length in WE. cbn in WE. lia. }
  unfold pBat_IfExp_ExecuteTest. rewrite NN. cbn iota. rewrite K1, K2, NE. cbn [bind].
  destruct (compare op a b i); reflexivity.
Qed.

Theorem C32_object w p neg q k v rest : switches w p false neg q -> params w q [k; v] rest -> nonul k ->
  In (map tolower k) [s2l "exist"; s2l "defined"; s2l "errorlevel"] -> length v < 4096 ->
  cond w (IF ++ p) = do r <- exec w ((if neg then [s2l "NOT"] else []) ++ [k; v]) false;
                     match r with Some x => Ret (IfGo x rest, w) | None => Undef end.
Proof.
  intros S P N I L. inversion P as [|s0 t0 r l0 e0 Hp Hr]; subst.
  inversion Hr as [|s1 t1 r1 l1 e1 Hp1 Hr1]; subst. inversion Hr1; subst.
  assert (NS : not_switch k /\ length k <= 10).
  { repeat split; auto; try (intros ->; cbn in I; repeat (destruct I as [I|I]; [discriminate|]); auto);
      try (unfold same_name; intros X; rewrite X in I; cbn in I; repeat (destruct I as [I|I]; [discriminate|]); auto).
    rewrite <- (map_length tolower). repeat (destruct I as [<-|I]; [cbn; lia|]). destruct I. }
  destruct NS as [NS LK].
  rewrite (cond_kind strtod exists_file ka w p false neg q k r S Hp NS). rewrite firstn_all2 by auto.
  assert (NN : word k "NOT" = false) by (apply word_no; [auto|apply nonul_lit; reflexivity|apply NS]).
  assert (W : forall s, nonul (s2l s) -> word k s = (stricmp (map tolower k) (s2l s) =? 0)%Z).
  { intros s _. unfold word. f_equal. apply stricmp_same. rewrite map_map. apply map_ext. intros c. symmetry. apply tolower_idem. }
  unfold if_kind. cbn [andb]. unfold if_object. rewrite (get_cut w r 4095 v rest Hp1). cbn [bind].
  rewrite firstn_all2 by lia.
  assert (EX : forall c, exec w ((if neg then [s2l "NOT"] else []) ++ [k; v]) false = c ->
    (do x <- (if word k "DEFINED" then do b <- test_defined ka w v; Ret (Some (b, @nil cstr))
              else if word k "EXIST" then Ret (Some (test_exist exists_file w v, []))
              else if word k "ERRORLEVEL" then do b <- test_errorlevel ka w v; Ret (Some (b, []))
              else Ret None);
     Ret (match x with Some (b, []) => Some (if neg then negb b else b) | _ => None end)) = c).
  { intros c <-. destruct neg; cbn [app pBat_IfExp_ExecuteTest].
    - change (word (s2l "NOT") "NOT") with true. cbn iota. destruct (word k "DEFINED"), (word k "EXIST"), (word k "ERRORLEVEL"); reflexivity.
    - rewrite NN. cbn iota. destruct (word k "DEFINED"), (word k "EXIST"), (word k "ERRORLEVEL"); reflexivity. }
  rewrite <- (EX _ eq_refl).
  rewrite !W by (apply nonul_lit; reflexivity).
  destruct I as [<-|[<-|[<-|[]]]]; cbn -[test_defined test_errorlevel].
  - reflexivity.
  - destruct (test_defined ka w v); reflexivity.
  - destruct (test_errorlevel ka w v); reflexivity.
Qed.

(** ** C33: NOT.  [p] and [p'] have the same switches but for NOT. *)
Definition with_equal (t : cstr) : Prop := t <> s2l "[" /\ exists k, occurs_at (s2l "==") t k.
Theorem C33_not w p p' i q t nx : switches w p i true q -> switches w p' i false q -> param w q t nx -> not_switch t ->
  (keyword t \/ with_equal t ->
   cond w (IF ++ p) = do (r, w2) <- cond w (IF ++ p'); Ret (negated r, w2)) /\
  (~ (keyword t \/ with_equal t) -> cond w (IF ++ p) = cond w (IF ++ p')).
Proof.
  intros S S' P N. rewrite (cond_kind strtod exists_file ka w p i true q t nx S P N).
  rewrite (cond_kind strtod exists_file ka w p' i false q t nx S' P N). unfold if_kind.
  pose proof (keyb_iff t (proj1 N)) as K. unfold keyb in K.
  destruct (word (firstn 10 t) "EXIST"), (word (firstn 10 t) "DEFINED"), (word (firstn 10 t) "ERRORLEVEL");
    cbn [orb andb] in *; rewrite ?andb_true_r, ?andb_false_r;
    try (split; [|intros H; destruct H; left; apply K; reflexivity]; intros _; destruct i; [reflexivity|];
         unfold if_object; destruct (pBat_GetNextParameter w nx 4096) as [[[u [r|]] w1]| |]; cbn [bind]; try reflexivity;
         try (destruct (test_defined ka w1 u); reflexivity); try (destruct (test_errorlevel ka w1 u); reflexivity); fail).
  assert (NK : ~ keyword t) by (intros X; apply K in X; discriminate). clear K.
  unfold if_compare. unfold param in P. rewrite P. cbn [bind]. destruct (is_open t) eqn:O.
  - apply streqb_true in O. split; [intros [X|[X _]]; tauto|reflexivity].
  - assert (T : t <> s2l "[") by (intros ->; discriminate). destruct (strstr t (s2l "==")) as [k|] eqn:E.
    + apply strstr_Some in E. destruct E as (a & b & Et & L & _). split.
      * intros _. destruct (eq_sides t k) as [[x y]| |]; cbn [bind]; try reflexivity.
        destruct (compare (s2l "==") x y i); reflexivity.
      * intros H. destruct H. right. split; auto. exists k, a, b. auto.
    + split; [|reflexivity]. intros [X|(_ & k & X)]; [tauto|]. destruct (strstr_None _ _ E k X).
Qed.

(** ** C55: comparisons *)
Lemma side_number s d : number strtod s d -> pBat_GetCmpValue strtod s = Some d.
Proof.
  intros [v I E|B|d' k B I E T].
  - rewrite (value_int strtod s v I), clip_exact by auto. unfold dbl_of_Z. rewrite round_exact; auto.
  - rewrite value_blank by auto. reflexivity.
  - rewrite value_other by auto. rewrite E. apply skip_blanks_nil in T. rewrite T. reflexivity.
Qed.
Lemma side_text s : plain_text strtod s -> pBat_GetCmpValue strtod s = None.
Proof.
  intros (B & I & T). rewrite value_other by auto. destruct (strtod s) as [d k]. cbn [snd] in T.
  destruct (pBat_SkipBlanks (skipn k s)) eqn:E; auto. apply skip_blanks_nil in E. tauto.
Qed.

Theorem C55_numbers op o a b i x y : same_name op (op_name o) -> number strtod a x -> number strtod b y ->
  compare op a b i = Some (match dcompare x y with
                           | Some c => holds o c
                           | None => match o with NEQ => true | _ => false end      (* not a number *)
                           end).
Proof. intros S A B. rewrite (test_op strtod o op a b i S). unfold sides. rewrite (side_number a x A), (side_number b y B). reflexivity. Qed.

Theorem C55_text op o a b i c : same_name op (op_name o) -> nonul a -> nonul b ->
  plain_text strtod a \/ plain_text strtod b -> text_order (fold_case i a) (fold_case i b) c ->
  compare op a b i = Some (holds o c).
Proof.
  intros S Na Nb T O. rewrite (test_op strtod o op a b i S).
  assert (X : sides strtod a b i = (dbl_of_Z (if i then stricmp a b else strcmp a b), dbl_of_Z 0)).
  { unfold sides. destruct T as [T|T]; rewrite (side_text _ T); [reflexivity|]. destruct (pBat_GetCmpValue strtod a); reflexivity. }
  rewrite X. destruct i; cbn [fold_case] in O.
  - rewrite sign_compare by (rewrite stricmp_lower; apply strcmp_range). rewrite stricmp_lower.
    rewrite (strcmp_order _ _ c) by (auto using nonul_lower). reflexivity.
  - rewrite sign_compare by apply strcmp_range. rewrite (strcmp_order _ _ c); auto.
Qed.

(** One of C55_numbers and C55_text applies, but for integers that floating point
    numbers do not represent. *)
Theorem C55_cases s : (exists d, number strtod s d) \/ plain_text strtod s \/ (exists v, integer_text s v /\ ~ exact v).
Proof.
  destruct (strtol0 s) as [z t] eqn:E. destruct (pBat_SkipBlanks t) eqn:K.
  - apply skip_blanks_nil in K. destruct (strtol_inv s z t E K) as [(_ & B)|(v & I & _)].
    + left. eexists. apply nb_blank; auto.
    + destruct (Z.leb_spec (Z.abs v) 9007199254740992).
      * left. eexists. apply (nb_int strtod s v); auto.
      * right. right. exists v. split; auto. unfold exact. lia.
  - assert (NB : ~ Forall blank s).
    { intros B. pose proof (value_blank (fun _ => (DNaN, 0)) s B) as V. unfold pBat_GetCmpValue in V. rewrite E, K in V.
      cbn [skipn] in V. destruct (pBat_SkipBlanks s); discriminate. }
    assert (NI : forall v, ~ integer_text s v).
    { intros v I. destruct (strtol_ok s v I) as (t' & T & E'). rewrite E in E'. injection E' as _ <-.
      apply skip_blanks_nil in T. congruence. }
    destruct (strtod s) as [d k] eqn:D. destruct (pBat_SkipBlanks (skipn k s)) eqn:X.
    + left. exists d. apply skip_blanks_nil in X. apply (nb_float strtod s d k); auto.
    + right. left. repeat split; auto. rewrite D. cbn [snd]. intros Y. apply skip_blanks_nil in Y. congruence.
Qed.

(** The two operators of each pair exclude each other; one of them holds unless a
    side is not a number (and for EQU and NEQ, always). *)
Theorem C55_opposite o a b i : (forall s k, strtod s <> (DNaN, k)) \/ o = EQU \/ o = NEQ ->
  exists r, compare (op_name o) a b i = Some r /\ compare (op_name (opposite o)) a b i = Some (negb r).
Proof.
  intros H. rewrite !(test_op strtod _ _ a b i eq_refl).
  assert (X : (let '(x, y) := sides strtod a b i in dcompare x y) <> None \/ o = EQU \/ o = NEQ).
  { destruct H as [H|H]; auto. left.
    assert (V : forall s, pBat_GetCmpValue strtod s <> Some DNaN).
    { intros s V. unfold pBat_GetCmpValue in V. destruct (strtol0 s) as [z t]. destruct (pBat_SkipBlanks t); [discriminate|].
      destruct (strtod s) as [d k] eqn:D. destruct (pBat_SkipBlanks (skipn k s)); [|discriminate]. apply (H s k). congruence. }
    unfold sides. pose proof (V a). pose proof (V b).
    destruct (pBat_GetCmpValue strtod a) as [x|], (pBat_GetCmpValue strtod b) as [y|]; try (cbn; discriminate).
    destruct x, y; cbn; try discriminate; congruence. }
  destruct (sides strtod a b i) as [x y]. eexists. split; [reflexivity|]. f_equal.
  destruct (dcompare x y) as [[]|]; destruct o; try reflexivity; destruct X as [X|[X|X]]; congruence.
Qed.

(** Exchanging the sides. *)
Definition converse (o : cmpop) : cmpop :=
  match o with EQU => EQU | NEQ => NEQ | LSS => GTR | LEQ => GEQ | GTR => LSS | GEQ => LEQ end.
Lemma strcmp_sym a b : strcmp b a = (- strcmp a b)%Z.
Proof.
  revert b. induction a as [|x a IH]; intros [|y b]; simpl; try lia.
  unfold ceq. rewrite Ascii.eqb_sym. destruct (Ascii.eqb x y); [auto|lia].
Qed.
Lemma dcompare_sym x y : dcompare y x = option_map CompOpp (dcompare x y).
Proof.
  destruct x as [|[]|p], y as [|[]|q]; try reflexivity. cbn. f_equal. unfold Qcompare. apply Z.compare_antisym.
Qed.
Theorem C55_converse o a b i : compare (op_name (converse o)) b a i = compare (op_name o) a b i.
Proof.
  rewrite !(test_op strtod _ _ _ _ i eq_refl). f_equal.
  assert (X : (let '(x, y) := sides strtod b a i in dcompare x y) = option_map CompOpp (let '(x, y) := sides strtod a b i in dcompare x y)).
  { assert (Y : dcompare (dbl_of_Z (if i then stricmp b a else strcmp b a)) (dbl_of_Z 0) =
                option_map CompOpp (dcompare (dbl_of_Z (if i then stricmp a b else strcmp a b)) (dbl_of_Z 0))).
    { destruct i; rewrite ?stricmp_lower; rewrite !sign_compare by apply strcmp_range; rewrite strcmp_sym; cbn [option_map]; f_equal;
        [generalize (strcmp (map tolower a) (map tolower b))|generalize (strcmp a b)]; intros z; destruct z; reflexivity. }
    unfold sides. destruct (pBat_GetCmpValue strtod a), (pBat_GetCmpValue strtod b); auto. apply dcompare_sym. }
  rewrite X. destruct (let '(x, y) := sides strtod a b i in dcompare x y) as [[]|]; destruct o; reflexivity.
Qed.

(** Other words are not operators. *)
Theorem C55_unknown op a b i : nonul op -> ~ same_name op (s2l "==") -> (forall o, ~ same_name op (op_name o)) ->
  compare op a b i = None.
Proof. apply test_bad. Qed.

(** The form "a==b"; when the left side ends with a quotation mark, this mark and
    the first character of the right side are not part of them. *)
Lemma equal_at t a b : equal_sign t a b -> strstr t (s2l "==") = Some (length a).
Proof.
  intros (-> & F). apply strstr_first. intros k L (a' & b' & E & LA). specialize (F a' b' E). lia.
Qed.
Lemma cond_equal w p i neg q t a b nx : switches w p i neg q -> param w q t nx -> not_switch t -> ~ keyword t ->
  equal_sign t a b ->
  cond w (IF ++ p) = do (x, y) <- eq_sides t (length a);
                     match compare (s2l "EQU") x y i with
                     | Some r => Ret (IfGo (xorb neg r) nx, w)
                     | None => Undef
                     end.
Proof.
  intros S P N K E. rewrite (cond_kind strtod exists_file ka w p i neg q t nx S P N). unfold if_kind.
  destruct (keyb (firstn 10 t)) eqn:KB; [apply keyb_iff in KB; [tauto|apply N]|].
  unfold keyb in KB. rewrite KB. apply orb_false_elim in KB. destruct KB as [KB K3]. apply orb_false_elim in KB. destruct KB as [K1 K2].
  rewrite K1, K2, K3, andb_false_r. unfold if_compare. unfold param in P. rewrite P. cbn [bind].
  rewrite (equal_at t a b E). destruct (is_open t) eqn:IO.
  { apply streqb_true in IO. destruct E as [E _]. rewrite E in IO. apply (f_equal (@length _)) in IO. rewrite !app_length in IO. cbn in IO. lia. }
  destruct (eq_sides t (length a)) as [[x y]| |]; cbn [bind]; auto. rewrite test_eqeq.
  destruct (compare (s2l "EQU") x y i) as [r|]; auto. destruct neg, r; reflexivity.
Qed.

Theorem C55_equal w p i neg q t a b nx : switches w p i neg q -> param w q t nx -> not_switch t -> ~ keyword t ->
  equal_sign t a b -> a <> [] -> (forall a', a <> a' ++ [dquote]) ->
  exists r, compare (s2l "EQU") a b i = Some r /\ cond w (IF ++ p) = Ret (IfGo (xorb neg r) nx, w).
Proof.
  intros S P N K E A Q. rewrite (cond_equal w p i neg q t a b nx S P N K E). unfold eq_sides.
  destruct (exists_last A) as (a' & c & ->). rewrite app_length. cbn [length]. rewrite Nat.add_1_r.
  destruct E as [E _].
  replace (nth_error t (length a')) with (Some c).
  2:{ rewrite E. rewrite <- app_assoc. rewrite nth_error_app2 by lia. rewrite Nat.sub_diag. reflexivity. }
  destruct (ceq c dquote) eqn:C; [apply ceq_true in C; subst c; destruct (Q a' eq_refl)|].
  assert (X1 : firstn (Datatypes.S (length a')) t = a' ++ [c]).
  { rewrite E. replace (Datatypes.S (length a')) with (length (a' ++ [c])) by (rewrite app_length; cbn; lia). apply firstn_app_len; reflexivity. }
  assert (X2 : skipn (Datatypes.S (length a') + 2) t = b).
  { rewrite E. replace (Datatypes.S (length a') + 2) with (length ((a' ++ [c]) ++ s2l "==")) by (rewrite !app_length; cbn; lia).
    rewrite app_assoc. apply skipn_app_len; reflexivity. }
  rewrite X1, X2. cbn [bind]. rewrite (test_op strtod EQU (s2l "EQU") (a' ++ [c]) b i eq_refl). eexists. split; reflexivity.
Qed.

Theorem C55_equal_quoted w p i neg q t a c b nx : switches w p i neg q -> param w q t nx -> not_switch t -> ~ keyword t ->
  equal_sign t (a ++ [dquote]) (c :: b) ->
  exists r, compare (s2l "EQU") a b i = Some r /\ cond w (IF ++ p) = Ret (IfGo (xorb neg r) nx, w).
Proof.
  intros S P N K E. rewrite (cond_equal w p i neg q t _ _ nx S P N K E). unfold eq_sides.
  rewrite app_length. cbn [length]. rewrite Nat.add_1_r. destruct E as [E _].
  replace (nth_error t (length a)) with (Some dquote).
  2:{ rewrite E. rewrite <- app_assoc. rewrite nth_error_app2 by lia. rewrite Nat.sub_diag. reflexivity. }
  rewrite ceq_refl.
  assert (X2 : skipn (Datatypes.S (length a) + 2) t = c :: b).
  { rewrite E. replace (Datatypes.S (length a) + 2) with (length ((a ++ [dquote]) ++ s2l "==")) by (rewrite !app_length; cbn; lia).
    rewrite app_assoc. apply skipn_app_len; reflexivity. }
  assert (X1 : firstn (length a) t = a).
  { rewrite E. rewrite <- app_assoc. apply firstn_app_len; reflexivity. }
  rewrite X1, X2. cbn [bind]. rewrite (test_op strtod EQU (s2l "EQU") a b i eq_refl). eexists. split; reflexivity.
Qed.

(** With nothing before "==" the code reads before its buffer; with nothing after
    a quotation mark and "==", after the end of the text. *)
Theorem C55_equal_refuted w p i neg q t a b nx : switches w p i neg q -> param w q t nx -> not_switch t -> ~ keyword t ->
  equal_sign t a b -> a = [] \/ (b = [] /\ exists a', a = a' ++ [dquote]) -> cond w (IF ++ p) = Undef.
Proof.
  intros S P N K E H. rewrite (cond_equal w p i neg q t a b nx S P N K E). unfold eq_sides.
  destruct H as [->|(-> & a' & ->)]; [reflexivity|]. rewrite app_length. cbn [length]. rewrite Nat.add_1_r. destruct E as [E _].
  replace (nth_error t (length a')) with (Some dquote).
  2:{ rewrite E. rewrite <- app_assoc. rewrite nth_error_app2 by lia. rewrite Nat.sub_diag. reflexivity. }
  rewrite ceq_refl.
  assert (X2 : skipn (Datatypes.S (length a') + 2) t = []).
  { rewrite E. apply skipn_all2. rewrite !app_length. cbn. lia. }
  rewrite X2. reflexivity.
Qed.

(** ** C56: ERRORLEVEL looks at a variable of this name and compares texts. *)
Theorem C56_errorlevel w p neg q k v rest : switches w p false neg q -> params w q [k; v] rest -> nonul k ->
  same_name (firstn 10 k) (s2l "errorlevel") ->
  cond w (IF ++ p) = do r <- pBat_GetEnv (vw_env (x_var w)) (s2l "ERRORLEVEL") ka;
                     match r with
                     | None => Undef
                     | Some t => Ret (IfGo (xorb neg (stricmp (firstn 4095 v) t =? 0)%Z) rest, w)
                     end.
Proof.
  intros S P N I. inversion P as [|s0 t0 r l0 e0 Hp Hr]; subst.
  inversion Hr as [|s1 t1 r1 l1 e1 Hp1 Hr1]; subst. inversion Hr1; subst.
  assert (M : nonul (firstn 10 k)) by (intros H; apply N; rewrite <- (firstn_skipn 10 k); apply in_or_app; auto).
  assert (LK : 10 <= length k).
  { pose proof (f_equal (@length _) I) as L. rewrite !map_length, firstn_length in L. cbn [s2l list_ascii_of_string length] in L. lia. }
  assert (NS : not_switch k).
  { repeat split; auto; [intros -> | intros X | intros X]; try (cbn in LK; lia);
      apply (f_equal (@length _)) in X; rewrite !map_length in X; cbn in X; lia. }
  rewrite (cond_kind strtod exists_file ka w p false neg q k r S Hp NS).
  assert (W : forall s, word (firstn 10 k) s = (stricmp (s2l "errorlevel") (s2l s) =? 0)%Z).
  { intros s. unfold word. f_equal. apply stricmp_same. exact I. }
  assert (W1 : word (firstn 10 k) "EXIST" = false) by (rewrite W; reflexivity).
  assert (W2 : word (firstn 10 k) "DEFINED" = false) by (rewrite W; reflexivity).
  assert (W3 : word (firstn 10 k) "ERRORLEVEL" = true) by (rewrite W; reflexivity).
  unfold if_kind. rewrite W1, W2, W3. cbn [andb]. unfold if_object.
  rewrite (get_cut w r 4095 v rest Hp1). cbn [bind]. unfold test_errorlevel.
  destruct (pBat_GetEnv (vw_env (x_var w)) (s2l "ERRORLEVEL") ka) as [[t|]| |]; cbn [bind]; try reflexivity.
  destruct neg, (stricmp (firstn 4095 v) t =? 0)%Z; reflexivity.
Qed.
End If.

(** ** Examples: without floating point numbers nor files. *)
Definition ex_strtod (s : cstr) : dbl * nat := (DNum (inject_Z 0), 0).
Definition ex_if (s : string) : outcome ifres :=
  do (r, _) <- if_cond ex_strtod (fun _ => false) 0 ex_w (s2l s); Ret r.
Definition ex_cmp (a op b : string) : option bool := pBat_PerformExtendedTest ex_strtod (s2l op) (s2l a) (s2l b) false.

Definition ex_words (l : list string) : list cstr := map s2l l.
Definition ex_exp : bexp :=
  BOr (BPar (BAnd (BTest (ex_words ["1"; "equ"; "2"]%string)) (BTest (ex_words ["a"; "equ"; "a"]%string))))
      (BTest (ex_words ["not"; "a"; "lss"; "b"]%string)).
Example C32_ex :
  shaped Conj ex_exp /\
  params ex_w (s2l " [ [ 1 equ 2 AND a equ a ] OR not a lss b ] x") (words (BPar ex_exp)) (s2l " x") /\
  ex_if "if [ [ 1 equ 2 and a equ a ] or not a lss b ] x" = Ret (IfGo false (s2l " x")) /\
  ex_if "if [ [ 1 equ 2 and a equ a ] or not b lss a ] x" = Ret (IfGo true (s2l " x")) /\
  ex_if "if /i [ a equ A ] x" = Ret (IfGo true (s2l " x")) /\
  ex_if "if [ a equ A ] x" = Ret (IfGo false (s2l " x")) /\
  ex_if "if [ not defined v ] x" = ex_if "if not defined v x".
Proof.
  split; [|split; [|vm_compute; repeat split]].
  - assert (T : forall l, forallb (fun t => negb (is_open t || is_close t || word t "AND" || word t "OR") &&
      forallb (fun c => negb (ceq c "000"%char)) t) l = true -> l <> [] -> shaped Atom (BTest l)).
    { intros l H N. rewrite forallb_forall in H. assert (U : Forall nonul l).
      { apply Forall_forall. intros t I. apply H, andb_prop in I. destruct I as [_ I]. intros X. rewrite forallb_forall in I.
        apply I in X. discriminate. }
      constructor; auto. apply Forall_forall. intros t I. pose proof (proj1 (Forall_forall _ _) U t I) as UT.
      apply H, andb_prop in I. destruct I as [I _]. apply negb_true_iff in I. rewrite !orb_false_iff in I. destruct I as [[[A B] C] D].
      unfold is_open, is_close in *. apply streqb_false in A, B. repeat split; auto; intros X; apply word_iff in X; auto;
        try congruence; apply nonul_lit; reflexivity. }
    unfold ex_exp. apply sh_disj, sh_or; [apply sh_par, sh_and; [|apply sh_disj]; apply sh_atom; apply T|apply sh_atom, T]; (reflexivity || discriminate).
  - repeat (eapply ps_cons; [vm_compute; reflexivity|]). apply ps_nil.
Qed.

Theorem C32_and_refuted : ex_if "if [ 1 equ 1 and 1 equ 2 ] x" = Undef.
Proof. reflexivity. Qed.
(** Other expressions that are not [shaped] read freed or missing memory. *)
Theorem C32_malformed_refuted :
  ex_if "if [ and 1 equ 1 ] x" = Undef /\ ex_if "if [ 1 equ 1 or [ ] ] x" = Undef /\ ex_if "if [ 1 equ 1 x" = Undef /\ ex_if "if [" = Undef.
Proof. vm_compute. repeat split. Qed.

Example C33_ex :
  switches ex_w (s2l " not a==b x") false true (s2l " a==b x") /\ param ex_w (s2l " a==b x") (s2l "a==b") (s2l " x") /\
  ex_if "if not a==b x" = Ret (IfGo true (s2l " x")) /\ ex_if "if a==b x" = Ret (IfGo false (s2l " x")) /\
  ex_if "if /i Not A==a x" = Ret (IfGo false (s2l " x")) /\ ex_if "if not defined nothing x" = Ret (IfGo true (s2l " x")).
Proof.
  split; [|vm_compute; repeat split]. apply (sw_not ex_w (s2l " not a==b x") (s2l "not")); try reflexivity. apply nonul_lit. reflexivity.
Qed.
Theorem C33_compare_refuted :
  ex_if "if not 1 equ 1 x" = Ret (IfGo true (s2l " x")) /\ ex_if "if 1 equ 1 x" = Ret (IfGo true (s2l " x")) /\
  ex_if "if not [ 1 equ 1 ] x" = Ret (IfGo true (s2l " x")).
Proof. vm_compute. repeat split. Qed.

Example C55_ex :
  number ex_strtod (s2l " -0x1F ,") (DNum (inject_Z (-31))) /\ number ex_strtod (s2l "") (DNum (inject_Z 0)) /\
  plain_text ex_strtod (s2l "1a") /\
  ex_cmp "010" "equ" "8" = Some true /\ ex_cmp "abc" "Lss" "abd" = Some true /\ ex_cmp "-3" "gtr" "2" = Some false /\
  ex_cmp "" "EQU" "0" = Some true /\ ex_cmp "a" "eq" "a" = None /\
  ex_if "if ""a b""==""a b"" x" = Ret (IfGo true (s2l " x")) /\ ex_if "if a==b x" = Ret (IfGo false (s2l " x")).
Proof.
  assert (B : forall c, pBat_IsDelim c = true -> blank c) by (intros c; apply Args_Proofs.delim_blank).
  split; [|split; [|split; [|vm_compute; repeat split]]].
  - apply (nb_int ex_strtod _ (-31)).
    + exists [" "%char], ["-"%char], (s2l "0x1F"), (s2l " ,"), 31%Z. split; [reflexivity|].
      split; [constructor; [cbv; auto|constructor]|]. split; [repeat (constructor; [apply B; reflexivity|]); constructor|].
      split; [|right; auto]. change 31%Z with (value 16 [1; 15]%Z). constructor; [cbn; auto|discriminate|].
      exists [1; 15]%Z. repeat split; repeat constructor; cbn; auto; lia.
    + unfold exact. lia.
  - apply nb_blank. constructor.
  - repeat split.
    + intros H. inversion H as [|c l X]; subst. revert X. cbv. intuition discriminate.
    + intros v I. destruct (strtol_ok _ _ I) as (t & T & E). assert (Y : snd (strtol0 (s2l "1a")) = t) by (rewrite E; reflexivity).
      change (snd (strtol0 (s2l "1a"))) with (s2l "a") in Y. subst t. inversion T as [|c l X]; subst. revert X. cbv. intuition discriminate.
    + intros H. inversion H as [|c l X]; subst. revert X. cbv. intuition discriminate.
Qed.

(** Numbers and texts being compared differently, there are cycles; large
    integers are rounded. *)
Theorem C55_order_refuted :
  ex_cmp "10" "lss" "1a" = Some true /\ ex_cmp "1a" "lss" "9" = Some true /\ ex_cmp "9" "lss" "10" = Some true.
Proof. vm_compute. repeat split. Qed.
Theorem C55_exact_refuted :
  ex_cmp "9007199254740993" "equ" "9007199254740992" = Some true /\
  ex_cmp "99999999999999999999" "equ" "9223372036854775807" = Some true.
Proof. vm_compute. repeat split. Qed.
Theorem C55_nan_refuted :
  exists st : cstr -> dbl * nat,
    pBat_PerformExtendedTest st (s2l "lss") (s2l "nan") (s2l "nan") false = Some false /\
    pBat_PerformExtendedTest st (s2l "geq") (s2l "nan") (s2l "nan") false = Some false.
Proof. exists (fun s => (DNaN, length s)). vm_compute. repeat split. Qed.
Theorem C55_left_refuted : ex_if "if ==b x" = Undef.
Proof. reflexivity. Qed.

Definition ex_level (v : string) : xworld :=
  mkX (mkVW (mkEnv [mkVar (Some (s2l "ErrorLevel", 16%Z)) (s2l v) false []] 128) (s2l "/tmp") 3 42 [] []) (x_ka ex_w) (x_args ex_w) (x_locals ex_w)
      (x_script ex_w) (x_stat ex_w) (x_cap ex_w) (x_delayed ex_w).
Definition ex_errlevel (w : xworld) (s : string) : outcome ifres :=
  do (r, _) <- if_cond ex_strtod (fun _ => false) 0 w (s2l s); Ret r.
Example C56_ex :
  params (ex_level "2") (s2l " errorlevel 2 x") [s2l "errorlevel"; s2l "2"] (s2l " x") /\
  ex_errlevel (ex_level "2") "if errorlevel 2 x" = Ret (IfGo true (s2l " x")) /\
  ex_errlevel (ex_level "2") "if not errorlevels 3 x" = Ret (IfGo true (s2l " x")).
Proof. split; [repeat (eapply ps_cons; [vm_compute; reflexivity|]); apply ps_nil|vm_compute; repeat split]. Qed.
(** The documented meaning: the last command returned at least this code, here 3. *)
Theorem C56_level_refuted :
  vw_err (x_var ex_w) = 3%Z /\ ex_errlevel ex_w "if errorlevel 1 x" = Undef /\
  vw_err (x_var (ex_level "2")) = 3%Z /\ ex_errlevel (ex_level "2") "if errorlevel 1 x" = Ret (IfGo false (s2l " x")) /\
  ex_errlevel (ex_level "2") "if errorlevel 02 x" = Ret (IfGo false (s2l " x")).
Proof. vm_compute. repeat split. Qed.

Print Assumptions C32_if.
Print Assumptions C32_or.
Print Assumptions C32_compare.
Print Assumptions C32_object.
Print Assumptions C33_not.
Print Assumptions C55_numbers.
Print Assumptions C55_text.
Print Assumptions C55_cases.
Print Assumptions C55_opposite.
Print Assumptions C55_converse.
Print Assumptions C55_unknown.
Print Assumptions C55_equal.
Print Assumptions C55_equal_quoted.
Print Assumptions C55_equal_refuted.
Print Assumptions C56_errorlevel.
Print Assumptions C32_and_refuted.
Print Assumptions C32_malformed_refuted.
Print Assumptions C33_compare_refuted.
Print Assumptions C55_order_refuted.
Print Assumptions C55_exact_refuted.
Print Assumptions C55_nan_refuted.
Print Assumptions C55_left_refuted.
Print Assumptions C56_level_refuted.
