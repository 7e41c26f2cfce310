(** SetA_Proofs.v -- SET /A meets SetA_Spec. *)

From Verif Require Import Base Lex Num_Model Num_Proofs StrLib_Model StrLib_Spec Env_Model Env_Spec Env_Proofs Var_Model Var_Proofs
  Expand_Model Args_Model Args_Spec Args_Proofs Params_Model Params_Proofs Prompt_Spec Prompt_Proofs Set_Model Set_Spec Set_Proofs SetA_Model SetA_Spec.

(** ** Words *)
Lemma span_app p a r : forallb p a = true -> match r with c :: _ => p c = false | [] => True end -> span p (a ++ r) = (a, r).
Proof.
  induction a as [|c a IH]; intros A R; cbn [app span].
  - destruct r as [|c r]; auto. cbn. rewrite R. auto.
  - cbn [forallb] in A. apply andb_true_iff in A. destruct A as [A1 A2]. rewrite A1, IH; auto.
Qed.
Lemma span_spec p s a r : span p s = (a, r) -> s = a ++ r /\ forallb p a = true.
Proof.
  revert a r. induction s as [|c s IH]; intros a r H; cbn [span] in H; [injection H as <- <-; auto|].
  destruct (p c) eqn:P; [|injection H as <- <-; auto]. destruct (span p s) as [a' r'] eqn:X. injection H as <- <-.
  destruct (IH a' r' eq_refl) as [-> Y]. cbn. rewrite P, Y. auto.
Qed.
Definition stops (r : cstr) : Prop := match r with c :: _ => nodelim c = false | [] => True end.
Lemma special_delims c : In c special <-> nodelim c = false.
Proof.
  unfold nodelim. change delims_a with special. rewrite negb_false_iff. symmetry. apply inset_in.
Qed.
Lemma nodelim_iff c : nodelim c = true <-> ~ In c special.
Proof. rewrite special_delims. destruct (nodelim c); split; congruence. Qed.

Lemma digit_in c : is_digit c = true <-> In c (s2l "0123456789").
Proof.
  pose proof (ascii_forall (fun c => Bool.eqb (is_digit c) (inset (s2l "0123456789") c)) eq_refl c) as H. apply eqb_prop in H. rewrite H. apply inset_in.
Qed.
Lemma digits_all s : digits_only s -> forallb is_digit s = true.
Proof. intros H. apply forallb_forall. intros c I. unfold digits_only in H. rewrite Forall_forall in H. apply digit_in. auto. Qed.
Lemma digit_nodelim c : is_digit c = true -> nodelim c = true.
Proof. intros H. pose proof (ascii_forall (fun c => implb (is_digit c) (nodelim c)) eq_refl c) as X. cbv beta in X. rewrite H in X. exact X. Qed.
Lemma nodelim_digits s : forallb is_digit s = true -> forallb nodelim s = true.
Proof. rewrite !forallb_forall. intros H c I. apply digit_nodelim. auto. Qed.
Lemma stops_digit r : stops r -> match r with c :: _ => is_digit c = false | [] => True end.
Proof. destruct r as [|c r]; auto. cbn. intros H. destruct (is_digit c) eqn:X; auto. apply digit_nodelim in X. congruence. Qed.

Lemma hexdig c n : nth_error hexdigits n = Some (tolower c) ->
  hexval c = Z.of_nat n /\ is_hex c = true /\ (n < 10 -> is_digit c = true) /\ (n < 8 -> is_oct c = true) /\ nodelim c = true.
Proof.
  intros H. assert (L : n < 16) by (apply (nth_error_Some hexdigits n); congruence).
  pose proof (ascii_forall (fun c => forallb (fun n => implb (match nth_error hexdigits n with Some x => ceq x (tolower c) | None => false end)
    ((hexval c =? Z.of_nat n)%Z && is_hex c && implb (n <? 10) (is_digit c) && implb (n <? 8) (is_oct c) && nodelim c)) (seq 0 16)) eq_refl c) as X.
  cbv beta in X. rewrite forallb_forall in X. specialize (X n). rewrite H, ceq_refl in X. cbn [implb] in X.
  assert (I : In n (seq 0 16)) by (apply in_seq; lia). specialize (X I). rewrite !andb_true_iff in X. destruct X as ((((X1 & X2) & X3) & X4) & X5).
  apply Z.eqb_eq in X1. split; auto. split; auto. split; [|split; auto].
  - intros K. apply Nat.ltb_lt in K. rewrite K in X3. auto.
  - intros K. apply Nat.ltb_lt in K. rewrite K in X4. auto.
Qed.
Lemma reads_ok b s z : reads b s z -> posval (Z.of_nat b) s = z /\ Forall (fun c => exists n, nth_error hexdigits n = Some (tolower c) /\ n < b) s.
Proof.
  induction 1 as [|s z c n R [IH1 IH2] N L]; [split; [reflexivity|constructor]|]. split.
  - unfold posval in *. rewrite fold_left_app, IH1. cbn [fold_left]. destruct (hexdig c n N) as (-> & _). auto.
  - apply Forall_app. split; auto. constructor; eauto.
Qed.
Lemma reads_forall b s z p : reads b s z -> (forall c n, nth_error hexdigits n = Some (tolower c) -> n < b -> p c = true) -> forallb p s = true.
Proof.
  intros R H. apply reads_ok in R. destruct R as [_ R]. apply forallb_forall. rewrite Forall_forall in R. intros c I. destruct (R c I) as (n & N & L). eauto.
Qed.
Lemma numeral_ok t z : numeral t z -> t <> [] /\ is_integer t = true /\ strtoll t = Z.min LLONG_MAX z /\ forallb nodelim t = true.
Proof.
  destruct 1 as [c s z C R|s z R|c s z R].
  - assert (Dg : forallb is_digit (c :: s) = true) by (eapply reads_forall; eauto; intros c' n N L; apply (hexdig c' n N); auto).
    split; [discriminate|]. split; [unfold is_integer; rewrite Dg; auto|]. split; [|apply nodelim_digits; auto].
    unfold strtoll. replace (ceq c "0"%char) with false by (symmetry; apply ceq_false; auto). f_equal. apply (reads_ok 10); auto.
  - assert (Oc : forallb is_oct s = true) by (eapply reads_forall; eauto; intros c' n N L; apply (hexdig c' n N); auto).
    assert (Dg : forallb is_digit s = true) by (eapply reads_forall; eauto; intros c' n N L; apply (hexdig c' n N); lia).
    split; [discriminate|]. split; [unfold is_integer; cbn [forallb]; rewrite Dg; auto|]. split; [|cbn [forallb]; rewrite nodelim_digits; auto].
    unfold strtoll. change (ceq "0" "0") with true. cbn iota. destruct s as [|x h].
    + apply (reads_ok 8) in R. destruct R as [<- _]. reflexivity.
    + replace (ceq x "x"%char) with false.
      * rewrite <- (app_nil_r ("0"%char :: x :: h)) at 1. rewrite span_app; [|cbn [forallb] in *; auto|auto]. f_equal. cbn [fst].
        transitivity (posval (Z.of_nat 8) (x :: h)); [reflexivity|]. apply (reads_ok 8); auto.
      * symmetry. apply ceq_false. intros ->. cbn in Oc. discriminate.
  - assert (Hx : forallb is_hex (c :: s) = true) by (eapply reads_forall; eauto; intros c' n N L; apply (hexdig c' n N); auto).
    split; [discriminate|]. split.
    + unfold is_integer. change (s2l "0x" ++ c :: s) with ("0"%char :: "x"%char :: c :: s). cbn iota. cbn [skipn]. rewrite Hx. change (ceq "0" "0") with true.
      change (ceq "x" "x") with true. cbn [andb]. apply orb_true_r.
    + split.
      * unfold strtoll. cbn [s2l list_ascii_of_string app]. change (ceq "0" "0") with true. change (ceq "x" "x") with true. cbn iota. f_equal. apply (reads_ok 16); auto.
      * cbn [s2l list_ascii_of_string app forallb]. change (nodelim "0") with true. change (nodelim "x") with true. cbn [andb].
        change (forallb nodelim (c :: s) = true). eapply reads_forall; eauto. intros c' n N L; apply (hexdig c' n N); auto.
Qed.

Section SetAProofs.
Variable F : fp.
Notation num := (num F). Notation token := (token F).

Lemma word_num t z r : numeral t z -> stops r -> scan_word F (t ++ r) = (TNum F (mkNum F false (Z.min LLONG_MAX z) (of_Z F (Z.min LLONG_MAX z))), r).
Proof.
  intros N S. destruct (numeral_ok t z N) as (_ & I & V & A). unfold scan_word. rewrite span_app by auto. rewrite I, V. reflexivity.
Qed.
Lemma float_exp_stop r : stops r -> float_exp r = 0.
Proof.
  destruct r as [|e r]; auto. intros S. unfold float_exp. destruct (ceq e "e"%char) eqn:X; [apply ceq_true in X; subst; discriminate|].
  destruct (ceq e "E"%char) eqn:Y; [apply ceq_true in Y; subst; discriminate|]. reflexivity.
Qed.
Lemma float_ok t r : float_text t -> stops r -> float_len (t ++ r) = length t /\ exists w u, span nodelim (t ++ r) = (w, u) /\ length w <= length t /\ is_integer w = false.
Proof.
  intros (a & b & x & -> & A & B & AB & X) S. apply digits_all in A, B.
  assert (E : float_exp (x ++ r) = length x /\ match x ++ r with c :: _ => is_digit c = false | [] => True end).
  { destruct X as [->|(e & s & d & -> & He & Hs & Hd & Dd)].
    - cbn [app length]. split; [apply float_exp_stop; auto|apply stops_digit; auto].
    - apply digits_all in Dd. cbn [app]. rewrite <- app_assoc.
      assert (SD : span is_digit (d ++ r) = (d, r)) by (apply span_app; auto; apply stops_digit; auto).
      assert (NE : match d with [] => 0 | _ => 2 + length d end = 2 + length d /\ match d with [] => 0 | _ => 1 + length d end = 1 + length d) by (destruct d; [contradiction|auto]).
      split; [|cbn in He; destruct He as [<-|[<-|[]]]; reflexivity].
      unfold float_exp. replace (ceq e "e"%char || ceq e "E"%char) with true by (cbn in He; destruct He as [<-|[<-|[]]]; reflexivity).
      destruct Hs as [<-|[<-|[<-|[]]]].
      + cbn [app]. destruct d as [|c d]; [contradiction|]. cbn [app forallb] in *. apply andb_true_iff in Dd. destruct Dd as [Dc Dd].
        replace (ceq c "+"%char || ceq c "-"%char) with false.
        * rewrite SD. cbn [fst length]. auto.
        * symmetry. apply orb_false_iff. split; apply ceq_false; intros ->; discriminate.
      + cbn [s2l list_ascii_of_string app]. change (ceq "+" "+" || ceq "+" "-") with true. cbn iota. rewrite SD. cbn [fst length]. destruct d; [contradiction|reflexivity].
      + cbn [s2l list_ascii_of_string app]. change (ceq "-" "+" || ceq "-" "-") with true. cbn iota. rewrite SD. cbn [fst length]. destruct d; [contradiction|reflexivity]. }
  destruct E as [E E']. split.
  - unfold float_len. rewrite <- !app_assoc. cbn [app]. rewrite <- app_assoc. rewrite span_app; [|auto|reflexivity].
    change (ceq "." ".") with true. cbn iota. rewrite span_app; [|auto|auto]. rewrite E, !app_length. cbn [length]. rewrite app_length.
    destruct a, b; try (destruct AB; contradiction); cbn [length]; lia.
  - assert (K : exists v, (x = v \/ (exists y, x = v ++ y /\ stops (y ++ r))) /\ forallb nodelim v = true /\ stops (skipn (length v) x ++ r)).
    { destruct X as [->|(e & s & d & -> & He & Hs & Hd & Dd)]; [exists []; cbn; auto|]. apply digits_all, nodelim_digits in Dd.
      assert (Ne : nodelim e = true) by (cbn in He; destruct He as [<-|[<-|[]]]; reflexivity).
      destruct Hs as [<-|[<-|[<-|[]]]].
      - exists (e :: d). cbn [app]. split; auto. cbn [forallb]. rewrite Ne, Dd. split; auto. rewrite skipn_all. exact S.
      - exists [e]. split; [right; exists (s2l "+" ++ d); split; [reflexivity|reflexivity]|]. cbn [forallb]. rewrite Ne. split; auto. reflexivity.
      - exists [e]. split; [right; exists (s2l "-" ++ d); split; [reflexivity|reflexivity]|]. cbn [forallb]. rewrite Ne. split; auto. reflexivity. }
    destruct K as (v & Kv & Nv & _).
    assert (K : exists y, x = v ++ y /\ stops (y ++ r)) by (destruct Kv as [->|K]; auto; exists []; rewrite app_nil_r; auto).
    destruct K as (y & -> & Sy). exists (a ++ "."%char :: b ++ v), (y ++ r). split; [|split].
    + replace ((a ++ "."%char :: b ++ v ++ y) ++ r) with ((a ++ "."%char :: b ++ v) ++ (y ++ r)) by (rewrite <- !app_assoc; cbn [app]; rewrite <- !app_assoc; auto).
      apply span_app; auto. rewrite forallb_app. cbn [forallb]. rewrite forallb_app, Nv, !nodelim_digits by auto. reflexivity.
    + rewrite !app_length. cbn [length]. rewrite !app_length. lia.
    + destruct (is_integer (a ++ "."%char :: b ++ v)) eqn:I; auto. exfalso. unfold is_integer in I.
      destruct (a ++ "."%char :: b ++ v) as [|z l] eqn:W; [discriminate|].
      apply orb_true_iff in I. destruct I as [I|I].
      * rewrite <- W, forallb_app in I. cbn [forallb] in I. change (is_digit ".") with false in I. cbn in I. rewrite andb_false_r in I. discriminate.
      * destruct l as [|c [|h l]]; try discriminate. rewrite !andb_true_iff in I. destruct I as ((I1 & I2) & I3). apply ceq_true in I1, I2. subst z c.
        destruct a as [|a0 [|a1 a]]; injection W; intros; try discriminate; subst.
        cbn [forallb] in A. rewrite !andb_true_iff in A. destruct A as (_ & A & _). discriminate.
Qed.
Lemma word_flt t r : float_text t -> stops r -> scan_word F (t ++ r) = (TNum F (mkNum F true 0 (strtod F t)), r).
Proof.
  intros T S. destruct (float_ok t r T S) as (L & w & u & W & Lw & I). unfold scan_word. rewrite W, L, I.
  replace (length w <=? length t) with true by (symmetry; apply Nat.leb_le; auto).
  rewrite firstn_app, firstn_all, Nat.sub_diag, skipn_app, skipn_all, Nat.sub_diag. cbn. rewrite app_nil_r. auto.
Qed.
Ltac pick H := cbn in H; repeat (destruct H as [<-|H]); [..|contradiction].
Lemma word_const c r : In c constants -> stops r -> scan_word F (c ++ r) = (TNum F (mkNum F true 0 (constant F c)), r).
Proof.
  intros I S. assert (N : forallb nodelim c = true) by (revert I; apply (proj1 (forallb_forall (forallb nodelim) constants) eq_refl)).
  unfold scan_word. rewrite span_app by auto.
  assert (Fl : float_len (c ++ r) = 0) by (pick I; reflexivity). rewrite Fl.
  assert (X : is_integer c = false /\ (length c <=? 0) = false /\ existsb (streqb c) constants = true) by (pick I; repeat split; reflexivity).
  destruct X as (-> & -> & ->). reflexivity.
Qed.
Lemma word_fun c r : In c functions -> stops r -> scan_word F (c ++ r) = (TFun F c, r).
Proof.
  intros I S. assert (N : forallb nodelim c = true) by (revert I; apply (proj1 (forallb_forall (forallb nodelim) functions) eq_refl)).
  unfold scan_word. rewrite span_app by auto.
  assert (Fl : float_len (c ++ r) = 0) by (pick I; reflexivity). rewrite Fl.
  assert (X : is_integer c = false /\ (length c <=? 0) = false /\ existsb (streqb c) constants = false /\ existsb (streqb c) functions = true) by (pick I; repeat split; reflexivity).
  destruct X as (-> & -> & -> & ->). reflexivity.
Qed.
Lemma existsb_none w l : ~ In w l -> existsb (streqb w) l = false.
Proof.
  intros N. destruct (existsb (streqb w) l) eqn:E; auto. apply existsb_exists in E. destruct E as (x & I & X). apply streqb_true in X. subst. contradiction.
Qed.
Lemma word_var n r : varname n -> stops r -> scan_word F (n ++ r) = (TVar F n, r).
Proof.
  intros ((c & s & -> & C) & Sp & NC & NF & _) S.
  assert (N : forallb nodelim (c :: s) = true) by (apply forallb_forall; rewrite Forall_forall in Sp; intros x I; apply nodelim_iff; auto).
  unfold scan_word. rewrite span_app by auto. cbn [app].
  assert (Dg : is_digit c = false) by (destruct (is_digit c) eqn:X; auto; apply digit_in in X; exfalso; apply C; revert X; cbn; intuition).
  assert (Dt : ceq c "."%char = false) by (apply ceq_false; intros ->; apply C; cbn; intuition).
  assert (Fl : float_len (c :: s ++ r) = 0) by (unfold float_len; cbn [span]; rewrite Dg; rewrite Dt; reflexivity). rewrite Fl.
  assert (I : is_integer (c :: s) = false).
  { unfold is_integer. cbn [forallb]. rewrite Dg. cbn [andb orb]. destruct s as [|x [|h s]]; auto. replace (ceq c "0"%char) with false; auto.
    symmetry. apply ceq_false. intros ->. discriminate. }
  rewrite I. change (length (c :: s) <=? 0) with false. cbn iota. rewrite !existsb_none by auto. reflexivity.
Qed.

(** ** Tokens *)
Definition lx (s : cstr) (l : list token) : Prop :=
  forall f rest r, stops rest -> (forall f', length rest < f' -> scan F f' rest = Ret r) -> length (s ++ rest) < f -> scan F f (s ++ rest) = Ret (l ++ r).
Lemma lx_nil : lx [] [].
Proof. intros f rest r S R L. apply R. exact L. Qed.
Lemma lx_app s1 s2 l1 l2 : stops s2 -> lx s1 l1 -> lx s2 l2 -> lx (s1 ++ s2) (l1 ++ l2).
Proof.
  intros S H1 H2 f rest r SR R L. rewrite <- !app_assoc. apply H1.
  - destruct s2; auto.
  - intros f' L'. apply H2; auto.
  - rewrite app_assoc. exact L.
Qed.
Lemma lx_word t tok : t <> [] -> forallb nodelim (firstn 1 t) = true -> (forall r, stops r -> scan_word F (t ++ r) = (tok, r)) -> lx t [tok].
Proof.
  intros NE N W f rest r S R L. destruct t as [|c t]; [contradiction|]. destruct f as [|f]; [cbn in L; lia|].
  cbn [app scan]. cbn [firstn forallb] in N. rewrite andb_true_r in N.
  assert (X : ceq c nl = false /\ ceq c " "%char = false /\ ceq c "009"%char = false) by (repeat split; apply ceq_false; intros ->; discriminate).
  destruct X as (-> & -> & ->). cbn [orb]. rewrite N. specialize (W rest S). cbn [app] in W. rewrite W. rewrite R; [reflexivity|].
  cbn [app length] in L. rewrite app_length in L. lia.
Qed.
Lemma lx_space c s l : aspace c -> lx s l -> lx (c :: s) l.
Proof.
  intros C H f rest r S R L. destruct f as [|f]; [cbn in L; lia|]. cbn [app scan].
  replace (ceq c nl) with false by (symmetry; destruct C as [->| ->]; reflexivity).
  replace (ceq c " "%char || ceq c "009"%char) with true by (destruct C as [->| ->]; reflexivity).
  apply H; auto. cbn [app length] in L. lia.
Qed.
Lemma lx_spaces b s l : Forall aspace b -> lx s l -> lx (b ++ s) l.
Proof. induction 1; intros; cbn [app]; auto. apply lx_space; auto. Qed.
Lemma aspace_stop c s : aspace c -> stops (c :: s).
Proof. intros [->| ->]; reflexivity. Qed.
Lemma lx_right c s l : aspace c -> lx s l -> lx (s ++ [c]) l.
Proof.
  intros C H. rewrite <- (app_nil_r l). apply lx_app; auto; [apply aspace_stop; auto|]. apply lx_space; auto. apply lx_nil.
Qed.
Lemma lx_sign c tok s l : nodelim c = false -> ~ aspace c -> c <> nl -> (forall r, scan_op F c (s ++ r) = (Some tok, s ++ r)) -> lx s l -> lx (c :: s) (tok :: l).
Proof.
  intros N A E O H f rest r S R L. destruct f as [|f]; [cbn in L; lia|]. cbn [app scan].
  replace (ceq c nl) with false by (symmetry; apply ceq_false; auto).
  replace (ceq c " "%char || ceq c "009"%char) with false by (symmetry; apply orb_false_iff; split; apply ceq_false; intros ->; apply A; unfold aspace; auto).
  rewrite N, O. rewrite (H f rest r S R); [reflexivity|]. cbn [app length] in L. lia.
Qed.
Definition first_ok (s : cstr) : Prop := match s with c :: _ => c <> "&"%char /\ c <> "|"%char | [] => False end.
Lemma nodelim_first t s : t <> [] -> forallb nodelim t = true -> first_ok (t ++ s).
Proof.
  destruct t as [|c t]; [contradiction|]. intros _ H. cbn in H. apply andb_true_iff in H. destruct H as [H _].
  cbn. split; intros ->; discriminate.
Qed.
Lemma spells_first e p s : spells e p s -> first_ok s.
Proof.
  induction 1 as [t z N|t T|c C|n V|n b e s V B H IH|e s H IH|e s H IH|e s H IH|f b e s Hf B H IH|p l t o a b s1 s2 Hl Ht H1 IH1 H2 IH2|e p s H IH|e p c s C H IH|e p c s C H IH];
    auto; try (cbn; split; discriminate).
  - destruct (numeral_ok t z N) as (NE & _ & _ & A). rewrite <- (app_nil_r t). apply nodelim_first; auto.
  - destruct T as (a & b & x & -> & A & B & _). destruct a as [|c a]; [cbn; split; discriminate|].
    apply digits_all, nodelim_digits in A. apply nodelim_first; auto. discriminate.
  - rewrite <- (app_nil_r c). apply nodelim_first; revert C; [intros C ->; cbn in C; intuition discriminate|].
    apply (proj1 (forallb_forall (forallb nodelim) constants) eq_refl).
  - destruct V as ((c & r & -> & _) & Sp & _). apply Forall_inv in Sp. cbn. split; intros ->; apply Sp; cbn; tauto.
  - destruct V as ((c & r & -> & _) & Sp & _). apply Forall_inv in Sp. cbn. split; intros ->; apply Sp; cbn; tauto.
  - apply nodelim_first; revert Hf; [intros C ->; cbn in C; intuition discriminate|]. apply (proj1 (forallb_forall (forallb nodelim) functions) eq_refl).
  - destruct s1; [contradiction|exact IH1].
  - destruct C as [->| ->]; cbn; split; discriminate.
  - destruct s; [contradiction|exact IH].
Qed.

(** The expressions that tokens make. *)
Inductive wr : expr -> nat -> list token -> Prop :=
| wr_num z : wr (Num z) 5 [TNum F (mkNum F false (Z.min LLONG_MAX z) (of_Z F (Z.min LLONG_MAX z)))]
| wr_flt t : wr (Flt t) 5 [TNum F (mkNum F true 0 (strtod F t))]
| wr_const c : wr (Const c) 5 [TNum F (mkNum F true 0 (constant F c))]
| wr_var n : wr (Var n) 5 [TVar F n]
| wr_set n e l : wr e 5 l -> wr (Assign n e) 5 (TVar F n :: TEq F :: l)
| wr_neg e l : wr e 5 l -> wr (Neg e) 5 (TOp F OSub :: l)
| wr_not e l : wr e 5 l -> wr (Not e) 5 (TTilde F :: l)
| wr_paren e l : wr e 0 l -> wr e 5 (TLpar F :: l ++ [TRpar F])
| wr_fun f e l : wr e 0 l -> wr (Fun f e) 5 (TFun F f :: TLpar F :: l ++ [TRpar F])
| wr_bin o a b l1 l2 : wr a (prec o) l1 -> wr b (S (prec o)) l2 -> wr (Bin o a b) (prec o) (l1 ++ TOp F o :: l2)
| wr_tighter e p l : wr e (S p) l -> wr e p l.

Lemma lx_paren s l : lx s l -> lx ("("%char :: s ++ [")"%char]) (TLpar F :: l ++ [TRpar F]).
Proof.
  intros H. apply lx_sign; [reflexivity|intros [X|X]; discriminate|discriminate|reflexivity|]. apply lx_app; auto; [reflexivity|].
  apply lx_sign; [reflexivity|intros [X|X]; discriminate|discriminate|reflexivity|apply lx_nil].
Qed.
Lemma lx_op p l t o s2 l2 : nth_error levels p = Some l -> In (t, o) l -> first_ok s2 -> lx s2 l2 -> prec o = p /\ stops (t ++ s2) /\ lx (t ++ s2) (TOp F o :: l2).
Proof.
  intros Hl Ht Fo H.
  assert (One : forall c, nodelim c = false -> ~ aspace c -> c <> nl -> (forall r, scan_op F c (s2 ++ r) = (Some (TOp F o), s2 ++ r)) -> lx ([c] ++ s2) (TOp F o :: l2))
    by (intros; cbn [app]; apply lx_sign; auto).
  assert (Two : forall c, nodelim c = false -> ~ aspace c -> c <> nl -> (forall r, scan_op F c (c :: s2 ++ r) = (Some (TOp F o), s2 ++ r)) -> lx ([c; c] ++ s2) (TOp F o :: l2)).
  { intros c N A E O f rest r S R L. destruct f as [|f]; [cbn in L; lia|]. cbn [app scan].
    replace (ceq c nl) with false by (symmetry; apply ceq_false; auto).
    replace (ceq c " "%char || ceq c "009"%char) with false by (symmetry; apply orb_false_iff; split; apply ceq_false; intros ->; apply A; unfold aspace; auto).
    rewrite N, O. rewrite (H f rest r S R); [reflexivity|]. cbn [app length] in L. lia. }
  assert (Amp : forall c r, (c = "&"%char \/ c = "|"%char) -> match s2 ++ r with c' :: r' => ceq c' c = false | [] => True end).
  { intros c r C. destruct s2 as [|x s2]; [contradiction|]. cbn in *. apply ceq_false. destruct C as [->| ->]; tauto. }
  assert (Q : forall c, ~ aspace c <-> c <> " "%char /\ c <> "009"%char) by (intros c; unfold aspace; tauto).
  assert (A1 : forall r, scan_op F "&"%char (s2 ++ r) = (Some (TOp F OAnd), s2 ++ r)).
  { intros r. specialize (Amp "&"%char r (or_introl eq_refl)). unfold scan_op. cbn. destruct (s2 ++ r); auto. rewrite Amp. auto. }
  assert (A2 : forall r, scan_op F "|"%char (s2 ++ r) = (Some (TOp F OOr), s2 ++ r)).
  { intros r. specialize (Amp "|"%char r (or_intror eq_refl)). unfold scan_op. cbn. destruct (s2 ++ r); auto. rewrite Amp. auto. }
  do 5 (destruct p as [|p]; [injection Hl as <-; cbn [In] in Ht;
    repeat (destruct Ht as [Ht|Ht]; [injection Ht as <- <-; split; [reflexivity|]; split; [reflexivity|];
       first [apply One; [reflexivity|apply Q; split; discriminate|discriminate|first [exact A1|exact A2|reflexivity]]
             |apply Two; [reflexivity|apply Q; split; discriminate|discriminate|reflexivity]]|]); contradiction|]).
  destruct p; discriminate.
Qed.

Lemma spells_lex e p s : spells e p s -> exists l, lx s l /\ wr e p l.
Proof.
  induction 1 as [t z N|t T|c C|n V|n b e s V B H (l' & IH1 & IH2)|e s H (l' & IH1 & IH2)|e s H (l' & IH1 & IH2)|e s H (l' & IH1 & IH2)|f b e s Hf B H (l' & IH1 & IH2)
                 |p l t o a b s1 s2 Hl Ht H1 (l1 & IH1 & IH1') H2 (l2 & IH2 & IH2')|e p s H (l' & IH1 & IH2)|e p c s C H (l' & IH1 & IH2)|e p c s C H (l' & IH1 & IH2)].
  - eexists. split; [|constructor]. destruct (numeral_ok t z N) as (NE & _ & _ & A). apply lx_word; auto; [|intros; apply word_num; auto].
    destruct t; auto. cbn in *. apply andb_true_iff in A. destruct A as [-> _]. auto.
  - eexists. split; [|constructor]. apply lx_word; [| |intros; apply word_flt; auto].
    + destruct T as (a & ? & ? & -> & _). destruct a; discriminate.
    + destruct T as (a & ? & ? & -> & A & _). apply digits_all, nodelim_digits in A. destruct a as [|c a]; auto. cbn in *. apply andb_true_iff in A. destruct A as [-> _]. auto.
  - eexists. split; [|constructor]. apply lx_word; [| |intros; apply word_const; auto]; revert C; [intros C ->; cbn in C; intuition discriminate|].
    apply (proj1 (forallb_forall (fun c => forallb nodelim (firstn 1 c)) constants) eq_refl).
  - eexists. split; [|constructor]. apply lx_word; [| |intros; apply word_var; auto].
    + destruct V as ((c & r & -> & _) & _). discriminate.
    + destruct V as ((c & r & -> & _) & Sp & _). apply Forall_inv, nodelim_iff in Sp. cbn. rewrite Sp. auto.
  - exists (TVar F n :: TEq F :: l'). split; [|constructor; auto]. change (TVar F n :: TEq F :: l') with ([TVar F n] ++ (TEq F :: l')).
    apply lx_app.
    + destruct b as [|c b]; [reflexivity|]. apply Forall_inv in B. apply aspace_stop; auto.
    + apply lx_word; [| |intros; apply word_var; auto].
      * destruct V as ((c & r & -> & _) & _). discriminate.
      * destruct V as ((c & r & -> & _) & Sp & _). apply Forall_inv, nodelim_iff in Sp. cbn. rewrite Sp. auto.
    + apply lx_spaces; auto. apply lx_sign; auto; [intros [X|X]; discriminate|discriminate].
  - exists (TOp F OSub :: l'). split; [|constructor; auto]. apply lx_sign; auto; [intros [X|X]; discriminate|discriminate].
  - exists (TTilde F :: l'). split; [|constructor; auto]. apply lx_sign; auto; [intros [X|X]; discriminate|discriminate].
  - exists (TLpar F :: l' ++ [TRpar F]). split; [|constructor; auto]. apply lx_paren; auto.
  - exists (TFun F f :: TLpar F :: l' ++ [TRpar F]). split; [|constructor; auto]. change (TFun F f :: TLpar F :: l' ++ [TRpar F]) with ([TFun F f] ++ (TLpar F :: l' ++ [TRpar F])).
    apply lx_app.
    + destruct b as [|c b]; [reflexivity|]. apply Forall_inv in B. apply aspace_stop; auto.
    + apply lx_word; [| |intros; apply word_fun; auto]; revert Hf; [intros C ->; cbn in C; intuition discriminate|].
      apply (proj1 (forallb_forall (fun c => forallb nodelim (firstn 1 c)) functions) eq_refl).
    + apply lx_spaces; auto. apply lx_paren; auto.
  - exists (l1 ++ TOp F o :: l2). destruct (lx_op p l t o s2 l2) as (P & S & L); auto; [eapply spells_first; eauto|]. subst p. split.
    + apply lx_app; auto.
    + constructor; auto.
  - exists l'. split; auto. constructor; auto.
  - exists l'. split; auto. apply lx_space; auto.
  - exists l'. split; auto. apply lx_right; auto.
Qed.

(** ** The parser *)
Variables ka na : Z.
Fixpoint ev (e : expr) (en : env) : outcome (num * env) :=
  match e with
  | Num z => Ret (mkNum F false (Z.min LLONG_MAX z) (of_Z F (Z.min LLONG_MAX z)), en)
  | Flt t => Ret (mkNum F true 0 (strtod F t), en)
  | Const c => Ret (mkNum F true 0 (constant F c), en)
  | Var n => do d <- get_var F ka en n; do i <- cast F d; Ret (mkNum F false i d, en)
  | Assign n e => do (a, en) <- ev e en; do en <- set_var_a F ka na en n (as_double F a); Ret (a, en)
  | Neg e => do (a, en) <- ev e en; do a <- negate F a; Ret (a, en)
  | Not e => do (a, en) <- ev e en; do a <- complement F a; Ret (a, en)
  | Fun f e => do (a, en) <- ev e en; Ret (mkNum F true 0 (func F f (as_double F a)), en)
  | Bin o a b => do (x, en) <- ev a en; do (y, en) <- ev b en; do z <- binary F o x y; Ret (z, en)
  end.
Definition follows (p : nat) (rest : list token) : Prop :=
  match rest with TOp _ o :: _ => prec o <= p | TEq _ :: _ => False | _ => True end.
Notation p_expr := (p_expr F ka na). Notation p_unary := (p_unary F ka na). Notation p_more := (p_more F ka na).
Lemma expr_eq f p l e : p_expr (S f) p l e = do (r, e) <- p_unary f l e; match r with None => Ret (None, e) | Some (n, l) => p_more f p n l e end.
Proof. reflexivity. Qed.
Lemma more_eq f p a o l e : p_more (S f) p a (TOp F o :: l) e =
  if p <=? prec o then
    do (r, e) <- p_expr f (S (prec o)) l e;
    match r with Some (b, l) => do n <- binary F o a b; p_more f p n l e | None => Ret (None, e) end
  else Ret (Some (a, TOp F o :: l), e).
Proof. reflexivity. Qed.
Lemma unary_neg f l e : p_unary (S f) (TOp F OSub :: l) e =
  do (r, e) <- p_unary f l e; match r with Some (n, l) => do n <- negate F n; Ret (Some (n, l), e) | None => Ret (None, e) end.
Proof. reflexivity. Qed.
Lemma unary_not f l e : p_unary (S f) (TTilde F :: l) e =
  do (r, e) <- p_unary f l e; match r with Some (n, l) => do n <- complement F n; Ret (Some (n, l), e) | None => Ret (None, e) end.
Proof. reflexivity. Qed.
Lemma unary_set f v l e : p_unary (S f) (TVar F v :: TEq F :: l) e =
  do (r, e) <- p_unary f l e; match r with Some (n, l) => do e <- set_var_a F ka na e v (as_double F n); Ret (Some (n, l), e) | None => Ret (None, e) end.
Proof. reflexivity. Qed.
Lemma unary_paren f l e : p_unary (S f) (TLpar F :: l) e =
  do (r, e) <- p_expr f 0 l e; match r with Some (n, TRpar _ :: l) => Ret (Some (n, l), e) | _ => Ret (None, e) end.
Proof. reflexivity. Qed.
Lemma unary_fun f g l e : p_unary (S f) (TFun F g :: TLpar F :: l) e =
  do (r, e) <- p_expr f 0 l e; match r with Some (n, TRpar _ :: l) => Ret (Some (mkNum F true 0 (func F g (as_double F n)), l), e) | _ => Ret (None, e) end.
Proof. reflexivity. Qed.
Lemma more_stops f p n rest en : follows p rest -> 1 <= f -> p_more f (S p) n rest en = Ret (Some (n, rest), en).
Proof.
  intros C L. destruct f as [|f]; [lia|]. cbn. destruct rest as [|[]]; auto. cbn in C. destruct (prec o) eqn:P; auto.
  replace (p <=? n0) with false; auto. symmetry. apply Nat.leb_gt. lia.
Qed.
Lemma bind_assoc {A B C} (x : outcome A) (f : A -> outcome B) (g : B -> outcome C) : bind (bind x f) g = bind x (fun a => bind (f a) g).
Proof. destruct x; reflexivity. Qed.
Lemma bind_ext {A B} (x : outcome A) (f g : A -> outcome B) : (forall a, f a = g a) -> bind x f = bind x g.
Proof. intros H. destruct x; auto. apply H. Qed.
Lemma wr_len e p l : wr e p l -> 1 <= length l.
Proof. induction 1; cbn [length]; try lia. rewrite app_length. lia. Qed.

Lemma wr_le e p l : wr e p l -> p <= 5.
Proof. induction 1; try lia. Qed.

Lemma parse_ok e p l : wr e p l ->
  (p = 5 -> forall f rest en, 2 * length l <= f -> follows 5 rest ->
     p_unary f (l ++ rest) en = do (n, en) <- ev e en; Ret (Some (n, rest), en)) /\
  (forall q f rest en, q <= p -> 2 * length l + 1 <= f -> follows p rest ->
     exists f', f <= f' + 2 * length l /\ p_expr f q (l ++ rest) en = do (n, en) <- ev e en; p_more f' q n rest en).
Proof.
  assert (Up : forall e l, 1 <= length l -> (forall f rest en, 2 * length l <= f -> follows 5 rest ->
     p_unary f (l ++ rest) en = do (n, en) <- ev e en; Ret (Some (n, rest), en)) ->
     forall q f rest en, q <= 5 -> 2 * length l + 1 <= f -> follows 5 rest ->
     exists f', f <= f' + 2 * length l /\ p_expr f q (l ++ rest) en = do (n, en) <- ev e en; p_more f' q n rest en).
  { intros e0 l0 L0 U q f rest en Q L C. destruct f as [|f]; [lia|]. exists f. split; [lia|]. rewrite expr_eq.
    rewrite U by (auto; lia). rewrite bind_assoc. apply bind_ext. intros [n en']. reflexivity. }
  induction 1 as [z|t|c|n|n e l H [IHu IHe]|e l H [IHu IHe]|e l H [IHu IHe]|e l H [IHu IHe]|f e l H [IHu IHe]|o a b l1 l2 H1 [IHu1 IHe1] H2 [IHu2 IHe2]|e p l H [IHu IHe]].
  10: {
    split; [destruct o; discriminate|]. intros q f rest en Q L C. rewrite app_length in L. cbn [length] in L.
    pose proof (wr_len _ _ _ H1) as L1. pose proof (wr_len _ _ _ H2) as L2.
    rewrite <- app_assoc. cbn [app]. destruct (IHe1 q f (TOp F o :: l2 ++ rest) en Q) as (f1 & F1 & E1); [lia|cbn; lia|].
    destruct f1 as [|f1]; [lia|]. exists f1. split; [rewrite app_length; cbn [length]; lia|]. rewrite E1. cbn [ev]. rewrite !bind_assoc.
    apply bind_ext. intros [x en1]. rewrite bind_assoc. rewrite more_eq. replace (q <=? prec o) with true by (symmetry; apply Nat.leb_le; auto).
    destruct (IHe2 (S (prec o)) f1 rest en1) as (f2 & F2 & E2); [lia|lia|destruct rest as [|[]]; auto; cbn in *; lia|].
    rewrite E2. rewrite bind_assoc. apply bind_ext. intros [y en2]. rewrite more_stops by (auto; lia). cbn [bind].
    rewrite bind_assoc. apply bind_ext. intros z. reflexivity. }
  10: {
    split.
    - intros ->. intros f rest en L C. exfalso. apply wr_le in H. lia.
    - intros q f rest en Q L C. apply IHe; auto. destruct rest as [|[]]; auto. cbn in *. lia. }
  all: match goal with |- (5 = 5 -> ?U) /\ _ => assert (X : U); [|split; [intros _; exact X|intros q f' rest en Q L C; apply Up; auto; cbn; lia]] end.
  - intros f rest en L C. destruct f as [|f]; [cbn in L; lia|]. reflexivity.
  - intros f rest en L C. destruct f as [|f]; [cbn in L; lia|]. reflexivity.
  - intros f rest en L C. destruct f as [|f]; [cbn in L; lia|]. reflexivity.
  - intros f rest en L C. destruct f as [|f]; [cbn in L; lia|]. cbn [app SetA_Model.p_unary ev]. rewrite bind_assoc.
    destruct rest as [|[]]; try contradiction; apply bind_ext; intros d; rewrite bind_assoc; reflexivity.
  - intros f rest en L C. destruct f as [|f]; [cbn in L; lia|]. cbn [app ev length] in *. rewrite unary_set, IHu by (auto; lia).
    rewrite !bind_assoc. apply bind_ext. intros [x en1]. cbn [bind]. rewrite bind_assoc. reflexivity.
  - intros f rest en L C. destruct f as [|f]; [cbn in L; lia|]. cbn [app ev length] in *. rewrite unary_neg, IHu by (auto; lia).
    rewrite !bind_assoc. apply bind_ext. intros [x en1]. cbn [bind]. rewrite bind_assoc. reflexivity.
  - intros f rest en L C. destruct f as [|f]; [cbn in L; lia|]. cbn [app ev length] in *. rewrite unary_not, IHu by (auto; lia).
    rewrite !bind_assoc. apply bind_ext. intros [x en1]. cbn [bind]. rewrite bind_assoc. reflexivity.
  - intros f rest en L C. destruct f as [|f]; [cbn in L; lia|]. cbn [app length] in *. rewrite unary_paren. rewrite app_length in L. cbn [length] in L. rewrite <- app_assoc.
    destruct (IHe 0 f ([TRpar F] ++ rest) en) as (f1 & F1 & E1); [lia|lia|exact I|]. rewrite E1. rewrite bind_assoc. apply bind_ext. intros [x en1].
    destruct f1 as [|f1]; [lia|]. reflexivity.
  - intros f' rest en L C. destruct f' as [|f']; [cbn in L; lia|]. cbn [app length ev] in *. rewrite unary_fun. rewrite app_length in L. cbn [length] in L. rewrite <- app_assoc.
    destruct (IHe 0 f' ([TRpar F] ++ rest) en) as (f1 & F1 & E1); [lia|lia|exact I|]. rewrite E1. rewrite !bind_assoc. apply bind_ext. intros [x en1].
    destruct f1 as [|f1]; [lia|]. reflexivity.
Qed.

Lemma eval_ok stale e s en : spells e 0 s ->
  fasteval_evaluate F ka na stale en s = do (n, en) <- ev e en; Ret (as_double F n, n_double F n, en).
Proof.
  intros H. destruct (spells_lex e 0 s H) as (l & L & W). unfold fasteval_evaluate.
  assert (X : scan F (S (length s)) s = Ret l).
  { pose proof (L (S (length s)) [] []) as G. rewrite !app_nil_r in G. apply G; [exact I| |lia]. intros [|f] Lf; [cbn in Lf; lia|reflexivity]. }
  rewrite X. cbn [bind]. destruct (proj2 (parse_ok e 0 l W) 0 (4 * length l + 4) [] en) as (f1 & F1 & E1); [lia|lia|exact I|].
  rewrite app_nil_r in E1. rewrite E1. rewrite bind_assoc. apply bind_ext. intros [n en1]. destruct f1 as [|f1]; [lia|]. reflexivity.
Qed.

(** ** Integers *)
Lemma in_int_iff z : in_int z = true <-> (- 2147483648 <= z <= 2147483647)%Z.
Proof. unfold in_int, INT_MIN, INT_MAX. rewrite andb_true_iff, !Z.leb_le. tauto. Qed.
Lemma int64_iff z : int64 z = true <-> (- 9223372036854775808 <= z <= 9223372036854775807)%Z.
Proof. unfold int64. rewrite andb_true_iff, !Z.leb_le. tauto. Qed.
Lemma fits_iff b z : fits b z = true <-> (- b <= z <= b)%Z.
Proof. unfold fits. rewrite andb_true_iff, !Z.leb_le. tauto. Qed.
Lemma int_64 z : in_int z = true -> int64 z = true.
Proof. rewrite in_int_iff, int64_iff. lia. Qed.
Lemma int_53 z : in_int z = true -> fits B53 z = true.
Proof. rewrite in_int_iff, fits_iff. unfold B53. lia. Qed.
Lemma i64_ok z : int64 z = true -> i64 z = Ret z.
Proof. intros H. unfold i64. unfold int64 in H. change LLONG_MIN with (- 9223372036854775808)%Z. change LLONG_MAX with 9223372036854775807%Z. rewrite H. auto. Qed.

Lemma int_sign z : in_int z = true <-> Z.shiftr z 31 = 0%Z \/ Z.shiftr z 31 = (-1)%Z.
Proof.
  rewrite in_int_iff, Z.shiftr_div_pow2 by lia. change (2 ^ 31)%Z with 2147483648%Z.
  pose proof (Z.div_mod z 2147483648 ltac:(lia)). pose proof (Z.mod_pos_bound z 2147483648 ltac:(lia)). split; intros; [|lia].
  assert (z / 2147483648 < 1)%Z by nia. assert (-2 < z / 2147483648)%Z by nia. lia.
Qed.
Lemma int_bits x y : in_int x = true -> in_int y = true -> in_int (Z.land x y) = true /\ in_int (Z.lor x y) = true /\ in_int (Z.lxor x y) = true.
Proof.
  rewrite !int_sign, Z.shiftr_land, Z.shiftr_lor, Z.shiftr_lxor. intros [->| ->] [->| ->]; cbn; auto.
Qed.
Lemma int_div x y : in_int x = true -> (0 <= y)%Z -> in_int (x / 2 ^ y) = true.
Proof.
  rewrite !in_int_iff. intros X Y. assert (P : (0 < 2 ^ y)%Z) by (apply Z.pow_pos_nonneg; lia).
  pose proof (Z.div_mod x (2 ^ y) ltac:(lia)). pose proof (Z.mod_pos_bound x (2 ^ y) P).
  split; [apply Z.div_le_lower_bound; nia|]. apply Z.div_le_upper_bound; nia.
Qed.

Lemma dec_first z : exists c r, dec z = c :: r /\ (is_digit c = true \/ c = "-"%char).
Proof.
  pose proof (dec_chars z) as H. pose proof (proj1 (dec_plain z)) as N. destruct (dec z) as [|c r]; [congruence|]. exists c, r. split; auto. apply Forall_inv in H. auto.
Qed.

Section Exact.
Variable is : D F -> Z -> Prop.
Hypothesis X : exact F is.
Variable sg : bool.
Hypothesis KA : addr_ok sg ka.
Hypothesis NA : addr_ok sg na.

Lemma shows_text t z : shows t z -> exists c r, t = c :: r /\ streqb t (s2l "nan") = false /\ streqb t (s2l "inf") = false.
Proof.
  intros [->|[_ ->]]; [|eexists _, _; split; [reflexivity|split; reflexivity]].
  destruct (dec_first z) as (c & r & -> & C). exists c, r. split; auto.
  split; apply streqb_false; intros E; injection E as -> _; destruct C as [C|C]; discriminate.
Qed.
Lemma get_ok_num vs en n z : table_ok sg en -> nonul n -> holds en vs -> vs n = Some z -> fits B53 z = true ->
  exists d, get_var F ka en n = Ret d /\ is d z.
Proof.
  intros T N H V B. unfold get_var. rewrite (get_ok sg) by auto. cbn [bind]. destruct (H n z N V) as [[-> Hv]|(t & Hv & S)].
  - apply (value_lookup sg) in Hv; auto. destruct (lookup (e_buf en) n); [discriminate|]. cbn [option_map]. eexists. split; [reflexivity|]. apply (ex_of_Z _ _ X). reflexivity.
  - apply (value_lookup sg) in Hv; auto. destruct (lookup (e_buf en) n) as [v|]; [|discriminate]. injection Hv as Ht. cbn [option_map]. rewrite <- Ht.
    destruct (shows_text t z S) as (c & r & _ & -> & ->). eexists. split; [reflexivity|]. apply (ex_atof _ _ X); auto.
Qed.
(** An assignment of a number. *)
Lemma put_ok vs en n t z txt : table_ok sg en -> nonul n -> is_trimmed n t -> holds en vs -> shows txt z ->
  exists en', pBat_SetEnvEx en n ka na (Some txt) false = Ret en' /\ table_ok sg en' /\ holds en' (upd vs t z) /\ untouched [t] en en' /\
    (forall m, nonul m -> same_nameb t m = true -> value_of en' m (Some txt)).
Proof.
  intros T N Tr H S. destruct (shows_text txt z S) as (c & r & -> & _).
  destruct (set_ok sg en n ka na c r false T N NA) as (en' & v & E & T' & A & L).
  rewrite <- (trimmed_unique n t (pBat_AdjustVarName n) Tr (adjust_trimmed n)) in L, A.
  assert (V : v_content v = c :: r).
  { unfold assigned in A. destruct (lookup (e_buf en) t); [rewrite A; auto|]. destruct A as (st & -> & _). auto. }
  exists en'. split; auto. split; auto.
  assert (P : forall m, nonul m -> same_nameb t m = true -> value_of en' m (Some (c :: r))).
  { intros m M Q. apply (value_lookup sg); auto. rewrite L, Q. cbn. rewrite V. auto. }
  assert (U : forall m o, nonul m -> same_nameb t m = false -> value_of en m o -> value_of en' m o).
  { intros m o M Q Hv. apply (value_lookup sg) in Hv; auto. apply (value_lookup sg); auto. rewrite L, Q. auto. }
  split; [|split]; auto.
  - intros m y M. unfold upd. destruct (same_nameb t m) eqn:Q.
    + intros Y. injection Y as <-. right. exists (c :: r). auto.
    + intros Y. destruct (H m y M Y) as [[-> Hv]|(u & Hv & Hu)]; [left; auto|right; eauto].
  - intros m o M Q Hv. apply U; auto. apply Q. left. auto.
Qed.

Fixpoint names_ok (e : expr) : Prop :=
  match e with
  | Var n => varname n
  | Assign n e => varname n /\ names_ok e
  | Neg e | Not e | Fun _ e => names_ok e
  | Bin _ a b => names_ok a /\ names_ok b
  | _ => True
  end.
Lemma spells_names e p s : spells e p s -> names_ok e.
Proof. induction 1; cbn; auto. Qed.
Lemma varname_nonul n : varname n -> nonul n.
Proof. intros (_ & _ & _ & _ & N). exact N. Qed.
Lemma varname_trim n : varname n -> is_trimmed n n.
Proof.
  intros ((c & r & E & _) & Sp & _). exists []. rewrite app_nil_r. split; auto. split; auto. right.
  destruct (exists_last (l := n)) as (t & d & ->); [subst; discriminate|]. exists t, d. split; auto.
  apply Forall_app in Sp. destruct Sp as [_ Sp]. apply Forall_inv in Sp. split; intros ->; apply Sp; cbn; tauto.
Qed.
Lemma untouched_app a b e1 e2 e3 : untouched a e1 e2 -> untouched b e2 e3 -> untouched (a ++ b) e1 e3.
Proof.
  intros A B n v N H Hv. apply B; auto; [intros m I; apply H; apply in_or_app; auto|]. apply A; auto. intros m I. apply H. apply in_or_app. auto.
Qed.
Lemma untouched_refl e : untouched [] e e.
Proof. intros n v _ _ H. exact H. Qed.
Lemma untouched_le a b e1 e2 : incl a b -> untouched a e1 e2 -> untouched b e1 e2.
Proof. intros I U n v N H. apply U; auto. Qed.

Lemma operation_ok o x ex y ey z ez dx dy : operation o (x, ex) (y, ey) = Some (z, ez) -> int64 x = true -> int64 y = true ->
  (ex = true -> is dx x) -> (ey = true -> is dy y) ->
  exists d, binary F o (mkNum F false x dx) (mkNum F false y dy) = Ret (mkNum F false z d) /\ int64 z = true /\ (ez = true -> is d z).
Proof.
  intros H Hx Hy Dx Dy.
  assert (Bits : forall ok r, (if ex && ey && in_int x && in_int y && ok then Some (r, true) else None) = Some (z, ez) ->
      (in_int x = true -> in_int y = true -> ok = true -> int_op2 64 o x y = Ret r /\ int_op2 32 o x y = Ret r /\ in_int r = true) ->
      (forall a b, binary F o a b = INT_OP F o a b) ->
      exists d, binary F o (mkNum F false x dx) (mkNum F false y dy) = Ret (mkNum F false z d) /\ int64 z = true /\ (ez = true -> is d z)).
  { intros ok r E K B. destruct (ex && ey && in_int x && in_int y && ok) eqn:C; [|discriminate]. injection E as -> <-.
    rewrite !andb_true_iff in C. destruct C as ((((C1 & C2) & C3) & C4) & C5). destruct (K C3 C4 C5) as (K1 & K2 & K3).
    exists (of_Z F z). split; [|split; [apply int_64; auto|intros _; apply (ex_of_Z _ _ X); apply int_53; auto]].
    rewrite B. unfold INT_OP. cbn [n_double n_i n_d orb]. rewrite K1. cbn [bind]. unfold cast.
    rewrite (ex_trunc _ _ X dx x), (ex_trunc _ _ X dy y) by auto. cbn [bind].
    assert (Sc : int_op2 32 o x (match o with OLand => if (x =? 0)%Z then 0%Z else y | OLor => if (x =? 0)%Z then y else 0%Z | _ => y end) = Ret z).
    { destruct o; auto; destruct (x =? 0)%Z eqn:Q; auto; rewrite <- K2; cbn [int_op2]; rewrite Q; reflexivity. }
    destruct o; cbn [bind]; try (rewrite K2; reflexivity); destruct (x =? 0)%Z; cbn [bind] in *; rewrite ?Sc, ?K2; reflexivity. }
  assert (Arith : forall r more, (if int64 r then Some (r, ex && ey && more) else None) = Some (z, ez) -> z = r /\ int64 r = true /\ ez = ex && ey && more).
  { intros r more E. destruct (int64 r) eqn:Q; [|discriminate]. injection E as <- <-. auto. }
  assert (Two : forall b, ex && ey && b = true -> is dx x /\ is dy y /\ b = true) by (intros b E; rewrite !andb_true_iff in E; destruct E as [[E1 E2] E3]; auto).
  destruct o; cbn [operation] in H.
  - apply Arith in H. destruct H as (-> & I & ->). eexists. split; [unfold binary, INT_FLOAT_OP; cbn [n_double n_i n_d orb]; rewrite i64_ok by auto; reflexivity|]. split; auto. intros E. apply Two in E. apply (ex_add _ _ X); tauto.
  - apply Arith in H. destruct H as (-> & I & ->). eexists. split; [unfold binary, INT_FLOAT_OP; cbn [n_double n_i n_d orb]; rewrite i64_ok by auto; reflexivity|]. split; auto. intros E. apply Two in E. apply (ex_sub _ _ X); tauto.
  - apply Arith in H. destruct H as (-> & I & ->). eexists. split; [unfold binary, INT_FLOAT_OP; cbn [n_double n_i n_d orb]; rewrite i64_ok by auto; reflexivity|]. split; auto. intros E. apply Two in E. apply (ex_mul _ _ X); tauto.
  - destruct (y =? 0)%Z eqn:Z0; [discriminate|]. apply Arith in H. destruct H as (-> & I & ->). eexists. split; [unfold binary, INT_FLOAT_OP; cbn [n_double n_i n_d orb]; rewrite Z0, i64_ok by auto; reflexivity|]. split; auto.
    intros E. apply Two in E. destruct E as (E1 & E2 & E3). apply Z.eqb_eq in E3. apply Z.eqb_neq in Z0. apply (ex_div _ _ X); auto.
  - destruct (y =? 0)%Z eqn:Z0; [discriminate|]. cbn [orb] in H. destruct (int64 (Z.quot x y)) eqn:Iq; [|discriminate]. cbn [negb] in H. apply Arith in H. destruct H as (-> & I & ->).
    eexists. split; [unfold binary, INT_FLOAT_OP; cbn [n_double n_i n_d orb]; rewrite Z0, i64_ok by auto; reflexivity|]. split; auto.
    intros E. apply Two in E. destruct E as (E1 & E2 & E3). apply Z.eqb_neq in Z0. apply (ex_mod _ _ X); auto.
  - eapply Bits; eauto. intros P Q _. destruct (int_bits x y P Q) as (A & _). cbn. auto.
  - eapply Bits; eauto. intros P Q _. destruct (int_bits x y P Q) as (_ & A & _). cbn. auto.
  - eapply Bits; eauto. intros P Q _. destruct (int_bits x y P Q) as (_ & _ & A). cbn. auto.
  - eapply Bits; eauto. intros P Q _. cbn. destruct (x =? 0)%Z, (y =? 0)%Z; cbn; auto.
  - eapply Bits; eauto. intros P Q _. cbn. destruct (x =? 0)%Z, (y =? 0)%Z; cbn; auto.
  - eapply Bits; eauto. intros P Q Ok. rewrite !andb_true_iff, !Z.leb_le, !Z.ltb_lt in Ok. destruct Ok as (((O1 & O2) & O3) & O4). cbn [int_op2].
    rewrite Z.shiftl_mul_pow2 by lia. pose proof O4 as O5. apply in_int_iff in O4.
    assert (G : forall bits, (32 <= bits <= 64)%Z -> ((0 <=? y)%Z && (y <? bits)%Z && (0 <=? x)%Z && (x * 2 ^ y <? 2 ^ (bits - 1))%Z) = true).
    { intros bits Hb. rewrite !andb_true_iff, !Z.leb_le, !Z.ltb_lt. repeat split; try lia.
      assert (2 ^ 31 <= 2 ^ (bits - 1))%Z by (apply Z.pow_le_mono_r; lia). change (2 ^ 31)%Z with 2147483648%Z in *. lia. }
    rewrite !G by lia. auto.
  - eapply Bits; eauto. intros P Q Ok. rewrite andb_true_iff, Z.leb_le, Z.ltb_lt in Ok. cbn [int_op2].
    rewrite Z.shiftr_div_pow2 by lia. replace ((0 <=? y)%Z && (y <? 64)%Z) with true by (symmetry; rewrite andb_true_iff, Z.leb_le, Z.ltb_lt; lia).
    replace ((0 <=? y)%Z && (y <? 32)%Z) with true by (symmetry; rewrite andb_true_iff, Z.leb_le, Z.ltb_lt; lia).
    split; auto. split; auto. apply int_div; auto; lia.
Qed.

Lemma meaning_ok e : names_ok e -> forall vs z x vs' en, table_ok sg en -> holds en vs -> meaning e vs = Some (z, x, vs') ->
  exists d en', ev e en = Ret (mkNum F false z d, en') /\ int64 z = true /\ (x = true -> is d z) /\ table_ok sg en' /\ holds en' vs' /\ untouched (targets e) en en'.
Proof.
  induction e as [z0|t|c|n|n e IH|e IH|e IH|f e IH|o a IHa b IHb]; intros Nm vs z x vs' en T H M; cbn [meaning] in M; try discriminate; cbn [ev targets] in *.
  - destruct (int64 z0) eqn:I; [|discriminate]. injection M as <- <- <-. assert (Z.min LLONG_MAX z0 = z0) as -> by (apply int64_iff in I; unfold LLONG_MAX; lia).
    eexists _, en. split; [reflexivity|]. split; auto. split; [apply (ex_of_Z _ _ X)|]. split; auto. split; auto. apply untouched_refl.
  - destruct (vs n) as [y|] eqn:V; [|discriminate]. destruct (in_int y) eqn:I; [|discriminate]. injection M as <- <- <-.
    destruct (get_ok_num vs en n y T (varname_nonul n Nm) H V (int_53 y I)) as (d & G & Hd). rewrite G. cbn [bind]. unfold cast. rewrite (ex_trunc _ _ X d y) by auto.
    eexists _, en. split; [reflexivity|]. split; [apply int_64; auto|]. split; auto. split; auto. split; auto. apply untouched_refl.
  - destruct Nm as [Nn Nm]. destruct (meaning e vs) as [[[y ex] vs1]|] eqn:M1; [|discriminate]. destruct (fits B53 y) eqn:B; [|discriminate]. injection M as <- <- <-.
    destruct (IH Nm vs y ex vs1 en T H M1) as (d & en1 & E & I & Hd & T1 & H1 & U1). rewrite E. cbn [bind]. unfold as_double, set_var_a. cbn [n_double n_i]. rewrite (ex_16 _ _ X) by auto.
    destruct (put_ok vs1 en1 n n y (dec y) T1 (varname_nonul n Nn) (varname_trim n Nn) H1 (or_introl eq_refl)) as (en2 & E2 & T2 & H2 & U2 & _). rewrite E2. cbn [bind].
    eexists _, en2. split; [reflexivity|]. split; auto. split; auto. split; auto. split; auto.
    apply (untouched_le (targets e ++ [n])); [intros m; rewrite in_app_iff; cbn; tauto|]. eapply untouched_app; eauto.
  - destruct (meaning e vs) as [[[y ex] vs1]|] eqn:M1; [|discriminate]. destruct (int64 (- y)) eqn:B; [|discriminate]. injection M as <- <- <-.
    destruct (IH Nm vs y ex vs1 en T H M1) as (d & en1 & E & I & Hd & T1 & H1 & U1). rewrite E. cbn [bind]. unfold negate. cbn [n_double n_i n_d]. rewrite i64_ok by auto. cbn [bind].
    eexists _, en1. split; [reflexivity|]. split; auto. split; [intros Q; apply (ex_neg _ _ X); auto|]. auto.
  - destruct (meaning e vs) as [[[y ex] vs1]|] eqn:M1; [|discriminate]. destruct ex; [|discriminate]. destruct (in_int y) eqn:B; [|discriminate]. injection M as <- <- <-.
    destruct (IH Nm vs y true vs1 en T H M1) as (d & en1 & E & I & Hd & T1 & H1 & U1). rewrite E. cbn [bind]. unfold complement, cast. cbn [n_double n_i n_d].
    rewrite (ex_trunc _ _ X d y) by auto. cbn [bind]. assert (N : Z.lnot y = (- y - 1)%Z) by (unfold Z.lnot; lia). rewrite N.
    assert (In : in_int (- y - 1) = true) by (revert B; rewrite !in_int_iff; lia).
    eexists _, en1. split; [reflexivity|]. split; [apply int_64; auto|]. split; [intros _; apply (ex_of_Z _ _ X); apply int_53; auto|]. auto.
  - destruct Nm as [Na Nb]. destruct (meaning a vs) as [[[xa ea] vs1]|] eqn:M1; [|discriminate]. destruct (meaning b vs1) as [[[xb eb] vs2]|] eqn:M2; [|discriminate].
    destruct (operation o (xa, ea) (xb, eb)) as [[zz ez]|] eqn:Op; [|discriminate]. injection M as <- <- <-.
    destruct (IHa Na vs xa ea vs1 en T H M1) as (da & en1 & E1 & I1 & D1 & T1 & H1 & U1). rewrite E1. cbn [bind].
    destruct (IHb Nb vs1 xb eb vs2 en1 T1 H1 M2) as (db & en2 & E2 & I2 & D2 & T2 & H2 & U2). rewrite E2. cbn [bind].
    destruct (operation_ok o xa ea xb eb zz ez da db Op I1 I2 D1 D2) as (d & -> & Iz & Dz). cbn [bind].
    eexists _, en2. split; [reflexivity|]. split; auto. split; auto. split; auto. split; auto. eapply untouched_app; eauto.
Qed.
End Exact.

(** ** Floating point *)
Lemma fvalue_ok e : forall d en, fvalue F e = Some d -> exists n, ev e en = Ret (n, en) /\ n_double F n = true /\ n_d F n = d.
Proof.
  assert (Arg : forall e, (forall d en, fvalue F e = Some d -> exists n, ev e en = Ret (n, en) /\ n_double F n = true /\ n_d F n = d) ->
    forall d en, match e with Num z => if int64 z then Some (of_Z F z) else None | _ => fvalue F e end = Some d ->
      exists n, ev e en = Ret (n, en) /\ as_double F n = d /\ n_d F n = d /\ (n_double F n = true \/ exists z, e = Num z)).
  { clear e. intros e IH d en H. assert (G : fvalue F e = Some d -> exists n, ev e en = Ret (n, en) /\ as_double F n = d /\ n_d F n = d /\ (n_double F n = true \/ exists z, e = Num z)).
    { intros K. destruct (IH d en K) as (n & E & Dn & V). exists n. unfold as_double. rewrite Dn. auto. }
    destruct e; auto. destruct (int64 z) eqn:I; [|discriminate]. injection H as <-. cbn [ev].
    assert (Z.min LLONG_MAX z = z) as -> by (apply int64_iff in I; unfold LLONG_MAX; lia). eexists. split; [reflexivity|]. unfold as_double. cbn. split; auto. split; auto. right. eauto. }
  induction e as [z0|t|c|n|n e IH|e IH|e IH|f e IH|o a IHa b IHb]; intros d en H; cbn [fvalue] in H; try discriminate.
  - injection H as <-. eexists. split; [reflexivity|]. auto.
  - injection H as <-. eexists. split; [reflexivity|]. auto.
  - destruct (fvalue F e) as [x|] eqn:V; [|discriminate]. injection H as <-. destruct (IH x en eq_refl) as (n & E & Dn & Vn). cbn [ev]. rewrite E. cbn [bind].
    unfold negate. rewrite Dn. cbn [bind]. eexists. split; [reflexivity|]. cbn. rewrite Vn. auto.
  - destruct (match e with Num z => if int64 z then Some (of_Z F z) else None | _ => fvalue F e end) as [x|] eqn:V; [|discriminate]. injection H as <-.
    destruct (Arg e IH x en V) as (n & E & A & _ & _). cbn [ev]. rewrite E. cbn [bind]. eexists. split; [reflexivity|]. cbn. rewrite A. auto.
  - assert (NN : (exists x, fvalue F a = Some x) \/ (exists y, fvalue F b = Some y)) by (destruct (fvalue F a); [left; eauto|]; destruct (fvalue F b); [right; eauto|discriminate]).
    assert (H' : exists x y, match a with Num z => if int64 z then Some (of_Z F z) else None | _ => fvalue F a end = Some x /\
      match b with Num z => if int64 z then Some (of_Z F z) else None | _ => fvalue F b end = Some y /\
      match o with OAdd => Some (dadd F x y) | OSub => Some (dsub F x y) | OMul => Some (dmul F x y) | ODiv => Some (ddiv F x y) | OMod => Some (dmod F x y)
        | OAnd => whole F Z.land x y | OOr => whole F Z.lor x y | OXor => whole F Z.lxor x y | _ => None end = Some d).
    { revert H. destruct (match a with Num z => if int64 z then Some (of_Z F z) else None | _ => fvalue F a end) as [x|];
      [|destruct (fvalue F a); [discriminate|]; destruct (fvalue F b); discriminate].
      destruct (match b with Num z => if int64 z then Some (of_Z F z) else None | _ => fvalue F b end) as [y|];
      [|destruct (fvalue F a); [discriminate|]; destruct (fvalue F b); discriminate].
      intros H. exists x, y. split; auto. split; auto. destruct (fvalue F a); [exact H|]. destruct (fvalue F b); [exact H|discriminate]. }
    clear H. destruct H' as (x & y & Ha & Hb & H).
    destruct (Arg a IHa x en Ha) as (na0 & Ea & _ & Va & Ca). destruct (Arg b IHb y en Hb) as (nb0 & Eb & _ & Vb & Cb).
    assert (Db : n_double F na0 || n_double F nb0 = true).
    { destruct NN as [[u U]|[u U]].
      - destruct (IHa u en U) as (n' & E' & D' & _). assert (n' = na0) by congruence. subst. rewrite D'. auto.
      - destruct (IHb u en U) as (n' & E' & D' & _). assert (n' = nb0) by congruence. subst. rewrite D'. apply orb_true_r. }
    cbn [ev]. rewrite Ea. cbn [bind]. rewrite Eb. cbn [bind].
    destruct o; try discriminate; try (injection H as <-; cbn [binary]; unfold INT_FLOAT_OP; rewrite Db; cbn [bind]; (eexists; split; [reflexivity|]); cbn [n_double n_d]; rewrite Va, Vb; auto; fail);
      (unfold whole in H; destruct (trunc F x) as [i|] eqn:Tx; [|discriminate]; destruct (trunc F y) as [j|] eqn:Ty; [|discriminate]; injection H as <-;
       cbn [binary]; unfold INT_OP, cast; rewrite Db, Va, Vb, Tx; cbn [bind]; rewrite Ty; cbn [bind int_op2]; eexists; split; [reflexivity|]; auto).
Qed.
Lemma number_ok sg e n v d : table_ok sg e -> addr_ok sg ka -> nonul n -> value_of e n v -> is_number F v d -> get_var F ka e n = Ret d.
Proof.
  intros T KA N V R. unfold get_var. rewrite (get_ok sg) by auto. cbn [bind]. apply (value_lookup sg) in V; auto.
  destruct R as [| | |t R1 R2]; destruct (lookup (e_buf e) n) as [u|]; try discriminate; cbn [option_map] in *; try (injection V as <-); auto.
  apply streqb_false in R1, R2. rewrite R1, R2. reflexivity.
Qed.

(** ** The command *)
Lemma item_next w old line p rest : item w line p rest -> pBat_GetNextParameterEsD w (s2l """,") old line = Ret (p, Some rest, w).
Proof.
  intros (a & raw & t & -> & A & N & Fi & P & B & C & X).
  assert (F' : forall c r, raw ++ rest = c :: r -> ~ blank c).
  { intros c r Y. destruct raw as [|d raw]; [congruence|]. cbn [app] in Y. injection Y as <- _. eapply Fi; eauto. }
  assert (Q : In dquote (s2l """,")) by (left; reflexivity).
  destruct (next_ok w (s2l """,") old (a ++ raw ++ rest) Q) as [[H _]|H].
  - exfalso. apply Forall_app in H. destruct H as [_ H]. destruct raw as [|c raw]; [congruence|]. apply Forall_inv in H. eapply Fi; eauto.
  - destruct H as (a' & raw' & rest' & t' & H1 & H2 & H3 & H4 & H5 & H6 & H7).
    destruct (blank_split _ _ _ _ H1 A H2) as [_ Y]; auto.
    destruct (param_at_unique (s2l """,") raw rest raw' rest' Y) as [-> ->]; auto.
    assert (t' = t) by (eapply bare_unique; eauto). subst t'.
    destruct H7 as [(-> & _)|[_ H7]]; [exfalso; apply C; reflexivity|]. rewrite H7. unfold expands in X. rewrite X. reflexivity.
Qed.
Lemma item_end w old line : Forall blank line -> pBat_GetNextParameterEsD w (s2l """,") old line = Ret (old, None, w).
Proof.
  intros H. assert (Q : In dquote (s2l """,")) by (left; reflexivity).
  destruct (next_ok w (s2l """,") old line Q) as [[_ G]|(a & raw & rest & t & H1 & _ & H3 & H4 & _)]; auto.
  exfalso. subst line. apply Forall_app in H. destruct H as [_ H]. destruct (raw ++ rest) as [|c r]; [congruence|]. apply Forall_inv in H. eapply H3; eauto.
Qed.
Lemma item_behind w line text p rest : behind line text -> item w line p rest -> item w text p rest.
Proof.
  intros (b & E & Bb & N) (a & raw & t & E' & A & Nr & Fi & R). exists [], raw, t. subst line.
  assert (F' : forall c r, raw ++ rest = c :: r -> ~ blank c).
  { intros c r Y. destruct raw as [|d raw]; [congruence|]. cbn [app] in Y. injection Y as <- _. eapply Fi; eauto. }
  destruct (blank_split _ _ _ _ E' Bb A) as [_ Y]; auto.
Qed.
Lemma behind_exists line : exists text, behind line text.
Proof.
  induction line as [|c line (text & a & -> & A & N)].
  - exists [], []. split; auto. split; auto. intros; discriminate.
  - destruct (inset blanks c) eqn:B.
    + apply inset_in in B. exists text, (c :: a). split; auto.
    + exists (c :: a ++ text), []. split; auto. split; auto. intros d r X. injection X as <- _. intros Y. assert (inset blanks c = true) by (apply inset_in; exact Y). congruence.
Qed.

Lemma loop_ok stale script one w line res : (forall w t, one w t = pBat_CmdSetEval F ka na stale script w t) -> evaluates one w line res ->
  forall f old out, length line < f ->
    seta_loop F ka na f stale script w old line out = Ret (fst (fst res), out ++ snd (fst res), snd res).
Proof.
  intros One. induction 1 as [w line B|w line p rest z o w' I E NZ|w line p rest o w' z o' w'' I E R IH]; intros f old out L; (destruct f as [|f]; [lia|]); cbn [seta_loop].
  - rewrite item_end by auto. cbn. rewrite app_nil_r. auto.
  - rewrite (item_next w old line p rest I). cbn [bind]. rewrite One in E. rewrite E. cbn [bind]. apply Z.eqb_neq in NZ. rewrite NZ. reflexivity.
  - rewrite (item_next w old line p rest I). cbn [bind]. rewrite One in E. rewrite E. cbn [bind Z.eqb]. rewrite IH.
    + cbn [fst snd]. rewrite app_assoc. reflexivity.
    + destruct I as (a & raw & t & -> & _ & N & _). rewrite !app_length in L. destruct raw; [congruence|]. cbn [length] in L. lia.
Qed.
Lemma seta_ok stale script w line z out w' : evaluates (pBat_CmdSetEval F ka na stale script) w line (z, out, w') ->
  pBat_CmdSetA F ka na stale script w line = Ret (z, out, w').
Proof.
  intros E. unfold pBat_CmdSetA. destruct (behind_exists line) as (text & B). rewrite (behind_skip _ _ B).
  assert (E' : evaluates (pBat_CmdSetEval F ka na stale script) w text (z, out, w')).
  { inversion E as [w0 l0 Bl E0 E1|w0 l0 p rest z0 o0 w1 I O NZ E0 E1|w0 l0 p rest o0 w1 z0 o1 w2 I O R E0 E1]; subst.
    - apply ev_none. destruct B as (a & -> & _). apply Forall_app in Bl. tauto.
    - eapply ev_fails; eauto. eapply item_behind; eauto.
    - eapply ev_next; eauto. eapply item_behind; eauto. }
  rewrite (loop_ok stale script _ w text _ (fun _ _ => eq_refl) E') by lia. reflexivity.
Qed.

(** ** One assignment *)
Lemma assign_text name s : ~ In "="%char name -> (forall c r, name = c :: r -> ~ blank c) ->
  pBat_SkipBlanks (name ++ "="%char :: s) = name ++ "="%char :: s.
Proof.
  intros _ B. apply (skip_blanks [] (name ++ "="%char :: s)); auto. intros c r E. destruct name as [|d n]; cbn [app] in E; injection E as <- _.
  - intros X. assert (Y : inset blanks "="%char = true) by (apply inset_in; exact X). discriminate.
  - eapply B; eauto.
Qed.
Lemma assign_eval stale script w name s d fm en name' v en' :
  ~ In "="%char name -> (forall c r, name = c :: r -> ~ blank c) ->
  fasteval_evaluate F ka na stale (vw_env (x_var w)) s = Ret (d, fm, en) ->
  set_left F ka fm en name d = Ret (name', v) ->
  pBat_SetEnvEx en name' ka na (Some (show14 F v)) false = Ret en' ->
  pBat_CmdSetEval F ka na stale script w (name ++ "="%char :: s) = Ret (0%Z, if script then [] else show14 F v, set_env w en').
Proof.
  intros NE B Ev L St. unfold pBat_CmdSetEval. rewrite assign_text by auto.
  destruct (assigns_ok (name ++ "="%char :: s) name s (conj eq_refl NE)) as (S1 & S2 & S3).
  rewrite S1, S2, S3, Ev. cbn [bind]. rewrite L. cbn [bind]. rewrite Nat.sub_diag. cbn [firstn app]. rewrite St. cbn [bind].
  destruct (name ++ "="%char :: s) eqn:X; [destruct name; discriminate|]. reflexivity.
Qed.
Lemma left_plain fm en name d : (forall r c, name = r ++ [c] -> ~ In c left_ops) -> set_left F ka fm en name d = Ret (name, d).
Proof.
  intros H. unfold set_left. destruct (rev name) as [|c b] eqn:R; auto.
  assert (E : name = rev b ++ [c]) by (rewrite <- (rev_involutive name), R; reflexivity). specialize (H _ _ E).
  assert (G : forall x, In x left_ops -> ceq c x = false) by (intros x I; apply ceq_false; intros ->; auto).
  rewrite !G by (cbv; tauto). reflexivity.
Qed.
Lemma trimmed_again n t : is_trimmed n t -> is_trimmed t t.
Proof.
  intros (b & E & B & H). exists []. rewrite app_nil_r. split; auto. split; auto. destruct H as [[H ->]|H]; auto. left. rewrite app_nil_r in E. subst n. auto.
Qed.
Lemma env_assign sg w name (value : cstr) : table_ok sg (vw_env (x_var w)) -> addr_ok sg ka -> addr_ok sg na -> nonul name -> value <> [] ->
  exists en', pBat_SetEnvEx (vw_env (x_var w)) name ka na (Some value) false = Ret en' /\ changed (vw_env (x_var w)) name value en'.
Proof.
  intros T KA NA N V. destruct (assign_ok ka na sg w name value false T KA NA N (or_introl V)) as (w' & E & _ & _ & C). unfold assign in E.
  destruct (pBat_SetEnvEx (vw_env (x_var w)) name ka na (Some value) false) as [en'| |]; cbn [bind] in E; [|discriminate|discriminate]. injection E as <-. eauto.
Qed.
End SetAProofs.
