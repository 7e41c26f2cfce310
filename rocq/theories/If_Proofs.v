(** If_Proofs.v -- the conditions of IF. *)

From Coq Require Import QArith.
From Verif Require Import Base Lex Num_Model StrLib_Model StrLib_Spec Env_Model Var_Model Var_Proofs Path_Model Path_Proofs
  Expand_Model Args_Model Args_Spec Args_Proofs If_Model If_Spec.
Open Scope nat_scope.

(** ** Numerals *)

Lemma digit_val_nonneg c : (0 <= digit_val c)%Z.
Proof.
  apply Z.leb_le. revert c. apply (ascii_forall (fun c => (0 <=? digit_val c)%Z)). vm_compute. reflexivity.
Qed.

Lemma dig_iff c n : is_dig c n <-> digit_val c = n /\ (n < 16)%Z.
Proof.
  split.
  - intros [P H]. assert (L : (n < 16)%Z).
    { assert (X : Z.to_nat n < 16); [|lia].
      destruct H as [H|H];
        [change 16 with (length (s2l "0123456789abcdef"))|change 16 with (length (s2l "0123456789ABCDEF"))];
        apply nth_error_Some; rewrite H; discriminate. }
    split; auto.
    assert (N : In n [0;1;2;3;4;5;6;7;8;9;10;11;12;13;14;15]%Z) by (simpl; lia).
    simpl in N. repeat (destruct N as [<-|N]; [vm_compute in H; destruct H as [H|H]; injection H as <-; reflexivity|]).
    destruct N.
  - intros [E L]. pose proof (digit_val_nonneg c) as P. split; [lia|]. subst n.
    assert (X : implb (digit_val c <? 16)%Z
                  (match nth_error (s2l "0123456789abcdef") (Z.to_nat (digit_val c)) with Some d => ceq d c | None => false end ||
                   match nth_error (s2l "0123456789ABCDEF") (Z.to_nat (digit_val c)) with Some d => ceq d c | None => false end) = true).
    { clear. revert c. apply (ascii_forall (fun c => implb (digit_val c <? 16)%Z
                  (match nth_error (s2l "0123456789abcdef") (Z.to_nat (digit_val c)) with Some d => ceq d c | None => false end ||
                   match nth_error (s2l "0123456789ABCDEF") (Z.to_nat (digit_val c)) with Some d => ceq d c | None => false end))).
      vm_compute. reflexivity. }
    apply Z.ltb_lt in L. rewrite L in X. cbn [implb] in X. apply orb_true_iff in X. destruct X as [X|X]; [left|right];
      destruct nth_error as [d|]; try discriminate; apply ceq_true in X; subst; reflexivity.
Qed.

Definition no_digit (base : Z) (t : cstr) : Prop := match t with c :: _ => (base <= digit_val c)%Z | [] => True end.

Lemma read_num_ok base s ns t acc : (base <= 16)%Z -> Forall2 is_dig s ns -> Forall (fun n => (n < base)%Z) ns -> no_digit base t ->
  read_num base (s ++ t) acc = (fold_left (fun a n => a * base + n)%Z ns acc, t).
Proof.
  intros B F. revert acc. induction F as [|c n s ns D F IH]; intros acc L T; simpl.
  - destruct t as [|c t]; auto. simpl in *. destruct (Z.ltb_spec (digit_val c) base); [lia|reflexivity].
  - inversion L; subst. apply dig_iff in D. destruct D as [D _]. rewrite D.
    destruct (Z.ltb_spec n base); [|lia]. apply IH; auto.
Qed.

Lemma read_num_inv base s acc : (base <= 16)%Z -> exists ds ns t, s = ds ++ t /\ Forall2 is_dig ds ns /\
  Forall (fun n => (n < base)%Z) ns /\ no_digit base t /\ read_num base s acc = (fold_left (fun a n => a * base + n)%Z ns acc, t).
Proof.
  intros B. revert acc. induction s as [|c s IH]; intros acc; simpl.
  - exists [], [], []. simpl. auto.
  - destruct (Z.ltb_spec (digit_val c) base) as [L|L].
    + destruct (IH (acc * base + digit_val c)%Z) as (ds & ns & t & E & F & G & T & R).
      exists (c :: ds), (digit_val c :: ns), t. rewrite R. simpl. repeat split; auto.
      * congruence.
      * constructor; auto. apply dig_iff. split; auto; lia.
    + exists [], [], (c :: s). simpl. auto.
Qed.

Lemma blank_no_digit base t : (base <= 16)%Z -> Forall blank t -> no_digit base t.
Proof.
  intros B F. destruct t as [|c t]; simpl; auto. inversion F; subst.
  assert (X : digit_val c = 99%Z).
  { cbv in H1. repeat (destruct H1 as [<-|H1]; [reflexivity|]). destruct H1. }
  lia.
Qed.

Lemma skip_blanks_nil t : pBat_SkipBlanks t = [] <-> Forall blank t.
Proof.
  induction t as [|c t IH]; simpl; [split; auto|].
  destruct (pBat_IsDelim c) eqn:E.
  - apply delim_blank in E. rewrite IH. split; intros H; [auto|inversion H; auto].
  - split; [discriminate|]. intros H. inversion H; subst. apply delim_blank in H2. congruence.
Qed.

Lemma white_space c : is_space c = true <-> white c.
Proof.
  assert (X : Bool.eqb (is_space c) (inset (" " :: "009" :: "010" :: "011" :: "012" :: "013" :: [])%char c) = true).
  { revert c. apply (ascii_forall (fun c => Bool.eqb (is_space c) (inset (" " :: "009" :: "010" :: "011" :: "012" :: "013" :: [])%char c))).
    vm_compute. reflexivity. }
  apply eqb_prop in X. rewrite X. apply inset_In.
Qed.

Lemma skip_space_white a s : Forall white a -> (match s with c :: _ => is_space c = false | [] => True end) -> skip_space (a ++ s) = s.
Proof.
  intros F H. induction F as [|c a W F IH]; simpl.
  - destruct s as [|c s]; simpl; auto. rewrite H. reflexivity.
  - apply white_space in W. rewrite W. auto.
Qed.

Lemma skip_space_inv s : exists a, s = a ++ skip_space s /\ Forall white a.
Proof.
  induction s as [|c s (a & E & W)]; simpl; [exists []; auto|].
  destruct (is_space c) eqn:X; [|exists []; auto].
  exists (c :: a). split; [simpl; congruence|]. constructor; auto. apply white_space; auto.
Qed.

Lemma numeral_first b n t : numeral b n -> exists c r, b ++ t = c :: r /\ (digit_val c < 16)%Z /\ is_digit c = true.
Proof.
  intros N. destruct N as [c s v H (ns & F & L & E)|s v _|x s v _ _ _].
  - simpl. exists c, (s ++ t). inversion F as [|c0 n s0 ns0 X Y]; subst. inversion L; subst. apply dig_iff in X.
    repeat split; try lia. destruct X as [X _].
    assert (Z1 : implb (digit_val c <? 10)%Z (is_digit c) = true).
    { clear. revert c. apply (ascii_forall (fun c => implb (digit_val c <? 10)%Z (is_digit c))). vm_compute. reflexivity. }
    rewrite X in Z1. destruct (Z.ltb_spec n 10); [|lia]. auto.
  - exists "0"%char, (s ++ t). repeat split; vm_compute; reflexivity.
  - exists "0"%char, (x :: s ++ t). repeat split; vm_compute; reflexivity.
Qed.

Lemma digit_facts c : is_digit c = true -> is_space c = false /\ ceq c "-"%char = false /\ ceq c "+"%char = false.
Proof.
  intros H. assert (X : implb (is_digit c) (negb (is_space c) && negb (ceq c "-"%char) && negb (ceq c "+"%char)) = true).
  { clear. revert c. apply (ascii_forall (fun c => implb (is_digit c) (negb (is_space c) && negb (ceq c "-"%char) && negb (ceq c "+"%char)))).
    vm_compute. reflexivity. }
  rewrite H in X. cbn [implb] in X. apply andb_true_iff in X. destruct X as [X C]. apply andb_true_iff in X. destruct X as [A B].
  apply negb_true_iff in A, B, C. auto.
Qed.

Lemma unsigned_ok b n t : numeral b n -> Forall blank t -> unsigned0 (b ++ t) = Some (n, t).
Proof.
  intros N T. destruct N as [c s v H (ns & F & L & E)|s v (ns & F & L & E)|x s v X S0 (ns & F & L & E)]; subst v.
  - destruct (numeral_first (c :: s) (value 10 ns) t) as (c' & r & E1 & _ & D).
    { constructor; auto. exists ns. auto. }
    simpl in E1. injection E1 as <- _.
    assert (Z0 : ceq c "0"%char = false) by (apply ceq_false; auto).
    pose proof (read_num_ok 10 (c :: s) ns t 0 ltac:(lia) F L (blank_no_digit 10 t ltac:(lia) T)) as R. simpl app in R.
    unfold unsigned0. cbn [app]. unfold value.
    destruct (s ++ t) as [|x [|h y]]; rewrite Z0, D, R; reflexivity.
  - pose proof (read_num_ok 8 s ns t 0 ltac:(lia) F L (blank_no_digit 8 t ltac:(lia) T)) as R.
    unfold unsigned0, value. cbn [app].
    assert (R2 : read_num 8 ("0"%char :: s ++ t) 0 = (fold_left (fun a n => a * 8 + n)%Z ns 0%Z, t)).
    { cbn [read_num]. change (digit_val "0"%char) with 0%Z. cbn [Z.ltb Z.compare]. exact R. }
    destruct (s ++ t) as [|x [|h y]] eqn:Es; rewrite R2; change (ceq "0" "0")%char with true; cbn [andb]; auto.
    destruct (ceq (tolower x) "x"%char) eqn:Ex; cbn [andb]; auto.
    exfalso. destruct s as [|x' s].
    + simpl in Es. subst t. inversion T; subst. cbv in H1.
      repeat (destruct H1 as [<-|H1]; [vm_compute in Ex; discriminate|]). destruct H1.
    + simpl in Es. injection Es as <- _. inversion F as [|c0 n s0 ns0 X Y]; subst. inversion L; subst. apply dig_iff in X.
      assert (Z1 : implb (ceq (tolower x') "x"%char) (8 <=? digit_val x')%Z = true).
      { clear. revert x'. apply (ascii_forall (fun x' => implb (ceq (tolower x') "x"%char) (8 <=? digit_val x')%Z)). vm_compute. reflexivity. }
      rewrite Ex in Z1. cbn [implb] in Z1. lia.
  - pose proof (read_num_ok 16 s ns t 0 ltac:(lia) F L (blank_no_digit 16 t ltac:(lia) T)) as R.
    destruct s as [|h s]; [congruence|].
    unfold unsigned0, value. cbn [app].
    assert (Y : ceq (tolower x) "x"%char = true) by (cbv in X; destruct X as [<-|[<-|[]]]; reflexivity).
    assert (Hh : (digit_val h <? 16)%Z = true).
    { inversion F as [|c0 n s0 ns0 D G]; subst. apply dig_iff in D. lia. }
    rewrite Y, Hh. change (ceq "0" "0")%char with true. cbn [andb skipn]. cbn [app] in R. rewrite R. reflexivity.
Qed.

Lemma strtol_ok s v : integer_text s v -> exists t, Forall blank t /\ strtol0 s = (clip_long v, t).
Proof.
  intros (a & sg & b & t & n & E & A & T & N & S). exists t. split; auto.
  destruct (numeral_first b n t N) as (c & r & Eb & _ & D). destruct (digit_facts c D) as (D1 & D2 & D3).
  pose proof (unsigned_ok b n t N T) as U. unfold strtol0.
  assert (K : skip_space s = sg ++ b ++ t).
  { rewrite E. apply skip_space_white; auto. destruct S as [[[-> | ->] _]|[-> _]]; simpl; rewrite ?Eb; auto. }
  rewrite K. destruct S as [[[-> | ->] ->]|[-> ->]]; cbn [app].
  - rewrite Eb, D2, D3, <- Eb, U. reflexivity.
  - cbn [ceq]. change (ceq "+" "-")%char with false. change (ceq "+" "+")%char with true. cbn iota. rewrite U. reflexivity.
  - change (ceq "-" "-")%char with true. cbn iota. rewrite U. reflexivity.
Qed.

Lemma unsigned_inv u v e : unsigned0 u = Some (v, e) -> exists b, u = b ++ e /\ numeral b v.
Proof.
  intros H.
  assert (O : forall u, (exists r, u = "0"%char :: r) -> read_num 8 u 0 = (v, e) -> exists b, u = b ++ e /\ numeral b v).
  { intros u0 (r & ->) R. cbn [read_num] in R. change (digit_val "0"%char) with 0%Z in R. cbn [Z.ltb Z.compare] in R.
    destruct (read_num_inv 8 r (0 * 8 + 0)%Z ltac:(lia)) as (ds & ns & t & E & F & L & T & R').
    rewrite R' in R. injection R as <- <-. exists ("0"%char :: ds). subst r. split; auto.
    apply num_oct. exists ns. auto. }
  assert (D : forall u, (exists c r, u = c :: r /\ ceq c "0"%char = false /\ is_digit c = true) -> read_num 10 u 0 = (v, e) ->
              exists b, u = b ++ e /\ numeral b v).
  { intros u0 (c & r & -> & Z0 & Dc) R.
    destruct (read_num_inv 10 (c :: r) 0 ltac:(lia)) as (ds & ns & t & E & F & L & T & R').
    rewrite R' in R. injection R as <- <-. exists ds. split; auto.
    destruct ds as [|c' ds].
    - simpl in E. subst t. simpl in T. exfalso.
      assert (X : implb (is_digit c) (digit_val c <? 10)%Z = true).
      { clear. revert c. apply (ascii_forall (fun c => implb (is_digit c) (digit_val c <? 10)%Z)). vm_compute. reflexivity. }
      rewrite Dc in X. cbn [implb] in X. lia.
    - simpl in E. injection E as -> _. constructor; [apply ceq_false; auto|]. exists ns. auto. }
  unfold unsigned0 in H. destruct u as [|z u]; [discriminate|].
  assert (G : forall u', (if ceq z "0"%char then Some (read_num 8 u' 0) else if is_digit z then Some (read_num 10 u' 0) else None) = Some (v, e) ->
              u' = z :: u -> exists b, u' = b ++ e /\ numeral b v).
  { intros u' X ->. destruct (ceq z "0"%char) eqn:Z0.
    - injection X as X. apply O; auto. apply ceq_true in Z0. subst z. eauto.
    - destruct (is_digit z) eqn:Dz; [|discriminate]. injection X as X. apply D; eauto 6. }
  destruct u as [|x [|h u]]; try (apply G; auto; exact H).
  destruct (ceq z "0"%char && ceq (tolower x) "x"%char && (digit_val h <? 16)%Z) eqn:C.
  - apply andb_true_iff in C. destruct C as [C Ch]. apply andb_true_iff in C. destruct C as [Cz Cx].
    apply ceq_true in Cz. subst z. change (skipn 2 ("0"%char :: x :: h :: u)) with (h :: u) in H.
    assert (H1 : read_num 16 (h :: u) 0 = (v, e)) by congruence. clear H.
    destruct (read_num_inv 16 (h :: u) 0 ltac:(lia)) as (ds & ns & t & E & F & L & T & R).
    rewrite R in H1. injection H1 as <- <-. exists ("0"%char :: x :: ds). split; [simpl; congruence|].
    apply num_hex.
    + assert (X : implb (ceq (tolower x) "x"%char) (inset (s2l "xX") x) = true).
      { clear. revert x. apply (ascii_forall (fun x => implb (ceq (tolower x) "x"%char) (inset (s2l "xX") x))). vm_compute. reflexivity. }
      rewrite Cx in X. apply inset_In. exact X.
    + intros ->. simpl in E. subst t. simpl in T. lia.
    + exists ns. auto.
  - apply G; auto.
Qed.

Lemma strtol_inv s z t : strtol0 s = (z, t) -> Forall blank t ->
  (z = 0%Z /\ Forall blank s) \/ exists v, integer_text s v /\ z = clip_long v.
Proof.
  intros H T. destruct (skip_space_inv s) as (a & E & A). unfold strtol0 in H.
  set (x := skip_space s) in *. clearbody x.
  assert (G : forall sg u neg, x = sg ++ u ->
              ((sg = [] \/ sg = ["+"%char]) /\ neg = false \/ sg = ["-"%char] /\ neg = true) ->
              match unsigned0 u with Some (v, e) => (clip_long (if neg then - v else v)%Z, e) | None => (0%Z, s) end = (z, t) ->
              (z = 0%Z /\ Forall blank s) \/ exists v, integer_text s v /\ z = clip_long v).
  { intros sg u neg Ex S U. destruct (unsigned0 u) as [[v e]|] eqn:Eu.
    - injection U as <- <-. apply unsigned_inv in Eu. destruct Eu as (b & -> & N). right.
      exists (if neg then (- v)%Z else v). split; auto. exists a, sg, b, e, v. subst x. repeat split; auto.
      destruct S as [[S ->]|[S ->]]; auto.
    - injection U as <- <-. auto. }
  destruct x as [|c r].
  - apply (G [] [] false); auto.
  - destruct (ceq c "-"%char) eqn:C1; [|destruct (ceq c "+"%char) eqn:C2].
    + apply ceq_true in C1. subst c. apply (G ["-"%char] r true); auto.
    + apply ceq_true in C2. subst c. apply (G ["+"%char] r false); auto.
    + apply (G [] (c :: r) false); auto.
Qed.

Lemma round_exact v : exact v -> round53 v = v.
Proof.
  unfold exact, round53. intros H. destruct (Z.ltb_spec (Z.abs v) (2 ^ 53)) as [L|L]; auto.
  assert (X : v = 9007199254740992%Z \/ v = (-9007199254740992)%Z) by (change (2 ^ 53)%Z with 9007199254740992%Z in L; lia).
  destruct X as [->| ->]; vm_compute; reflexivity.
Qed.
Lemma clip_exact v : exact v -> clip_long v = v.
Proof. unfold exact, clip_long. intros H. destruct (Z.ltb_spec v (-9223372036854775808)); [lia|]. destruct (Z.ltb_spec 9223372036854775807 v); lia. Qed.

Section P.
Variable strtod : cstr -> dbl * nat.
Notation get_value := (pBat_GetCmpValue strtod).
Notation test := (pBat_PerformExtendedTest strtod).

Lemma value_int s v : integer_text s v -> get_value s = Some (dbl_of_Z (clip_long v)).
Proof.
  intros H. destruct (strtol_ok s v H) as (t & T & E). unfold pBat_GetCmpValue. rewrite E.
  apply skip_blanks_nil in T. rewrite T. reflexivity.
Qed.
Lemma value_blank s : Forall blank s -> get_value s = Some (dbl_of_Z 0).
Proof.
  intros H. unfold pBat_GetCmpValue. destruct (strtol0 s) as [z t] eqn:E.
  assert (T : Forall blank t /\ z = 0%Z).
  { unfold strtol0 in E. destruct (skip_space_inv s) as (a & Ea & A). set (x := skip_space s) in *. clearbody x.
    assert (X : Forall blank x) by (rewrite Ea in H; apply Forall_app in H; tauto).
    assert (U : forall y, Forall blank y -> unsigned0 y = None).
    { intros y Y. destruct y as [|c y]; auto. inversion Y; subst.
      assert (Z1 : ceq c "0"%char = false /\ is_digit c = false).
      { cbv in H2. repeat (destruct H2 as [<-|H2]; [split; reflexivity|]). destruct H2. }
      destruct Z1 as [Z1 Z2]. unfold unsigned0. destruct y as [|? [|? ?]]; rewrite Z1, Z2; reflexivity. }
    destruct x as [|c r].
    - simpl in E. injection E as <- <-. auto.
    - inversion X; subst.
      assert (Z1 : ceq c "-"%char = false /\ ceq c "+"%char = false).
      { cbv in H2. repeat (destruct H2 as [<-|H2]; [split; reflexivity|]). destruct H2. }
      destruct Z1 as [Z1 Z2]. rewrite Z1, Z2, U in E by auto. injection E as <- <-. auto. }
  destruct T as [T ->]. apply skip_blanks_nil in T. rewrite T. reflexivity.
Qed.
Lemma value_other s : ~ Forall blank s -> (forall v, ~ integer_text s v) ->
  get_value s = let '(d, k) := strtod s in match pBat_SkipBlanks (skipn k s) with [] => Some d | _ => None end.
Proof.
  intros B I. unfold pBat_GetCmpValue. destruct (strtol0 s) as [z t] eqn:E.
  destruct (pBat_SkipBlanks t) eqn:K; auto. apply skip_blanks_nil in K.
  destruct (strtol_inv s z t E K) as [[_ X]|(v & X & _)]; [tauto|]. destruct (I v X).
Qed.

(** ** Operators *)
Lemma stricmp_same a a' b : map tolower a = map tolower a' -> stricmp a b = stricmp a' b.
Proof.
  revert a' b. induction a as [|x a IH]; intros [|x' a'] b E; try discriminate; auto.
  simpl in E. injection E as E1 E2. destruct b as [|y b]; simpl; rewrite ?E1; auto.
  rewrite (IH a' b E2). reflexivity.
Qed.
Definition decide (o : cmpop) (c : option comparison) : bool :=
  match c with Some c => holds o c | None => match o with NEQ => true | _ => false end end.
Definition sides (a b : cstr) (i : bool) : dbl * dbl :=
  match get_value a, get_value b with
  | Some x, Some y => (x, y)
  | _, _ => (dbl_of_Z (if i then stricmp a b else strcmp a b), dbl_of_Z 0)
  end.
Lemma test_op o cmp a b i : same_name cmp (op_name o) ->
  test cmp a b i = Some (decide o (let '(x, y) := sides a b i in dcompare x y)).
Proof.
  intros S. unfold pBat_PerformExtendedTest. fold (sides a b i). destruct (sides a b i) as [x y].
  cbv zeta. rewrite !(stricmp_same cmp (op_name o)) by exact S.
  destruct o; destruct (dcompare x y) as [[]|]; reflexivity.
Qed.
Lemma test_eqeq a b i : test (s2l "==") a b i = test (s2l "EQU") a b i.
Proof. unfold pBat_PerformExtendedTest. fold (sides a b i). destruct (sides a b i) as [x y]. reflexivity. Qed.
Lemma test_bad cmp a b i : nonul cmp -> ~ same_name cmp (s2l "==") -> (forall o, ~ same_name cmp (op_name o)) -> test cmp a b i = None.
Proof.
  intros N E O. unfold pBat_PerformExtendedTest. fold (sides a b i). destruct (sides a b i) as [x y]. cbv zeta.
  assert (X : forall s, nonul (s2l s) -> ~ same_name cmp (s2l s) -> (stricmp cmp (s2l s) =? 0)%Z = false).
  { intros s Ns Hs. destruct (stricmp cmp (s2l s) =? 0)%Z eqn:Z; auto. apply stricmp_eqb in Z; auto. destruct (Hs Z). }
  rewrite (X "EQU"%string) by (first [apply (O EQU)|cbv; intuition discriminate]).
  rewrite (X "=="%string) by (first [exact E|cbv; intuition discriminate]).
  rewrite (X "NEQ"%string) by (first [apply (O NEQ)|cbv; intuition discriminate]).
  rewrite (X "GEQ"%string) by (first [apply (O GEQ)|cbv; intuition discriminate]).
  rewrite (X "GTR"%string) by (first [apply (O GTR)|cbv; intuition discriminate]).
  rewrite (X "LEQ"%string) by (first [apply (O LEQ)|cbv; intuition discriminate]).
  rewrite (X "LSS"%string) by (first [apply (O LSS)|cbv; intuition discriminate]).
  reflexivity.
Qed.
End P.

(** ** Order of texts *)
Lemma stricmp_lower a b : stricmp a b = strcmp (map tolower a) (map tolower b).
Proof. revert b. induction a as [|x a IH]; intros [|y b]; simpl; auto. rewrite IH. reflexivity. Qed.
Lemma code_range c : (0 <= code c < 256)%Z.
Proof. unfold code. pose proof (N_ascii_bounded c). lia. Qed.
Lemma code_inj c d : code c = code d -> c = d.
Proof. unfold code. intros H. rewrite <- (ascii_N_embedding c), <- (ascii_N_embedding d). f_equal. lia. Qed.
Lemma strcmp_range a b : (-256 < strcmp a b < 256)%Z.
Proof.
  revert b. induction a as [|x a IH]; intros [|y b]; simpl; try lia.
  - pose proof (code_range y). lia.
  - pose proof (code_range x). lia.
  - destruct (ceq x y); auto. pose proof (code_range x). pose proof (code_range y). lia.
Qed.
Lemma nonul_code c : c <> "000"%char -> (0 < code c)%Z.
Proof.
  intros H. pose proof (code_range c). assert (code c <> 0)%Z; [|lia]. intros E. apply H. apply code_inj. rewrite E. reflexivity.
Qed.
Lemma strcmp_order a b o : nonul a -> nonul b -> text_order a b o -> (strcmp a b ?= 0)%Z = o.
Proof.
  intros A B T. induction T; simpl.
  - reflexivity.
  - apply nonul_cons_inv in B. destruct B as [B _]. apply nonul_code in B. apply Z.compare_lt_iff. lia.
  - apply nonul_cons_inv in A. destruct A as [A _]. apply nonul_code in A. apply Z.compare_gt_iff. lia.
  - destruct (ceq c d) eqn:E; [apply ceq_true in E; subst; lia|]. apply Z.compare_lt_iff. lia.
  - destruct (ceq c d) eqn:E; [apply ceq_true in E; subst; lia|]. apply Z.compare_gt_iff. lia.
  - rewrite ceq_refl. apply nonul_cons_inv in A, B. apply IHT; tauto.
Qed.
Lemma text_order_ex a b : exists o, text_order a b o.
Proof.
  revert b. induction a as [|x a IH]; intros [|y b]; try (eexists; constructor; fail).
  destruct (Z.lt_trichotomy (code x) (code y)) as [L|[E|L]].
  - exists Lt. constructor; auto.
  - apply code_inj in E. subst y. destruct (IH b) as (o & T). exists o. constructor; auto.
  - exists Gt. constructor; auto.
Qed.
Lemma nonul_lower s : nonul s -> nonul (map tolower s).
Proof.
  intros H. induction s as [|c s IH]; simpl; auto. apply nonul_cons_inv in H. destruct H as [Hc Hs].
  intros [E|X]; [|exact (IH Hs X)]. pose proof (tolower_nonul c Hc) as P. rewrite E in P. vm_compute in P. discriminate.
Qed.
Lemma small_exact z : (-256 < z < 256)%Z -> exact z.
Proof. unfold exact. lia. Qed.
Lemma sign_compare z : (-256 < z < 256)%Z -> dcompare (dbl_of_Z z) (dbl_of_Z 0) = Some (z ?= 0)%Z.
Proof.
  intros H. unfold dbl_of_Z. rewrite round_exact by (apply small_exact; auto). cbn [dcompare].
  change (round53 0) with 0%Z. unfold Qcompare, inject_Z. cbn [Qnum Qden]. rewrite !Z.mul_1_r. reflexivity.
Qed.
