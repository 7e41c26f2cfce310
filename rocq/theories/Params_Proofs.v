(** Params_Proofs.v -- lemmas about the parameters of scripts. *)

From Verif Require Import Base Num_Model Num_Proofs StrLib_Model StrLib_Spec StrLib_Proofs Path_Model Var_Model LocalVar_Model
  Expand_Model Expand_Spec Expand_Proofs Args_Model Args_Spec Args_Proofs Params_Model Params_Spec.

(** ** Reading *)
Lemma next_end w old s : Forall blank s -> pBat_GetNextParameterEs w old s = Ret (old, None, w).
Proof.
  intros B. unfold pBat_GetNextParameterEs.
  destruct (next_ok w PBAT_DELIMITERS old s quote_std) as [[_ H]|(a & raw & rest & t & H1 & H2 & H3 & H4 & _)]; auto.
  exfalso. subst s. apply Forall_app in B. destruct B as [_ B]. destruct (raw ++ rest) as [|c r] eqn:X; [congruence|].
  inversion B; subst. eapply H3; eauto.
Qed.

Lemma next_written w old a raw rest t v :
  Forall blank a -> raw <> [] -> (forall c r, raw = c :: r -> ~ blank c) ->
  param_at PBAT_DELIMITERS raw rest -> bare (match rest with [] => true | _ => false end) raw t ->
  t <> s2l "^" -> pBat_DelayedExpand w t = Ret (v, w) ->
  pBat_GetNextParameterEs w old (a ++ raw ++ rest) = Ret (v, Some rest, w).
Proof.
  intros A N F P B C D. unfold pBat_GetNextParameterEs.
  assert (F' : forall c r, raw ++ rest = c :: r -> ~ blank c).
  { intros c r X. destruct raw as [|d raw]; [congruence|]. cbn [app] in X. injection X as <- _. eapply F; eauto. }
  destruct (next_ok w PBAT_DELIMITERS old (a ++ raw ++ rest) quote_std) as [[H _]|H].
  - exfalso. apply Forall_app in H. destruct H as [_ H]. destruct raw as [|c raw]; [congruence|].
    inversion H; subst. eapply F; eauto.
  - destruct H as (a' & raw' & rest' & t' & H1 & H2 & H3 & H4 & H5 & H6 & H7).
    destruct (blank_split _ _ _ _ H1 A H2) as [_ X]; auto.
    destruct (param_at_unique PBAT_DELIMITERS raw rest raw' rest' X) as [-> ->]; auto.
    assert (t' = t) by (eapply bare_unique; eauto). subst t'.
    destruct H7 as [(-> & _)|[_ H7]]; [exfalso; apply C; reflexivity|]. rewrite H7, D. reflexivity.
Qed.

(** ** Expansion does not look at the parameters *)
Lemma special_args b w fuel : forall pre s, special_loop fuel (set_args w b) pre s = special_loop fuel w pre s.
Proof.
  induction fuel as [|f IH]; intros pre s; cbn [special_loop]; auto.
  destruct (pBat_SearchChar s "%"%char); auto.
  change (get_local (set_args w b) (x_locals (set_args w b))) with (get_local w (x_locals w)).
  destruct (get_local w (x_locals w) _) as [[[v r]|]| |]; cbn [bind]; auto; rewrite IH; auto.
Qed.

Lemma expand_args b fuel : forall w s, expand_loop fuel (set_args w b) "!"%char s =
  do (v, w1) <- expand_loop fuel w "!"%char s; Ret (v, set_args w1 b).
Proof.
  induction fuel as [|f IH]; intros w s; cbn [expand_loop]; auto.
  change (delayed_unescape (set_args w b)) with (delayed_unescape w).
  destruct (pBat_SearchChar s "!"%char) as [k|]; auto. cbv zeta.
  destruct (starts (skipn (Datatypes.S k) s) "!"%char).
  { rewrite IH. destruct (expand_loop f w _ _) as [[v w1]| |]; reflexivity. }
  cbn [ceq]. change (ceq "!"%char "%"%char) with false. cbn [andb bind].
  destruct (pBat_SearchChar (skipn (Datatypes.S k) s) "!"%char) as [j|].
  - change (x_var (set_args w b)) with (x_var w). change (x_ka (set_args w b)) with (x_ka w).
    destruct (pBat_GetVar _ _ _) as [[o vw]| |]; cbn [bind]; auto.
    change (set_var (set_args w b) vw) with (set_args (set_var w vw) b). rewrite IH.
    destruct (expand_loop f _ _ _) as [[v w1]| |]; reflexivity.
  - rewrite IH. destruct (expand_loop f w _ _) as [[v w1]| |]; reflexivity.
Qed.

Lemma delayed_args b w t : pBat_DelayedExpand (set_args w b) t = do (v, w1) <- pBat_DelayedExpand w t; Ret (v, set_args w1 b).
Proof.
  unfold pBat_DelayedExpand, pBat_ExpandSpecialVar. rewrite special_args.
  destruct (special_loop _ w [] t) as [u| |]; cbn [bind]; auto.
  change (x_delayed (set_args w b)) with (x_delayed w). destruct (x_delayed w); auto. apply expand_args.
Qed.

Lemma written_args b w s l : written w s l -> written (set_args w b) s l.
Proof.
  induction 1; [constructor; auto|]. eapply wr_next; eauto. rewrite delayed_args.
  match goal with H : pBat_DelayedExpand _ _ = _ |- _ => rewrite H end. reflexivity.
Qed.

Lemma written_nil w s l : written w s l -> s = [] -> l = [].
Proof.
  destruct 1 as [|a raw rest t v l A N]; auto. intros X. exfalso.
  apply app_eq_nil in X. destruct X as [_ X]. apply app_eq_nil in X. destruct X as [X _]. auto.
Qed.

(** ** Digits *)
Lemma digit_iff i c : nth_error digits i = Some c <-> i < 10 /\ c = dchar i.
Proof.
  split.
  - intros H. do 10 (destruct i as [|i]; [injection H as <-; split; [lia|reflexivity]|]). destruct i; discriminate.
  - intros [H ->]. do 10 (destruct i as [|i]; [reflexivity|]). lia.
Qed.
Lemma dchar_inj i j : i < 10 -> j < 10 -> dchar i = dchar j -> i = j.
Proof.
  intros Hi Hj H. do 10 (destruct i as [|i]; [do 10 (destruct j as [|j]; [first [reflexivity|discriminate H]|]); lia|]). lia.
Qed.
Lemma dchar_ok i : i < 10 -> name_ok (dchar i) = true /\ (code (dchar i) <? 128)%Z = true /\ dchar i <> "+"%char /\ dchar i <> "*"%char
  /\ is_digit (dchar i) = true /\ Z.to_nat (code (dchar i) - 48) = i.
Proof. intros H. do 10 (destruct i as [|i]; [repeat split; discriminate|]). lia. Qed.
Lemma plus_dchar i : i < 10 -> "+"%char <> dchar i.
Proof. intros H. apply dchar_ok in H. intuition congruence. Qed.

Definition not_digit (c : ascii) : Prop := forall j, j < 10 -> c <> dchar j.

Lemma set_local b c v x : name_ok c = true -> pBat_SetLocalVar b c v x = if ceq x c then v else b x.
Proof. intros H. unfold pBat_SetLocalVar. rewrite H. reflexivity. Qed.
Lemma set_digit b i v x : i < 10 -> pBat_SetLocalVar b (dchar i) v x = if ceq x (dchar i) then v else b x.
Proof. intros H. apply set_local. apply dchar_ok; auto. Qed.
Lemma ceq_digit i j : i < 10 -> j < 10 -> ceq (dchar i) (dchar j) = (i =? j).
Proof.
  intros Hi Hj. destruct (Nat.eqb_spec i j) as [->|N]; [apply ceq_refl|]. apply ceq_false. intros X. apply N. apply dchar_inj; auto.
Qed.

(** ** The three loops *)
Lemma move_ok k : forall m i w, (m = 0 \/ i + m + k <= 10) ->
  exists b, shift_move m i k w = Ret (i + m, set_args w b) /\
    (forall j, j < 10 -> b (dchar j) = if (i <=? j) && (j <? i + m) then x_args w (dchar (j + k)) else x_args w (dchar j)) /\
    (forall c, not_digit c -> b c = x_args w c).
Proof.
  induction m as [|m IH]; intros i w L; cbn [shift_move].
  - exists (x_args w). split; [rewrite Nat.add_0_r; destruct w; reflexivity|]. split; auto.
    intros j Hj. destruct (Nat.leb_spec i j), (Nat.ltb_spec j (i + 0)); auto; lia.
  - unfold pBat_GetLocalVarPointer, at_block. destruct (dchar_ok (i + k)) as (-> & -> & _); [lia|]. cbn [bind].
    destruct (IH (Datatypes.S i) (set_arg w (dchar i) (x_args w (dchar (i + k))))) as (b & -> & B1 & B2); [lia|].
    exists b. split; [replace (Datatypes.S i + m) with (i + Datatypes.S m) by lia; reflexivity|].
    change (x_args (set_arg w (dchar i) (x_args w (dchar (i + k))))) with (pBat_SetLocalVar (x_args w) (dchar i) (x_args w (dchar (i + k)))) in *.
    split.
    + intros j Hj. rewrite B1 by auto. rewrite !set_digit by lia. rewrite (ceq_digit j i) by lia.
      destruct (Nat.leb_spec (Datatypes.S i) j), (Nat.ltb_spec j (Datatypes.S i + m)), (Nat.leb_spec i j),
        (Nat.ltb_spec j (i + Datatypes.S m)), (Nat.eqb_spec j i); try lia; cbn [andb]; auto.
      * rewrite (ceq_digit (j + k) i) by lia. destruct (Nat.eqb_spec (j + k) i); [lia|]. auto.
      * subst j. auto.
    + intros c Hc. rewrite B2 by auto. rewrite set_digit by lia. destruct (ceq c (dchar i)) eqn:X; auto.
      apply ceq_true in X. exfalso. apply (Hc i); [lia|auto].
Qed.

Lemma fill_ok : forall m i w old tok l, i + m <= 10 -> written w tok l ->
  exists b r, shift_fill m i w old tok = Ret (r, i + min m (length l), set_args w b) /\
    (match r with Some t => m <= length l /\ written w t (skipn m l) | None => length l < m end) /\
    (forall j, j < 10 -> b (dchar j) = if (i <=? j) && (j <? i + min m (length l)) then Some (nth (j - i) l []) else x_args w (dchar j)) /\
    (forall c, not_digit c -> b c = x_args w c).
Proof.
  induction m as [|m IH]; intros i w old tok l L W; cbn [shift_fill].
  - exists (x_args w), (Some tok). cbn [min]. rewrite Nat.add_0_r. split; [destruct w; reflexivity|]. split; [split; [lia|auto]|]. split; auto.
    intros j Hj. destruct (Nat.leb_spec i j), (Nat.ltb_spec j i); auto; lia.
  - destruct W as [s B|a raw rest t v l A N F P B C D W].
    + rewrite next_end by auto. cbn [bind length min]. exists (x_args w), None. rewrite Nat.add_0_r. split; [destruct w; reflexivity|].
      split; [lia|]. split; auto. intros j Hj. destruct (Nat.leb_spec i j), (Nat.ltb_spec j i); auto; lia.
    + rewrite (next_written w old a raw rest t v) by auto. cbn [bind].
      destruct (IH (Datatypes.S i) (set_arg w (dchar i) (Some v)) v rest l) as (b & r & E & R & B1 & B2); [lia|apply written_args; auto|].
      exists b, r. cbn [length min]. rewrite E. split; [replace (Datatypes.S i + min m (length l)) with (i + Datatypes.S (min m (length l))) by lia; reflexivity|].
      split. { destruct r; [|lia]. destruct R as [R1 R2]. split; [lia|]. apply (written_args (x_args w)) in R2. destruct w. exact R2. }
      change (x_args (set_arg w (dchar i) (Some v))) with (pBat_SetLocalVar (x_args w) (dchar i) (Some v)) in *.
      split.
      * intros j Hj. rewrite B1 by auto. rewrite set_digit by lia. rewrite (ceq_digit j i) by lia.
        destruct (Nat.leb_spec (Datatypes.S i) j), (Nat.ltb_spec j (Datatypes.S i + min m (length l))),
          (Nat.leb_spec i j), (Nat.ltb_spec j (i + Datatypes.S (min m (length l)))), (Nat.eqb_spec j i); try lia; cbn [andb]; auto.
        -- replace (j - i) with (Datatypes.S (j - Datatypes.S i)) by lia. reflexivity.
        -- replace (j - i) with 0 by lia. reflexivity.
      * intros c Hc. rewrite B2 by auto. rewrite set_digit by lia. destruct (ceq c (dchar i)) eqn:X; auto.
        apply ceq_true in X. exfalso. apply (Hc i); [lia|auto].
Qed.

Lemma empty_ok : forall m i w, i + m <= 10 ->
  exists b, args_empty m i w = set_args w b /\
    (forall j, j < 10 -> b (dchar j) = if (i <=? j) && (j <? i + m) then Some [] else x_args w (dchar j)) /\
    (forall c, not_digit c -> b c = x_args w c).
Proof.
  induction m as [|m IH]; intros i w L; cbn [args_empty].
  - exists (x_args w). split; [destruct w; reflexivity|]. split; auto.
    intros j Hj. destruct (Nat.leb_spec i j), (Nat.ltb_spec j (i + 0)); auto; lia.
  - destruct (IH (Datatypes.S i) (set_arg w (dchar i) (Some []))) as (b & -> & B1 & B2); [lia|]. exists b. split; [reflexivity|].
    change (x_args (set_arg w (dchar i) (Some []))) with (pBat_SetLocalVar (x_args w) (dchar i) (Some [])) in *. split.
    + intros j Hj. rewrite B1 by auto. rewrite set_digit by lia. rewrite (ceq_digit j i) by lia.
      destruct (Nat.leb_spec (Datatypes.S i) j), (Nat.ltb_spec j (Datatypes.S i + m)),
          (Nat.leb_spec i j), (Nat.ltb_spec j (i + Datatypes.S m)), (Nat.eqb_spec j i); try lia; cbn [andb]; auto.
    + intros c Hc. rewrite B2 by auto. rewrite set_digit by lia. destruct (ceq c (dchar i)) eqn:X; auto.
      apply ceq_true in X. exfalso. apply (Hc i); [lia|auto].
Qed.

(** ** Lists *)
Lemma skipn_skipn' {A} a b (l : list A) : skipn a (skipn b l) = skipn (b + a) l.
Proof. revert l. induction b; intros l; auto. destruct l; [rewrite !skipn_nil; auto|]. simpl. auto. Qed.
Lemma nth_skipn {A} n (l : list A) i d : nth i (skipn n l) d = nth (n + i) l d.
Proof. revert l. induction n; intros l; auto. destruct l; simpl; auto. destruct i; auto. Qed.
Lemma nth_drop n k (l : list cstr) j : nth j (drop n k l) [] = if j <? n then nth j l [] else nth (j + k) l [].
Proof.
  unfold drop. destruct (Nat.ltb_spec j n) as [H|H].
  - destruct (Nat.lt_ge_cases j (length l)) as [G|G].
    + rewrite app_nth1 by (rewrite firstn_length; lia). rewrite <- (firstn_skipn n l) at 2. rewrite app_nth1; auto. rewrite firstn_length. lia.
    + rewrite (nth_overflow l) by auto. rewrite nth_overflow; auto. rewrite app_length, firstn_length, skipn_length. lia.
  - destruct (Nat.lt_ge_cases (length l) n) as [G|G].
    + rewrite !nth_overflow; auto; [lia|]. rewrite app_length, firstn_length, skipn_length. lia.
    + rewrite app_nth2; rewrite firstn_length, Nat.min_l by auto; auto. rewrite nth_skipn. f_equal. lia.
Qed.
Lemma skipn_drop n k (l : list cstr) m : n <= m -> skipn m (drop n k l) = skipn (m + k) l.
Proof.
  intros H. unfold drop. rewrite skipn_app, (skipn_all2 (firstn n l)) by (rewrite firstn_length; lia). cbn [app].
  rewrite skipn_skipn'. destruct (Nat.lt_ge_cases (length l) n) as [G|G].
  - rewrite !skipn_all2; auto; lia.
  - rewrite firstn_length, Nat.min_l by auto. f_equal. lia.
Qed.

(** ** SHIFT *)
Lemma others_digit c : ~ In c (s2l "0123456789+") -> not_digit c /\ c <> "+"%char.
Proof.
  intros H. split.
  - intros j Hj ->. apply H. do 10 (destruct j as [|j]; [cbn; tauto|]). lia.
  - intros ->. apply H. cbn. tauto.
Qed.
Lemma plus_not_digit : not_digit "+"%char.
Proof. intros j Hj. apply plus_dchar; auto. Qed.

Lemma set_args_twice w b c : set_args (set_args w b) c = set_args w c.
Proof. reflexivity. Qed.
Lemma written_back b w s l : written (set_args w b) s l -> written w s l.
Proof. intros H. apply (written_args (x_args w)) in H. destruct w. exact H. Qed.

Lemma shift_ok w L n k : n < 10 -> holds w L ->
  exists w', shift_args w n k = Ret w' /\ holds w' (drop n (min k (10 - n)) L) /\ others_stay w w'.
Proof.
  intros Hn (Hd & tok & Htok & Hw). unfold shift_args. set (k' := min k (10 - n)).
  assert (D : forall j, j < 10 -> x_args w (dchar j) = Some (nth j L [])) by (intros; apply Hd, digit_iff; auto).
  destruct (move_ok k (10 - (n + k)) n w) as (b1 & -> & M1 & M2); [lia|].
  cbn [bind]. set (i := n + (10 - (n + k))). assert (Hi : i = 10 - k') by (unfold i, k'; lia).
  assert (M : forall j, j < i -> b1 (dchar j) = Some (nth j (drop n k' L) [])).
  { intros j Hj. rewrite M1 by lia. rewrite nth_drop.
    destruct (Nat.leb_spec n j), (Nat.ltb_spec j i), (Nat.ltb_spec j n); try lia; fold i; destruct (Nat.ltb_spec j i); try lia; cbn [andb].
    - rewrite D by (unfold i, k' in *; lia). do 3 f_equal. unfold i, k' in *; lia.
    - apply D. lia. }
  pose proof (M2 _ plus_not_digit) as MP. change (x_args (set_args w b1)) with b1.
  assert (Z : forall b t, (forall j, j < 10 -> b (dchar j) = Some (nth j (drop n k' L) [])) ->
     match b "+"%char with Some u => u = t | None => t = [] end -> written w t (skipn k' (skipn 10 L)) ->
     (forall c, ~ In c (s2l "0123456789+") -> b c = x_args w c) ->
     holds (set_args w b) (drop n k' L) /\ others_stay w (set_args w b)).
  { intros b t H1 H2 H3 H4. split.
    - split.
      + intros j c H. apply digit_iff in H. destruct H as [H ->]. apply H1; auto.
      + exists t. split; [exact H2|]. rewrite skipn_drop by lia. rewrite <- skipn_skipn'. apply written_args; auto.
    - repeat (split; [reflexivity|]). exact H4. }
  destruct (Nat.ltb_spec i 10) as [I|I].
  2:{ cbn [bind]. replace (10 - i) with 0 by lia. cbn [args_empty]. eexists. split; [reflexivity|].
      apply (Z b1 tok).
      - intros j Hj. apply M. lia.
      - rewrite MP. exact Htok.
      - replace k' with 0 by lia. exact Hw.
      - intros c Hc. apply M2. apply others_digit; auto. }
  assert (FillNo : skipn 10 L = [] -> match b1 "+"%char with Some (_ :: _) => False | _ => True end ->
     exists w', Ret (args_empty (10 - i) i (set_args w b1)) = Ret w' /\ holds w' (drop n k' L) /\ others_stay w w').
  { intros HL HP. destruct (empty_ok (10 - i) i (set_args w b1)) as (b2 & -> & E1 & E2); [lia|]. change (x_args (set_args w b1)) with b1 in *.
    rewrite set_args_twice. eexists. split; [reflexivity|]. apply (Z b2 []).
    - intros j Hj. rewrite E1 by auto. destruct (Nat.leb_spec i j), (Nat.ltb_spec j (i + (10 - i))); try lia; cbn [andb].
      + rewrite nth_drop. destruct (Nat.ltb_spec j n); [unfold i, k' in *; lia|].
        rewrite nth_overflow; auto. assert (length (skipn 10 L) = 0) by (rewrite HL; auto). rewrite skipn_length in *. lia.
      + apply M; auto.
    - rewrite E2 by apply plus_not_digit. destruct (b1 "+"%char) as [[|]|]; auto. tauto.
    - rewrite HL, skipn_nil. constructor. constructor.
    - intros c Hc. rewrite E2 by (apply others_digit; auto). apply M2. apply others_digit; auto. }
  destruct (b1 "+"%char) as [[|x y]|] eqn:BP.
  - cbn [bind]. apply FillNo; auto. rewrite <- MP in Htok. eapply written_nil; eauto.
  - rewrite <- MP in Htok. subst tok.
    destruct (fill_ok (10 - i) i (set_args w b1) [] (x :: y) (skipn 10 L)) as (b2 & r & -> & R & F1 & F2); [lia|apply written_args; auto|].
    cbn [bind]. change (x_args (set_args w b1)) with b1 in *.
    set (i2 := i + min (10 - i) (length (skipn 10 L))) in *.
    match goal with |- context [args_empty _ _ ?w2] => destruct (empty_ok (10 - i2) i2 w2) as (b3 & -> & E1 & E2); [unfold i2; lia|] end.
    rewrite !set_args_twice in *. unfold set_arg in *. rewrite !set_args_twice in *.
    eexists. split; [reflexivity|].
    set (t2 := match r with Some t => t | None => [] end) in *.
    change (x_args (set_args w (pBat_SetLocalVar (x_args (set_args w b2)) "+"%char (Some t2)))) with (pBat_SetLocalVar b2 "+"%char (Some t2)) in *.
    assert (SP : forall c, pBat_SetLocalVar b2 "+"%char (Some t2) c = if ceq c "+"%char then Some t2 else b2 c) by (intros; apply set_local; reflexivity).
    apply (Z b3 t2).
    + intros j Hj. rewrite E1 by auto. rewrite SP.
      destruct (ceq (dchar j) "+"%char) eqn:CP. { apply ceq_true in CP. exfalso. apply dchar_ok in Hj. intuition congruence. }
      rewrite F1 by auto. rewrite nth_drop.
      destruct (Nat.leb_spec i2 j), (Nat.ltb_spec j (i2 + (10 - i2))); try (unfold i2 in *; lia); cbn [andb].
      * destruct (Nat.ltb_spec j n); [unfold i2, i, k' in *; lia|]. rewrite nth_overflow; auto. unfold i2 in *. rewrite skipn_length in *. lia.
      * destruct (Nat.leb_spec i j), (Nat.ltb_spec j i2); try lia; cbn [andb].
        -- destruct (Nat.ltb_spec j n); [unfold i2, i, k' in *; lia|]. rewrite nth_skipn. do 2 f_equal. lia.
        -- rewrite (M j) by lia. rewrite nth_drop. auto.
    + rewrite E2 by apply plus_not_digit. rewrite SP, ceq_refl. reflexivity.
    + replace k' with (10 - i) by lia. unfold t2. destruct r as [t|].
      * destruct R as [_ R]. apply (written_back b1). exact R.
      * rewrite skipn_all2 by lia. constructor. constructor.
    + intros c Hc. pose proof (others_digit c Hc) as [H1 H2]. rewrite E2, SP by auto.
      destruct (ceq c "+"%char) eqn:X; [apply ceq_true in X; congruence|]. rewrite F2 by auto. apply M2; auto.
  - cbn [bind]. apply FillNo; auto. rewrite <- MP in Htok. eapply written_nil; eauto.
Qed.

(** ** Options *)
Lemma written_length w s l : written w s l -> length l <= length s.
Proof.
  induction 1 as [|a raw rest t v l A N]; cbn [length]; [lia|]. rewrite !app_length. destruct raw; [congruence|]. cbn [length]. lia.
Qed.

Lemma digit_of c : is_digit c = true -> exists i, i < 10 /\ c = dchar i /\ Z.to_nat (code c - 48) = i.
Proof.
  intros H. exists (Z.to_nat (code c - 48)). revert H.
  assert (X : implb (is_digit c) ((Z.to_nat (code c - 48) <? 10) && ceq c (dchar (Z.to_nat (code c - 48)))) = true).
  { revert c. apply ascii_forall. vm_compute. reflexivity. }
  intros H. rewrite H in X.
  cbn [implb] in X. apply andb_prop in X. destruct X as [X1 X2]. apply Nat.ltb_lt in X1. apply ceq_true in X2. auto.
Qed.

Lemma shift_digit_iff r d : shift_digit r = Some d <-> d < 10 /\ (r = [dchar d] \/ r = [":"%char; dchar d]).
Proof.
  split.
  - unfold shift_digit. destruct r as [|c r]; [discriminate|].
    assert (D : forall x, (if is_digit x then Some (Z.to_nat (code x - 48)) else None) = Some d -> d < 10 /\ x = dchar d).
    { intros x H. destruct (is_digit x) eqn:X; [|discriminate]. injection H as <-. destruct (digit_of x X) as (i & I1 & I2 & I3). rewrite I3. auto. }
    destruct (ceq c ":"%char) eqn:C.
    + apply ceq_true in C. subst c. destruct r as [|x [|]]; try discriminate. intros H. apply D in H. destruct H as [H ->]. auto.
    + destruct r as [|x r]; [|discriminate]. intros H. apply D in H. destruct H as [H ->]. auto.
  - intros [H R]. pose proof (dchar_ok d H) as (_ & _ & _ & _ & D1 & D2). unfold shift_digit. destruct R as [-> | ->].
    + destruct (ceq (dchar d) ":"%char) eqn:C. { apply ceq_true in C. rewrite C in D1. discriminate. } rewrite D1, D2. auto.
    + cbn [ceq]. rewrite ceq_refl, D1, D2. auto.
Qed.

(** One option as the loop reads it. *)
Definition one_option (p : cstr) : option soption :=
  match p with
  | s :: c :: r =>
      if negb (ceq s "/"%char) then None
      else if is_digit c && negb (ceq c "7"%char) then Some (Start (Z.to_nat (code c - 48)))
      else if ceq c "s"%char then option_map Start (shift_digit r)
      else if ceq c "d"%char then option_map Move (shift_digit r)
      else None
  | _ => None
  end.
Lemma one_option_iff p o : one_option p = Some o <-> shift_option p o.
Proof.
  split.
  - destruct p as [|s [|c r]]; try discriminate. cbn [one_option].
    destruct (ceq s "/"%char) eqn:S; [|discriminate]. apply ceq_true in S. subst s. cbn [negb].
    destruct (is_digit c && negb (ceq c "7"%char)) eqn:D.
    + intros H. injection H as <-. apply andb_prop in D. destruct D as [D1 D2]. destruct (digit_of c D1) as (i & I1 & I2 & I3).
      rewrite I3. apply so_digit; [apply digit_iff; auto|]. intros ->. rewrite I2 in D2. discriminate.
    + destruct (ceq c "s"%char) eqn:S; [|destruct (ceq c "d"%char) eqn:S']; try discriminate.
      * apply ceq_true in S. subst c. destruct (shift_digit r) as [d|] eqn:X; [|discriminate]. intros H. injection H as <-.
        apply shift_digit_iff in X. destruct X as [X [-> | ->]]; [apply so_start|apply so_start_colon]; apply digit_iff; auto.
      * apply ceq_true in S'. subst c. destruct (shift_digit r) as [d|] eqn:X; [|discriminate]. intros H. injection H as <-.
        apply shift_digit_iff in X. destruct X as [X [-> | ->]]; [apply so_move|apply so_move_colon]; apply digit_iff; auto.
  - intros H. destruct H as [i c r H N|i c H|i c H|i c H|i c H]; apply digit_iff in H; destruct H as [H ->];
      try (cbn -[shift_digit dchar]; match goal with |- option_map _ (shift_digit ?r) = _ => replace (shift_digit r) with (Some i) end;
        [reflexivity|symmetry; apply shift_digit_iff; auto]).
    pose proof (dchar_ok i H) as (_ & _ & _ & _ & D1 & D2). cbn [one_option]. rewrite ceq_refl, D1, D2. cbn [negb andb].
    destruct (ceq (dchar i) "7"%char) eqn:C; [|reflexivity]. apply ceq_true in C. exfalso. apply N.
    apply (dchar_inj i 7 H); [repeat constructor|exact C].
Qed.

Lemma options_step f w old a raw rest t p n k :
  Forall blank a -> raw <> [] -> (forall c r, raw = c :: r -> ~ blank c) ->
  param_at PBAT_DELIMITERS raw rest -> bare (match rest with [] => true | _ => false end) raw t ->
  t <> s2l "^" -> pBat_DelayedExpand w t = Ret (p, w) ->
  shift_options (Datatypes.S f) w old (a ++ raw ++ rest) n k =
  match one_option p with
  | Some (Start m) => shift_options f w p rest m k
  | Some (Move m) => shift_options f w p rest n m
  | None => Ret (if prefixb (s2l "/?") p then SHelp else SBad, w)
  end.
Proof.
  intros A N F P B C D. cbn [shift_options]. rewrite (next_written w old a raw rest t p) by auto. cbn [bind].
  destruct p as [|s [|c r]].
  { reflexivity. }
  { replace (prefixb (s2l "/?") [s]) with false; [reflexivity|]. cbn [prefixb s2l list_ascii_of_string]. symmetry. apply Bool.andb_false_r. }
  cbn [one_option]. destruct (ceq s "/"%char) eqn:S; cbn [negb].
  2:{ replace (prefixb (s2l "/?") (s :: c :: r)) with false; [reflexivity|]. cbn [prefixb s2l list_ascii_of_string].
      destruct (ceq "/" s) eqn:X; [|reflexivity]. apply ceq_true in X. subst s. discriminate. }
  apply ceq_true in S. subst s.
  destruct (is_digit c && negb (ceq c "7"%char)); [reflexivity|].
  destruct (ceq c "s"%char) eqn:S.
  { apply ceq_true in S. subst c. destruct (shift_digit r); reflexivity. }
  destruct (ceq c "d"%char) eqn:S'.
  { apply ceq_true in S'. subst c. destruct (shift_digit r); reflexivity. }
  cbn [prefixb s2l list_ascii_of_string]. rewrite ceq_refl. cbn [andb].
  destruct (ceq c "?"%char) eqn:X; [apply ceq_true in X; subst c; reflexivity|].
  destruct (ceq "?" c) eqn:Y; [apply ceq_true in Y; subst c; discriminate|]. reflexivity.
Qed.

Lemma options_ok w line ps : written w line ps -> forall os fuel old n k, Forall2 shift_option ps os -> length line < fuel ->
  shift_options fuel w old line n k =
  Ret (SGo (fold_left (fun n o => match o with Start m => m | Move _ => n end) os n)
           (fold_left (fun k o => match o with Move m => m | Start _ => k end) os k), w).
Proof.
  induction 1 as [s B|a raw rest t v l A N F P B C D W IH]; intros os fuel old n k H L; inversion H; subst.
  - destruct fuel; [lia|]. cbn [shift_options]. rewrite next_end by auto. reflexivity.
  - destruct fuel; [lia|]. rewrite (options_step fuel w old a raw rest t v n k) by auto.
    assert (length rest < fuel).
    { rewrite !app_length in L. destruct raw; [congruence|]. cbn [length] in L. lia. }
    match goal with X : shift_option v ?y |- _ => apply one_option_iff in X; rewrite X; destruct y; rewrite (IH l') by auto; reflexivity end.
Qed.

Lemma options_bad w line ps : written w line ps -> forall good p bad fuel old n k, ps = good ++ p :: bad ->
  Forall (fun q => exists o, shift_option q o) good -> (forall o, ~ shift_option p o) -> length line < fuel ->
  shift_options fuel w old line n k = Ret (if prefixb (s2l "/?") p then SHelp else SBad, w).
Proof.
  induction 1 as [s B|a raw rest t v l A N F P B C D W IH]; intros good p bad fuel old n k E G H L.
  - destruct good; discriminate.
  - destruct fuel; [lia|]. rewrite (options_step fuel w old a raw rest t v n k) by auto.
    assert (length rest < fuel).
    { rewrite !app_length in L. destruct raw; [congruence|]. cbn [length] in L. lia. }
    destruct good as [|q good]; cbn [app] in E; injection E as -> ->.
    + destruct (one_option p) as [o|] eqn:X; auto. apply one_option_iff in X. exfalso. eapply H; eauto.
    + inversion G as [|? ? [o X] G']; subst. apply one_option_iff in X. rewrite X. destruct o; eapply IH; eauto.
Qed.

(** ** Replacing one character *)
Definition subst1 (c : ascii) (rep : cstr) (s : cstr) : cstr := flat_map (fun d => if ceq d c then rep else [d]) s.

Lemma subst1_none c rep s : strstr s [c] = None -> subst1 c rep s = s.
Proof.
  unfold subst1. induction s as [|d s IH]; cbn [strstr flat_map]; auto. cbn [prefixb]. rewrite Bool.andb_true_r.
  destruct (ceq c d) eqn:X; [discriminate|]. destruct (strstr s [c]); [discriminate|]. intros _. rewrite IH by auto.
  destruct (ceq d c) eqn:Y; auto. apply ceq_true in Y. subst d. rewrite ceq_refl in X. discriminate.
Qed.
Lemma subst1_some c rep s : forall k, strstr s [c] = Some k ->
  k < length s /\ subst1 c rep s = firstn k s ++ rep ++ subst1 c rep (skipn (k + 1) s).
Proof.
  unfold subst1. induction s as [|d s IH]; cbn [strstr flat_map]; [discriminate|]. intros k. cbn [prefixb]. rewrite Bool.andb_true_r.
  destruct (ceq c d) eqn:X.
  - intros H. injection H as <-. apply ceq_true in X. subst d. rewrite ceq_refl. split; [simpl; lia|reflexivity].
  - destruct (strstr s [c]) as [m|]; [|discriminate]. intros H. injection H as <-. destruct (IH m eq_refl) as [L E]. split; [simpl; lia|].
    destruct (ceq d c) eqn:Y; [apply ceq_true in Y; subst d; rewrite ceq_refl in X; discriminate|].
    rewrite E. reflexivity.
Qed.
Lemma replace1_ok c rep s : es_replace1 c rep s = Ret (subst1 c rep s).
Proof.
  unfold es_replace1. cut (forall fuel s, length s < fuel -> replace_text fuel s [c] rep = Ret (subst1 c rep s)).
  { intros H. apply H. lia. }
  clear s. induction fuel as [|f IH]; intros s L; [lia|]. cbn [replace_text].
  destruct (strstr s [c]) as [k|] eqn:X.
  - destruct (subst1_some c rep s k X) as [K E]. rewrite IH by (rewrite skipn_length; simpl; lia). cbn [bind length]. rewrite E. reflexivity.
  - rewrite subst1_none; auto.
Qed.

(** ** Protected text *)
Definition guard (f : ascii -> bool) (v : cstr) : cstr := flat_map (fun c => if f c then ["^"%char; c] else [c]) v.

Lemma guard_escaping f v : (forall c, In c v -> f c = false -> c <> "^"%char) -> escaping v (guard f v).
Proof.
  unfold guard. induction v as [|c v IH]; intros H; cbn [flat_map]; [constructor|].
  assert (IH' : escaping v (guard f v)) by (apply IH; intros; apply H; [right|]; auto).
  destruct (f c) eqn:X; cbn [app]; [apply esc_prot; auto|apply esc_plain; auto]. apply H; [left|]; auto.
Qed.
Lemma guard_dead f p v : (forall c, In c v -> f c = false -> c <> "^"%char /\ p c = false) -> p "^"%char = false ->
  forall i, ~ live p (guard f v) i.
Proof.
  intros H P. induction v as [|c v IH]; intros i L.
  - apply live_lt in L. simpl in L. lia.
  - assert (IH' : forall i, ~ live p (guard f v) i) by (apply IH; intros; apply H; [right|]; auto).
    unfold guard in L. cbn [flat_map] in L. fold (guard f v) in L. destruct (f c) eqn:X.
    + destruct i as [|[|i]].
      * apply live_iff in L. destruct L as [_ (d & D1 & D2)]. injection D1 as <-. congruence.
      * apply live_iff in L. destruct L as [L _]. discriminate.
      * apply (IH' i). apply (live_app2 p ["^"%char; c] (guard f v) i); auto. exists [c]. apply esc_prot. constructor.
    + destruct (H c) as [N Pc]; [left; auto|auto|]. destruct i as [|i].
      * apply live_iff in L. destruct L as [_ (d & D1 & D2)]. injection D1 as <-. congruence.
      * apply (IH' i). apply (live_app2 p [c] (guard f v) i); auto. exists [c]. apply esc_plain; [auto|constructor].
Qed.
Lemma guard_nonempty f v : v <> [] -> guard f v <> [].
Proof. destruct v as [|c v]; [congruence|]. intros _. unfold guard. cbn [flat_map]. destruct (f c); discriminate. Qed.

Lemma flat_map_map {A B C} (f : A -> list B) (g : B -> list C) l : flat_map g (flat_map f l) = flat_map (fun x => flat_map g (f x)) l.
Proof. induction l; cbn [flat_map]; auto. rewrite flat_map_app, IHl. auto. Qed.
Lemma flat_map_ext' {A B} (f g : A -> list B) l : (forall x, In x l -> f x = g x) -> flat_map f l = flat_map g l.
Proof. induction l; intros H; cbn [flat_map]; auto. rewrite H by (left; auto). f_equal. apply IHl. intros. apply H. right. auto. Qed.

Definition call_guarded : cstr := s2l " ;," ++ ["009"%char; dquote].
Lemma call_escape_ok t : call_escape t = Ret (guard (inset call_guarded) t).
Proof.
  unfold call_escape. rewrite !replace1_ok. cbn [bind]. rewrite replace1_ok. cbn [bind]. rewrite replace1_ok. cbn [bind]. rewrite replace1_ok. cbn [bind].
  rewrite replace1_ok. cbn [bind]. rewrite ?replace1_ok. f_equal. unfold subst1, guard. rewrite !flat_map_map. 
  match goal with |- flat_map ?f t = flat_map ?g t =>
    assert (X : forall c, streqb (f c) (g c) = true) by (apply ascii_forall; vm_compute; reflexivity) end.
  apply flat_map_ext'. intros c _. apply streqb_true. apply X.
Qed.

(** ** Texts made of words *)
Lemma written_word w s v rest l : s <> [] -> escaping v s -> (forall i, ~ live (inset (dquote :: blanks)) s i) ->
  (forall i, ~ live (fun c => ceq c "%"%char) s i) -> (forall i, ~ live (fun c => ceq c "!"%char) s i) ->
  ends rest -> written w rest l -> written w (s ++ rest) (v :: l).
Proof.
  intros N V Q P D R W. destruct (word_whole s v N V Q) as [Wh B].
  apply (wr_next w [] s rest s v l); auto.
  - intros c r H. eapply (first_char_ok s [] c r); auto. rewrite app_nil_r. auto.
  - apply whole_at; auto.
  - apply settled_not_caret. exists v. auto.
  - apply delayed_plain; auto; [eapply plain_of; eauto|intros _; eapply plain_of; eauto].
Qed.
Lemma written_quoted w s v rest l : escaping v s -> (forall i, ~ live (fun c => ceq c dquote) s i) ->
  (forall i, ~ live (fun c => ceq c "%"%char) s i) -> (forall i, ~ live (fun c => ceq c "!"%char) s i) ->
  ends rest -> written w rest l -> written w ((dquote :: s ++ [dquote]) ++ rest) (v :: l).
Proof.
  intros V Q P D R W. destruct (quoted_whole s v V Q) as [Wh B].
  apply (wr_next w [] (dquote :: s ++ [dquote]) rest s v l); auto.
  - discriminate.
  - intros c r H. injection H as <- _. cbv. intuition discriminate.
  - apply whole_at; auto.
  - apply settled_not_caret. exists v. auto.
  - apply delayed_plain; auto; [eapply plain_of; eauto|intros _; eapply plain_of; eauto].
Qed.
Lemma written_blank w c s l : blank c -> written w s l -> written w (c :: s) l.
Proof.
  intros B W. destruct W as [s H|a raw rest t v l A N F P Br C D W]; [constructor; constructor; auto|].
  apply (wr_next w (c :: a) raw rest t v l); auto.
Qed.
Lemma space_blank : blank " "%char.
Proof. cbv. tauto. Qed.
Lemma ends_space s : ends (" "%char :: s).
Proof. intros c r H. injection H as <- _. apply space_blank. Qed.

Lemma written_guarded w v rest l : sturdy v -> written w rest l -> written w (guard (inset call_guarded) v ++ " "%char :: rest) (v :: l).
Proof.
  intros [N S] W.
  assert (X : forall c, In c v -> inset call_guarded c = false -> c <> "^"%char /\ inset (dquote :: blanks) c = false /\ ceq c "%"%char = false /\ ceq c "!"%char = false).
  { intros c Hc Hg. specialize (S c Hc). split; [intros ->; apply S; cbn; tauto|]. split.
    - destruct (inset (dquote :: blanks) c) eqn:Y; auto. exfalso. apply inset_in in Y. assert (Z : ~ In c call_guarded).
      { intros Z. apply inset_in in Z. congruence. }
      revert Y Z S. cbn. intuition.
    - split; apply ceq_false; intros ->; apply S; cbn; tauto. }
  apply written_word; auto.
  - apply guard_nonempty; auto.
  - apply guard_escaping. intros c H1 H2. apply X; auto.
  - apply guard_dead; [intros c H1 H2; specialize (X c H1 H2); tauto|reflexivity].
  - apply (guard_dead (inset call_guarded) (fun c => ceq c "%"%char)); [intros c H1 H2; specialize (X c H1 H2); tauto|reflexivity].
  - apply (guard_dead (inset call_guarded) (fun c => ceq c "!"%char)); [intros c H1 H2; specialize (X c H1 H2); tauto|reflexivity].
  - apply ends_space.
  - apply written_blank; auto. apply space_blank.
Qed.

(** ** CALL *)
Definition surplus (vs : list cstr) : cstr := concat (map (fun v => guard (inset call_guarded) v ++ s2l " ") vs).
Lemma surplus_written w vs : Forall sturdy vs -> written w (surplus vs) vs.
Proof.
  unfold surplus. induction 1; cbn [map concat]; [constructor; constructor|]. rewrite <- app_assoc. apply written_guarded; auto.
Qed.
Lemma call_surplus_ok w line vs : written w line vs -> forall fuel old acc, length line < fuel ->
  call_surplus fuel w old line acc = Ret (acc ++ surplus vs, w).
Proof.
  unfold surplus. induction 1 as [s B|a raw rest t v l A N F P B C D W IH]; intros fuel old acc L; (destruct fuel; [lia|]); cbn [call_surplus].
  - rewrite next_end by auto. cbn [bind map concat]. rewrite app_nil_r. auto.
  - rewrite (next_written w old a raw rest t v) by auto. cbn [bind]. rewrite call_escape_ok. cbn [bind].
    rewrite IH. { cbn [map concat]. rewrite <- !app_assoc. reflexivity. }
    rewrite !app_length in L. destruct raw; [congruence|]. cbn [length] in L. lia.
Qed.

Lemma call_first_ok w : forall m i old line vs b, i + m <= 10 -> written w line vs ->
  exists b' r, call_first m i w old line b = Ret (r, i + min m (length vs), b', w) /\
    (match r with Some t => m <= length vs /\ written w t (skipn m vs) | None => length vs < m end) /\
    (forall j, j < 10 -> b' (dchar j) = if (i <=? j) && (j <? i + min m (length vs)) then Some (nth (j - i) vs []) else b (dchar j)) /\
    (forall c, not_digit c -> b' c = b c).
Proof.
  induction m as [|m IH]; intros i old line vs b L W; cbn [call_first].
  - exists b, (Some line). cbn [min]. rewrite Nat.add_0_r. split; auto. split; [split; [lia|auto]|]. split; auto.
    intros j Hj. destruct (Nat.leb_spec i j), (Nat.ltb_spec j i); auto; lia.
  - destruct W as [s B|a raw rest t v l A N F P B C D W].
    + rewrite next_end by auto. cbn [bind length min]. exists b, None. rewrite Nat.add_0_r. split; auto.
      split; [lia|]. split; auto. intros j Hj. destruct (Nat.leb_spec i j), (Nat.ltb_spec j i); auto; lia.
    + rewrite (next_written w old a raw rest t v) by auto. cbn [bind].
      destruct (IH (Datatypes.S i) v rest l (pBat_SetLocalVar b (dchar i) (Some v))) as (b' & r & E & R & B1 & B2); [lia|auto|].
      exists b', r. cbn [length min]. rewrite E. split; [replace (Datatypes.S i + min m (length l)) with (i + Datatypes.S (min m (length l))) by lia; reflexivity|].
      split. { destruct r; [|lia]. destruct R as [R1 R2]. split; [lia|]. exact R2. }
      split.
      * intros j Hj. rewrite B1 by auto. rewrite set_digit by lia. rewrite (ceq_digit j i) by lia.
        destruct (Nat.leb_spec (Datatypes.S i) j), (Nat.ltb_spec j (Datatypes.S i + min m (length l))),
          (Nat.leb_spec i j), (Nat.ltb_spec j (i + Datatypes.S (min m (length l)))), (Nat.eqb_spec j i); try lia; cbn [andb]; auto.
        -- replace (j - i) with (Datatypes.S (j - Datatypes.S i)) by lia. reflexivity.
        -- replace (j - i) with 0 by lia. reflexivity.
      * intros c Hc. rewrite B2 by auto. rewrite set_digit by lia. destruct (ceq c (dchar i)) eqn:X; auto.
        apply ceq_true in X. exfalso. apply (Hc i); [lia|auto].
Qed.

Lemma block_empty_ok : forall m i b, i + m <= 10 ->
  (forall j, j < 10 -> block_empty m i b (dchar j) = if (i <=? j) && (j <? i + m) then Some [] else b (dchar j)) /\
  (forall c, not_digit c -> block_empty m i b c = b c).
Proof.
  induction m as [|m IH]; intros i b L; cbn [block_empty].
  - split; auto. intros j Hj. destruct (Nat.leb_spec i j), (Nat.ltb_spec j (i + 0)); auto; lia.
  - destruct (IH (Datatypes.S i) (pBat_SetLocalVar b (dchar i) (Some []))) as (B1 & B2); [lia|]. split.
    + intros j Hj. rewrite B1 by auto. rewrite set_digit by lia. rewrite (ceq_digit j i) by lia.
      destruct (Nat.leb_spec (Datatypes.S i) j), (Nat.ltb_spec j (Datatypes.S i + m)),
          (Nat.leb_spec i j), (Nat.ltb_spec j (i + Datatypes.S m)), (Nat.eqb_spec j i); try lia; cbn [andb]; auto.
    + intros c Hc. rewrite B2 by auto. rewrite set_digit by lia. destruct (ceq c (dchar i)) eqn:X; auto.
      apply ceq_true in X. exfalso. apply (Hc i); [lia|auto].
Qed.

Lemma plus_set b v c : pBat_SetLocalVar b "+"%char v c = if ceq c "+"%char then v else b c.
Proof. apply set_local. reflexivity. Qed.
Lemma dchar_plus j : j < 10 -> ceq (dchar j) "+"%char = false.
Proof. intros H. apply ceq_false. apply dchar_ok; auto. Qed.
Lemma star_not_digit : not_digit "*"%char.
Proof. intros j Hj X. apply dchar_ok in Hj. intuition congruence. Qed.

Lemma holds_of w b l t : (forall j, j < 10 -> b (dchar j) = Some (nth j l [])) -> b "+"%char = Some t -> written w t (skipn 10 l) ->
  holds (set_args w b) l.
Proof.
  intros H1 H2 H3. split.
  - intros i c H. apply digit_iff in H. destruct H as [H ->]. apply H1; auto.
  - exists t. change (x_args (set_args w b)) with b. rewrite H2. split; auto. apply written_args; auto.
Qed.

Lemma call_ok w zero line vs t : written w line vs -> pBat_DelayedExpand w line = Ret (t, w) -> Forall sturdy (skipn 9 vs) ->
  exists b, call_args w zero line = Ret (b, w) /\ b "*"%char = Some t /\
    (forall c, ~ In c (s2l "0123456789+*") -> b c = None) /\ forall w', holds (set_args w' b) (zero :: vs).
Proof.
  intros W E S. unfold call_args, pBat_GetEndOfLine. rewrite E. cbn [bind].
  set (b0 := pBat_SetLocalVar (pBat_SetLocalVar pBat_GetLocalBlock "0"%char (Some zero)) "*"%char (Some t)).
  assert (B0 : forall c, b0 c = if ceq c "*"%char then Some t else if ceq c "0"%char then Some zero else None).
  { intros c. unfold b0. rewrite !set_local by reflexivity. reflexivity. }
  destruct (call_first_ok w 9 1 t line vs b0) as (b & r & -> & R & B1 & B2); [lia|auto|]. cbn [bind].
  assert (B0d : forall j, j < 10 -> b0 (dchar j) = if j =? 0 then Some zero else None).
  { intros j Hj. rewrite B0. destruct (ceq (dchar j) "*"%char) eqn:X. { apply ceq_true in X. apply dchar_ok in Hj. intuition congruence. }
    change "0"%char with (dchar 0). rewrite ceq_digit by lia. auto. }
  assert (Bo : forall c, ~ In c (s2l "0123456789+*") -> not_digit c /\ c <> "+"%char /\ c <> "*"%char).
  { intros c Hc. split; [|split; intros ->; apply Hc; cbn; tauto]. intros j Hj ->. apply Hc.
    do 10 (destruct j as [|j]; [cbn; tauto|]). lia. }
  assert (Bn : forall c, ~ In c (s2l "0123456789+*") -> b c = None).
  { intros c Hc. destruct (Bo c Hc) as (H1 & H2 & H3). rewrite B2, B0 by auto. rewrite (proj2 (ceq_false c "*"%char)) by auto.
    rewrite (proj2 (ceq_false c "0"%char)); auto. intros ->. apply Hc. cbn. tauto. }
  assert (Bs : b "*"%char = Some t). { rewrite B2 by apply star_not_digit. rewrite B0. reflexivity. }
  destruct (Nat.ltb_spec (1 + min 9 (length vs)) 10) as [I|I].
  - eexists. split; [reflexivity|]. destruct (block_empty_ok (10 - (1 + min 9 (length vs))) (1 + min 9 (length vs)) b) as [E1 E2]; [lia|].
    split; [rewrite plus_set; cbn [ceq]; change (ceq "*" "+") with false; cbv iota; rewrite E2 by apply star_not_digit; auto|]. split.
    + intros c Hc. destruct (Bo c Hc) as (H1 & H2 & H3). rewrite plus_set, (proj2 (ceq_false c "+"%char)), E2 by auto. auto.
    + intros w'. apply (holds_of w' _ _ []).
      * intros j Hj. rewrite plus_set, dchar_plus, E1, B1, B0d by auto.
        destruct (Nat.leb_spec (1 + min 9 (length vs)) j), (Nat.ltb_spec j (1 + min 9 (length vs) + (10 - (1 + min 9 (length vs))))),
          (Nat.leb_spec 1 j), (Nat.ltb_spec j (1 + min 9 (length vs))), (Nat.eqb_spec j 0); try lia; cbn [andb].
        -- rewrite nth_overflow; auto. cbn [length]. unfold cstr in *. lia.
        -- destruct j as [|j]; [lia|]. simpl. rewrite Nat.sub_0_r. auto.
        -- subst j. reflexivity.
      * rewrite plus_set, ceq_refl. auto.
      * rewrite skipn_all2 by (cbn [length]; unfold cstr in *; lia). constructor. constructor.
  - destruct r as [rest|]; [|lia]. destruct R as [R1 R2]. rewrite (call_surplus_ok w rest (skipn 9 vs)) by auto. cbn [bind app].
    eexists. split; [reflexivity|]. split; [rewrite plus_set; change (ceq "*" "+") with false; auto|]. split.
    + intros c Hc. destruct (Bo c Hc) as (H1 & H2 & H3). rewrite plus_set, (proj2 (ceq_false c "+"%char)) by auto. auto.
    + intros w'. apply (holds_of w' _ _ (surplus (skipn 9 vs))).
      * intros j Hj. rewrite plus_set, dchar_plus, B1, B0d by auto.
        destruct (Nat.leb_spec 1 j), (Nat.ltb_spec j (1 + min 9 (length vs))), (Nat.eqb_spec j 0); try lia; cbn [andb].
        -- destruct j as [|j]; [lia|]. simpl. rewrite Nat.sub_0_r. auto.
        -- subst j. reflexivity.
      * rewrite plus_set, ceq_refl. auto.
      * apply surplus_written; auto.
Qed.

(** ** The command line *)
Lemma inset_quote c : inset [dquote] c = ceq c dquote.
Proof. apply Bool.eqb_prop. revert c. apply ascii_forall. vm_compute. reflexivity. Qed.
Lemma quote_guard a : es_replace1 dquote ["^"%char; dquote] a = Ret (guard (inset [dquote]) a).
Proof.
  rewrite replace1_ok. f_equal. unfold subst1, guard. apply flat_map_ext'. intros c _. rewrite inset_quote.
  destruct (ceq c dquote) eqn:X; auto. apply ceq_true in X. subst. auto.
Qed.
Lemma strpbrk_none a set : strpbrk a set = None -> forall c, In c a -> inset set c = false.
Proof.
  unfold strpbrk. induction a as [|d a IH]; intros H c Hc; [destruct Hc|]. cbn [find_idx] in H.
  destruct (inset set d) eqn:X; [discriminate|]. destruct Hc as [<-|Hc]; auto. apply IH; auto.
  destruct (find_idx (inset set) a); [discriminate|auto].
Qed.
Lemma assign_ok : forall argv, exists t, assign_line argv = Ret t /\ (Forall sturdy argv -> forall w, written w t argv).
Proof.
  induction argv as [|a argv (t & E & W)]; cbn [assign_line].
  - exists []. split; auto. intros _ w. constructor. constructor.
  - rewrite quote_guard, E. cbn [bind]. eexists. split; [reflexivity|]. intros F w. inversion F as [|? ? [N S] F']; subst.
    specialize (W F' w).
    assert (X : forall p, p "^"%char = false -> p dquote = true \/ (forall c, In c a -> p c = false) -> (forall c, In c a -> p c = true -> c = dquote) ->
      forall i, ~ live p (guard (inset [dquote]) a) i).
    { intros p P1 _ P2. apply guard_dead; auto. intros c Hc Hq. split; [intros ->; apply (S _ Hc); cbn; tauto|].
      destruct (p c) eqn:Y; auto. apply P2 in Y; auto. subst c. discriminate. }
    assert (V : escaping a (guard (inset [dquote]) a)).
    { apply guard_escaping. intros c Hc _ ->. apply (S _ Hc). cbn. tauto. }
    assert (D1 : forall i, ~ live (fun c => ceq c "%"%char) (guard (inset [dquote]) a) i).
    { apply X; auto; [right|]; intros c Hc; [apply ceq_false|intros Y; apply ceq_true in Y; subst c; exfalso]; [intros ->|]; apply (S _ Hc); cbn; tauto. }
    assert (D2 : forall i, ~ live (fun c => ceq c "!"%char) (guard (inset [dquote]) a) i).
    { apply X; auto; [right|]; intros c Hc; [apply ceq_false|intros Y; apply ceq_true in Y; subst c; exfalso]; [intros ->|]; apply (S _ Hc); cbn; tauto. }
    destruct (strpbrk a _) eqn:Q.
    + replace ((dquote :: guard (inset [dquote]) a ++ dquote :: s2l " ") ++ t)
        with ((dquote :: guard (inset [dquote]) a ++ [dquote]) ++ " "%char :: t) by (cbn; rewrite <- !app_assoc; reflexivity).
      apply written_quoted; auto.
      * apply X; auto. intros c _ Y. apply ceq_true in Y. auto.
      * apply ends_space.
      * apply written_blank; auto. apply space_blank.
    + rewrite <- app_assoc. apply written_word; auto.
      * apply guard_nonempty; auto.
      * apply X; auto. intros c Hc Y. apply inset_in in Y. pose proof (strpbrk_none _ _ Q c Hc) as Z.
        assert (Z' : ~ In c (s2l " ,;=" ++ "009"%char :: s2l "&|")) by (intros Z'; apply inset_in in Z'; congruence).
        specialize (S c Hc). revert Y Z' S. cbn. intuition.
      * apply ends_space.
      * apply written_blank; auto. apply space_blank.
Qed.

Lemma argv_first_ok : forall m i argv b, i + m <= 10 ->
  snd (argv_first m i argv b) = skipn m argv /\
  (forall j, j < 10 -> fst (argv_first m i argv b) (dchar j) = if (i <=? j) && (j <? i + m) then Some (nth (j - i) argv []) else b (dchar j)) /\
  (forall c, not_digit c -> fst (argv_first m i argv b) c = b c).
Proof.
  induction m as [|m IH]; intros i argv b L.
  - cbn [argv_first]. split; [destruct argv; reflexivity|]. destruct argv; cbn [fst block_empty]; (split; auto);
      intros j Hj; destruct (Nat.leb_spec i j), (Nat.ltb_spec j (i + 0)); auto; lia.
  - destruct argv as [|a argv]; cbn [argv_first].
    + split; [rewrite skipn_nil; reflexivity|]. destruct (block_empty_ok (Datatypes.S m) i b) as [E1 E2]; [lia|]. cbn [fst]. split; auto.
      intros j Hj. rewrite E1 by auto. destruct (j - i); auto.
    + destruct (IH (Datatypes.S i) argv (pBat_SetLocalVar b (dchar i) (Some a))) as (H1 & H2 & H3); [lia|]. split; [exact H1|]. split.
      * intros j Hj. rewrite H2 by auto. rewrite set_digit, (ceq_digit j i) by lia.
        destruct (Nat.leb_spec (Datatypes.S i) j), (Nat.ltb_spec j (Datatypes.S i + m)),
          (Nat.leb_spec i j), (Nat.ltb_spec j (i + Datatypes.S m)), (Nat.eqb_spec j i); try lia; cbn [andb]; auto.
        -- replace (j - i) with (Datatypes.S (j - Datatypes.S i)) by lia. reflexivity.
        -- replace (j - i) with 0 by lia. reflexivity.
      * intros c Hc. rewrite H3 by auto. rewrite set_digit by lia. destruct (ceq c (dchar i)) eqn:X; auto.
        apply ceq_true in X. exfalso. apply (Hc i); [lia|auto].
Qed.

Lemma argv_ok zero argv : Forall sturdy (skipn 9 argv) ->
  exists b t, argv_args zero argv = Ret b /\ b "*"%char = Some t /\ (Forall sturdy argv -> forall w, written w t argv) /\
    forall w, holds (set_args w b) (zero :: argv).
Proof.
  intros S. unfold argv_args. destruct (argv_first_ok 9 1 argv pBat_GetLocalBlock) as (H1 & H2 & H3); [lia|].
  destruct (argv_first 9 1 argv pBat_GetLocalBlock) as [b rest]. cbn [fst snd] in *. subst rest.
  destruct (assign_ok argv) as (all & -> & A). destruct (assign_ok (skipn 9 argv)) as (s & -> & B). cbn [bind].
  eexists. exists all. split; [reflexivity|].
  split; [rewrite !set_local by reflexivity; reflexivity|]. split; auto.
  intros w. apply (holds_of w _ _ s).
  - intros j Hj. rewrite !set_local by reflexivity. change "0"%char with (dchar 0). rewrite ceq_digit by lia.
    destruct (Nat.eqb_spec j 0) as [->|N]; [reflexivity|]. rewrite dchar_plus by auto.
    destruct (ceq (dchar j) "*"%char) eqn:X. { apply ceq_true in X. apply dchar_ok in Hj. intuition congruence. }
    rewrite H2 by auto. destruct (Nat.leb_spec 1 j), (Nat.ltb_spec j (1 + 9)); try lia. cbn [andb].
    destruct j as [|j]; [lia|]. cbn [nth]. do 2 f_equal. lia.
  - rewrite !set_local by reflexivity. reflexivity.
  - apply B; auto.
Qed.

(** ** EXIT *)
Lemma plain_param w v a rest old : Forall blank a -> ends rest -> v <> [] -> (forall c, In c v -> ~ In c (dquote :: blanks ++ s2l "^%!")) ->
  pBat_GetNextParameterEs w old (a ++ v ++ rest) = Ret (v, Some rest, w).
Proof.
  intros A R N S.
  assert (V : escaping v v).
  { clear -S. induction v; constructor; [|apply IHv; intros; apply S; right; auto]. intros ->. eapply (S "^"%char); [left; auto|cbn; tauto]. }
  assert (D : forall p, (forall c, In c v -> p c = true -> False) -> forall i, ~ live p v i).
  { intros p H i [_ (c & C1 & C2)]. apply nth_error_In in C1. eauto. }
  apply (next_written w old a v rest v v); auto.
  - intros c r -> B. apply (S c); [left; auto|]. right. apply in_or_app. left. exact B.
  - apply whole_at; auto. apply (word_whole v v); auto. apply D. intros c Hc X. apply inset_in in X. apply (S c Hc).
    destruct X as [X|X]; [left; auto|right; apply in_or_app; left; auto].
  - apply (word_whole v v); auto. apply D. intros c Hc X. apply inset_in in X. apply (S c Hc).
    destruct X as [X|X]; [left; auto|right; apply in_or_app; left; auto].
  - apply settled_not_caret. exists v. auto.
  - apply delayed_plain; auto; [|intros _]; apply (plain_of _ _ v); auto; apply D; intros c Hc X; apply ceq_true in X; subst c;
      eapply S; eauto; cbn; tauto.
Qed.

Lemma written_plain w v rest l : v <> [] -> (forall c, In c v -> ~ In c (dquote :: blanks ++ s2l "^%!")) -> ends rest ->
  written w rest l -> written w (v ++ rest) (v :: l).
Proof.
  intros N S R W.
  assert (V : escaping v v).
  { clear -S. induction v; constructor; [|apply IHv; intros; apply S; right; auto]. intros ->. eapply (S "^"%char); [left; auto|cbn; tauto]. }
  assert (D : forall p, (forall c, In c v -> p c = true -> False) -> forall i, ~ live p v i).
  { intros p H i [_ (c & C1 & C2)]. apply nth_error_In in C1. eauto. }
  apply written_word; auto.
  - apply D. intros c Hc X. apply inset_in in X. apply (S c Hc). destruct X as [X|X]; [left; auto|right; apply in_or_app; left; auto].
  - apply (D (fun c => ceq c "%"%char)); intros c Hc X; apply ceq_true in X; subst c; eapply S; eauto; cbn; tauto.
  - apply (D (fun c => ceq c "!"%char)); intros c Hc X; apply ceq_true in X; subst c; eapply S; eauto; cbn; tauto.
Qed.

Lemma dec_plain z : dec z <> [] /\ forall c, In c (dec z) -> ~ In c (dquote :: blanks ++ s2l "^%!").
Proof.
  split.
  - unfold dec. destruct (Z.ltb_spec z 0); [discriminate|]. apply udec_spec. auto.
  - intros c Hc Hb. pose proof (dec_chars z) as F. rewrite Forall_forall in F. destruct (F c Hc) as [D| ->].
    + apply digit_of in D. destruct D as (i & I1 & I2 & _). subst c. revert Hb.
      do 10 (destruct i as [|i]; [cbv; intuition discriminate|]). lia.
    + revert Hb. cbv. intuition discriminate.
Qed.

Lemma atoi_dec z r : in_int z = true -> (forall c t, r = c :: t -> is_digit c = false) -> atoi (dec z ++ r) = Ret z.
Proof. intros H R. unfold atoi. rewrite num_signed_dec by auto. rewrite H. auto. Qed.
Lemma atoi_blank s : Forall blank s -> atoi s = Ret 0%Z.
Proof.
  intros B. unfold atoi. replace (num_signed (skip_space s)) with 0%Z; auto.
  induction B as [|c s H B IH]; auto. cbn [skip_space]. destruct (is_space c) eqn:X; auto.
  revert X. repeat (destruct H as [<-|H]; [try discriminate; reflexivity|]). destruct H.
Qed.
