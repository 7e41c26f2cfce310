(** Expand_Proofs.v *)

From Verif Require Import Base Num_Model Num_Proofs StrLib_Model StrLib_Spec StrLib_Proofs
  Var_Model LocalVar_Model LocalVar_Spec LocalVar_Proofs Expand_Model Expand_Spec.

Lemma escaping_app a b c d : escaping a b -> escaping c d -> escaping (a ++ c) (b ++ d).
Proof. induction 1; simpl; intros; auto; constructor; auto. Qed.

Lemma escaping_est u t : escaping u t -> est false t = false.
Proof.
  induction 1 as [|c t s Hc _ IH|c t s _ IH]; simpl; auto.
  apply Ascii.eqb_neq in Hc. rewrite Hc. auto.
Qed.

Lemma settled_E t : settled t -> E t (length t) = false.
Proof. intros (u & H). unfold E. rewrite firstn_all. eapply escaping_est; eauto. Qed.

Lemma settled_app a b : settled a -> settled b -> settled (a ++ b).
Proof. intros (u & H) (v & K). exists (u ++ v). apply escaping_app; auto. Qed.

Lemma E_app1 a b i : i <= length a -> E (a ++ b) i = E a i.
Proof. intros H. unfold E. rewrite firstn_app. replace (i - length a) with 0 by lia. rewrite app_nil_r. auto. Qed.

Lemma live_app1 p a b i : i < length a -> live p (a ++ b) i <-> live p a i.
Proof. intros H. rewrite !live_iff, E_app1, nth_error_app1 by lia. tauto. Qed.

Lemma live_app2 p a b i : settled a -> live p (a ++ b) (length a + i) <-> live p b i.
Proof.
  intros H. apply settled_E in H. assert (X : E (a ++ b) (length a) = false) by (rewrite E_app1; auto).
  rewrite <- (live_skipn p (a ++ b) (length a) i X), Estr_Proofs.skipn_app_len by auto. tauto.
Qed.

Lemma plain_app d a b : plain_text d a -> plain_text d b -> plain_text d (a ++ b).
Proof.
  intros [A1 A2] [B1 B2]. split; [apply settled_app; auto|]. intros i H.
  destruct (lt_dec i (length a)) as [L|L].
  - apply (A2 i). eapply live_app1; eauto.
  - apply (B2 (i - length a)). apply (live_app2 _ a); auto. replace (length a + (i - length a)) with i by lia. auto.
Qed.

Lemma plain_nil d : plain_text d [].
Proof. split; [exists []; constructor|]. intros i H. apply live_lt in H. simpl in H. lia. Qed.

Lemma search_plain d t : plain_text d t -> pBat_SearchChar t d = None.
Proof.
  intros [_ H]. pose proof (search_pred_spec (fun x => ceq x d) t) as S. unfold pBat_SearchChar.
  destruct (search_pred _ t) as [k|]; auto. destruct S as [S _]. exfalso. eapply H; eauto.
Qed.

Lemma search_delim d t r : plain_text d t -> pBat_SearchChar (t ++ d :: r) d = Some (length t).
Proof.
  intros [S N]. pose proof (search_pred_spec (fun x => ceq x d) (t ++ d :: r)) as H. unfold pBat_SearchChar.
  assert (L : live (fun x => ceq x d) (t ++ d :: r) (length t)).
  { apply live_iff. split; [rewrite E_app1 by auto; apply settled_E; auto|]. exists d.
    rewrite nth_error_app2, Nat.sub_diag by auto. split; auto. apply ceq_refl. }
  destruct (search_pred _ _) as [k|]; simpl in H.
  - destruct H as [H1 H2]. f_equal. destruct (lt_eq_lt_dec k (length t)) as [[X|X]|X]; auto.
    + exfalso. apply (N k). eapply live_app1; eauto.
    + exfalso. eapply H2; eauto.
  - exfalso. eapply H; eauto.
Qed.

Definition esc_of (w : xworld) (d : ascii) : bool := x_delayed w && ceq d "!"%char.

Lemma unesc_text w d t u : (if esc_of w d then escaping u t else u = t) -> delayed_unescape w d t = u.
Proof.
  unfold delayed_unescape, esc_of. destruct (_ && _); auto. apply UnEscape_escaping.
Qed.

Lemma set_var_same w : set_var w (x_var w) = w.
Proof. destruct w; reflexivity. Qed.

Lemma first_char_arg c r : arg_start (c :: r) = true <-> is_digit c = true \/ In c (s2l "*+~").
Proof.
  unfold arg_start. rewrite !Bool.orb_true_iff, !ceq_true. simpl. intuition congruence.
Qed.

Lemma expand_pieces w d ps vs : Forall2 (piece_value w d (esc_of w d)) ps vs ->
  forall fuel t0 u0, plain_text d t0 -> (if esc_of w d then escaping u0 t0 else u0 = t0) ->
    length (t0 ++ concat (map (show d) ps)) < fuel ->
    expand_loop fuel w d (t0 ++ concat (map (show d) ps)) = Ret (u0 ++ concat vs, w).
Proof.
  induction 1 as [|p v ps vs Hp Hps IH]; intros fuel t0 u0 T0 U0 L.
  - simpl in *. rewrite !app_nil_r in *. destruct fuel as [|f]; [lia|]. cbn [expand_loop].
    rewrite search_plain by auto. rewrite (unesc_text w d t0 u0 U0). auto.
  - cbn [map concat]. destruct fuel as [|f]; [lia|].
    assert (Sk : forall x, skipn (S (length t0)) (t0 ++ d :: x) = x).
    { intros x. replace (t0 ++ d :: x) with ((t0 ++ [d]) ++ x) by (rewrite <- app_assoc; auto).
      apply Estr_Proofs.skipn_app_len. rewrite app_length. simpl. lia. }
    assert (Empty : if esc_of w d then escaping [] [] else ([] : cstr) = []) by (destruct (esc_of w d); constructor).
    rewrite app_length in L.
    destruct Hp as [t u Pt Ut| |c raw v Hd Hc G|c n o Hcd Pn Ha G].
    + cbn [show] in *. rewrite !app_assoc. apply IH.
      * apply plain_app; auto.
      * destruct (esc_of w d); [apply escaping_app; auto|congruence].
      * cbn [map concat show] in L. rewrite !app_length in *. lia.
    + cbn [show app map concat] in *. cbn [expand_loop]. rewrite search_delim by auto. rewrite Sk.
      rewrite (Estr_Proofs.firstn_app_len t0) by auto. rewrite (unesc_text w d t0 u0 U0).
      cbn [starts]. rewrite ceq_refl. cbn [skipn].
      specialize (IH f [] [] (plain_nil d) Empty). cbn [app] in IH. rewrite IH by (simpl in L; lia). reflexivity.
    + cbn [show app map concat] in *. cbn [expand_loop]. rewrite search_delim by auto. rewrite Sk.
      rewrite (Estr_Proofs.firstn_app_len t0) by auto. rewrite (unesc_text w d t0 u0 U0).
      cbn [starts]. assert (X : ceq c d = false).
      { subst d. apply ceq_neq. intros ->. destruct Hc as [Hc|Hc]; [discriminate|cbv in Hc; intuition discriminate]. }
      rewrite X. assert (Y : ceq d "%"%char = true) by (apply ceq_true; auto). rewrite Y. cbn [andb].
      rewrite (proj2 (first_char_arg c _) Hc).
      rewrite G. cbn [bind].
      specialize (IH f [] [] (plain_nil d) Empty). cbn [app] in IH. rewrite IH.
      2:{ simpl in L. rewrite app_length in L. lia. }
      reflexivity.
    + cbn [show app map concat] in *. cbn [expand_loop]. rewrite search_delim by auto. rewrite Sk.
      rewrite (Estr_Proofs.firstn_app_len t0) by auto. rewrite (unesc_text w d t0 u0 U0).
      cbn [starts]. rewrite (proj2 (ceq_neq c d) Hcd).
      assert (A : (if ceq d "%"%char && arg_start (c :: (n ++ [d]) ++ concat (map (show d) ps))
                   then get_local w (x_args w) (c :: (n ++ [d]) ++ concat (map (show d) ps)) else Ret None) = Ret None).
      { destruct (ceq d "%"%char) eqn:Y; auto. cbn [andb]. apply ceq_true in Y.
        destruct (arg_start _) eqn:Z; auto. apply first_char_arg in Z.
        rewrite <- app_assoc. cbn [app]. apply (Ha Y Z). }
      rewrite A. cbn [bind].
      assert (Q : c :: (n ++ [d]) ++ concat (map (show d) ps) = (c :: n) ++ d :: concat (map (show d) ps)).
      { rewrite <- app_assoc. auto. }
      rewrite Q, search_delim by auto. rewrite (Estr_Proofs.firstn_app_len (c :: n)) by auto. rewrite G. cbn [bind].
      rewrite set_var_same.
      assert (Sk2 : skipn (S (length (c :: n))) ((c :: n) ++ d :: concat (map (show d) ps)) = concat (map (show d) ps)).
      { replace ((c :: n) ++ d :: concat (map (show d) ps)) with (((c :: n) ++ [d]) ++ concat (map (show d) ps)) by (rewrite <- app_assoc; auto).
        apply Estr_Proofs.skipn_app_len. rewrite app_length. simpl. lia. }
      rewrite Sk2. specialize (IH f [] [] (plain_nil d) Empty). cbn [app] in IH. rewrite IH.
      2:{ simpl in L. rewrite !app_length in L. lia. }
      reflexivity.
Qed.

Lemma special_pieces w ps vs : Forall2 (spiece_value w) ps vs ->
  forall fuel pre t0, plain_text "%"%char t0 ->
    length (t0 ++ concat (map sshow ps)) < fuel ->
    special_loop fuel w pre (t0 ++ concat (map sshow ps)) = Ret (pre ++ t0 ++ concat vs).
Proof.
  induction 1 as [|p v ps vs Hp Hps IH]; intros fuel pre t0 T0 L.
  - simpl in *. rewrite !app_nil_r in *. destruct fuel as [|f]; [lia|]. cbn [special_loop].
    rewrite search_plain by auto. auto.
  - cbn [map concat] in *. destruct fuel as [|f]; [lia|]. rewrite app_length in L.
    destruct Hp as [t Pt|raw v G]; cbn [sshow] in *.
    + rewrite app_assoc, IH; [rewrite <- !app_assoc; auto|apply plain_app; auto|].
      rewrite !app_length in *. lia.
    + cbn [special_loop]. cbn [app]. rewrite search_delim by auto.
      assert (Sk : forall x, skipn (S (length t0)) (t0 ++ "%"%char :: x) = x).
      { intros x. replace (t0 ++ "%"%char :: x) with ((t0 ++ ["%"%char]) ++ x) by (rewrite <- app_assoc; auto).
        apply Estr_Proofs.skipn_app_len. rewrite app_length. simpl. lia. }
      rewrite Sk, G. cbn [bind]. rewrite (Estr_Proofs.firstn_app_len t0) by auto.
      specialize (IH f [] [] (plain_nil "%"%char)). cbn [app] in IH. rewrite IH.
      2:{ simpl in L. rewrite app_length in L. lia. }
      reflexivity.
Qed.

Lemma special_none w : (forall r, get_local w (x_locals w) r = Ret None) ->
  forall fuel pre s, length s < fuel -> special_loop fuel w pre s = Ret (pre ++ s).
Proof.
  intros N. induction fuel as [|f IH]; intros pre s L; [lia|]. cbn [special_loop].
  destruct (pBat_SearchChar s "%"%char) as [k|] eqn:K; auto.
  rewrite N. cbn [bind]. pose proof (search_pred_spec (fun x => ceq x "%"%char) s) as H.
  unfold pBat_SearchChar in K. rewrite K in H. destruct H as [H _]. apply live_lt in H.
  rewrite IH by (rewrite skipn_length; lia). rewrite <- app_assoc, firstn_skipn. auto.
Qed.

(** ** Termination *)
Lemma bind_fuel {A B} (x : outcome A) (f : A -> outcome B) :
  x <> OutOfFuel -> (forall a, x = Ret a -> f a <> OutOfFuel) -> bind x f <> OutOfFuel.
Proof. destruct x; simpl; intros H1 H2; auto; try congruence. Qed.

Lemma bsearch_loop_fuel {A} (k : A -> Z) buf fuel : forall l u, u - l < fuel -> Env_Model.bsearch_loop fuel k buf l u <> OutOfFuel.
Proof.
  induction fuel as [|f IH]; intros l u H; [lia|]. cbn [Env_Model.bsearch_loop].
  destruct (Nat.ltb_spec l u) as [Hl|Hl]; [|discriminate]. cbv zeta.
  assert (M : l <= (l + u) / 2 < u).
  { split; [apply Nat.div_le_lower_bound; lia|apply Nat.div_lt_upper_bound; lia]. }
  destruct (nth_error buf ((l + u) / 2)); [|discriminate].
  destruct (_ <? _)%Z; [apply IH; lia|]. destruct (_ >? _)%Z; [apply IH; lia|discriminate].
Qed.

Lemma scan_nul_fuel m : Estr_Model.scan_nul m <> OutOfFuel.
Proof. induction m as [|c m IH]; simpl; [discriminate|]. destruct (ceq c _); [discriminate|]. apply bind_fuel; auto. discriminate. Qed.

Lemma content_fuel w ka n : content w ka n <> OutOfFuel.
Proof.
  unfold content. repeat match goal with |- (if ?b then _ else _) <> _ => destruct b end; try discriminate.
  - apply bind_fuel; [apply scan_nul_fuel|discriminate].
  - apply bind_fuel.
    + unfold Env_Model.find_name, Env_Model.bsearch. apply bsearch_loop_fuel. lia.
    + intros [i|] _; [|discriminate]. destruct (nth_error _ i) as [v|]; [|discriminate].
      destruct (Env_Model.v_name v); discriminate.
Qed.

Lemma skip_cont_fuel buf fuel : forall p, length buf - p < fuel -> skip_cont fuel buf p <> OutOfFuel.
Proof.
  induction fuel as [|f IH]; intros p H; [lia|]. cbn [skip_cont]. destruct (nth_error buf p) as [c|] eqn:E; [|discriminate].
  destruct (is_cont c); [|discriminate]. apply IH.
  assert (p < length buf) by (apply nth_error_Some; congruence). lia.
Qed.
Lemma SkipU8_fuel buf : forall n p, pBat_SkipU8Chars buf p n <> OutOfFuel.
Proof.
  induction n as [|n IH]; intros p; cbn [pBat_SkipU8Chars]; [discriminate|]. apply bind_fuel; auto.
  apply skip_cont_fuel. lia.
Qed.
Lemma int_op_fuel z : int_op z <> OutOfFuel.
Proof. unfold int_op. destruct (in_int z); discriminate. Qed.
Lemma write_at_fuel m o d : Estr_Model.write_at m o d <> OutOfFuel.
Proof. unfold Estr_Model.write_at. destruct (_ <=? _); discriminate. Qed.
Lemma slice_fuel s b e : slice s b e <> OutOfFuel.
Proof.
  unfold slice. cbv zeta. apply bind_fuel; [apply SkipU8_fuel|]. intros z _. apply bind_fuel; [apply SkipU8_fuel|]. intros p _.
  apply bind_fuel; [destruct (nth_error _ z); discriminate|]. intros c _.
  apply bind_fuel; [apply write_at_fuel|]. intros b1 _. apply bind_fuel; [apply scan_nul_fuel|]. intros t _.
  apply bind_fuel; [apply write_at_fuel|]. intros b2 _. apply bind_fuel; [apply scan_nul_fuel|]. discriminate.
Qed.
Lemma cut_fuel s b l : cut s b l <> OutOfFuel.
Proof.
  unfold cut. cbv zeta. apply bind_fuel.
  - destruct (b <? 0)%Z; [|discriminate]. destruct (0 <? l)%Z.
    + apply bind_fuel; [apply int_op_fuel|]. intros t _. destruct (_ <=? _)%Z; [apply int_op_fuel|discriminate].
    + destruct (_ <=? _)%Z; [apply int_op_fuel|discriminate].
  - intros b1 _. destruct (_ || _); [discriminate|]. destruct (0 <? l)%Z.
    + apply bind_fuel; [apply int_op_fuel|]. intros e _. destruct (_ <=? _)%Z; [apply slice_fuel|discriminate].
    + apply bind_fuel; [apply int_op_fuel|]. intros a _. apply bind_fuel; [apply int_op_fuel|]. intros r _.
      destruct (_ <=? _)%Z; [|discriminate]. apply bind_fuel; [apply int_op_fuel|]. intros e _. apply slice_fuel.
Qed.

Lemma strstr_len s pat k : strstr s pat = Some k -> k + length pat <= length s.
Proof.
  intros H. apply Estr_Proofs.strstr_Some in H. destruct H as (a & b & -> & <- & _). rewrite !app_length. lia.
Qed.
Lemma replace_fuel pat rep : pat <> [] -> forall fuel s, length s < fuel -> replace_text fuel s pat rep <> OutOfFuel.
Proof.
  intros N. induction fuel as [|f IH]; intros s L; [lia|]. cbn [replace_text].
  destruct (strstr s pat) as [k|] eqn:K; [|discriminate]. apply strstr_len in K.
  apply bind_fuel; [|discriminate]. apply IH. rewrite skipn_length. destruct pat; [congruence|]. simpl in *. lia.
Qed.

Lemma skipn_step {A} m : forall (l : list A) x r, skipn m l = x :: r -> skipn (S m) l = r.
Proof. induction m as [|m IH]; intros [|y l] x r H; simpl in *; try discriminate; [congruence|eapply IH; eauto]. Qed.
Lemma parse_pattern name n pat rep : parse_ref name = Ret (n, FReplace pat rep) -> pat = [] ->
  exists a b, name = a ++ s2l ":=" ++ b.
Proof.
  unfold parse_ref. destruct (strchr name ":"%char) as [k|] eqn:K; [|discriminate]. cbv zeta.
  destruct (strchr (skipn k name) "="%char) as [j|] eqn:J.
  - intros [= _ <- _] P. unfold strchr in K, J. apply find_idx_Some in K, J.
    destruct K as (c & K1 & K2 & _). destruct J as (d & J1 & J2 & _). apply ceq_true in K2, J2. subst c d.
    rewrite nth_error_skipn in J1.
    assert (j = 1).
    { destruct j as [|[|j]]; auto.
      - rewrite Nat.add_0_r in J1. congruence.
      - assert (L : k + S (S j) < length name) by (apply nth_error_Some; congruence).
        change (skipn 1 (firstn (S (S j)) (skipn k name)) = []) in P.
        apply (f_equal (@length _)) in P. rewrite skipn_length, firstn_length, skipn_length in P.
        change (length (@nil ascii)) with 0 in P. lia. }
    subst j. exists (firstn k name), (skipn (S (S k)) name).
    rewrite (firstn_nth_split name k _ K1) at 1. f_equal.
    change (s2l ":=" ++ skipn (S (S k)) name) with (":"%char :: "="%char :: skipn (S (S k)) name). f_equal.
    replace (k + 1) with (S k + 0) in J1 by lia. rewrite <- nth_error_skipn in J1.
    destruct (skipn (S k) name) as [|x r] eqn:X; simpl in J1; [discriminate|].
    injection J1 as ->. f_equal.
    symmetry. exact (skipn_step _ _ _ _ X).
  - destruct (skipn 1 (skipn k name)) as [|c t]; [discriminate|]. destruct (ceq c "~"%char); [|discriminate].
    destruct (strchr t ","%char).
    + destruct (atol _) as [l| |]; cbn [bind]; try discriminate. destruct (atol _) as [b| |]; discriminate.
    + destruct (atol _) as [l| |]; discriminate.
Qed.

Lemma atol_fuel s : atol s <> OutOfFuel.
Proof. unfold atol. cbv zeta. destruct (in_long _); discriminate. Qed.

Lemma GetVar_fuel w ka name : (forall a b, name <> a ++ s2l ":=" ++ b) -> pBat_GetVar w ka name <> OutOfFuel.
Proof.
  intros N. unfold pBat_GetVar. apply bind_fuel.
  - unfold parse_ref. destruct (strchr name _) as [k|]; [|discriminate]. cbv zeta.
    destruct (strchr (skipn k name) _); [discriminate|]. destruct (skipn 1 _) as [|c t]; [discriminate|].
    destruct (ceq c _); [|discriminate]. destruct (strchr t _).
    + apply bind_fuel; [apply atol_fuel|]. intros l _. apply bind_fuel; [apply atol_fuel|]. discriminate.
    + apply bind_fuel; [apply atol_fuel|]. discriminate.
  - intros [n f] P. apply bind_fuel; [apply content_fuel|]. intros [[p s]|] _; [|discriminate].
    destruct f as [|pat rep|b l|t]; try discriminate.
    + apply bind_fuel; [|discriminate]. apply replace_fuel; [|lia]. intros X.
      destruct (parse_pattern _ _ _ _ P X) as (a & b & Y). eapply N; eauto.
    + apply bind_fuel; [apply cut_fuel|]. intros [t s'] _. discriminate.
Qed.

Lemma render_fuel full disk dir name ext info fl : render_flags fl full disk dir name ext info <> OutOfFuel.
Proof.
  induction fl as [|c r IH]; cbn [render_flags]; [discriminate|]. apply bind_fuel.
  - repeat match goal with |- (if ?b then _ else _) <> _ => destruct b; [discriminate|] end.
    destruct info; [|discriminate]. repeat match goal with |- (if ?b then _ else _) <> _ => destruct b; [discriminate|] end. discriminate.
  - intros a _. apply bind_fuel; auto. discriminate.
Qed.
Lemma SplitPath_fuel p : Path_Model.pBat_SplitPath p <> OutOfFuel.
Proof.
  unfold Path_Model.pBat_SplitPath.
  assert (B : forall s, Path_Model.buf_strncpy s <> OutOfFuel) by (intros s; unfold Path_Model.buf_strncpy; destruct (_ <? _); discriminate).
  destruct (match p with | [] => _ | _ => _ end) as [disk tok]. apply bind_fuel.
  - destruct (pBat_SearchLastToken tok _); [|discriminate]. apply bind_fuel; auto. discriminate.
  - intros [dir tok2] _. destruct (pBat_SearchLastChar tok2 _); apply bind_fuel; auto; discriminate.
Qed.
Lemma file_of_fuel cur script cap c t : file_of cur script cap c t <> OutOfFuel.
Proof.
  unfold file_of. destruct (ceq c _); [discriminate|]. unfold Path_Model.pBat_EsToFullPath.
  destruct (Path_Model.PBAT_TEST_ABSOLUTE_PATH _); [discriminate|]. destruct (_ && _); discriminate.
Qed.
Lemma local_text_fuel cur script stat cap c v fl : local_text cur script stat cap c v fl <> OutOfFuel.
Proof.
  unfold local_text. cbv zeta. apply bind_fuel.
  - destruct (existsb _ fl); [|discriminate]. apply bind_fuel; [apply file_of_fuel|discriminate].
  - intros [t info] _. apply bind_fuel.
    + destruct (existsb _ fl); [|discriminate]. apply bind_fuel; [apply file_of_fuel|]. intros a _.
      apply bind_fuel; [apply SplitPath_fuel|discriminate].
    + intros [t2 [[[disk dir] name] ext]] _. destruct fl; [discriminate|]. apply render_fuel.
Qed.

Lemma get_local_fuel w b s : get_local w b s <> OutOfFuel.
Proof.
  unfold get_local. destruct s as [|c r]; [discriminate|].
  destruct (ascii_dec c "~"%char) as [->|N]; [|rewrite get_plain by auto; discriminate].
  unfold pBat_GetLocalVar. rewrite ceq_refl. cbn [negb]. destruct r as [|c2 r]; [discriminate|]. cbv zeta.
  set (fl := flags_run _ _). apply bind_fuel.
  - destruct (skipn _ _) as [|d rest]; [discriminate|]. destruct (name_ok d); [|discriminate].
    apply bind_fuel; [unfold at_block; destruct (_ <? _)%Z; discriminate|discriminate].
  - intros [[[d t] rest]|] _.
    + apply bind_fuel; [apply local_text_fuel|discriminate].
    + destruct (backtrack b _ _) as [j|]; [|discriminate]. destruct (nth_error fl j) as [d|]; [|discriminate].
      destruct (b d); [|discriminate]. apply bind_fuel; [apply local_text_fuel|discriminate].
Qed.

Lemma get_local_shorter w b s v rest : get_local w b s = Ret (Some (v, rest)) -> exists a, s = a ++ rest /\ a <> [].
Proof.
  unfold get_local. destruct s as [|c r]; [discriminate|].
  destruct (ascii_dec c "~"%char) as [->|N].
  2:{ rewrite get_plain by auto. destruct (name_ok c); [|discriminate]. destruct (b c); [|discriminate].
      intros [= _ <-]. exists [c]. split; auto. discriminate. }
  unfold pBat_GetLocalVar. rewrite ceq_refl. cbn [negb]. destruct r as [|c2 r]; [discriminate|]. cbv zeta.
  set (R := c2 :: r). set (fl := flags_run _ _).
  assert (K : forall j x, skipn j R = x -> exists a, "~"%char :: R = a ++ x /\ a <> []).
  { intros j x <-. exists ("~"%char :: firstn j R). split; [simpl; rewrite firstn_skipn; auto|discriminate]. }
  intros H. destruct (skipn (length fl) R) as [|d rs] eqn:Sk.
  - cbn [bind] in H. destruct (backtrack b _ _) as [j|]; [|discriminate]. destruct (nth_error fl j) as [d|]; [|discriminate].
    destruct (b d); [|discriminate]. destruct (local_text _ _ _ _ _ _ _) as [x| |]; cbn [bind] in H; try discriminate.
    injection H as _ H. apply (K (S j)). exact H.
  - assert (Back : match backtrack b (length fl) fl with
       | Some j => match nth_error fl j with
                   | Some d => match b d with
                       | Some t => do x <- local_text (vw_cd (x_var w)) (x_script w) (x_stat w) (x_cap w) d t (firstn j fl);
                                   Ret (Some (x, skipn (S j) R))
                       | None => Undef end
                   | None => Undef end
       | None => Ret None end = Ret (Some (v, rest)) -> exists a, "~"%char :: R = a ++ rest /\ a <> []).
    { destruct (backtrack b _ _) as [j|]; [|discriminate]. destruct (nth_error fl j) as [d2|]; [|discriminate].
      destruct (b d2); [|discriminate]. destruct (local_text _ _ _ _ _ _ _) as [x| |]; cbn [bind]; try discriminate.
      intros [= _ X]. apply (K (S j)). exact X. }
    destruct (name_ok d); [|cbn [bind] in H; auto].
    destruct (at_block b d) as [[t|]| |]; cbn [bind] in H; try discriminate; auto.
    destruct (local_text _ _ _ _ _ _ _) as [x| |]; cbn [bind] in H; try discriminate.
    injection H as _ <-. apply (K (S (length fl))). eapply skipn_step; eauto.
Qed.

Lemma search_split s d k : pBat_SearchChar s d = Some k -> s = firstn k s ++ d :: skipn (S k) s.
Proof.
  intros K. pose proof (search_pred_spec (fun x => ceq x d) s) as H. unfold pBat_SearchChar in K. rewrite K in H.
  destruct H as [[_ (c & H1 & H2)] _]. apply ceq_true in H2. subst c. apply firstn_nth_split. auto.
Qed.

Definition no_empty_edit (s : cstr) : Prop := forall a b, s <> a ++ s2l ":=" ++ b.
Lemma no_empty_part a s b : no_empty_edit (a ++ s ++ b) -> no_empty_edit s.
Proof. intros H x y ->. apply (H (a ++ x) (y ++ b)). rewrite !app_assoc. auto. Qed.

Lemma expand_fuel d fuel : forall w s, length s < fuel -> no_empty_edit s -> expand_loop fuel w d s <> OutOfFuel.
Proof.
  induction fuel as [|f IH]; intros w s L N; [lia|]. cbn [expand_loop].
  destruct (pBat_SearchChar s d) as [k|] eqn:K; [|discriminate]. apply search_split in K. cbv zeta.
  set (nxt := skipn (S k) s) in *.
  assert (Ln : length nxt < length s) by (rewrite K, app_length; simpl; lia).
  assert (Nn : no_empty_edit nxt).
  { apply (no_empty_part (firstn k s ++ [d]) nxt []). rewrite app_nil_r, <- app_assoc. simpl. rewrite <- K. auto. }
  assert (Suf : forall a r, nxt = a ++ r -> no_empty_edit r /\ length r <= length nxt).
  { intros a r X. split; [|rewrite X, app_length; lia]. apply (no_empty_part a r []). rewrite app_nil_r, <- X. auto. }
  destruct (starts nxt d).
  - apply bind_fuel; [|intros [t w'] _; discriminate].
    destruct (Suf (firstn 1 nxt) (skipn 1 nxt) ltac:(symmetry; apply firstn_skipn)) as [S1 S2]. apply IH; auto. lia.
  - apply bind_fuel; [destruct (_ && _); [apply get_local_fuel|discriminate]|].
    intros [[v rest]|] A.
    + apply bind_fuel; [|intros [t w'] _; discriminate].
      destruct (_ && _); [|discriminate]. apply get_local_shorter in A. destruct A as (a & A & _).
      destruct (Suf a rest A) as [S1 S2]. apply IH; auto. lia.
    + destruct (pBat_SearchChar nxt d) as [j|] eqn:J.
      * apply search_split in J. apply bind_fuel.
        -- apply GetVar_fuel. apply (no_empty_part [] (firstn j nxt) (d :: skipn (S j) nxt)). cbn [app]. rewrite <- J. auto.
        -- intros [o vw] _. apply bind_fuel; [|intros [t w'] _; discriminate].
           destruct (Suf (firstn j nxt ++ [d]) (skipn (S j) nxt)) as [S1 S2].
           { rewrite <- app_assoc. exact J. }
           apply IH; auto. lia.
      * apply bind_fuel; [|intros [t w'] _; discriminate]. apply IH; auto. lia.
Qed.
