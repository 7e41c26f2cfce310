(** Expand_Props.v -- properties C51 and C52: expansion of the variables of a line. *)

From Verif Require Import Base Num_Model StrLib_Model StrLib_Spec StrLib_Proofs Env_Model Var_Model Var_Props
  LocalVar_Model LocalVar_Spec LocalVar_Props Expand_Model Expand_Spec Expand_Proofs.

(** C51: a line is expanded piece by piece and only once: texts stay, doubled
    signs become single, parameters and references become their values, which
    are not looked at again.  The environment does not change. *)
Theorem C51_pieces :
  forall w ps vs, Forall2 (piece_value w "%"%char false) ps vs ->
    pBat_ReplaceVars w (concat (map (show "%"%char) ps)) = Ret (concat vs, w).
Proof.
  intros w ps vs H. unfold pBat_ReplaceVars, pBat_ExpandVar.
  assert (X : esc_of w "%"%char = false) by (unfold esc_of; simpl; apply Bool.andb_false_r).
  assert (H' : Forall2 (piece_value w "%"%char (esc_of w "%"%char)) ps vs) by (rewrite X; exact H).
  apply (expand_pieces w "%"%char ps vs H' (S (length (concat (map (show "%"%char) ps)))) [] []); auto.
  - apply plain_nil.
  - rewrite X. auto.
Qed.
Print Assumptions C51_pieces.

(** C51: a sign that starts neither a parameter nor a reference is removed. *)
Theorem C51_lone :
  forall w t u, plain_text "%"%char t -> plain_text "%"%char u ->
    (forall c r, u = c :: r -> is_digit c = true \/ In c (s2l "*+~") -> get_local w (x_args w) u = Ret None) ->
    pBat_ReplaceVars w (t ++ "%"%char :: u) = Ret (t ++ u, w).
Proof.
  intros w t u T U A. unfold pBat_ReplaceVars, pBat_ExpandVar.
  remember (length (t ++ "%"%char :: u)) as n eqn:N. rewrite app_length in N. cbn [expand_loop].
  rewrite search_delim by auto.
  assert (Sk : skipn (S (length t)) (t ++ "%"%char :: u) = u).
  { replace (t ++ "%"%char :: u) with ((t ++ ["%"%char]) ++ u) by (rewrite <- app_assoc; auto).
    apply Estr_Proofs.skipn_app_len. rewrite app_length. simpl. lia. }
  cbv zeta. rewrite Sk, (Estr_Proofs.firstn_app_len t) by auto.
  assert (D : forall x, delayed_unescape w "%"%char x = x).
  { intros x. unfold delayed_unescape. simpl. rewrite Bool.andb_false_r. auto. }
  assert (St : starts u "%"%char = false).
  { destruct u as [|c r]; auto. cbn [starts]. destruct (ceq c "%"%char) eqn:C; auto. apply ceq_true in C. subst c.
    exfalso. apply (proj2 U 0). apply live_iff. split; [reflexivity|]. exists "%"%char. split; auto. }
  rewrite St.
  assert (G : (if ceq "%"%char "%"%char && arg_start u then get_local w (x_args w) u else Ret None) = Ret None).
  { rewrite ceq_refl. cbn [andb]. destruct (arg_start u) eqn:Y; auto. destruct u as [|c r]; [discriminate|].
    apply (A c r eq_refl). eapply first_char_arg; eauto. }
  rewrite G. cbn [bind]. rewrite search_plain by auto.
  destruct n as [|n]; [simpl in N; lia|]. cbn [expand_loop]. rewrite search_plain by auto. cbn [bind].
  rewrite !D. auto.
Qed.
Print Assumptions C51_lone.

(** C51: every line without an edit of the empty text is expanded in the end
    (or meets something undefined, see C48 and C50). *)
Theorem C51_ends :
  forall w d s, (forall a b, s <> a ++ s2l ":=" ++ b) -> pBat_ExpandVar w d s <> OutOfFuel.
Proof. intros w d s N. unfold pBat_ExpandVar. apply expand_fuel; auto. Qed.
Print Assumptions C51_ends.

Definition ex_xworld (delayed : bool) (v : string) : xworld :=
  mkX (ex_world v) (fun _ => 16%Z) ex_block
      (pBat_SetLocalVar pBat_GetLocalBlock "i"%char (Some (s2l "a^b!foo!")))
      (s2l "/s.bat") ex_stat (fun _ => 100) delayed.

Example C51_ex :
  let w := ex_xworld false "a%1^%b" in
  pBat_ReplaceVars w (s2l "x %1 %foo% %% ^% %bar%.") =
    Ret (s2l "x ""a.txt"" a%1^%b % ^% .", w) /\
  Forall2 (piece_value w "%"%char false)
    [PText (s2l "x "); PArg (s2l "1"); PText (s2l " "); PVar (s2l "foo"); PText (s2l " "); PDouble; PText (s2l " ^% ");
     PVar (s2l "bar"); PText (s2l ".")]
    [s2l "x "; s2l """a.txt"""; s2l " "; s2l "a%1^%b"; s2l " "; s2l "%"; s2l " ^% "; []; s2l "."] /\
  pBat_ReplaceVars w (s2l "10%") = Ret (s2l "10", w).
Proof.
  assert (P : forall t, search_pred (fun x => ceq x "%"%char) t = None -> settled t -> plain_text "%"%char t).
  { intros t H S. split; auto. intros i L. pose proof (search_pred_spec (fun x => ceq x "%"%char) t) as X.
    rewrite H in X. eapply X; eauto. }
  split; [vm_compute; reflexivity|]. split; [|vm_compute; reflexivity].
  assert (St : forall t : cstr, ~ In caret t -> settled t).
  { intros t H. exists t. induction t as [|c t IH]; constructor.
    - intros ->. apply H. left. auto.
    - apply IH. intros X. apply H. right. auto. }
  assert (T : forall t, search_pred (fun x => ceq x "%"%char) t = None -> ~ In caret t ->
     forall w, piece_value w "%"%char false (PText t) t).
  { intros t H1 H2 w. constructor; auto. }
  repeat (apply Forall2_cons; [|]); try apply Forall2_nil.
  - apply T; [reflexivity|cbv; intuition discriminate].
  - apply pv_arg; auto.
  - apply T; [reflexivity|cbv; intuition discriminate].
  - apply (pv_var _ _ _ "f"%char (s2l "oo") (Some (s2l "a%1^%b"))); try discriminate.
    + apply P; [reflexivity|]. apply St. cbv. intuition discriminate.
    + intros _ [X|X]; [discriminate|]. cbv in X. intuition discriminate.
    + intros m. vm_compute. reflexivity.
  - apply T; [reflexivity|cbv; intuition discriminate].
  - constructor.
  - constructor; auto. apply P; [reflexivity|]. exists (s2l " % ").
    apply (esc_plain " "%char); [discriminate|]. apply (esc_prot "%"%char). apply (esc_plain " "%char); [discriminate|].
    constructor.
  - apply (pv_var _ _ _ "b"%char (s2l "ar") None); try discriminate.
    + apply P; [reflexivity|]. apply St. cbv. intuition discriminate.
    + intros _ [X|X]; [discriminate|]. cbv in X. intuition discriminate.
    + intros m. vm_compute. reflexivity.
  - apply T; [reflexivity|cbv; intuition discriminate].
Qed.

(** The condition of [C51_ends] is needed. *)
Theorem C51_total_refuted :
  pBat_ReplaceVars (ex_xworld false "x") (s2l "%foo:=y%") = OutOfFuel.
Proof. vm_compute. reflexivity. Qed.
Print Assumptions C51_total_refuted.

(** C52: without delayed expansion, one-letter FOR variables become their
    values and the whole loses its '^'. *)
Theorem C52_delayed_off :
  forall w ps vs u, x_delayed w = false -> Forall2 (spiece_value w) ps vs -> escaping u (concat vs) ->
    pBat_DelayedExpand w (concat (map sshow ps)) = Ret (u, w).
Proof.
  intros w ps vs u D H U. unfold pBat_DelayedExpand, pBat_ExpandSpecialVar.
  pose proof (special_pieces w ps vs H (S (length (concat (map sshow ps)))) [] [] (plain_nil _)) as X.
  cbn [app] in X. rewrite X by auto. cbn [bind]. rewrite D, (UnEscape_escaping u (concat vs)) by auto. auto.
Qed.
Print Assumptions C52_delayed_off.

(** C52: with delayed expansion, the text so obtained is then read as pieces
    with '!' as sign, and the texts lose their '^'. *)
Theorem C52_delayed_on :
  forall w ps vs qs us, x_delayed w = true -> Forall2 (spiece_value w) ps vs ->
    concat vs = concat (map (show "!"%char) qs) -> Forall2 (piece_value w "!"%char true) qs us ->
    pBat_DelayedExpand w (concat (map sshow ps)) = Ret (concat us, w).
Proof.
  intros w ps vs qs us D H E Q. unfold pBat_DelayedExpand, pBat_ExpandSpecialVar.
  pose proof (special_pieces w ps vs H (S (length (concat (map sshow ps)))) [] [] (plain_nil _)) as X.
  cbn [app] in X. rewrite X by auto. cbn [bind]. rewrite D, E. unfold pBat_ExpandVar.
  assert (Y : esc_of w "!"%char = true) by (unfold esc_of; rewrite D; reflexivity).
  assert (Q' : Forall2 (piece_value w "!"%char (esc_of w "!"%char)) qs us) by (rewrite Y; exact Q).
  apply (expand_pieces w "!"%char qs us Q' (S (length (concat (map (show "!"%char) qs)))) [] []); auto.
  - apply plain_nil.
  - rewrite Y. constructor.
Qed.
Print Assumptions C52_delayed_on.

(** C52: where no FOR variable is readable, '%' stays as it is. *)
Theorem C52_no_locals :
  forall w s u, x_delayed w = false -> (forall r, get_local w (x_locals w) r = Ret None) -> escaping u s ->
    pBat_DelayedExpand w s = Ret (u, w).
Proof.
  intros w s u D N U. unfold pBat_DelayedExpand, pBat_ExpandSpecialVar.
  rewrite (special_none w N) by auto. cbn [bind app]. rewrite D, (UnEscape_escaping u s) by auto. auto.
Qed.
Print Assumptions C52_no_locals.

Example C52_ex :
  let w := ex_xworld false "v" in
  pBat_DelayedExpand w (s2l "1^2 %j %~i") = Ret (s2l "12 %j ab!foo!", w) /\
  let w := ex_xworld true "v" in
  pBat_DelayedExpand w (s2l "1^2 !foo! !! ^!") = Ret (s2l "12 v ! !", w) /\
  (forall rest, get_local w (x_locals w) (s2l "i" ++ rest) = Ret (Some (s2l "a^b!foo!", rest))).
Proof. repeat split; vm_compute; reflexivity. Qed.

(** The values of FOR variables are not kept as they are: they lose their '^',
    and with delayed expansion what looks like a reference in them is replaced. *)
Theorem C52_verbatim_refuted :
  get_local (ex_xworld false "v") (x_locals (ex_xworld false "v")) (s2l "i") = Ret (Some (s2l "a^b!foo!", [])) /\
  pBat_DelayedExpand (ex_xworld false "v") (s2l "%i") = Ret (s2l "ab!foo!", ex_xworld false "v") /\
  pBat_DelayedExpand (ex_xworld true "v") (s2l "%i") = Ret (s2l "abv", ex_xworld true "v").
Proof. repeat split; vm_compute; reflexivity. Qed.
Print Assumptions C52_verbatim_refuted.
