(** Glob_Proofs.v -- proofs about wildcard matching. *)

From Verif Require Import Base Lex Glob_Model Glob_Spec.

(** ** Characters of a string *)

Lemma chars_nonempty utf8 c r : exists u us, chars utf8 (c :: r) = (c :: u) :: us.
Proof.
  simpl. destruct (chars utf8 r) as [|u us]; eauto. destruct (joins utf8 c r); eauto.
Qed.

Lemma chars_next utf8 c r :
  exists u, chars utf8 (c :: r) = (c :: u) :: chars utf8 (pBat_GetNextChar utf8 (c :: r)) /\
            c :: r = (c :: u) ++ pBat_GetNextChar utf8 (c :: r).
Proof.
  revert c. induction r as [|d r IH]; intros c.
  - exists []. simpl. destruct (utf8 && (128 <=? code c)%Z); auto.
  - destruct (IH d) as (u & H1 & H2).
    replace (chars utf8 (c :: d :: r)) with
      (match chars utf8 (d :: r) with
       | u :: us => if joins utf8 c (d :: r) then (c :: u) :: us else [c] :: u :: us
       | [] => [[c]] end) by reflexivity.
    assert (N : pBat_GetNextChar utf8 (c :: d :: r) =
                if utf8 && (128 <=? code c)%Z then skip_following (d :: r) else d :: r) by reflexivity.
    rewrite N. clear N. unfold joins.
    destruct (utf8 && (128 <=? code c)%Z) eqn:Eh; cbn [andb].
    + cbn [skip_following]. unfold _pBat_IsFollowingByte.
      destruct ((128 <=? code d)%Z && (code d <? 192)%Z) eqn:Ed.
      * apply andb_true_iff in Ed as [Ed _]. apply andb_true_iff in Eh as [-> _].
        unfold pBat_GetNextChar in H1, H2. rewrite Ed in *. cbn [andb] in *. rewrite H1.
        exists (d :: u). split; [auto|]. cbn [app] in *. f_equal. exact H2.
      * exists []. rewrite H1. split; reflexivity.
    + exists []. rewrite H1. split; reflexivity.
Qed.

Lemma chars_concat utf8 s : concat (chars utf8 s) = s.
Proof.
  induction s as [|c r IH]; auto. cbn [chars]. destruct (chars utf8 r) as [|u us] eqn:E.
  - destruct r as [|d r]; auto. destruct (chars_nonempty utf8 d r) as (? & ? & H). congruence.
  - destruct (joins utf8 c r); simpl in *; congruence.
Qed.

Lemma chars_nil utf8 s : chars utf8 s = [] -> s = [].
Proof. intros H. rewrite <- (chars_concat utf8 s), H. reflexivity. Qed.

Lemma chars_units utf8 s u : In u (chars utf8 s) -> u <> [].
Proof.
  revert u. induction s as [|c r IH]; intros u; cbn [chars]; [tauto|].
  destruct (chars utf8 r) as [|v us]; simpl.
  - intros [<-|[]]; congruence.
  - destruct (joins utf8 c r); simpl; intros [<-|H]; try congruence; apply IH; simpl; auto.
Qed.

(** [utf8] mode needs ASCII bytes where the code compares or cuts. *)
Definition plain (utf8 : bool) (c : ascii) : Prop := utf8 = true -> (code c < 128)%Z.

Lemma joins_plain_l utf8 c r : plain utf8 c -> joins utf8 c r = false.
Proof.
  intros H. unfold joins. destruct r; auto. destruct utf8; auto. specialize (H eq_refl).
  destruct (Z.leb_spec 128 (code c)); auto; lia.
Qed.
Lemma joins_plain_r utf8 c d r : plain utf8 d -> joins utf8 c (d :: r) = false.
Proof.
  intros H. unfold joins. destruct utf8; auto. specialize (H eq_refl).
  unfold andb. destruct (Z.leb_spec 128 (code d)); [lia|]. destruct (128 <=? code c)%Z; reflexivity.
Qed.

Lemma chars_plain utf8 c r : plain utf8 c -> chars utf8 (c :: r) = [c] :: chars utf8 r.
Proof.
  intros H. cbn [chars]. destruct (chars utf8 r); auto. rewrite joins_plain_l; auto.
Qed.

Lemma next_plain utf8 c r : plain utf8 c -> pBat_GetNextChar utf8 (c :: r) = r.
Proof.
  intros H. unfold pBat_GetNextChar. destruct utf8; auto. specialize (H eq_refl).
  destruct (Z.leb_spec 128 (code c)); auto; lia.
Qed.

(** A plain byte starts a character. *)
Lemma chars_cut utf8 a d b :
  plain utf8 d -> chars utf8 (a ++ d :: b) = chars utf8 a ++ chars utf8 (d :: b).
Proof.
  intros Hd. induction a as [|c a IH]; auto.
  cbn [app]. destruct a as [|c' a'].
  - cbn [app]. destruct (chars_nonempty utf8 d b) as (u & us & E).
    change (chars utf8 (c :: d :: b)) with
      (match chars utf8 (d :: b) with
       | u :: us => if joins utf8 c (d :: b) then (c :: u) :: us else [c] :: u :: us
       | [] => [[c]] end).
    rewrite E, joins_plain_r by auto. reflexivity.
  - change (chars utf8 (c :: (c' :: a') ++ d :: b)) with
      (match chars utf8 ((c' :: a') ++ d :: b) with
       | u :: us => if joins utf8 c ((c' :: a') ++ d :: b) then (c :: u) :: us else [c] :: u :: us
       | [] => [[c]] end).
    change (chars utf8 (c :: c' :: a')) with
      (match chars utf8 (c' :: a') with
       | u :: us => if joins utf8 c (c' :: a') then (c :: u) :: us else [c] :: u :: us
       | [] => [[c]] end).
    rewrite IH. destruct (chars_nonempty utf8 c' a') as (u & us & E). rewrite E.
    cbn [app]. change (joins utf8 c (c' :: a' ++ d :: b)) with (joins utf8 c (c' :: a')).
    destruct (joins utf8 c (c' :: a')); reflexivity.
Qed.

Lemma chars_suffix utf8 us1 us2 : forall s, chars utf8 s = us1 ++ us2 -> chars utf8 (concat us2) = us2.
Proof.
  induction us1 as [|u us1 IH]; intros s H.
  - cbn [app] in H. rewrite <- H, chars_concat. auto.
  - destruct s as [|c r]; [discriminate|].
    destruct (chars_next utf8 c r) as (v & H1 & H2). rewrite H1 in H. injection H as H H'. eauto.
Qed.

(** ** Comparisons *)

Lemma rx_eq_same cs a b : rx_eq cs a b = true <-> same_char cs a b.
Proof.
  unfold rx_eq, same_char. destruct cs; [apply ceq_true|]. rewrite ceq_true.
  assert (A : forall c, (ceq (tolower (toupper c)) (tolower c) && ceq (toupper (tolower c)) (toupper c)) = true).
  { apply (ascii_forall (fun c => ceq (tolower (toupper c)) (tolower c) && ceq (toupper (tolower c)) (toupper c))).
    vm_compute. reflexivity. }
  pose proof (A a) as Ha. pose proof (A b) as Hb.
  apply andb_true_iff in Ha as [Ha1 Ha2]. apply andb_true_iff in Hb as [Hb1 Hb2].
  apply ceq_true in Ha1, Ha2, Hb1, Hb2. split; intros H; congruence.
Qed.

Lemma same_char_sym cs a b : same_char cs a b -> same_char cs b a.
Proof. unfold same_char. destruct cs; auto. Qed.

Lemma same_plain utf8 cs a b : same_char cs a b -> plain utf8 a -> plain utf8 b.
Proof.
  intros H Ha Hu. specialize (Ha Hu). unfold same_char in H. destruct cs; [subst; auto|].
  assert (A : forall c, Bool.eqb (code (tolower c) <? 128)%Z (code c <? 128)%Z = true).
  { apply (ascii_forall (fun c => Bool.eqb (code (tolower c) <? 128)%Z (code c <? 128)%Z)).
    vm_compute. reflexivity. }
  pose proof (A a) as Ea. pose proof (A b) as Eb. apply eqb_prop in Ea, Eb. rewrite H in Ea. lia.
Qed.

Definition same_str (cs : bool) (a b : cstr) : Prop := Forall2 (same_char cs) a b.

Lemma agree_spec cs p s :
  agree cs p s = true <-> exists t r, s = t ++ r /\ same_str cs p t.
Proof.
  revert s; induction p as [|a p IH]; intros s.
  - simpl. split; auto. intros _. exists [], s. split; auto. constructor.
  - destruct s as [|b s]; simpl.
    + split; [discriminate|]. intros (t & r & H & H2). destruct t; [inversion H2|discriminate].
    + rewrite andb_true_iff, rx_eq_same, IH. split.
      * intros [H (t & r & -> & Ht)]. exists (b :: t), r. split; auto. constructor; auto using same_char_sym.
      * intros (t & r & H & Ht). inversion Ht; subst. injection H as <- ->. split; eauto using same_char_sym.
Qed.

Lemma same_str_length cs a b : same_str cs a b -> length a = length b.
Proof. induction 1; simpl; congruence. Qed.

Lemma seek_spec cs p s len :
  match pBat_SeekPattern cs s p len with
  | Some k => k < length s /\ agree cs (firstn len p) (skipn k s) = true /\
              forall j, j < k -> agree cs (firstn len p) (skipn j s) = false
  | None => forall j, j < length s -> agree cs (firstn len p) (skipn j s) = false
  end.
Proof.
  induction s as [|c s IH]; cbn [pBat_SeekPattern]; [simpl; intros; lia|].
  destruct (agree cs (firstn len p) (c :: s)) eqn:E.
  - simpl. repeat split; auto; [lia|]. intros j Hj. lia.
  - destruct (pBat_SeekPattern cs s p len) as [k|].
    + destruct IH as (H1 & H2 & H3). simpl length. split; [lia|]. split; [auto|].
      intros [|j] Hj; [auto|]. simpl. apply H3. lia.
    + intros [|j] Hj; [auto|]. simpl. apply IH. simpl in Hj. lia.
Qed.

Lemma end_spec cs p s :
  nonul p -> nonul s ->
  pBat_EndWithPattern cs s p (length p) = true <-> exists a t, s = a ++ t /\ same_str cs p t.
Proof.
  intros Hp Hs. unfold pBat_EndWithPattern.
  destruct (Nat.ltb_spec (length s) (length p)) as [Hl|Hl].
  - split; [discriminate|]. intros (a & t & -> & H). apply same_str_length in H. rewrite app_length in Hl. lia.
  - assert (G : (if cs then streqb (skipn (length s - length p) s) p
                 else (stricmp (skipn (length s - length p) s) p =? 0)%Z) = true
                <-> same_str cs p (skipn (length s - length p) s)).
    { destruct cs.
      - rewrite streqb_true. unfold same_str, same_char. split.
        + intros ->. clear. induction p; constructor; auto.
        + intros H. symmetry. clear Hp Hl. revert H. generalize (skipn (length s - length p) s).
          induction 1; congruence.
      - rewrite Z.eqb_eq, stricmp_0; auto.
        2:{ intros Hin. apply Hs. rewrite <- (firstn_skipn (length s - length p) s). apply in_or_app. auto. }
        rewrite key_lower. unfold same_name, same_str, same_char. clear Hp Hl.
        generalize (skipn (length s - length p) s) as m. intros m. revert m.
        induction p as [|x p IH]; intros [|y m]; simpl; split; intros H; try discriminate; try constructor;
          try inversion H; subst; auto.
        + apply IH. auto.
        + f_equal; auto. apply IH. auto. }
    rewrite G. split.
    + intros H. exists (firstn (length s - length p) s), (skipn (length s - length p) s).
      rewrite firstn_skipn. auto.
    + intros (a & t & -> & H). pose proof (same_str_length _ _ _ H) as HL.
      rewrite app_length, HL. replace (length a + length t - length t) with (length a) by lia.
      rewrite skipn_app, skipn_all2, Nat.sub_diag by lia. auto.
Qed.

(** ** Patterns *)

Definition literal (p : cstr) : Prop := Forall (fun c => is_joker c = false) p.

Lemma joker_neq c : is_joker c = false -> c <> "?"%char /\ c <> "*"%char.
Proof. unfold is_joker. rewrite orb_false_iff, !ceq_false. tauto. Qed.

(** Matching a literal run. *)
Lemma glob_literal cs utf8 lit t p r :
  literal lit -> Forall (plain utf8) lit -> same_str cs lit t ->
  glob cs p (chars utf8 r) -> glob cs (lit ++ p) (chars utf8 (t ++ r)).
Proof.
  intros Hl Hp Hs Hg. induction Hs as [|a b lit t Hab Hs IH]; auto.
  apply Forall_cons_iff in Hl as [Hl1 Hl2]. apply Forall_cons_iff in Hp as [Hp1 Hp2].
  cbn [app]. rewrite chars_plain by (eapply same_plain; eauto).
  apply joker_neq in Hl1 as [? ?]. constructor; auto.
Qed.

Lemma glob_literal_inv cs lit p us :
  literal lit -> glob cs (lit ++ p) us ->
  exists t us', us = map (fun c => [c]) t ++ us' /\ same_str cs lit t /\ glob cs p us'.
Proof.
  intros Hl. revert us. induction Hl as [|a lit Ha Hl IH]; intros us H.
  - exists [], us. repeat split; auto. constructor.
  - cbn [app] in H. apply joker_neq in Ha as [H1 H2]. inversion H; subst; try congruence.
    apply IH in H8 as (t & us' & -> & Ht & Hg). exists (d :: t), us'. repeat split; auto. constructor; auto.
Qed.

Lemma glob_stars cs k p us : glob cs p us -> glob cs (repeat "*"%char k ++ p) us.
Proof.
  induction k as [|k IH]; simpl; auto. intros H. apply (glob_star cs _ [] us). auto.
Qed.

Lemma glob_star_inv cs p us :
  glob cs ("*"%char :: p) us -> exists us1 us2, us = us1 ++ us2 /\ glob cs p us2.
Proof. intros H. inversion H; subst; try congruence. eauto. Qed.

Lemma glob_stars_inv cs k p us :
  glob cs (repeat "*"%char k ++ p) us -> exists us1 us2, us = us1 ++ us2 /\ glob cs p us2.
Proof.
  revert us; induction k as [|k IH]; intros us H.
  - exists [], us. auto.
  - cbn [repeat app] in H. apply glob_star_inv in H as (a & b & -> & H). apply IH in H as (c & d & -> & H).
    exists (a ++ c), d. rewrite <- app_assoc. auto.
Qed.

Lemma glob_all_stars cs k us : glob cs (repeat "*"%char (S k)) us.
Proof.
  cbn [repeat]. rewrite <- (app_nil_r us). constructor.
  replace (repeat "*"%char k) with (repeat "*"%char k ++ []) by apply app_nil_r.
  apply glob_stars. constructor.
Qed.

(** Shape of a pattern that starts with a star. *)
Lemma skip_jokers_split p :
  exists js, p = js ++ skip_jokers p /\ Forall (fun c => is_joker c = true) js /\
    match skip_jokers p with [] => True | c :: _ => is_joker c = false end.
Proof.
  induction p as [|c p (js & E & H & H2)].
  - exists []. simpl. auto.
  - cbn [skip_jokers]. destruct (is_joker c) eqn:Ec.
    + exists (c :: js). split; [simpl; congruence|]. auto.
    + exists []. split; auto.
Qed.

Lemma stars_only p js :
  (forall a b, "*"%char :: js ++ p <> a ++ "*"%char :: "?"%char :: b) ->
  Forall (fun c => is_joker c = true) js -> exists k, js = repeat "*"%char k.
Proof.
  intros Hn Hj. induction Hj as [|c js Hc Hj IH]; [exists 0; auto|].
  unfold is_joker in Hc. apply orb_true_iff in Hc as [Hc|Hc]; apply ceq_true in Hc; subst c.
  - destruct IH as [k ->].
    + intros a b E. apply (Hn ("*"%char :: a) b). simpl. simpl in E. rewrite E. reflexivity.
    + exists (S k). reflexivity.
  - exfalso. apply (Hn [] (js ++ p)). reflexivity.
Qed.

Lemma strpbrk_split p :
  match strpbrk p (s2l "*?") with
  | Some size => exists lit j r, p = lit ++ j :: r /\ length lit = size /\ literal lit /\ is_joker j = true
  | None => literal p
  end.
Proof.
  unfold strpbrk.
  assert (Hj : forall c, inset (s2l "*?") c = is_joker c).
  { intros c. unfold inset, is_joker. simpl. rewrite orb_false_r. reflexivity. }
  induction p as [|c p IH]; cbn [find_idx].
  - constructor.
  - rewrite Hj. destruct (is_joker c) eqn:Ec.
    + exists [], c, p. repeat split; auto. constructor.
    + destruct (find_idx (inset (s2l "*?")) p) as [k|].
      * destruct IH as (lit & j & r & -> & <- & Hl & Hjj). exists (c :: lit), j, r.
        repeat split; auto. constructor; auto.
      * constructor; auto.
Qed.

Lemma nonul_sub (a b c : cstr) : nonul (a ++ b ++ c) -> nonul b.
Proof. unfold nonul. rewrite !in_app_iff. tauto. Qed.
Lemma nonul_skipn n (s : cstr) : nonul s -> nonul (skipn n s).
Proof.
  unfold nonul. intros H Hin. apply H. rewrite <- (firstn_skipn n s). apply in_or_app; auto.
Qed.
Lemma forall_skipn {A} (P : A -> Prop) n l : Forall P l -> Forall P (skipn n l).
Proof. intros H. rewrite <- (firstn_skipn n l) in H. apply Forall_app in H. tauto. Qed.

Lemma nonul_next utf8 s : nonul s -> nonul (pBat_GetNextChar utf8 s).
Proof.
  intros H. destruct s as [|c r]; auto. destruct (chars_next utf8 c r) as (u & _ & E).
  rewrite E in H. unfold nonul in *. rewrite in_app_iff in H. tauto.
Qed.

Lemma skipn_add {A} a b (l : list A) : skipn (a + b) l = skipn b (skipn a l).
Proof.
  revert l; induction a as [|a IH]; intros l; auto. destruct l; simpl; auto. destruct b; auto.
Qed.

(** ** Soundness *)

Lemma rx_sound cs utf8 : forall fuel p s,
  length p < fuel -> nonul p -> nonul s -> Forall (plain utf8) p -> no_star_question p ->
  exists b, rx_match fuel cs utf8 p s = Ret b /\ (b = true -> glob cs p (chars utf8 s)).
Proof.
  induction fuel as [|f IH]; intros p s Hf Hp Hs Hpl Hn; [lia|].
  cbn [rx_match]. destruct p as [|x p]; destruct s as [|y s].
  - exists true. split; auto. intros _. constructor.
  - exists false. split; auto. discriminate.
  - exists false. split; auto. discriminate.
  - apply Forall_cons_iff in Hpl as [Hx Hpl].
    assert (Hnp : no_star_question p).
    { intros a b E. apply (Hn (x :: a) b). rewrite E. reflexivity. }
    assert (Hp' : nonul p) by (unfold nonul in *; simpl in Hp; tauto).
    destruct (chars_next utf8 y s) as (u & Ec & Es).
    destruct (ceq x "?"%char) eqn:Eq.
    { apply ceq_true in Eq. subst x. rewrite (next_plain utf8 "?"%char p) by (intros _; reflexivity).
      destruct (IH p (pBat_GetNextChar utf8 (y :: s))) as (b & Hb & Hg); auto.
      - simpl in Hf. lia.
      - apply nonul_next; auto.
      - exists b. split; auto. intros H. rewrite Ec. constructor. auto. }
    destruct (ceq x "*"%char) eqn:Est.
    { apply ceq_true in Est. subst x. change (skip_jokers ("*"%char :: p)) with (skip_jokers p).
      destruct (skip_jokers_split p) as (js & Ej & Hj & Hh).
      assert (Hk : exists k, js = repeat "*"%char k).
      { apply stars_only with (p := skip_jokers p); auto. intros a b E. rewrite <- Ej in E. apply (Hn a b E). }
      destruct Hk as [k Hk]. remember (skip_jokers p) as p1. rewrite Ej, Hk in *.
      change ("*"%char :: repeat "*"%char k ++ p1) with (repeat "*"%char (S k) ++ p1) in *.
      clear Heqp1 Hj Ej.
      assert (Hl1 : length p1 <= f).
      { rewrite app_length, repeat_length in Hf. lia. }
      destruct p1 as [|c1 p1'].
      { exists true. split; auto. intros _. rewrite app_nil_r. apply glob_all_stars. }
      assert (Hpl1 : Forall (plain utf8) (c1 :: p1')) by (apply Forall_app in Hpl; tauto).
      assert (Hnu1 : nonul (c1 :: p1')) by (unfold nonul in *; rewrite in_app_iff in Hp'; tauto).
      pose proof (strpbrk_split (c1 :: p1')) as Hsp.
      destruct (strpbrk (c1 :: p1') (s2l "*?")) as [size|].
      - destruct Hsp as (lit & j & r & Ep1 & Hsize & Hlit & Hjj).
        pose proof (seek_spec cs (c1 :: p1') (y :: s) size) as Hseek.
        destruct (pBat_SeekPattern cs (y :: s) (c1 :: p1') size) as [off|]; [|exists false; split; auto; discriminate].
        destruct Hseek as (Hoff & Hag & _). subst size.
        assert (Hskip : skipn (length lit) (c1 :: p1') = j :: r).
        { rewrite Ep1. rewrite skipn_app, skipn_all2, Nat.sub_diag by lia. reflexivity. }
        assert (Hfirst : firstn (length lit) (c1 :: p1') = lit).
        { rewrite Ep1. rewrite firstn_app, firstn_all, Nat.sub_diag. simpl. apply app_nil_r. }
        rewrite Hskip, Hfirst in *. apply agree_spec in Hag as (t & r' & Et & Hst).
        pose proof (same_str_length _ _ _ Hst) as HL.
        assert (Hs2 : skipn (off + length lit) (y :: s) = r').
        { rewrite skipn_add, Et, HL, skipn_app, skipn_all2, Nat.sub_diag by lia. reflexivity. }
        rewrite Hs2.
        assert (Hne : lit <> []).
        { intros ->. simpl in Ep1. injection Ep1 as -> _. rewrite Hh in Hjj. discriminate. }
        rewrite Ep1 in *. apply Forall_app in Hpl1 as [Hpl1 Hpl2].
        destruct (IH (j :: r) r') as (b & Hb & Hg); auto.
        + rewrite app_length in Hl1. simpl in *. destruct lit; [congruence|]. simpl in Hl1. lia.
        + unfold nonul in *. rewrite in_app_iff in Hnu1. tauto.
        + rewrite <- Hs2. apply nonul_skipn; auto.
        + intros a b E. apply (Hn (repeat "*"%char (S k) ++ lit ++ a) b). rewrite E, <- !app_assoc. reflexivity.
        + exists b. split; auto. intros H. specialize (Hg H).
          rewrite <- (firstn_skipn off (y :: s)), Et.
          destruct lit as [|l0 lit]; [congruence|]. inversion Hst as [|a0 t0 l' t' Hat Hst' E1 E2]. subst.
          cbn [app]. rewrite chars_cut.
          2:{ eapply same_plain; eauto. inversion Hpl1; auto. }
          apply (glob_star cs (repeat "*"%char k ++ l0 :: lit ++ j :: r)).
          apply glob_stars. apply (glob_literal cs utf8 (l0 :: lit) (t0 :: t')); auto.
      - eexists. split; [reflexivity|]. intros He. apply end_spec in He as (a & t & Et & Hst); auto.
        rewrite Et. inversion Hst as [|a0 t0 l' t' Hat Hst' E1 E2]. subst.
        rewrite chars_cut.
        2:{ eapply same_plain; eauto. inversion Hpl1; auto. }
        apply (glob_star cs (repeat "*"%char k ++ c1 :: p1')). apply glob_stars.
        replace (c1 :: p1') with ((c1 :: p1') ++ []) by apply app_nil_r.
        replace (t0 :: t') with ((t0 :: t') ++ []) by apply app_nil_r.
        apply glob_literal; auto. constructor. }
    destruct (rx_eq cs x y) eqn:Exy; cbn [negb]; [|exists false; split; auto; discriminate].
    apply rx_eq_same in Exy. rewrite (next_plain utf8 x p) by auto.
    assert (Hy : plain utf8 y) by (eapply same_plain; eauto).
    rewrite (next_plain utf8 y s) by auto.
    destruct (IH p s) as (b & Hb & Hg); auto.
    + simpl in Hf. lia.
    + unfold nonul in *; simpl in Hs; tauto.
    + exists b. split; auto. intros H. rewrite chars_plain by auto.
      apply ceq_false in Eq, Est. constructor; auto.
Qed.

(** ** Exactness *)

Fixpoint ends_starb (p : cstr) : bool :=
  match p with
  | [] => false
  | [c] => ceq c "*"%char
  | _ :: r => ends_starb r
  end.
Definition tf (p : cstr) : cstr := if ends_starb p then p ++ ["?"%char] else p.

Lemma ends_starb_app a c b : ends_starb (a ++ c :: b) = ends_starb (c :: b).
Proof.
  induction a as [|x a IH]; auto. cbn [app].
  destruct (a ++ c :: b) as [|y l] eqn:E; [destruct a; discriminate|]. exact IH.
Qed.

Lemma ends_starb_iff p : ends_starb p = true <-> ends_with_star p.
Proof.
  unfold ends_with_star. split.
  - induction p as [|c p IH]; [discriminate|]. destruct p as [|d p].
    + simpl. intros H. apply ceq_true in H. subst. exists []. auto.
    + intros H. destruct IH as [q Hq]; auto. exists (c :: q). simpl. congruence.
  - intros [q ->]. rewrite ends_starb_app. reflexivity.
Qed.

Lemma tf_app a c b : tf (a ++ c :: b) = a ++ tf (c :: b).
Proof. unfold tf. rewrite ends_starb_app. destruct (ends_starb (c :: b)); rewrite <- ?app_assoc; auto. Qed.

Lemma tf_cons c p : c <> "*"%char -> tf (c :: p) = c :: tf p.
Proof.
  intros H. destruct p as [|d p].
  - unfold tf. simpl. apply ceq_false in H. rewrite H. reflexivity.
  - apply (tf_app [c] d p).
Qed.

Lemma literal_tf p : literal p -> tf p = p.
Proof.
  intros H. unfold tf. destruct (ends_starb p) eqn:E; auto. apply ends_starb_iff in E as [q ->].
  apply Forall_app in H as [_ H]. inversion H; subst. discriminate.
Qed.

Lemma glob_nil_inv cs p : glob cs p [] -> Forall (fun c => c = "*"%char) p.
Proof.
  induction p as [|c p IH]; intros H; constructor.
  - inversion H; subst; auto.
  - apply IH. inversion H as [|? ? ? ?|q us1 us2 Hq E1 E2|]; subst. apply app_eq_nil in E2 as [-> ->]. auto.
Qed.

Lemma tf_nonempty cs p : p <> [] -> ~ glob cs (tf p) [].
Proof.
  intros Hne H. apply glob_nil_inv in H. unfold tf in H. destruct (ends_starb p) eqn:E.
  - apply Forall_app in H as [_ H]. inversion H; subst. discriminate.
  - assert (ends_starb p = true); [|congruence]. clear E.
    destruct (exists_last Hne) as (q & c & ->). apply Forall_app in H as [_ H]. inversion H; subst.
    rewrite ends_starb_app. reflexivity.
Qed.

Lemma glob_stars_q cs k us :
  us <> [] -> glob cs (repeat "*"%char (S k) ++ ["?"%char]) us.
Proof.
  intros Hne. destruct (exists_last Hne) as (q & c & ->). cbn [repeat app]. constructor.
  apply glob_stars. constructor. constructor.
Qed.

(** Suffixes of one list of characters are ordered by their byte length. *)
Lemma suffix_order {A} (a1 a2 b1 b2 : list (list A)) :
  a1 ++ a2 = b1 ++ b2 -> (forall u, In u (a1 ++ a2) -> u <> []) ->
  length (concat b2) <= length (concat a2) -> exists c, a2 = c ++ b2.
Proof.
  revert b1. induction a1 as [|x a1 IH]; intros b1 E Hu Hl.
  - exists b1. auto.
  - destruct b1 as [|y b1].
    + exfalso. cbn [app] in E. subst b2. cbn [concat] in Hl. rewrite concat_app, !app_length in Hl.
      assert (x <> []) by (apply Hu; left; auto). destruct x; [congruence|]. simpl in Hl. lia.
    + cbn [app] in E. injection E as _ E. eapply IH; eauto. intros u Hin. apply Hu. right. auto.
Qed.

Lemma concat_singles t : concat (map (fun c : ascii => [c]) t) = t.
Proof. induction t; simpl; congruence. Qed.

Lemma chars_literal cs utf8 lit t r :
  Forall (plain utf8) lit -> same_str cs lit t ->
  chars utf8 (t ++ r) = map (fun c => [c]) t ++ chars utf8 r.
Proof.
  intros Hp Hs. induction Hs as [|a b l t Hab Hs IH]; auto.
  apply Forall_cons_iff in Hp as [Hp Hp1]. cbn [app map].
  rewrite chars_plain by (eapply same_plain; eauto). rewrite IH by auto. reflexivity.
Qed.

Lemma rx_exact cs utf8 : forall fuel p s,
  length p < fuel -> nonul p -> nonul s -> Forall (plain utf8) p -> no_question_after_star p ->
  exists b, rx_match fuel cs utf8 p s = Ret b /\ (b = true <-> glob cs (tf p) (chars utf8 s)).
Proof.
  induction fuel as [|f IH]; intros p s Hf Hp Hs Hpl Hn; [lia|].
  cbn [rx_match]. destruct p as [|x p]; destruct s as [|y s].
  - exists true. split; auto. split; auto. intros _. constructor.
  - exists false. split; auto. split; [discriminate|]. intros H.
    destruct (chars_nonempty utf8 y s) as (u & us & E). rewrite E in H. inversion H.
  - exists false. split; auto. split; [discriminate|]. intros H. exfalso. eapply tf_nonempty; [|exact H]. congruence.
  - apply Forall_cons_iff in Hpl as [Hx Hpl].
    assert (Hnp : no_question_after_star p).
    { intros a b c E. apply (Hn (x :: a) b c). rewrite E. reflexivity. }
    assert (Hp' : nonul p) by (unfold nonul in *; simpl in Hp; tauto).
    destruct (chars_next utf8 y s) as (u & Ec & Es).
    destruct (ceq x "?"%char) eqn:Eq.
    { apply ceq_true in Eq. subst x. rewrite (next_plain utf8 "?"%char p) by (intros _; reflexivity).
      destruct (IH p (pBat_GetNextChar utf8 (y :: s))) as (b & Hb & Hg); auto.
      - simpl in Hf. lia.
      - apply nonul_next; auto.
      - exists b. split; auto. rewrite Hg, Ec, tf_cons by discriminate. split; intros H.
        + constructor. auto.
        + inversion H; subst; auto; congruence. }
    destruct (ceq x "*"%char) eqn:Est.
    { apply ceq_true in Est. subst x. change (skip_jokers ("*"%char :: p)) with (skip_jokers p).
      destruct (skip_jokers_split p) as (js & Ej & Hj & Hh).
      assert (Hk : exists k, js = repeat "*"%char k).
      { apply stars_only with (p := skip_jokers p); auto. intros a b E. rewrite <- Ej in E.
        apply (Hn a [] b). auto. }
      destruct Hk as [k Hk]. remember (skip_jokers p) as p1. rewrite Ej, Hk in *.
      change ("*"%char :: repeat "*"%char k ++ p1) with (repeat "*"%char (S k) ++ p1) in *.
      clear Heqp1 Hj Ej.
      assert (Hl1 : length p1 <= f).
      { rewrite app_length, repeat_length in Hf. lia. }
      assert (Hne0 : chars utf8 (y :: s) <> []) by (rewrite Ec; discriminate).
      destruct p1 as [|c1 p1'].
      { exists true. split; auto. split; auto. intros _. rewrite app_nil_r.
        unfold tf. replace (ends_starb (repeat "*"%char (S k))) with true.
        - apply glob_stars_q. auto.
        - clear. induction k; auto. }
      rewrite tf_app.
      assert (Hpl1 : Forall (plain utf8) (c1 :: p1')) by (apply Forall_app in Hpl; tauto).
      assert (Hnu1 : nonul (c1 :: p1')) by (unfold nonul in *; rewrite in_app_iff in Hp'; tauto).
      pose proof (strpbrk_split (c1 :: p1')) as Hsp.
      destruct (strpbrk (c1 :: p1') (s2l "*?")) as [size|].
      - destruct Hsp as (lit & j & r & Ep1 & Hsize & Hlit & Hjj).
        pose proof (seek_spec cs (c1 :: p1') (y :: s) size) as Hseek. subst size.
        assert (Hskip : skipn (length lit) (c1 :: p1') = j :: r).
        { rewrite Ep1. rewrite skipn_app, skipn_all2, Nat.sub_diag by lia. reflexivity. }
        assert (Hfirst : firstn (length lit) (c1 :: p1') = lit).
        { rewrite Ep1. rewrite firstn_app, firstn_all, Nat.sub_diag. simpl. apply app_nil_r. }
        rewrite Hskip, Hfirst in *.
        assert (Hne : lit <> []).
        { intros ->. simpl in Ep1. injection Ep1 as -> _. rewrite Hh in Hjj. discriminate. }
        assert (Hjs : j = "*"%char).
        { unfold is_joker in Hjj. apply orb_true_iff in Hjj as [H|H]; apply ceq_true in H; auto. subst j.
          exfalso. apply (Hn (repeat "*"%char k) lit r). rewrite Ep1.
          replace (repeat "*"%char (S k)) with (repeat "*"%char k ++ ["*"%char]).
          - rewrite <- app_assoc. reflexivity.
          - first [apply repeat_cons | symmetry; apply repeat_cons]. }
        subst j. rewrite Ep1 in *. clear Ep1 Hjj Hfirst Hskip Hh.
        apply Forall_app in Hpl1 as [Hpl1 Hpl2]. rewrite tf_app.
        assert (Htf : exists q, tf ("*"%char :: r) = "*"%char :: q).
        { unfold tf. destruct (ends_starb ("*"%char :: r)); simpl; eauto. }
        destruct Htf as [q Htf].
        (* what a match of lit ++ rest at some place gives *)
        assert (Find : forall us1 us2, chars utf8 (y :: s) = us1 ++ us2 ->
                  glob cs (lit ++ tf ("*"%char :: r)) us2 ->
                  exists t us3, us2 = map (fun c => [c]) t ++ us3 /\ same_str cs lit t /\
                    glob cs (tf ("*"%char :: r)) us3 /\
                    skipn (length (concat us1)) (y :: s) = t ++ concat us3).
        { intros us1 us2 E H. apply glob_literal_inv in H as (t & us3 & -> & Ht & H3); auto.
          exists t, us3. repeat split; auto.
          rewrite <- (chars_concat utf8 (y :: s)), E, !concat_app, concat_singles.
          rewrite skipn_app, skipn_all2, Nat.sub_diag by lia. reflexivity. }
        destruct (pBat_SeekPattern cs (y :: s) (lit ++ "*"%char :: r) (length lit)) as [off|].
        + destruct Hseek as (Hoff & Hag & Hfirst).
          apply agree_spec in Hag as (t & r' & Et & Hst).
          pose proof (same_str_length _ _ _ Hst) as HL.
          assert (Hs2 : skipn (off + length lit) (y :: s) = r').
          { rewrite skipn_add, Et, HL, skipn_app, skipn_all2, Nat.sub_diag by lia. reflexivity. }
          rewrite Hs2.
          assert (Hcut : chars utf8 (y :: s) =
                    chars utf8 (firstn off (y :: s)) ++ map (fun c => [c]) t ++ chars utf8 r').
          { rewrite <- (firstn_skipn off (y :: s)) at 1. rewrite Et.
            destruct lit as [|l0 lit]; [congruence|]. inversion Hst as [|a0 t0 l' t' Hat Hst' E1 E2]. subst.
            cbn [app]. apply Forall_cons_iff in Hpl1 as [Hp0 Hp1].
            rewrite chars_cut by (eapply same_plain; eauto). f_equal.
            apply (chars_literal cs utf8 (l0 :: lit) (t0 :: t')); auto. }
          destruct (IH ("*"%char :: r) r') as (b & Hb & Hg); auto.
          * rewrite app_length in Hl1. simpl in *. destruct lit; [congruence|]. simpl in Hl1. lia.
          * unfold nonul in *. rewrite in_app_iff in Hnu1. tauto.
          * rewrite <- Hs2. apply nonul_skipn; auto.
          * intros a b0 c E. apply (Hn (repeat "*"%char (S k) ++ lit ++ a) b0 c).
            rewrite E, <- !app_assoc. reflexivity.
          * exists b. split; auto. rewrite Hg. split; intros H.
            -- rewrite Hcut. cbn [repeat app]. constructor. apply glob_stars.
               clear - H Hst Hlit. induction Hst as [|a b l t Hab Hs IH]; auto. cbn [app map].
               apply Forall_cons_iff in Hlit as [Hl Hl']. apply joker_neq in Hl as [? ?]. constructor; auto.
            -- apply glob_stars_inv in H as (us1 & us2 & E & H).
               destruct (Find us1 us2 E H) as (t2 & us3 & E2 & Ht2 & Hg3 & Hsk).
               assert (Hle : off <= length (concat us1)).
               { destruct (Nat.le_gt_cases off (length (concat us1))) as [|Hlt]; auto.
                 exfalso. specialize (Hfirst _ Hlt). rewrite Hsk in Hfirst.
                 assert (agree cs lit (t2 ++ concat us3) = true) by (apply agree_spec; eauto). congruence. }
               assert (Hsub : exists c, chars utf8 r' = c ++ us3).
               { eapply suffix_order with (a1 := chars utf8 (firstn off (y :: s)) ++ map (fun c => [c]) t)
                                          (b1 := us1 ++ map (fun c => [c]) t2) (a2 := chars utf8 r') (b2 := us3).
                 - rewrite <- !app_assoc. rewrite Hcut in E. rewrite E2 in E. exact E.
                 - intros v Hv. rewrite <- app_assoc in Hv. apply (chars_units utf8 (y :: s)). rewrite Hcut. exact Hv.
                 - rewrite chars_concat. pose proof (same_str_length _ _ _ Ht2) as HL2.
                   assert (L1 : length (skipn (length (concat us1)) (y :: s)) = length t2 + length (concat us3))
                     by (rewrite Hsk, app_length; auto).
                   assert (L2 : length (skipn off (y :: s)) = length t + length r')
                     by (rewrite Et, app_length; auto).
                   rewrite skipn_length in L1, L2. lia. }
               destruct Hsub as [c Hsub]. rewrite Hsub. rewrite Htf in *.
               apply glob_star_inv in Hg3 as (us4 & us5 & -> & Hg3). rewrite app_assoc. constructor. auto.
        + exists false. split; auto. split; [discriminate|]. intros H. exfalso.
          apply glob_stars_inv in H as (us1 & us2 & E & H).
          destruct (Find us1 us2 E H) as (t2 & us3 & E2 & Ht2 & Hg3 & Hsk).
          assert (Hag : agree cs lit (skipn (length (concat us1)) (y :: s)) = true).
          { rewrite Hsk. apply agree_spec; eauto. }
          rewrite Hseek in Hag; [discriminate|].
          assert (L : length (skipn (length (concat us1)) (y :: s)) = length t2 + length (concat us3))
            by (rewrite Hsk, app_length; auto).
          rewrite skipn_length in L. pose proof (same_str_length _ _ _ Ht2) as HL2.
          destruct lit; [congruence|]. cbn [length] in HL2, L |- *. lia.
      - eexists. split; [reflexivity|]. rewrite end_spec by auto. rewrite (literal_tf _ Hsp). split.
        + intros (a & t & Et & Hst). rewrite Et. inversion Hst as [|a0 t0 l' t' Hat Hst' E1 E2]. subst.
          apply Forall_cons_iff in Hpl1 as [Hp0 Hp1].
          rewrite chars_cut by (eapply same_plain; eauto). cbn [repeat app]. constructor. apply glob_stars.
          replace (c1 :: p1') with ((c1 :: p1') ++ []) by apply app_nil_r.
          replace (t0 :: t') with ((t0 :: t') ++ []) by apply app_nil_r.
          apply glob_literal; auto. constructor.
        + intros H. apply glob_stars_inv in H as (us1 & us2 & E & H).
          replace (c1 :: p1') with ((c1 :: p1') ++ []) in H by apply app_nil_r.
          apply glob_literal_inv in H as (t & us3 & -> & Ht & H3); auto. inversion H3; subst.
          exists (concat us1), t. split; auto.
          rewrite <- (chars_concat utf8 (y :: s)), E, !concat_app, concat_singles. simpl. rewrite app_nil_r. auto. }
    destruct (rx_eq cs x y) eqn:Exy; cbn [negb].
    + apply rx_eq_same in Exy. rewrite (next_plain utf8 x p) by auto.
      assert (Hy : plain utf8 y) by (eapply same_plain; eauto).
      rewrite (next_plain utf8 y s) by auto.
      destruct (IH p s) as (b & Hb & Hg); auto.
      * simpl in Hf. lia.
      * unfold nonul in *; simpl in Hs; tauto.
      * exists b. split; auto. apply ceq_false in Eq, Est. rewrite Hg, chars_plain, tf_cons by auto. split; intros H.
        -- constructor; auto.
        -- inversion H; subst; try congruence; auto.
    + exists false. split; auto. split; [discriminate|]. intros H. exfalso.
      apply ceq_false in Eq, Est. rewrite tf_cons in H by auto. rewrite Ec in H.
      inversion H; subst; try congruence.
      assert (rx_eq cs x y = true); [apply rx_eq_same|congruence]. auto.
Qed.
