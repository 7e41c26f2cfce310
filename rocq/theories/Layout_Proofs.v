(** Layout_Proofs.v -- lemmas about Layout_Model. *)

From Verif Require Import Base Layout_Model Tea_Spec Layout_Spec.
Require Import Lia.

Lemma eow_word : forall c, eow c = (ceq c " "%char || ceq c nl).
Proof. reflexivity. Qed.
Lemma len_word : forall s, Tea_GetWordLength s = length (word_of s).
Proof. induction s as [|c s IH]; cbn; [reflexivity|]. unfold eow. destruct (ceq c " " || ceq c nl); cbn; auto. Qed.
Lemma len_in_app : forall s t, len_in s (length (word_of t)) = length (word_of (s ++ t)).
Proof. induction s as [|c s IH]; intro t; cbn; [reflexivity|]. unfold eow. destruct (ceq c " " || ceq c nl); cbn; auto. Qed.
Lemma len_nodes_word : forall ns, len_nodes ns = length (word_of (joined ns)).
Proof.
  induction ns as [|[|c n] ns IH]; [reflexivity|exact IH|]. cbn [len_nodes]. rewrite IH, len_in_app. cbn [joined].
  change (word_of ("x"%char :: (c :: n) ++ joined ns)) with ("x"%char :: word_of ((c :: n) ++ joined ns)). reflexivity.
Qed.
Lemma lenT_word : forall ns s, Tea_GetWordLengthT ns s = length (word_of (s ++ joined ns)).
Proof. intros. unfold Tea_GetWordLengthT. rewrite len_nodes_word. apply len_in_app. Qed.
Lemma word_app_le : forall s t, length (word_of s) <= length (word_of (s ++ t)).
Proof. induction s as [|c s IH]; intro t; cbn; [lia|]. destruct (ceq c " " || ceq c nl); cbn; [lia|]. specialize (IH t). lia. Qed.

Lemma word_split : forall s, exists r, s = word_of s ++ r /\ (r = [] \/ exists c t, r = c :: t /\ eow c = true).
Proof.
  induction s as [|c s (r & E & H)]; cbn; [exists []; auto|]. destruct (ceq c " " || ceq c nl) eqn:C.
  - exists (c :: s). split; [reflexivity|]. right. eauto.
  - exists r. split; [cbn; f_equal; exact E|exact H].
Qed.
Lemma word_nonl : forall s, ~ In nl (word_of s).
Proof.
  induction s as [|c s IH]; cbn; [auto|]. destruct (ceq c " " || ceq c nl) eqn:C; [auto|]. intros [X|X]; [|auto].
  subst c. rewrite ceq_refl, orb_true_r in C. discriminate.
Qed.
(** A word that fits is written. *)
Lemma output_word : forall s l, length (word_of s) <= l -> exists r, s = word_of s ++ r /\
  Tea_OutputWord s l = (word_of s, r, l - length (word_of s)) /\ (r = [] \/ exists c t, r = c :: t /\ eow c = true).
Proof.
  induction s as [|c s IH]; cbn; intros l L; [exists []; rewrite Nat.sub_0_r; auto|].
  unfold eow at 1. destruct (ceq c " " || ceq c nl) eqn:C.
  - exists (c :: s). rewrite Nat.sub_0_r. split; [reflexivity|]. split; [reflexivity|]. right. eauto.
  - cbn in L. destruct l as [|l]; [lia|]. destruct (IH l ltac:(lia)) as (r & E & -> & H). exists r. split; [cbn; f_equal; exact E|]. split; [reflexivity|exact H].
Qed.

(** A line: what is written and what is left make the text. *)
Lemma line_ok : forall len, (forall s, length (word_of s) <= len s) -> (forall s, word_of s = s -> len s = length s + len []) ->
  forall f s l, length s < f ->
  exists o r l', output_line f len s l = Ret (o, r, l') /\ ~ In nl o /\ length o + l' = l /\
    s = o ++ match r with Some t => t | None => [] end /\
    (forall t, r = Some t -> t <> [] /\ (hd_error t = Some nl \/ l' <= len t /\ (o = [] \/ exists o', o = o' ++ [" "%char]))) /\
    (s <> [] -> hd_error s <> Some nl -> len s < l -> o <> []) /\ (r = None -> s = [] \/ (exists s', s = s' ++ [" "%char]) \/ len [] < l').
Proof.
  intros len LE LA. induction f as [|f IH]; intros s l L; [lia|]. cbn [output_line]. destruct s as [|c s].
  { exists [], None, l. split; [reflexivity|]. split; [auto|]. split; [reflexivity|]. split; [reflexivity|]. split; [discriminate|]. split; [congruence|auto]. }
  destruct (Nat.leb_spec l (len (c :: s))) as [G|G].
  { exists [], (Some (c :: s)), l. split; [reflexivity|]. split; [auto|]. split; [reflexivity|]. split; [reflexivity|].
    split; [|split; [intros; lia|discriminate]]. intros t E. injection E as <-. split; [discriminate|]. right. auto. }
  pose proof (LE (c :: s)) as LW. destruct (output_word (c :: s) l ltac:(lia)) as (r & E & -> & H).
  remember (c :: s) as s0 eqn:E0. set (wd := word_of s0) in *.
  assert (NW : ~ In nl wd) by apply word_nonl.
  destruct r as [|d r].
  { exists wd, None, (l - length wd). split; [reflexivity|]. split; [exact NW|]. split; [lia|]. split; [exact E|]. split; [discriminate|].
    rewrite app_nil_r in E. split; [|intros _; right; right; pose proof (LA s0 (eq_sym E)) as X; rewrite E in X at 2; lia].
    intros N _ _ X. rewrite X in E. cbn in E. congruence. }
  destruct H as [H|(d' & t' & H & D)]; [discriminate|]. injection H as <- <-.
  destruct (ceq d nl) eqn:DN.
  { apply ceq_true in DN. subst d. exists wd, (Some (nl :: r)), (l - length wd). split; [reflexivity|]. split; [exact NW|]. split; [lia|].
    split; [exact E|]. split.
    - intros t X. injection X as <-. split; [discriminate|]. left. reflexivity.
    - split; [|discriminate]. intros N HN _ X. rewrite X in E. cbn in E. apply HN. rewrite E. reflexivity. }
  assert (d = " "%char). { unfold eow in D. rewrite DN, orb_false_r in D. apply ceq_true in D. exact D. } subst d.
  assert (LL : exists l2, l - length wd = S l2) by (exists (l - length wd - 1); lia). destruct LL as (l2 & LL). rewrite LL.
  destruct (IH r l2) as (o & q & l3 & -> & N1 & N2 & N3 & N4 & N5 & N6).
  { assert (length s0 = length wd + S (length r)) by (rewrite E at 1; rewrite app_length; reflexivity). rewrite E0 in *. cbn in *. lia. }
  cbn [bind]. exists (wd ++ [" "%char] ++ o), q, l3. split; [reflexivity|]. split.
  { intro X. apply in_app_or in X as [X|X]; [exact (NW X)|]. cbn in X. destruct X as [X|X]; [discriminate|exact (N1 X)]. }
  split; [rewrite !app_length; cbn; lia|]. split; [rewrite E at 1; rewrite N3 at 1; rewrite <- !app_assoc; reflexivity|]. split.
  - intros t X. destruct (N4 t X) as [Y [Z|(Z & [->|(o' & ->)])]]; (split; [exact Y|]).
    + left; exact Z.
    + right. split; [exact Z|]. right. exists wd. reflexivity.
    + right. split; [exact Z|]. right. exists (wd ++ [" "%char] ++ o'). rewrite <- !app_assoc. reflexivity.
  - split; [intros _ _ _ X; destruct wd; discriminate X|]. intro X. right. destruct (N6 X) as [Y|[(s' & Y)|Y]]; [left|left|right; exact Y]; rewrite E, Y.
    + exists wd. reflexivity.
    + exists (wd ++ " "%char :: s'). rewrite <- app_assoc. reflexivity.
Qed.

(** ** code and titles *)

Lemma short_tail : forall n u v, short n (u ++ v) -> short n v.
Proof. intros n u v S a b E. apply (S (u ++ a) b). rewrite E, app_assoc. reflexivity. Qed.
Lemma static_ok : forall w m k, m < w -> k < w -> forall f s n, length s < f -> n = m \/ n = k -> short (w - m) s -> short (w - k) s ->
  exists o, (do (x, r, _) <- Tea_OutputLine s (w - n); do t <- static_loop f m k w false r; Ret (margin n ++ x ++ t)) = Ret o /\ laid m k w n s o.
Proof.
  intros w m k Wm Wk. induction f as [|f IH]; intros s n L N Sm Sk; [lia|].
  assert (NW : n < w) by lia.
  destruct (line_ok Tea_GetWordLength ltac:(intro; rewrite len_word; lia) ltac:(intros x X; rewrite len_word, X; cbn; lia) (S (length s)) s (w - n) ltac:(lia)) as (o & r & l & E & NN & LL & Es & RR & PP & _).
  unfold Tea_OutputLine. rewrite E. cbn [bind].
  destruct r as [t|]; cbn [static_loop bind].
  2:{ rewrite app_nil_r in Es. subst o. rewrite app_nil_r. eexists; split; [reflexivity|]. apply la_end; [exact NN|lia]. }
  destruct (RR t eq_refl) as [T0 TT]. cbn [orb app].
  destruct (at_nl t) eqn:A.
  - destruct t as [|c t]; [discriminate|]. cbn in A. apply ceq_true in A. subst c. change (drop_nl (nl :: t)) with t.
    destruct (IH t m) as (o2 & E2 & La).
    + rewrite Es, app_length in L. cbn in L. lia.
    + auto.
    + rewrite Es in Sm. apply (short_tail _ o) in Sm. apply (short_tail _ [nl] t) in Sm. exact Sm.
    + rewrite Es in Sk. apply (short_tail _ o) in Sk. apply (short_tail _ [nl] t) in Sk. exact Sk.
    + destruct (Tea_OutputLine t (w - m)) as [[[x q] y]| |]; cbn [bind] in E2 |- *; try discriminate.
      destruct (static_loop f m k w false q) as [z| |]; cbn [bind] in E2 |- *; try discriminate. injection E2 as <-.
      eexists; split; [reflexivity|]. rewrite Es. unfold margin in *. apply la_hard; [exact NN|lia|exact La].
  - destruct TT as [TT|(T1 & T2)]; [exfalso; destruct t as [|c t]; [discriminate|]; injection TT as ->; rewrite (ceq_refl nl) in A || cbn in A; discriminate|].
    assert (HN : hd_error t <> Some nl). { destruct t as [|c t]; [discriminate|]. intro X. injection X as ->. cbn in A. discriminate. }
    assert (DT : drop_nl t = t). { destruct t as [|c t]; [reflexivity|]. cbn in A |- *. rewrite A. reflexivity. }
    rewrite DT. rewrite len_word in T1.
    assert (ON : o <> []).
    { apply PP.
      - intros ->. destruct o; cbn in Es; congruence.
      - intro X. assert (X2 := Sm [] s eq_refl). destruct o as [|c o].
        + cbn in Es. rewrite Es in X. exact (HN X).
        + rewrite Es in X. cbn in X. injection X as ->. apply NN. left; reflexivity.
      - rewrite len_word. destruct N as [-> | ->]; [exact (Sm [] s eq_refl)|exact (Sk [] s eq_refl)]. }
    destruct T2 as [T2|(o' & ->)]; [congruence|].
    destruct (IH t k) as (o2 & E2 & La).
    + rewrite Es, !app_length in L. cbn in L. lia.
    + auto.
    + rewrite Es in Sm. exact (short_tail _ _ _ Sm).
    + rewrite Es in Sk. exact (short_tail _ _ _ Sk).
    + destruct (Tea_OutputLine t (w - k)) as [[[x q] y]| |]; cbn [bind] in E2 |- *; try discriminate.
      destruct (static_loop f m k w false q) as [z| |]; cbn [bind] in E2 |- *; try discriminate. injection E2 as <-.
      eexists; split; [reflexivity|]. rewrite Es, <- !app_assoc. unfold margin in *. cbn [app].
      rewrite app_length in LL. cbn in LL. apply la_soft; auto; lia.
Qed.

(** A word that is too long is tried for ever. *)
Lemma static_forever : forall w m k s, s <> [] -> w - m <= length (word_of s) -> w - k <= length (word_of s) -> 
  forall f first, hd_error s <> Some nl -> static_loop f m k w first (Some s) = OutOfFuel.
Proof.
  intros w m k s N Lm Lk. induction f as [|f IH]; intros first H; [reflexivity|]. cbn [static_loop].
  assert (DT : drop_nl s = s /\ at_nl s = false).
  { destruct s as [|c s]; [congruence|]. cbn. destruct (ceq c nl) eqn:C; [|auto]. apply ceq_true in C. subst. elim H. reflexivity. }
  destruct DT as [-> ->]. unfold Tea_OutputLine. cbn [output_line]. destruct s as [|c s]; [congruence|].
  assert (X : (w - (if first || false then m else k) <=? Tea_GetWordLength (c :: s)) = true).
  { apply Nat.leb_le. rewrite len_word. destruct (first || false); assumption. }
  rewrite X. cbn [bind]. rewrite IH by exact H. reflexivity.
Qed.

(** Lines that are laid out fit. *)
Lemma fits_app : forall w x l o, ~ In nl x -> length x <= l -> fits w (l - length x) o -> fits w l (x ++ o).
Proof.
  induction x as [|c x IH]; cbn; intros l o N L F; [rewrite Nat.sub_0_r in F; exact F|].
  destruct (ceq c nl) eqn:C; [apply ceq_true in C; subst; elim N; auto|]. destruct l as [|l]; [lia|]. apply IH; auto. lia.
Qed.
Lemma margin_nonl : forall n, ~ In nl (repeat " "%char n).
Proof. intros n X. apply repeat_spec in X. discriminate. Qed.
Lemma laid_fits : forall m k w n s o, laid m k w n s o -> fits w w o.
Proof.
  induction 1 as [n c N L|n c s o N L La IH|n c s o N L G H S La IH].
  - rewrite <- (app_nil_r c). apply fits_app; [apply margin_nonl|rewrite repeat_length; lia|].
    apply fits_app; [exact N|rewrite repeat_length; lia|exact I].
  - apply fits_app; [apply margin_nonl|rewrite repeat_length; lia|].
    apply fits_app; [exact N|rewrite repeat_length; lia|]. cbn. exact IH.
  - apply fits_app; [apply margin_nonl|rewrite repeat_length; lia|]. rewrite repeat_length.
    change (c ++ " "%char :: nl :: o) with (c ++ [" "%char] ++ nl :: o). rewrite app_assoc.
    apply fits_app; [exact N|rewrite app_length; cbn; lia|]. cbn. exact IH.
Qed.
Lemma visible_app : forall s t, visible (s ++ t) = visible s ++ visible t.
Proof. unfold visible. intros. apply filter_app. Qed.
Lemma visible_margin : forall n, visible (repeat " "%char n) = [].
Proof. induction n; cbn; auto. Qed.
Lemma laid_visible : forall m k w n s o, laid m k w n s o -> visible o = visible s.
Proof.
  induction 1 as [n c N L|n c s o N L La IH|n c s o N L G H S La IH]; rewrite !visible_app, visible_margin; cbn [app]; [reflexivity| |];
    f_equal; cbn; exact IH.
Qed.

(** ** paragraphs *)

Lemma filled_app : forall m c s o, filled m s o -> filled m (c ++ s) (c ++ o).
Proof. intros m c s o F. destruct F; [constructor|]. rewrite !app_assoc. constructor. assumption. Qed.
Lemma filled_break : forall m c s o, filled m s o -> (exists c', c = c' ++ [" "%char]) -> filled m (c ++ s) (c ++ nl :: repeat " "%char m ++ o).
Proof. intros m c s o F (c' & ->). rewrite <- !app_assoc. cbn [app]. constructor. exact F. Qed.
Lemma filled_visible : forall m s o, filled m s o -> visible o = visible s.
Proof. induction 1; [reflexivity|]. rewrite !visible_app. f_equal. cbn. rewrite visible_app, visible_margin. exact IHfilled. Qed.
Definition total (ns : list cstr) : nat := fold_right (fun n k => 2 * length n + 3 + k) 1 ns.
Lemma skip_in : forall n a p b, short_parts n (a ++ p :: b) -> forall u v, p = u ++ v -> length (word_of (v ++ joined b)) < n.
Proof. intros n a p b S u v ->. exact (S a u v b eq_refl). Qed.
Lemma parts_tail : forall n p b, short_parts n (p :: b) -> short_parts n b.
Proof. intros n p b S a u v c E. apply (S (p :: a) u v c). rewrite E. reflexivity. Qed.
Lemma parts_cut : forall n u v b, short_parts n ((u ++ v) :: b) -> short_parts n (v :: b).
Proof.
  intros n u v b S a x y c E. destruct a as [|p a]; cbn in E; injection E as -> ->.
  - apply (S [] (u ++ x) y c). rewrite app_assoc. reflexivity.
  - apply (S ((u ++ p) :: a) x y c). reflexivity.
Qed.
Lemma para_ok : forall m w, m < w -> forall f first nomargin l lnl b ns bl,
  match first with Some n => n < w /\ short_parts (w - n) (match b with Some s => s :: ns | None => ns end) | None => True end ->
  short_parts (w - m) (match b with Some s => s :: ns | None => ns end) ->
  Forall (fun n => n <> [] /\ ~ In nl n) ns -> (forall s, b = Some s -> s <> [] /\ ~ In nl s) ->
  (nomargin = true \/ b = None -> l < lnl /\ first = None /\ (bl = false -> Tea_GetWordLengthT ns (match b with Some s => s | None => [] end) < l)) ->
  match b with Some s => 2 * length s + (if nomargin then 1 else 0) + 1 | None => 0 end + total ns < f ->
  exists o, para_loop f m w first nomargin l lnl b ns = Ret o /\
    let text := match b with Some s => s | None => [] end ++ concat ns in
    let broken := exists o', o = nl :: repeat " "%char m ++ o' /\ filled m text o' in
    fits w (match b with Some _ => if nomargin then l else match first with Some _ => w | None => 0 end | None => l end) o /\
    match b, nomargin, first with
    | Some _, false, Some fl => exists o', o = repeat " "%char fl ++ o' /\ filled m text o'
    | Some _, false, None => broken
    | _, _, _ => filled m text o \/ bl = true /\ broken
    end.
Proof.
  intros m w Wm. induction f as [|f IH]; intros first nomargin l lnl b ns bl Sf Sm Fn Fb C L; [lia|]. cbn [para_loop].
  destruct b as [s|].
  2:{ destruct ns as [|n ns].
      - exists []. split; [reflexivity|]. split; [exact I|]. left. constructor.
      - destruct C as (C1 & C2 & C3); [auto|]. inversion Fn as [|? ? [F1 F2] F3]; subst.
        destruct (IH None true l lnl (Some n) ns bl I Sm F3) as (o & E & F & V).
        + intros s E. injection E as <-. auto.
        + intros _. split; [exact C1|]. split; [reflexivity|]. intro B. specialize (C3 B). unfold Tea_GetWordLengthT in *. cbn [len_in len_nodes] in C3.
          destruct n; [congruence|]. lia.
        + change (total (n :: ns)) with (2 * length n + 3 + total ns) in L. cbv iota beta in L |- *. lia.
        + exists o. split; [exact E|]. split; [exact F|exact V]. }
  destruct (Fb s eq_refl) as [S1 S2].
  assert (DT : drop_nl s = s).
  { destruct s as [|c s]; [reflexivity|]. cbn. destruct (ceq c nl) eqn:X; [|reflexivity]. apply ceq_true in X. subst. elim S2. left; reflexivity. }
  assert (HN : hd_error s <> Some nl) by (destruct s; [discriminate|]; intro X; injection X as ->; apply S2; left; reflexivity).
  assert (LE : forall s, length (word_of s) <= Tea_GetWordLengthT ns s) by (intro; rewrite lenT_word; apply word_app_le).
  assert (LA : forall s, word_of s = s -> Tea_GetWordLengthT ns s = length s + Tea_GetWordLengthT ns []).
  { intros x X. rewrite !lenT_word. cbn [app]. revert X. induction x as [|c x IHx]; cbn; [reflexivity|].
    destruct (ceq c " " || ceq c nl); [discriminate|]. intro X. injection X as X. cbn. rewrite (IHx X). reflexivity. }
  (* what follows a line *)
  assert (GO : forall lnl0 (o : cstr) r l1, ~ In nl o -> s = o ++ match r with Some t => t | None => [] end ->
             (forall t, r = Some t -> t <> [] /\ (hd_error t = Some nl \/ l1 <= Tea_GetWordLengthT ns t /\ (o = [] \/ exists o', o = o' ++ [" "%char]))) -> l1 < lnl0 ->
             (r = None -> s = [] \/ (exists s', s = s' ++ [" "%char]) \/ Tea_GetWordLengthT ns [] < l1) ->
             (nomargin = true \/ o <> []) ->
             exists t, para_loop f m w None false l1 lnl0 r ns = Ret t /\ fits w l1 t /\
               (filled m (s ++ concat ns) (o ++ t) \/ o = [] /\ r = Some s /\ exists o', t = nl :: repeat " "%char m ++ o' /\ filled m (s ++ concat ns) o')).
  { intros lnl0 o r l1 N1 N3 N4 N5 N6 N7. destruct r as [t|].
    - destruct (IH None false l1 lnl0 (Some t) ns true I) as (o2 & E2 & F2 & o3 & V1 & V2).
      + rewrite N3 in Sm. exact (parts_cut _ _ _ _ Sm).
      + exact Fn.
      + intros q E. injection E as <-. split; [apply N4; reflexivity|]. intro X. apply S2. rewrite N3. apply in_or_app. auto.
      + intros [X|X]; discriminate.
      + rewrite N3, app_length in L. destruct N7 as [-> |N7]; [cbn in L |- *; lia|].
        destruct o; [congruence|]. cbn in L |- *. destruct nomargin; lia.
      + exists o2. split; [exact E2|]. split; [rewrite V1 in F2 |- *; exact F2|].
        destruct (N4 t eq_refl) as [_ [X|(_ & [-> |X])]].
        * exfalso. apply S2. rewrite N3. apply in_or_app. right. destruct t; [discriminate|]. injection X as ->. left; reflexivity.
        * right. cbn in N3. subst t. split; [reflexivity|]. split; [reflexivity|]. exists o3. auto.
        * left. rewrite V1, N3, <- app_assoc. apply filled_break; [exact V2|exact X].
    - rewrite app_nil_r in N3. subst o.
      assert (B : exists bl', (bl' = false -> Tea_GetWordLengthT ns [] < l1) /\ (bl' = true -> exists s', s = s' ++ [" "%char])).
      { destruct (N6 eq_refl) as [X|[X|X]]; [congruence|exists true|exists false]; split; try discriminate; auto. }
      destruct B as (bl' & B1 & B2).
      destruct (IH None false l1 lnl0 None ns bl' I) as (o2 & E2 & F2 & V2); auto.
      + exact (parts_tail _ _ _ Sm).
      + discriminate.
      + lia.
      + exists o2. split; [exact E2|]. split; [exact F2|]. left. destruct V2 as [V2|(X & o3 & -> & V2)].
        * apply filled_app. exact V2.
        * apply filled_break; [exact V2|auto]. }
  destruct nomargin.
  - destruct (C (or_introl eq_refl)) as (C1 & -> & C3).
    destruct (line_ok (Tea_GetWordLengthT ns) LE LA (S (length s)) s l ltac:(lia)) as (o & r & l1 & E & N1 & N2 & N3 & N4 & N5 & N6).
    unfold Tea_OutputLineT. rewrite E. cbn [bind]. destruct (Nat.eqb_spec lnl l1) as [X|_]; [lia|].
    destruct (GO lnl o r l1 N1 N3 N4 ltac:(lia) N6 (or_introl eq_refl)) as (t & -> & F & V). cbn [bind app].
    eexists; split; [reflexivity|]. split.
    + apply fits_app; [exact N1|lia|]. replace (l - length o) with l1 by lia. exact F.
    + destruct V as [V|(-> & X & V)]; [left; exact V|]. destruct bl; [right; auto|].
      exfalso. apply (N5 S1 HN (C3 eq_refl)). reflexivity.
  - rewrite DT. set (n := match first with Some n => n | None => m end).
    assert (NW : n < w) by (unfold n; destruct first; [destruct Sf; assumption|exact Wm]).
    destruct (line_ok (Tea_GetWordLengthT ns) LE LA (S (length s)) s (w - n) ltac:(lia)) as (o & r & l1 & E & N1 & N2 & N3 & N4 & N5 & N6).
    unfold Tea_OutputLineT. rewrite E. cbn [bind].
    assert (ON : o <> []).
    { apply N5; auto. rewrite lenT_word. unfold n. destruct first as [fl|].
      - destruct Sf as [_ Sf]. exact (Sf [] [] s ns eq_refl).
      - exact (Sm [] [] s ns eq_refl). }
    assert (OL : 0 < length o) by (destruct o; [congruence|cbn; lia]).
    destruct (Nat.eqb_spec (w - n) l1) as [X|_]; [lia|].
    destruct (GO (w - n) o r l1 N1 N3 N4 ltac:(lia) N6 (or_intror ON)) as (t & -> & F & V). cbn [bind].
    destruct V as [V|(X & _)]; [|congruence].
    assert (FF : fits w w (margin n ++ o ++ t)).
    { apply fits_app; [apply margin_nonl|unfold margin; rewrite repeat_length; lia|]. unfold margin. rewrite repeat_length.
      apply fits_app; [exact N1|lia|]. replace (w - n - length o) with l1 by lia. exact F. }
    eexists; split; [reflexivity|]. rewrite <- app_assoc. destruct first as [fl|]; cbn [app]; (split; [exact FF|]); exists (o ++ t); split; auto.
Qed.

(** Checks for the examples. *)
Fixpoint shortb (n : nat) (s : cstr) : bool := (length (word_of s) <? n) && match s with [] => true | _ :: r => shortb n r end.
Lemma short_check : forall n s, shortb n s = true -> short n s.
Proof.
  intros n s H u. revert s H. induction u as [|c u IH]; intros s H v E.
  - cbn in E. subst. destruct v; cbn [shortb] in H; apply andb_prop in H as [H _]; apply Nat.ltb_lt; exact H.
  - subst s. cbn [app shortb] in H. apply andb_prop in H as [_ H]. exact (IH _ H v eq_refl).
Qed.
Fixpoint partsb_in (n : nat) (s t : cstr) : bool := (length (word_of (s ++ t)) <? n) && match s with [] => true | _ :: r => partsb_in n r t end.
Fixpoint partsb (n : nat) (l : list cstr) : bool := match l with [] => true | p :: l => partsb_in n p (joined l) && partsb n l end.
Lemma parts_in : forall n t u v, partsb_in n (u ++ v) t = true -> length (word_of (v ++ t)) < n.
Proof.
  induction u as [|c u IH]; intros v H.
  - cbn [app] in H. destruct v; cbn [partsb_in] in H; apply andb_prop in H as [H _]; apply Nat.ltb_lt; exact H.
  - cbn [app partsb_in] in H. apply andb_prop in H as [_ H]. exact (IH v H).
Qed.
Lemma parts_check : forall n l, partsb n l = true -> short_parts n l.
Proof.
  intros n l H a. revert l H. induction a as [|p a IH]; intros l H u v b E; subst l; cbn [app partsb] in H; apply andb_prop in H as [H1 H2].
  - exact (parts_in _ _ _ _ H1).
  - exact (IH _ H2 u v b eq_refl).
Qed.
