(** Ansi_Proofs.v -- proofs about paragraphs with colours. *)

From Verif Require Import Base Tea_Model Tea_Spec Layout_Model Layout_Spec Layout_Proofs Ansi_Model Ansi_Spec.

Lemma txt_app a b : txt (a ++ b) = txt a ++ txt b.
Proof. induction a as [|[t|t] a IH]; cbn; rewrite ?IH, ?app_assoc; reflexivity. Qed.
Lemma txt_on x : txt (on x) = [].
Proof. destruct x; reflexivity. Qed.
Lemma txt_off x : txt (off x) = [].
Proof. destruct x; reflexivity. Qed.
Lemma line_keeps ns s l o r l1 : Tea_OutputLineT ns s l = Ret (o, r, l1) -> s = o ++ match r with Some t => t | None => [] end.
Proof.
  intros H. assert (LE : forall s, length (word_of s) <= Tea_GetWordLengthT ns s) by (intro; rewrite lenT_word; apply word_app_le).
  assert (LA : forall s, word_of s = s -> Tea_GetWordLengthT ns s = length s + Tea_GetWordLengthT ns []).
  { intros x X. rewrite !lenT_word. cbn [app]. revert X. induction x as [|c x IHx]; cbn; [reflexivity|].
    destruct (ceq c " " || ceq c nl); [discriminate|]. intro X. injection X as X. cbn. rewrite (IHx X). reflexivity. }
  destruct (line_ok (Tea_GetWordLengthT ns) LE LA (S (length s)) s l ltac:(lia)) as (o2 & r2 & l2 & E & N1 & N2 & N3 & _).
  unfold Tea_OutputLineT in H. rewrite E in H. injection H as -> -> ->. exact N3.
Qed.
Lemma visible_drop s : visible (drop_nl s) = visible s.
Proof. destruct s as [|c s]; [reflexivity|]. cbn [drop_nl]. destruct (ceq c nl) eqn:E; [|reflexivity]. apply ceq_true in E. subst. reflexivity. Qed.

(** What is written from inside a node: the rest of its text, the end of its colour, and the other nodes *)
Lemma loop_painted m w : forall f first nomargin lft x b ns l, ansi_loop f m w first nomargin lft x b ns = Ret l ->
  exists ts l', l = map AText ts ++ off x ++ l' /\ visible (concat ts) = visible (match b with Some s => s | None => [] end) /\ painted ns l'.
Proof.
  induction f as [|f IH]; intros first nomargin lft x b ns l H; [discriminate|]. cbn [ansi_loop] in H. destruct b as [s|].
  - set (n := match first with Some n => n | None => m end) in *.
    assert (G : forall pre s' lft' first', visible pre = [] -> visible s' = visible s ->
      (do (o, r, lft) <- Tea_OutputLineT (map text_of ns) s' lft'; do t <- ansi_loop f m w first' false lft x r ns; Ret (AText (pre ++ o) :: t)) = Ret l ->
      exists ts l', l = map AText ts ++ off x ++ l' /\ visible (concat ts) = visible s /\ painted ns l').
    { intros pre s' lft' first' P V G. destruct (Tea_OutputLineT (map text_of ns) s' lft') as [[[o r] l1]| |] eqn:E; cbn [bind] in G; try discriminate.
      destruct (ansi_loop f m w first' false l1 x r ns) as [t| |] eqn:E2; cbn [bind] in G; try discriminate. injection G as <-.
      destruct (IH _ _ _ _ _ _ _ E2) as (ts & l' & -> & V2 & P2). exists ((pre ++ o) :: ts), l'. split; [reflexivity|]. split; [|exact P2].
      cbn [concat]. rewrite !visible_app, P, V2. cbn [app]. rewrite <- V, (line_keeps _ _ _ _ _ _ E), visible_app. reflexivity. }
    destruct nomargin; cbv iota in H.
    + eapply (G []); [reflexivity|reflexivity|exact H].
    + eapply G; [| |exact H]; [|apply visible_drop]. rewrite visible_app. unfold margin. rewrite visible_margin. destruct first; reflexivity.
  - destruct ns as [|y ns].
    + injection H as <-. exists [], []. rewrite app_nil_r. split; [reflexivity|]. split; [reflexivity|constructor].
    + destruct (ansi_loop f m w first true lft y (Some (text_of y)) ns) as [t| |] eqn:E; cbn [bind] in H; try discriminate. injection H as <-.
      destruct (IH _ _ _ _ _ _ _ E) as (ts & l' & -> & V & P). exists [], (on y ++ map AText ts ++ off y ++ l'). split; [reflexivity|]. split; [reflexivity|].
      destruct y; [apply (pt_plain t)|apply (pt_strong t)|apply (pt_link target t)]; assumption.
Qed.
Lemma start_painted x ts l : visible (concat ts) = visible (text_of x) -> forall ns, painted ns l -> painted (x :: ns) (on x ++ map AText ts ++ off x ++ l).
Proof. intros V ns P. destruct x; [apply (pt_plain t)|apply (pt_strong t)|apply (pt_link target t)]; assumption. Qed.

(** A word that does not fit is tried again for ever. *)
Lemma ansi_forever m w x s ns : w - m <= length (word_of s) -> s <> [] -> hd_error s <> Some nl ->
  forall f first lft, match first with Some fl => w - fl <= length (word_of s) | None => True end ->
  ansi_loop f m w first false lft x (Some s) ns = OutOfFuel.
Proof.
  intros Lm N H. induction f as [|f IH]; intros first lft F; [reflexivity|]. cbn [ansi_loop].
  assert (D : drop_nl s = s).
  { destruct s as [|c s]; [congruence|]. cbn [drop_nl]. destruct (ceq c nl) eqn:E; auto. apply ceq_true in E. subst. elim H. reflexivity. }
  rewrite D. set (n := match first with Some n => n | None => m end).
  assert (G : w - n <= Tea_GetWordLengthT (map text_of ns) s).
  { rewrite lenT_word. pose proof (word_app_le s (joined (map text_of ns))). unfold n. destruct first; lia. }
  assert (E : Tea_OutputLineT (map text_of ns) s (w - n) = Ret ([], Some s, w - n)).
  { unfold Tea_OutputLineT. cbn [output_line]. destruct s as [|c s]; [congruence|]. apply Nat.leb_le in G. rewrite G. reflexivity. }
  rewrite E. cbn [bind]. rewrite IH by exact I. reflexivity.
Qed.

Lemma ansi_ok : forall m w, m < w -> forall f first nomargin l b (xs : list node) cur bl, let ns := map text_of xs in
  match first with Some n => n < w /\ short_parts (w - n) (match b with Some s => s :: ns | None => ns end) | None => True end ->
  short_parts (w - m) (match b with Some s => s :: ns | None => ns end) ->
  Forall (fun n => n <> [] /\ ~ In nl n) ns -> (forall s, b = Some s -> s <> [] /\ ~ In nl s) ->
  (nomargin = true \/ b = None -> first = None /\ (bl = false -> Tea_GetWordLengthT ns (match b with Some s => s | None => [] end) < l)) ->
  match b with Some s => 2 * length s + (if nomargin then 1 else 0) + 1 | None => 0 end + total ns < f ->
  exists ev, ansi_loop f m w first nomargin l cur b xs = Ret ev /\ let o := txt ev in
    let text := match b with Some s => s | None => [] end ++ concat ns in
    let broken := exists o', o = nl :: repeat " "%char m ++ o' /\ filled m text o' in
    fits w (match b with Some _ => if nomargin then l else match first with Some _ => w | None => 0 end | None => l end) o /\
    match b, nomargin, first with
    | Some _, false, Some fl => exists o', o = repeat " "%char fl ++ o' /\ filled m text o'
    | Some _, false, None => broken
    | _, _, _ => filled m text o \/ bl = true /\ broken
    end.
Proof.
  intros m w Wm. induction f as [|f IH]; intros first nomargin l b xs cur bl ns Sf Sm Fn Fb C L; [lia|]. cbn [ansi_loop].
  destruct b as [s|].
  2:{ destruct xs as [|x xs].
      - exists (off cur). split; [reflexivity|]. rewrite txt_off. split; [exact I|]. left. constructor.
      - destruct C as (C2 & C3); [auto|]. cbn [map] in ns. inversion Fn as [|? ? [F1 F2] F3]; subst.
        destruct (IH None true l (Some (text_of x)) xs x bl I Sm F3) as (ev & E & F & V).
        + intros s E. injection E as <-. auto.
        + intros _. split; [reflexivity|]. intro B. specialize (C3 B). unfold ns, Tea_GetWordLengthT in *. cbn [len_in len_nodes] in C3.
          destruct (text_of x); [congruence|]. lia.
        + unfold ns in L. change (total (text_of x :: map text_of xs)) with (2 * length (text_of x) + 3 + total (map text_of xs)) in L. cbv iota beta in L |- *. lia.
        + exists (off cur ++ on x ++ ev). rewrite E. split; [reflexivity|]. rewrite !txt_app, txt_on, txt_off. split; [exact F|exact V]. }
  destruct (Fb s eq_refl) as [S1 S2].
  assert (DT : drop_nl s = s).
  { destruct s as [|c s]; [reflexivity|]. cbn. destruct (ceq c nl) eqn:X; [|reflexivity]. apply ceq_true in X. subst. elim S2. left; reflexivity. }
  assert (HN : hd_error s <> Some nl) by (destruct s; [discriminate|]; intro X; injection X as ->; apply S2; left; reflexivity).
  assert (LE : forall s, length (word_of s) <= Tea_GetWordLengthT ns s) by (intro; rewrite lenT_word; apply word_app_le).
  assert (LA : forall s, word_of s = s -> Tea_GetWordLengthT ns s = length s + Tea_GetWordLengthT ns []).
  { intros x X. rewrite !lenT_word. cbn [app]. revert X. induction x as [|c x IHx]; cbn; [reflexivity|].
    destruct (ceq c " " || ceq c nl); [discriminate|]. intro X. injection X as X. cbn. rewrite (IHx X). reflexivity. }
  (* what follows a line *)
  assert (GO : forall (o : cstr) r l1, ~ In nl o -> s = o ++ match r with Some t => t | None => [] end ->
             (forall t, r = Some t -> t <> [] /\ (hd_error t = Some nl \/ l1 <= Tea_GetWordLengthT ns t /\ (o = [] \/ exists o', o = o' ++ [" "%char]))) ->
             (r = None -> s = [] \/ (exists s', s = s' ++ [" "%char]) \/ Tea_GetWordLengthT ns [] < l1) ->
             (nomargin = true \/ o <> []) ->
             exists ev, ansi_loop f m w None false l1 cur r xs = Ret ev /\ let t := txt ev in fits w l1 t /\
               (filled m (s ++ concat ns) (o ++ t) \/ o = [] /\ r = Some s /\ exists o', t = nl :: repeat " "%char m ++ o' /\ filled m (s ++ concat ns) o')).
  { intros o r l1 N1 N3 N4 N6 N7. destruct r as [t|].
    - destruct (IH None false l1 (Some t) xs cur true I) as (ev & E2 & F2 & o3 & V1 & V2).
      + rewrite N3 in Sm. exact (parts_cut _ _ _ _ Sm).
      + exact Fn.
      + intros q E. injection E as <-. split; [apply N4; reflexivity|]. intro X. apply S2. rewrite N3. apply in_or_app. auto.
      + intros [X|X]; discriminate.
      + fold ns. rewrite N3, app_length in L. destruct N7 as [-> |N7]; [cbn in L |- *; lia|].
        destruct o; [congruence|]. cbn in L |- *. destruct nomargin; lia.
      + exists ev. split; [exact E2|]. cbv zeta. split; [rewrite V1 in F2 |- *; exact F2|].
        destruct (N4 t eq_refl) as [_ [X|(_ & [-> |X])]].
        * exfalso. apply S2. rewrite N3. apply in_or_app. right. destruct t; [discriminate|]. injection X as ->. left; reflexivity.
        * right. cbn in N3. subst t. split; [reflexivity|]. split; [reflexivity|]. exists o3. auto.
        * left. rewrite V1, N3, <- app_assoc. apply filled_break; [exact V2|exact X].
    - rewrite app_nil_r in N3. subst o.
      assert (B : exists bl', (bl' = false -> Tea_GetWordLengthT ns [] < l1) /\ (bl' = true -> exists s', s = s' ++ [" "%char])).
      { destruct (N6 eq_refl) as [X|[X|X]]; [congruence|exists true|exists false]; split; try discriminate; auto. }
      destruct B as (bl' & B1 & B2).
      destruct (IH None false l1 None xs cur bl' I) as (ev & E2 & F2 & V2); auto.
      + exact (parts_tail _ _ _ Sm).
      + discriminate.
      + fold ns. lia.
      + exists ev. split; [exact E2|]. cbv zeta. split; [exact F2|]. left. destruct V2 as [V2|(X & o3 & EQ & V2)].
        * apply filled_app. exact V2.
        * rewrite EQ. apply filled_break; [exact V2|auto]. }
  destruct nomargin.
  - destruct (C (or_introl eq_refl)) as (-> & C3).
    destruct (line_ok (Tea_GetWordLengthT ns) LE LA (S (length s)) s l ltac:(lia)) as (o & r & l1 & E & N1 & N2 & N3 & N4 & N5 & N6).
    unfold Tea_OutputLineT. fold ns. rewrite E. cbn [bind].
    destruct (GO o r l1 N1 N3 N4 N6 (or_introl eq_refl)) as (ev & -> & F & V). cbn [bind app].
    eexists; split; [reflexivity|]. cbn [txt]. cbv zeta. split.
    + apply fits_app; [exact N1|lia|]. replace (l - length o) with l1 by lia. exact F.
    + destruct V as [V|(-> & X & V)]; [left; exact V|]. destruct bl; [right; auto|].
      exfalso. apply (N5 S1 HN (C3 eq_refl)). reflexivity.
  - rewrite DT. set (n := match first with Some n => n | None => m end).
    assert (NW : n < w) by (unfold n; destruct first; [destruct Sf; assumption|exact Wm]).
    destruct (line_ok (Tea_GetWordLengthT ns) LE LA (S (length s)) s (w - n) ltac:(lia)) as (o & r & l1 & E & N1 & N2 & N3 & N4 & N5 & N6).
    unfold Tea_OutputLineT. fold ns. rewrite E. cbn [bind].
    assert (ON : o <> []).
    { apply N5; auto. rewrite lenT_word. unfold n. destruct first as [fl|].
      - destruct Sf as [_ Sf]. exact (Sf [] [] s ns eq_refl).
      - exact (Sm [] [] s ns eq_refl). }
    destruct (GO o r l1 N1 N3 N4 N6 (or_intror ON)) as (ev & -> & F & V). cbn [bind].
    destruct V as [V|(X & _)]; [|congruence].
    assert (FF : fits w w (margin n ++ o ++ txt ev)).
    { apply fits_app; [apply margin_nonl|unfold margin; rewrite repeat_length; lia|]. unfold margin. rewrite repeat_length.
      apply fits_app; [exact N1|lia|]. replace (w - n - length o) with l1 by lia. exact F. }
    eexists; split; [reflexivity|]. cbn [txt]. cbv zeta. rewrite <- !app_assoc. destruct first as [fl|]; cbn [app]; (split; [exact FF|]); exists (o ++ txt ev); split; auto.
Qed.
