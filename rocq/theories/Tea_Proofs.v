(** Tea_Proofs.v -- lemmas about Tea_Model. *)

From Verif Require Import Base Tea_Model Tea_Spec.
Require Import Lia.

Ltac cq := repeat match goal with
  | H : ceq _ _ = true |- _ => apply ceq_true in H
  | H : ceq _ _ = false |- _ => apply ceq_false in H
  end.

(** ** strstr *)

Lemma strstr2_some : forall a b s i, strstr2 a b s = Some i ->
  exists u v, s = u ++ a :: b :: v /\ length u = i /\ forall u' v', s = u' ++ a :: b :: v' -> i <= length u'.
Proof.
  induction s as [|c s IH]; cbn; intros i H; [discriminate|].
  destruct (ceq c a && match s with d :: _ => ceq d b | [] => false end) eqn:E.
  - injection H as <-. apply andb_prop in E as [E1 E2]. destruct s as [|d s]; [discriminate|]. cq. subst.
    exists [], s. split; [reflexivity|]. split; [reflexivity|]. intros. lia.
  - destruct (strstr2 a b s) as [j|]; [|discriminate]. injection H as <-.
    destruct (IH j eq_refl) as (u & v & E1 & E2 & E3). exists (c :: u), v. rewrite E1. split; [reflexivity|].
    split; [cbn; lia|]. intros u' v' E4. destruct u' as [|x u'].
    + exfalso. rewrite <- E1 in E4. injection E4 as -> ->. rewrite !ceq_refl in E. discriminate.
    + rewrite <- E1 in E4. injection E4 as -> E4. specialize (E3 u' v' E4). cbn. lia.
Qed.
Lemma strstr2_none : forall a b s, strstr2 a b s = None -> forall u v, s <> u ++ a :: b :: v.
Proof.
  induction s as [|c s IH]; cbn; intros H u v E; [destruct u; discriminate|].
  destruct (ceq c a && match s with d :: _ => ceq d b | [] => false end) eqn:F; [discriminate|].
  destruct (strstr2 a b s) as [j|] eqn:G; [discriminate|].
  destruct u as [|x u]; cbn in E.
  - injection E as -> ->. rewrite !ceq_refl in F. discriminate.
  - injection E as -> E. exact (IH eq_refl u v E).
Qed.
Lemma strstr2_first : forall a b t r, (forall u v, t ++ a :: b :: r = u ++ a :: b :: v -> length t <= length u) ->
  strstr2 a b (t ++ a :: b :: r) = Some (length t).
Proof.
  intros a b t r F. destruct (strstr2 a b (t ++ a :: b :: r)) as [i|] eqn:E.
  - apply strstr2_some in E as (u & v & E1 & <- & E3). f_equal. specialize (F _ _ E1). specialize (E3 _ _ eq_refl). lia.
  - exfalso. exact (strstr2_none _ _ _ E _ _ eq_refl).
Qed.
Lemma strstr2_no : forall a b s, (forall u v, s <> u ++ a :: b :: v) -> strstr2 a b s = None.
Proof.
  intros a b s F. destruct (strstr2 a b s) as [i|] eqn:E; [|reflexivity].
  apply strstr2_some in E as (u & v & E1 & _). exfalso. exact (F u v E1).
Qed.

Lemma app_cut : forall {A} (t u x y : list A), t ++ x = u ++ y -> length t = length u -> t = u /\ x = y.
Proof. induction t; destruct u; cbn; intros; try lia; auto. injection H as -> H. destruct (IHt u x y H) as [-> ->]; auto. Qed.
Lemma firstn_cut : forall {A} (t x : list A), firstn (length t) (t ++ x) = t.
Proof. induction t; cbn; intros; [reflexivity|]. f_equal; auto. Qed.
Lemma skipn_cut : forall {A} (t x : list A), skipn (length t) (t ++ x) = x.
Proof. induction t; cbn; auto. Qed.
Lemma skipn_cut2 : forall {A} (t x : list A) n, skipn (length t + n) (t ++ x) = skipn n x.
Proof. induction t; cbn; auto. Qed.

(** the opener that comes first *)
Lemma seek_open_some : forall s i c, seek_open s = Some (i, c) ->
  exists t r, s = t ++ s2l (if c then "${" else "{{") ++ r /\ length t = i /\ first_opener t (s2l (if c then "${" else "{{")) r.
Proof.
  unfold seek_open. intros s i c.
  destruct (strstr2 "{" "{" s) as [x|] eqn:E1; destruct (strstr2 "$" "{" s) as [y|] eqn:E2; try discriminate.
  - apply strstr2_some in E1 as (u1 & v1 & A1 & A2 & A3). apply strstr2_some in E2 as (u2 & v2 & B1 & B2 & B3).
    destruct (Nat.ltb_spec y x); intro H0; injection H0 as <- <-.
    + exists u2, v2. split; [exact B1|]. split; [exact B2|]. split; [right; reflexivity|].
      intros u p v [-> | ->] E; change (s2l "${" ++ v2) with ("$"%char :: "{"%char :: v2) in E; rewrite <- B1 in E.
      * specialize (A3 _ _ E). lia.
      * specialize (B3 _ _ E). lia.
    + exists u1, v1. split; [exact A1|]. split; [exact A2|]. split; [left; reflexivity|].
      intros u p v [-> | ->] E; change (s2l "{{" ++ v1) with ("{"%char :: "{"%char :: v1) in E; rewrite <- A1 in E.
      * specialize (A3 _ _ E). lia.
      * specialize (B3 _ _ E). lia.
  - apply strstr2_some in E1 as (u1 & v1 & A1 & A2 & A3). intro H0; injection H0 as <- <-.
    exists u1, v1. split; [exact A1|]. split; [exact A2|]. split; [left; reflexivity|].
    intros u p v [-> | ->] E; change (s2l "{{" ++ v1) with ("{"%char :: "{"%char :: v1) in E; rewrite <- A1 in E.
    + specialize (A3 _ _ E). lia.
    + exfalso. exact (strstr2_none _ _ _ E2 _ _ E).
  - apply strstr2_some in E2 as (u2 & v2 & B1 & B2 & B3). intro H0; injection H0 as <- <-.
    exists u2, v2. split; [exact B1|]. split; [exact B2|]. split; [right; reflexivity|].
    intros u p v [-> | ->] E; change (s2l "${" ++ v2) with ("$"%char :: "{"%char :: v2) in E; rewrite <- B1 in E.
    + exfalso. exact (strstr2_none _ _ _ E1 _ _ E).
    + specialize (B3 _ _ E). lia.
Qed.
Lemma seek_open_none : forall s, seek_open s = None -> forall u p v, opener p -> s <> u ++ p ++ v.
Proof.
  unfold seek_open. intros s H u p v O E.
  destruct (strstr2 "{" "{" s) as [x|] eqn:E1; destruct (strstr2 "$" "{" s) as [y|] eqn:E2; try discriminate.
  - destruct (y <? x); discriminate.
  - destruct O as [-> | ->]; [exact (strstr2_none _ _ _ E1 _ _ E)|exact (strstr2_none _ _ _ E2 _ _ E)].
Qed.
Lemma opener_fun : forall t r t' r' (c c' : bool),
  t ++ s2l (if c then "${" else "{{") ++ r = t' ++ s2l (if c' then "${" else "{{") ++ r' ->
  length t = length t' -> c = c' /\ t = t' /\ r = r'.
Proof.
  intros t r t' r' c c' E L. destruct (app_cut _ _ _ _ E L) as [-> X].
  destruct c, c'; cbn in X; injection X as X; subst; auto.
Qed.
Lemma seek_open_first : forall t r (c : bool), first_opener t (s2l (if c then "${" else "{{")) r ->
  seek_open (t ++ s2l (if c then "${" else "{{") ++ r) = Some (length t, c).
Proof.
  intros t r c [O F]. destruct (seek_open (t ++ s2l (if c then "${" else "{{") ++ r)) as [[i c']|] eqn:E.
  - apply seek_open_some in E as (t' & r' & E1 & E2 & [O' F']).
    assert (L : length t = length t').
    { pose proof (F _ _ _ O' E1). assert (length t' <= length t) by (eapply F'; [exact O|symmetry; exact E1]). lia. }
    destruct (opener_fun _ _ _ _ _ _ E1 L) as (-> & -> & ->). subst. reflexivity.
  - exfalso. exact (seek_open_none _ E _ _ _ O eq_refl).
Qed.
Lemma seek_open_no : forall s, (forall u p v, opener p -> s <> u ++ p ++ v) -> seek_open s = None.
Proof.
  intros s F. destruct (seek_open s) as [[i c]|] eqn:E; [|reflexivity].
  apply seek_open_some in E as (t & r & E1 & _ & [O _]). exfalso. exact (F _ _ _ O E1).
Qed.

(** ** braces *)

Lemma closing_paired : forall c, paired c -> forall n r,
  Tea_SeekNextClosingBrace n (c ++ r) = option_map (Nat.add (length c)) (Tea_SeekNextClosingBrace n r).
Proof.
  induction 1 as [|c s P IH|c s N1 N2 N3 P IH|s t P1 IH1 P2 IH2]; intros n r.
  - cbn. destruct (Tea_SeekNextClosingBrace n r); reflexivity.
  - cbn. rewrite IH. destruct (Tea_SeekNextClosingBrace n r); reflexivity.
  - cbn. rewrite (proj2 (ceq_false c bslash) N1), (proj2 (ceq_false _ _) N2), (proj2 (ceq_false _ _) N3), IH.
    destruct (Tea_SeekNextClosingBrace n r); reflexivity.
  - cbn. rewrite <- app_assoc, IH1. cbn. rewrite IH2. destruct (Tea_SeekNextClosingBrace n r); cbn; [|reflexivity].
    f_equal. rewrite app_length. cbn. lia.
Qed.
Inductive opened : nat -> cstr -> Prop :=
| op_O c : paired c -> opened 0 c
| op_S n c d : paired c -> opened n d -> opened (S n) (c ++ "}"%char :: d).
Lemma opened_pre : forall (p : cstr), (forall s, paired s -> paired (p ++ s)) -> forall n s, opened n s -> opened n (p ++ s).
Proof.
  intros p P n s O. destruct O as [c H|n c d H O].
  - constructor; auto.
  - rewrite app_assoc. constructor; auto.
Qed.
Lemma closing_some : forall f n s j, length s < f -> Tea_SeekNextClosingBrace n s = Some j ->
  exists c r, s = c ++ "}"%char :: r /\ length c = j /\ opened n c.
Proof.
  induction f as [|f IH]; intros n s j L H; [lia|]. destruct s as [|c s]; cbn in H; [discriminate|]. cbn in L.
  destruct (ceq c bslash) eqn:C1.
  { cq. subst c. destruct s as [|d s]; [discriminate|]. destruct (Tea_SeekNextClosingBrace n s) as [k|] eqn:E; [|discriminate].
    injection H as <-. cbn in L. destruct (IH n s k ltac:(lia) E) as (t & r & -> & <- & O).
    exists (bslash :: d :: t), r. split; [reflexivity|]. split; [reflexivity|].
    apply (opened_pre [bslash; d]); [|exact O]. intros. apply pa_esc. assumption. }
  destruct (ceq c "{") eqn:C2.
  { cq. subst c. destruct (Tea_SeekNextClosingBrace (S n) s) as [k|] eqn:E; [|discriminate].
    injection H as <-. destruct (IH (S n) s k ltac:(lia) E) as (t & r & -> & <- & O).
    inversion O as [|m x y P O' E1 E2]; subst. exists ("{"%char :: x ++ "}"%char :: y), r.
    split; [reflexivity|]. split; [reflexivity|].
    change ("{"%char :: x ++ "}"%char :: y) with (("{"%char :: x) ++ ("}"%char :: []) ++ y). rewrite app_assoc.
    apply opened_pre; [|exact O']. intros z Z. rewrite <- app_assoc. apply (pa_braces x z P Z). }
  destruct (ceq c "}") eqn:C3.
  { cq. subst c. destruct n as [|n].
    - injection H as <-. exists [], s. repeat split; try constructor. constructor.
    - destruct (Tea_SeekNextClosingBrace n s) as [k|] eqn:E; [|discriminate]. injection H as <-.
      destruct (IH n s k ltac:(lia) E) as (t & r & -> & <- & O). exists ("}"%char :: t), r.
      split; [reflexivity|]. split; [reflexivity|]. apply (op_S n [] t); [constructor|exact O]. }
  destruct (Tea_SeekNextClosingBrace n s) as [k|] eqn:E; [|discriminate]. injection H as <-.
  destruct (IH n s k ltac:(lia) E) as (t & r & -> & <- & O). exists (c :: t), r.
  split; [reflexivity|]. split; [reflexivity|]. cq.
  apply (opened_pre [c]); [|exact O]. intros. apply pa_chr; assumption.
Qed.
Lemma closing_0 : forall s j, Tea_SeekNextClosingBrace 0 s = Some j ->
  exists c r, s = c ++ s2l "}" ++ r /\ length c = j /\ paired c.
Proof.
  intros s j H. destruct (closing_some (S (length s)) 0 s j ltac:(lia) H) as (c & r & E & L & O).
  inversion O; subst. exists c, r. split; [reflexivity|]. split; [reflexivity|assumption].
Qed.

(** ** blocks *)

Lemma parse_sound : forall f s, length s < f ->
  exists x, parse_blocks f s = Ret x /\ (forall l, x = Some l -> doc s l).
Proof.
  induction f as [|f IH]; intros s L; [lia|]. cbn [parse_blocks].
  destruct (seek_open s) as [[k code]|] eqn:E.
  2:{ eexists; split; [reflexivity|]. intros l H; injection H as <-. constructor. apply seek_open_none; exact E. }
  apply seek_open_some in E as (t & r & E1 & <- & F).
  assert (S2 : skipn (length t + 2) s = r) by (rewrite E1, skipn_cut2; destruct code; reflexivity).
  assert (S1 : firstn (length t) s = t) by (rewrite E1; apply firstn_cut).
  rewrite S2, S1.
  destruct code.
  - destruct (Tea_SeekNextClosingBrace 0 r) as [j|] eqn:C; [|eexists; split; [reflexivity|discriminate]].
    apply closing_0 in C as (c & q & E2 & <- & P).
    assert (Q : skipn (length c + 1) r = q) by (rewrite E2, skipn_cut2; reflexivity).
    assert (LQ : length q < f).
    { rewrite E1, E2 in L. rewrite !app_length in L. cbn in L. lia. }
    rewrite Q. destruct (IH q LQ) as (x & -> & D). cbn [bind].
    eexists; split; [reflexivity|]. destruct x as [l'|]; [|discriminate]. intros l H; injection H as <-.
    rewrite E1, E2. rewrite firstn_cut. apply dc_code; [rewrite <- E2; exact F|exact P|apply D; reflexivity].
  - destruct (strstr2 "}" "}" r) as [j|] eqn:C; [|eexists; split; [reflexivity|discriminate]].
    apply strstr2_some in C as (c & q & E2 & <- & P).
    assert (Q : skipn (length c + 2) r = q) by (rewrite E2, skipn_cut2; reflexivity).
    assert (LQ : length q < f).
    { rewrite E1, E2 in L. rewrite !app_length in L. cbn in L. lia. }
    rewrite Q. destruct (IH q LQ) as (x & -> & D). cbn [bind].
    eexists; split; [reflexivity|]. destruct x as [l'|]; [|discriminate]. intros l H; injection H as <-.
    rewrite E1, E2. rewrite firstn_cut.
    apply dc_head; [change (s2l "}}" ++ q) with ("}"%char :: "}"%char :: q); rewrite <- E2; exact F| |apply D; reflexivity].
    intros u v E3. apply (P u v). rewrite E2. exact E3.
Qed.
Lemma parse_complete : forall s l, doc s l -> forall f, length s < f -> parse_blocks f s = Ret (Some l).
Proof.
  induction 1 as [t N|t h r l F C D IH|t c r l F C D IH]; intros f L; destruct f as [|f]; try lia; cbn [parse_blocks].
  - rewrite (seek_open_no _ N). reflexivity.
  - rewrite (seek_open_first t (h ++ s2l "}}" ++ r) false F), skipn_cut2, firstn_cut.
    change (skipn 2 (s2l "{{" ++ h ++ s2l "}}" ++ r)) with (h ++ "}"%char :: "}"%char :: r).
    rewrite (strstr2_first _ _ h r) by exact C. rewrite skipn_cut2, firstn_cut. cbn [skipn].
    rewrite IH; [reflexivity|]. rewrite !app_length in L. cbn in L. lia.
  - rewrite (seek_open_first t (c ++ s2l "}" ++ r) true F), skipn_cut2, firstn_cut.
    change (skipn 2 (s2l "${" ++ c ++ s2l "}" ++ r)) with (c ++ "}"%char :: r).
    rewrite (closing_paired c C 0 ("}"%char :: r)). cbn [Tea_SeekNextClosingBrace option_map]. cbn [ceq].
    change (ceq "}" bslash) with false. change (ceq "}" "{") with false. change (ceq "}" "}") with true. cbn [option_map].
    replace (length c + 0) with (length c) by lia. rewrite skipn_cut2, firstn_cut. cbn [skipn].
    rewrite IH; [reflexivity|]. rewrite !app_length in L. cbn in L. lia.
Qed.

(** ** paragraphs *)

Definition sp (c : ascii) : Prop := c = " "%char \/ c = "009"%char.
Lemma strchr_from_some : forall s k j, strchr_from k s = Some j ->
  k <= j /\ exists u v, s = u ++ nl :: v /\ length u = j /\ forall u' v', s = u' ++ nl :: v' -> k <= length u' -> j <= length u'.
Proof.
  induction s as [|c s IH]; intros k j H; [destruct k; discriminate|].
  destruct k as [|k]; cbn in H.
  - destruct (ceq c nl) eqn:C.
    + injection H as <-. cq. subst c. split; [lia|]. exists [], s. repeat split. intros; lia.
    + destruct (strchr_from 0 s) as [i|] eqn:E; [|discriminate]. injection H as <-.
      destruct (IH 0 i E) as [_ (u & v & -> & <- & F)]. split; [lia|]. exists (c :: u), v. repeat split.
      intros u' v' E' _. destruct u' as [|x u']; cbn in E'; injection E' as E0 E'; cq; [congruence|].
      specialize (F u' v' E' ltac:(lia)). cbn. lia.
  - destruct (strchr_from k s) as [i|] eqn:E; [|discriminate]. injection H as <-.
    destruct (IH k i E) as [K (u & v & -> & <- & F)]. split; [lia|]. exists (c :: u), v. repeat split.
    intros u' v' E' G. destruct u' as [|x u']; cbn in G; [lia|]. injection E' as E0 E'.
    specialize (F u' v' E' ltac:(lia)). cbn. lia.
Qed.
Lemma strchr_from_none : forall s k u v, strchr_from k s = None -> s = u ++ nl :: v -> length u < k.
Proof.
  induction s as [|c s IH]; intros k u v H E; [destruct u; discriminate|].
  destruct k as [|k]; cbn in H.
  - destruct (ceq c nl) eqn:C; [discriminate|]. destruct (strchr_from 0 s) as [i|] eqn:E1; [discriminate|].
    destruct u as [|x u]; cbn in E; injection E as E0 E.
    + cq. congruence.
    + specialize (IH 0 u v E1 E). lia.
  - destruct (strchr_from k s) as [i|] eqn:E1; [discriminate|].
    destruct u as [|x u]; [cbn; lia|]. cbn in E; injection E as E0 E. specialize (IH k u v E1 E). cbn. lia.
Qed.
Lemma skip_sp_eq : forall s, exists b, s = b ++ skip_sp s /\ Forall sp b.
Proof.
  induction s as [|c s (b & E & F)]; cbn; [exists []; auto|].
  destruct (ceq c " " || ceq c tab) eqn:C; [|exists []; auto].
  exists (c :: b). split; [cbn; f_equal; exact E|]. constructor; [|exact F].
  apply orb_prop in C as [C|C]; cq; subst; [left|right]; reflexivity.
Qed.
Lemma skip_sp_app : forall b v, Forall sp b -> skip_sp (b ++ nl :: v) = nl :: v.
Proof. induction 1 as [|c b [-> | ->] F IH]; [reflexivity|exact IH|exact IH]. Qed.

Lemma break_ok : forall f k s, length s - k < f ->
  (forall u b v, s = u ++ nl :: b ++ nl :: v -> Forall sp b -> k <= length u) ->
  exists l, break_loop f k s = Ret l /\ paragraphs s l.
Proof.
  induction f as [|f IH]; intros k s L N; [lia|]. cbn [break_loop].
  destruct (strchr_from k s) as [j|] eqn:E.
  2:{ eexists; split; [reflexivity|]. constructor. intros (u & b & v & E1 & F). specialize (N u b v E1 F).
      pose proof (strchr_from_none s k u _ E E1). lia. }
  apply strchr_from_some in E as [K (u & v & E1 & <- & M)].
  assert (S1 : skipn (S (length u)) s = v).
  { rewrite E1. replace (S (length u)) with (length u + 1) by lia. rewrite skipn_cut2. reflexivity. }
  assert (MORE : (forall b w, v = b ++ nl :: w -> Forall sp b -> False) ->
            exists l, break_loop f (S (length u)) s = Ret l /\ paragraphs s l).
  { intro X. apply IH.
    - rewrite E1 in L |- *. rewrite app_length in L |- *. cbn in L |- *. lia.
    - intros u' b w E2 F. specialize (N u' b w E2 F). specialize (M u' _ E2 N).
      destruct (Nat.eq_dec (length u) (length u')) as [Q|Q]; [|lia]. exfalso.
      rewrite E1 in E2. destruct (app_cut _ _ _ _ E2 Q) as [_ Z]. injection Z as Z. exact (X b w Z F). }
  rewrite S1. destruct (skip_sp_eq v) as (b & E2 & F). destruct (skip_sp v) as [|c w] eqn:W.
  - apply MORE. intros b' w' -> F'. rewrite skip_sp_app in W by exact F'. discriminate.
  - destruct (ceq c nl) eqn:C.
    2:{ apply MORE. intros b' w' -> F'. rewrite skip_sp_app in W by exact F'. injection W as <- _. rewrite ceq_refl in C. discriminate. }
    cq. subst c. clear MORE.
    assert (X : exists x r, v = x :: r) by (rewrite E2; destruct b; cbn; eauto). destruct X as (x & r & X).
    assert (S2 : skipn (length u + 2) s = r) by (rewrite E1, X, skipn_cut2; reflexivity).
    assert (S3 : firstn (length u) s = u) by (rewrite E1; apply firstn_cut).
    rewrite S2, S3.
    destruct (IH 0 r) as (l & -> & P).
    + rewrite E1, X in L. rewrite app_length in L. cbn in L. lia.
    + intros; lia.
    + cbn [bind]. eexists; split; [reflexivity|]. rewrite E1, X. constructor.
      * intros (u' & b' & w' & E3 & F').
        assert (E4 : s = u' ++ nl :: b' ++ nl :: w' ++ v).
        { rewrite E1. change (u ++ nl :: v) with (u ++ ([nl] ++ v)). rewrite app_assoc, E3. rewrite <- !app_assoc. cbn. rewrite <- app_assoc. reflexivity. }
        pose proof (N _ _ _ E4 F') as N1. pose proof (M _ _ E4 N1) as M1.
        assert (Q : length (u ++ [nl]) = length (u' ++ nl :: b' ++ nl :: w')) by (rewrite E3; reflexivity).
        rewrite !app_length in Q. cbn in Q. rewrite app_length in Q. cbn in Q. lia.
      * exists b, w. rewrite <- X. split; [f_equal; exact E2|exact F].
      * exact P.
Qed.

Lemma visible_app : forall s t, visible (s ++ t) = visible s ++ visible t.
Proof. unfold visible. intros. apply filter_app. Qed.
Lemma blank_next : forall x r, blank_line (nl :: x :: r) -> white x = true.
Proof.
  intros x r (b & v & E & F). injection E as E. destruct F as [|c b [-> | ->] F]; cbn in E; injection E as -> _; reflexivity.
Qed.
Lemma paragraphs_visible : forall s l, paragraphs s l -> concat (map visible l) = visible s.
Proof.
  induction 1 as [s N|p x r l N B P IH]; cbn.
  - apply app_nil_r.
  - rewrite visible_app, IH. f_equal. cbn. rewrite (blank_next _ _ B). reflexivity.
Qed.
Lemma paragraphs_clean : forall s l, paragraphs s l -> Forall (fun p => ~ has_empty_line p) l.
Proof.
  induction 1 as [s N|p x r l N B P IH]; constructor; auto.
  intros (u & b & v & -> & F). apply N. exists u, b, (v ++ [nl]). split; [|exact F].
  rewrite <- !app_assoc. cbn. rewrite <- !app_assoc. reflexivity.
Qed.
(** a piece of a paragraph is not broken again *)
Lemma break_again : forall s, ~ has_empty_line s -> Tea_BreakParagraph s = Ret [s].
Proof.
  intros s N. destruct (break_ok (S (length s)) 0 s ltac:(lia) ltac:(intros; lia)) as (l & E & P).
  unfold Tea_BreakParagraph. rewrite E. inversion P as [|p x r l' N' B P' E1 E2]; subst; [reflexivity|].
  exfalso. apply N. destruct B as (b & v & E3 & F). exists p, b, v. rewrite <- E3. auto.
Qed.

(** ** what is within a paragraph *)

Lemma delim_some : forall d f s i, d <> bslash -> length s < f -> Tea_SeekNodeDelim d s = Some i ->
  exists t r, s = t ++ d :: r /\ length t = i /\ without d t.
Proof.
  intros d f. induction f as [|f IH]; intros s i D L H; [lia|]. destruct s as [|c s]; cbn in H; [discriminate|]. cbn in L.
  destruct (ceq c bslash) eqn:C1.
  { cq. subst c. destruct s as [|e s]; [discriminate|]. destruct (Tea_SeekNodeDelim d s) as [k|] eqn:E; [|discriminate].
    injection H as <-. cbn in L. destruct (IH s k D ltac:(lia) E) as (t & r & -> & <- & W).
    exists (bslash :: e :: t), r. repeat split. apply wo_esc. exact W. }
  destruct (ceq c d) eqn:C2.
  { cq. subst c. injection H as <-. exists [], s. repeat split. constructor. }
  destruct (Tea_SeekNodeDelim d s) as [k|] eqn:E; [|discriminate]. injection H as <-.
  destruct (IH s k D ltac:(lia) E) as (t & r & -> & <- & W). exists (c :: t), r. repeat split. cq. apply wo_chr; assumption.
Qed.
Lemma delim_none : forall d f s, length s < f -> Tea_SeekNodeDelim d s = None -> without_end d s.
Proof.
  intros d f. induction f as [|f IH]; intros s L H; [lia|]. destruct s as [|c s]; cbn in H; [left; constructor|]. cbn in L.
  destruct (ceq c bslash) eqn:C1.
  { cq. subst c. destruct s as [|e s]; [right; exists []; split; [reflexivity|constructor]|].
    destruct (Tea_SeekNodeDelim d s) as [k|] eqn:E; [discriminate|]. cbn in L.
    destruct (IH s ltac:(lia) E) as [W|(t & -> & W)]; [left; apply wo_esc; exact W|].
    right. exists (bslash :: e :: t). split; [reflexivity|apply wo_esc; exact W]. }
  destruct (ceq c d) eqn:C2; [discriminate|].
  destruct (Tea_SeekNodeDelim d s) as [k|] eqn:E; [discriminate|]. cq.
  destruct (IH s ltac:(lia) E) as [W|(t & -> & W)]; [left; apply wo_chr; assumption|].
  right. exists (c :: t). split; [reflexivity|apply wo_chr; assumption].
Qed.
Lemma delim_without : forall d t, without d t -> forall r, Tea_SeekNodeDelim d (t ++ r) = option_map (Nat.add (length t)) (Tea_SeekNodeDelim d r).
Proof.
  induction 1 as [|c s W IH|c s N1 N2 W IH]; intro r; cbn.
  - destruct (Tea_SeekNodeDelim d r); reflexivity.
  - rewrite IH. destruct (Tea_SeekNodeDelim d r); reflexivity.
  - rewrite (proj2 (ceq_false c bslash) N1), (proj2 (ceq_false _ _) N2), IH. destruct (Tea_SeekNodeDelim d r); reflexivity.
Qed.
Lemma delim_at : forall d t r, d <> bslash -> without d t -> Tea_SeekNodeDelim d (t ++ d :: r) = Some (length t).
Proof.
  intros d t r D W. rewrite (delim_without d t W). cbn. rewrite (proj2 (ceq_false d bslash) D), ceq_refl. cbn. f_equal. lia.
Qed.
Lemma delim_end : forall d t, without_end d t -> Tea_SeekNodeDelim d t = None.
Proof.
  intros d t [W|(u & -> & W)].
  - rewrite <- (app_nil_r t), (delim_without d t W). reflexivity.
  - rewrite (delim_without d u W). reflexivity.
Qed.

Definition inner (i : cstr) : node :=
  match Tea_SeekNodeDelim "|" i with
  | None => Emphasis i
  | Some m => Link (firstn m i) (skipn (S m) i)
  end.
Lemma skipn_S_cut : forall (t r : cstr) c, skipn (S (length t)) (t ++ c :: r) = r.
Proof. intros. replace (S (length t)) with (length t + 1) by lia. rewrite skipn_cut2. reflexivity. Qed.
Lemma inner_ok : forall i, inside i (inner i).
Proof.
  intro i. unfold inner. destruct (Tea_SeekNodeDelim "|" i) as [m|] eqn:E.
  - apply (delim_some "|" (S (length i))) in E as (t & r & -> & <- & W); [|discriminate|lia].
    rewrite firstn_cut, skipn_S_cut. apply (is_link t r W).
  - apply (delim_none "|" (S (length i))) in E; [|lia]. constructor; exact E.
Qed.
Lemma inner_eq : forall i x, inside i x -> inner i = x.
Proof.
  destruct 1 as [s W|a s W]; unfold inner.
  - rewrite (delim_end _ _ W). reflexivity.
  - change (a ++ s2l "|" ++ s) with (a ++ "|"%char :: s). rewrite (delim_at "|" a s ltac:(discriminate) W), firstn_cut, skipn_S_cut. reflexivity.
Qed.
Lemma nodes_sound : forall f s, length s < f -> exists x, parse_nodes f s = Ret x /\ (forall l, x = Some l -> inline s l).
Proof.
  induction f as [|f IH]; intros s L; [lia|]. cbn [parse_nodes].
  destruct (Tea_SeekNodeDelim "{" s) as [k|] eqn:E.
  2:{ eexists; split; [reflexivity|]. intros l H; injection H as <-. constructor. apply (delim_none _ (S (length s))); [lia|exact E]. }
  apply (delim_some "{" (S (length s))) in E as (t & r & -> & <- & W); [|discriminate|lia].
  rewrite skipn_S_cut, firstn_cut.
  destruct (Tea_SeekNodeDelim "}" r) as [j|] eqn:C; [|eexists; split; [reflexivity|discriminate]].
  apply (delim_some "}" (S (length r))) in C as (c & q & -> & <- & W2); [|discriminate|lia].
  rewrite skipn_S_cut, firstn_cut. fold (inner c).
  destruct (IH q) as (x & -> & D).
  { rewrite app_length in L. cbn in L. rewrite app_length in L. cbn in L. lia. }
  cbn [bind]. eexists; split; [reflexivity|]. destruct x as [l'|]; [|discriminate]. intros l H; injection H as <-.
  apply (in_more t c (inner c) q l' W W2 (inner_ok c)). apply D; reflexivity.
Qed.
Lemma nodes_complete : forall s l, inline s l -> forall f, length s < f -> parse_nodes f s = Ret (Some l).
Proof.
  induction 1 as [s W|t s x r l W W2 I D IH]; intros f L; destruct f as [|f]; try lia; cbn [parse_nodes].
  - rewrite (delim_end _ _ W). reflexivity.
  - change (t ++ s2l "{" ++ s ++ s2l "}" ++ r) with (t ++ "{"%char :: s ++ "}"%char :: r) in *.
    rewrite (delim_at "{" t _ ltac:(discriminate) W), skipn_S_cut, firstn_cut.
    rewrite (delim_at "}" s _ ltac:(discriminate) W2), skipn_S_cut, firstn_cut. fold (inner s). rewrite (inner_eq _ _ I).
    rewrite IH; [reflexivity|]. rewrite app_length in L. cbn in L. rewrite app_length in L. cbn in L. lia.
Qed.

(** ** blanks *)

Lemma white_not_bslash : forall c, white c = true -> ceq c bslash = false.
Proof. intros c W. apply ceq_false. intros ->. discriminate. Qed.
Lemma white_model : forall c, ceq c nl || ceq c tab || ceq c " "%char = white c.
Proof. intro c. unfold white. fold tab. destruct (ceq c nl), (ceq c tab), (ceq c " "); reflexivity. Qed.
Lemma sweep_node : forall s l, reads s l -> forall first g seen out,
  sweep true first g seen out s = (out ++ squeeze g l, ends_blank g l).
Proof.
  induction 1 as [|c s l W R IH|c s l R IH|c s l W N R IH]; intros first g seen out.
  - cbn. rewrite app_nil_r. reflexivity.
  - cbn [sweep]. rewrite (white_not_bslash c W), white_model, W. destruct g; rewrite IH; cbn; [reflexivity|].
    rewrite <- app_assoc. reflexivity.
  - cbn [sweep]. change (ceq "\" bslash) with true. cbv iota. rewrite IH. cbn. rewrite <- app_assoc. reflexivity.
  - cbn [sweep]. rewrite (proj2 (ceq_false c bslash) N), white_model, W, IH. cbn. rewrite <- app_assoc. reflexivity.
Qed.
Lemma sweep_head : forall s l, reads s l -> ~ In "\"%char s -> forall first g seen out,
  sweep false first g seen out s = (out ++ squeeze g l, ends_blank g l).
Proof.
  induction 1 as [|c s l W R IH|c s l R IH|c s l W N R IH]; intros B first g seen out.
  - cbn. rewrite app_nil_r. reflexivity.
  - cbn [sweep]. rewrite (white_not_bslash c W), white_model, W. assert (B' : ~ In "\"%char s) by (intro X; apply B; right; exact X).
    destruct g; rewrite IH by exact B'; cbn; [reflexivity|]. rewrite <- app_assoc. reflexivity.
  - exfalso. apply B. left. reflexivity.
  - cbn [sweep]. rewrite (proj2 (ceq_false c bslash) N), white_model, W.
    rewrite IH by (intro X; apply B; right; exact X). cbn. rewrite <- app_assoc. reflexivity.
Qed.
Lemma reads_plain : forall s, ~ In "\"%char s -> reads s (map (fun c => if white c then None else Some c) s).
Proof.
  induction s as [|c s IH]; intro B; cbn; [constructor|]. assert (B' : ~ In "\"%char s) by (intro X; apply B; right; exact X).
  destruct (white c) eqn:W; constructor; auto. intros ->. apply B. left. reflexivity.
Qed.

(** ** marks *)

Lemma skip_white_app : forall w c r, forallb white w = true -> white c = false -> skip_white (w ++ c :: r) = c :: r.
Proof.
  induction w as [|x w IH]; cbn; intros c r W C.
  - unfold white in C. fold tab in C. rewrite C. reflexivity.
  - apply andb_prop in W as [W1 W2]. unfold white in W1. fold tab in W1. rewrite W1. auto.
Qed.
Lemma dashes_repeat : forall n r, hd_error r <> Some "-"%char -> dashes (repeat "-"%char n ++ r) = n.
Proof.
  induction n as [|n IH]; cbn; intros r N.
  - destruct r as [|c r]; [reflexivity|]. cbn. cbn in N. rewrite (proj2 (ceq_false c "-")); [reflexivity|congruence].
  - rewrite IH by exact N. reflexivity.
Qed.
Lemma skipn_repeat : forall n (r : cstr) m, m <= n -> skipn m (repeat "-"%char n ++ r) = repeat "-"%char (n - m) ++ r.
Proof. induction n as [|n IH]; intros r [|m] L; cbn; try lia; auto. apply IH; lia. Qed.

Lemma marks_levels : forall s n m body, marks s n m body -> forall esc last l, exists w esc',
  forallb white w = true /\
  Tea_MakeLevels esc last ((Para, s) :: l) = mkB Para n m (w ++ body) :: Tea_MakeLevels esc' n l.
Proof.
  destruct 1 as [w c r W C D A|w n r W N|w n r W N]; intros esc last l; cbn [Tea_MakeLevels].
  - rewrite (skip_white_app _ _ _ W C), (proj2 (ceq_false _ _) A). cbn [dashes].
    rewrite (proj2 (ceq_false _ _) D). cbn. rewrite !orb_false_r. destruct esc.
    + exists [], true. split; reflexivity.
    + exists w, false. split; [exact W|reflexivity].
  - cbn [repeat app]. rewrite skip_white_app by auto. change (ceq "-" "@") with false. cbv iota.
    change ("-"%char :: repeat "-"%char n ++ r) with (repeat "-"%char (S n) ++ r).
    rewrite dashes_repeat by exact N. rewrite orb_false_r. change (0 <? S n) with true. rewrite orb_true_r.
    replace (S n - 1) with n by lia. rewrite skipn_repeat by lia. replace (S n - n) with 1 by lia.
    exists [], true. split; reflexivity.
  - rewrite skip_white_app by auto. change (ceq "@" "@") with true. cbv iota.
    rewrite dashes_repeat by exact N. rewrite orb_true_r. cbn [orb]. rewrite skipn_repeat by lia.
    replace (n - n) with 0 by lia. exists [], true. split; reflexivity.
Qed.

Lemma white_without : forall d w, white d = false -> forallb white w = true -> without d w.
Proof.
  induction w as [|c w IH]; cbn; intros D W; [constructor|]. apply andb_prop in W as [W1 W2].
  apply wo_chr; auto; intros ->; congruence || discriminate.
Qed.
Lemma without_app : forall d s t, without d s -> without d t -> without d (s ++ t).
Proof. induction 1; intros; cbn; auto; constructor; auto. Qed.
Lemma inline_white : forall w s l, forallb white w = true -> inline s l ->
  exists t r, l = Plain t :: r /\ inline (w ++ s) (Plain (w ++ t) :: r).
Proof.
  intros w s l W I. assert (WO : without "{" w) by (apply white_without; [reflexivity|exact W]).
  destruct I as [s E|t s x r l W1 W2 X I].
  - exists s, []. split; [reflexivity|]. constructor. destruct E as [E|(u & -> & E)].
    + left. apply without_app; assumption.
    + right. exists (w ++ u). rewrite app_assoc. split; [reflexivity|apply without_app; assumption].
  - exists t, (x :: l). split; [reflexivity|]. rewrite app_assoc. constructor; auto. apply without_app; assumption.
Qed.
Lemma reads_white : forall w s l, forallb white w = true -> reads s l -> reads (w ++ s) (repeat None (length w) ++ l).
Proof. induction w as [|c w IH]; cbn; intros s l W R; [exact R|]. apply andb_prop in W as [W1 W2]. constructor; auto. Qed.
Lemma squeeze_white : forall n l, squeeze true (repeat None n ++ l) = squeeze true l.
Proof. induction n; cbn; auto. Qed.
Lemma ends_white : forall n l, ends_blank true (repeat None n ++ l) = ends_blank true l.
Proof. induction n; cbn; auto. Qed.

Lemma text_with : forall x t, text_of (with_text x t) = t.
Proof. destruct x; reflexivity. Qed.
Lemma purify_shown : forall g l r, shown g l r -> Tea_RemoveVoidNode (Tea_PurifyNode g l) = r.
Proof.
  induction 1 as [g|g x i l r R Q S IH|g x i l r R Q S IH]; [reflexivity| |];
    cbn [Tea_PurifyNode]; unfold Tea_SweepSpaceNode; rewrite (sweep_node _ _ R); cbn [app];
    unfold Tea_RemoveVoidNode in *; cbn [filter]; rewrite text_with.
  - rewrite Q. exact IH.
  - destruct (squeeze g i) as [|c t] eqn:E; [congruence|]. f_equal. exact IH.
Qed.
Lemma shown_white : forall w t l r, forallb white w = true -> shown true (Plain t :: l) r -> shown true (Plain (w ++ t) :: l) r.
Proof.
  intros w t l r W S. inversion S as [|g x i l0 r0 R Q S'|g x i l0 r0 R Q S']; subst.
  - apply sh_none with (i := repeat None (length w) ++ i).
    + apply reads_white; assumption.
    + rewrite squeeze_white. exact Q.
    + rewrite ends_white. exact S'.
  - rewrite <- (squeeze_white (length w) i).
    change (with_text (Plain t) (squeeze true (repeat None (length w) ++ i)))
      with (with_text (Plain (w ++ t)) (squeeze true (repeat None (length w) ++ i))).
    apply sh_some.
    + apply reads_white; assumption.
    + rewrite squeeze_white. exact Q.
    + rewrite ends_white. exact S'.
Qed.
Lemma paragraph_ok : forall s n m body l r, marks s n m body -> inline body l -> shown true l r ->
  forall esc last rest, exists b esc', Tea_MakeLevels esc last ((Para, s) :: rest) = b :: Tea_MakeLevels esc' n rest
    /\ b_kind b = Para /\ b_level b = n /\ b_nomark b = m /\ parse_paragraph b = Ret (Some (b, r)).
Proof.
  intros s n m body l r M I S esc last rest.
  destruct (marks_levels _ _ _ _ M esc last rest) as (w & esc' & W & E).
  exists (mkB Para n m (w ++ body)), esc'. split; [exact E|]. repeat split. unfold parse_paragraph. cbn [b_kind b_text].
  destruct (inline_white w body l W I) as (t & q & -> & I'). unfold Tea_ParseStringNode.
  rewrite (nodes_complete _ _ I') by lia. cbn [bind option_map].
  rewrite (purify_shown _ _ _ (shown_white w t q r W S)). reflexivity.
Qed.

(** ** words *)

Lemma words_cut : forall p c r w, white c = true -> words_ w (p ++ c :: r) = words_ w p ++ words_ [] r.
Proof.
  induction p as [|x p IH]; cbn; intros c r w C.
  - rewrite C. destruct w; reflexivity.
  - destruct (white x); [|apply IH; exact C]. destruct w; [|cbn; f_equal]; apply IH; exact C.
Qed.
Lemma words_paragraphs : forall s l, paragraphs s l -> concat (map words l) = words s.
Proof.
  induction 1 as [s N|p x r l N B P IH]; cbn; [apply app_nil_r|].
  rewrite IH. unfold words. rewrite words_cut by reflexivity. f_equal. cbn. rewrite (blank_next _ _ B). reflexivity.
Qed.
Definition opt (c : ascii) : option ascii := if white c then None else Some c.
Lemma words_squeeze : forall s, (forall w, words_ w (squeeze false (map opt s)) = words_ w s) /\ words_ [] (squeeze true (map opt s)) = words_ [] s.
Proof.
  induction s as [|c s [IH1 IH2]]; [split; reflexivity|]. cbn [map]. unfold opt at 1 3. destruct (white c) eqn:W.
  - split.
    + intro w. cbn. rewrite W. destruct w; rewrite IH2; reflexivity.
    + cbn. rewrite W. exact IH2.
  - split.
    + intro w. cbn. rewrite W. apply IH1.
    + cbn. rewrite W. apply IH1.
Qed.
Lemma words_void : forall s, skip_white s = [] -> words s = [].
Proof.
  unfold words. induction s as [|c s IH]; [reflexivity|]. cbn [skip_white words_]. fold (white c). unfold white, tab.
  destruct (ceq c " " || ceq c "009" || ceq c nl); [apply IH|discriminate].
Qed.
Lemma skip_white_split : forall s c r, skip_white s = c :: r -> exists w, s = w ++ c :: r /\ forallb white w = true /\ white c = false.
Proof.
  induction s as [|x s IH]; cbn; intros c r H; [discriminate|].
  destruct (ceq x " " || ceq x tab || ceq x nl) eqn:E.
  - destruct (IH c r H) as (w & -> & W & C). exists (x :: w). split; [reflexivity|]. split; [|exact C].
    cbn. unfold white. fold tab. rewrite E. exact W.
  - injection H as -> ->. exists []. split; [reflexivity|]. split; [reflexivity|]. unfold white. fold tab. exact E.
Qed.
Lemma words_lead : forall w s, forallb white w = true -> words (w ++ s) = words s.
Proof. induction w as [|c w IH]; cbn; intros s W; [reflexivity|]. apply andb_prop in W as [W1 W2]. unfold words. cbn. rewrite W1. apply IH. exact W2. Qed.
Lemma words_first : forall r w, w <> [] -> exists y l, words_ w r = (w ++ y) :: l.
Proof.
  induction r as [|c r IH]; intros w W.
  - exists [], []. rewrite app_nil_r. destruct w; [congruence|reflexivity].
  - cbn. destruct (white c).
    + destruct w as [|a w]; [congruence|]. exists []. rewrite app_nil_r. eauto.
    + destruct (IH (w ++ [c])) as (y & l & ->); [destruct w; discriminate|]. exists (c :: y), l. rewrite <- app_assoc. reflexivity.
Qed.
Definition good_word (w : cstr) : Prop := hd_error w <> Some "-"%char /\ hd_error w <> Some "@"%char.
Lemma para_words : forall p, ~ In "\"%char p -> ~ In "{"%char p -> Forall good_word (words p) ->
  forall esc last rest, exists b n, Tea_MakeLevels esc last ((Para, p) :: rest) = b :: Tea_MakeLevels esc n rest
    /\ (skip_white (b_text b) = [] /\ words p = [] \/
        skip_white (b_text b) <> [] /\ exists t, parse_paragraph b = Ret (Some (b, [Plain t])) /\ words t = words p
          /\ b_kind b = Para /\ b_level b = 0 /\ b_nomark b = false).
Proof.
  intros p N1 N2 G esc last rest. destruct (skip_white p) as [|c r] eqn:E.
  - exists (mkB Para 0 false p), last. cbn [Tea_MakeLevels]. rewrite E. split; [reflexivity|]. left. split; [exact E|]. apply words_void; exact E.
  - destruct (skip_white_split _ _ _ E) as (w & Ep & W & C).
    assert (GC : good_word [c]).
    { rewrite Ep, words_lead in G by exact W. unfold words in G. cbn in G. rewrite C in G.
      destruct (words_first r [c]) as (y & l & Q); [discriminate|]. rewrite Q in G. inversion G as [|? ? [G1 G2] _]; subst. split; [exact G1|exact G2]. }
    destruct GC as [G1 G2]. cbn in G1, G2.
    assert (Q : forall t, without "{" t -> inline t [Plain t]) by (intros; constructor; left; assumption).
    set (q := if esc then c :: r else p). exists (mkB Para 0 false q), 0.
    split. { cbn [Tea_MakeLevels]. rewrite E. rewrite (proj2 (ceq_false c "@")) by congruence. cbn [dashes].
      rewrite (proj2 (ceq_false c "-")) by congruence. cbn. rewrite !orb_false_r. unfold q. reflexivity. }
    right.
    assert (Q1 : skip_white q = c :: r).
    { unfold q. destruct esc; [|exact E]. apply (skip_white_app []); [reflexivity|exact C]. }
    assert (Q2 : words q = words p).
    { unfold q. destruct esc; [|reflexivity]. rewrite Ep. symmetry. apply words_lead. exact W. }
    assert (Q3 : forall x, In x q -> In x p).
    { unfold q. destruct esc; [|auto]. intros x X. rewrite Ep. apply in_or_app. right. exact X. }
    clearbody q. cbn [b_text]. split; [rewrite Q1; discriminate|].
    assert (B1 : ~ In "\"%char q) by auto. assert (B2 : ~ In "{"%char q) by auto.
    exists (squeeze true (map opt q)). split; [|split; [|auto]].
    + unfold parse_paragraph. cbn [b_kind b_text]. unfold Tea_ParseStringNode.
      assert (WO : without "{" q).
      { clear - B1 B2. induction q as [|x q IH]; constructor.
        - intros ->. apply B1. left. reflexivity.
        - intros ->. apply B2. left. reflexivity.
        - apply IH; intro X; [apply B1|apply B2]; right; exact X. }
      rewrite (nodes_complete _ _ (Q q WO)) by lia. cbn [bind option_map].
      rewrite (purify_shown true [Plain q] [Plain (squeeze true (map opt q))]); [reflexivity|].
      apply (sh_some true (Plain q) (map opt q)); [apply reads_plain; exact B1| |constructor].
      intro Z. pose proof (proj2 (words_squeeze q)) as X. rewrite Z in X. cbn in X.
      assert (V : words q <> []).
      { rewrite Q2, Ep, words_lead by exact W. unfold words. cbn. rewrite C.
        destruct (words_first r [c]) as (y & l & ->); [discriminate|]. discriminate. }
      apply V. unfold words. symmetry. exact X.
    + unfold words. rewrite (proj2 (words_squeeze q)). exact Q2.
Qed.
Lemma paras_words : forall ps, Forall (fun p => ~ In "\"%char p /\ ~ In "{"%char p /\ Forall good_word (words p)) ps ->
  forall esc last, exists l, Tea_ParseParagraphs (Tea_RemoveVoidBlocks (Tea_MakeLevels esc last (map (pair Para) ps))) = Ret (Some l)
    /\ Forall (fun x => b_kind (fst x) = Para /\ b_level (fst x) = 0 /\ b_nomark (fst x) = false) l
    /\ concat (map (fun x => concat (map (fun y => words (text_of y)) (snd x))) l) = concat (map words ps).
Proof.
  induction 1 as [|p ps (N1 & N2 & G) F IH]; intros esc last.
  - exists []. repeat split. constructor.
  - cbn [map]. destruct (para_words p N1 N2 G esc last (map (pair Para) ps)) as (b & n & -> & [(V & W)|(V & t & P & W & K)]);
      destruct (IH esc n) as (l & E & FL & C); unfold Tea_RemoveVoidBlocks in *; cbn [filter].
    + rewrite V. exists l. split; [exact E|]. split; [exact FL|]. cbn [map concat]. rewrite W. exact C.
    + destruct (skip_white (b_text b)) as [|c r] eqn:Z; [congruence|]. cbn [Tea_ParseParagraphs]. rewrite P. cbn [bind]. rewrite E. cbn [bind option_map].
      exists ((b, [Plain t]) :: l). split; [reflexivity|]. split; [constructor; [exact K|exact FL]|]. cbn [map concat fst snd text_of]. rewrite C, W, app_nil_r. reflexivity.
Qed.
Lemma paragraphs_in : forall s l, paragraphs s l -> forall p x, In p l -> In x p -> In x s.
Proof.
  induction 1 as [s N|p x r l N B P IH]; intros q y Q Y.
  - destruct Q as [<-|[]]. exact Y.
  - destruct Q as [<-|Q]; apply in_or_app; [left; exact Y|right; right; right; exact (IH q y Q Y)].
Qed.
Lemma Forall_concat_in : forall {A} (P : A -> Prop) (l : list (list A)), Forall P (concat l) -> forall x, In x l -> Forall P x.
Proof.
  induction l as [|a l IH]; cbn; intros F x X; [destruct X|]. apply Forall_app in F as [F1 F2]. destruct X as [<-|X]; auto.
Qed.
Lemma page_words : forall s, ~ In "\"%char s -> ~ In "{"%char s -> Forall good_word (words s) ->
  exists l, Tea_Page s = Ret (Some l)
    /\ Forall (fun x => b_kind (fst x) = Para /\ b_level (fst x) = 0 /\ b_nomark (fst x) = false) l
    /\ concat (map (fun x => concat (map (fun y => words (text_of y)) (snd x))) l) = words s.
Proof.
  intros s N1 N2 G. unfold Tea_Page, Tea_ParseStringBlock.
  rewrite (parse_complete s [(Para, s)]); [|constructor|lia].
  2:{ intros u p v [-> | ->] E; apply N2; rewrite E; apply in_or_app; right; cbn; auto. }
  cbn [bind Tea_PurifyPage].
  destruct (break_ok (S (length s)) 0 s ltac:(lia) ltac:(intros; lia)) as (ps & E & P).
  unfold Tea_BreakParagraph. rewrite E. cbn [bind]. rewrite app_nil_r. rewrite <- (words_paragraphs _ _ P).
  apply paras_words. apply Forall_forall. intros p X. split; [|split].
  - intro Y. apply N1. exact (paragraphs_in _ _ P p _ X Y).
  - intro Y. apply N2. exact (paragraphs_in _ _ P p _ X Y).
  - rewrite <- (words_paragraphs _ _ P) in G. apply (Forall_concat_in _ _ G). apply in_map. exact X.
Qed.

(** ** the whole never gets stuck *)

Lemma purify_total : forall l, exists r, Tea_PurifyPage l = Ret r.
Proof.
  induction l as [|[[] s] l (r & E)]; cbn [Tea_PurifyPage]; [eauto| | |]; rewrite ?E; cbn [bind]; eauto.
  destruct (break_ok (S (length s)) 0 s ltac:(lia) ltac:(intros; lia)) as (ps & Eb & P).
  unfold Tea_BreakParagraph. rewrite Eb. cbn [bind]. rewrite ?E. cbn [bind]. eauto.
Qed.
Lemma parse_paras_total : forall l, exists r, Tea_ParseParagraphs l = Ret r.
Proof.
  induction l as [|b l (r & E)]; cbn [Tea_ParseParagraphs]; [eauto|]. unfold parse_paragraph.
  destruct (b_kind b); cbn [bind].
  2,3: rewrite E; cbn; eauto.
  destruct (nodes_sound (S (length (b_text b))) (b_text b) ltac:(lia)) as (x & Ex & _). unfold Tea_ParseStringNode. rewrite Ex. cbn [bind].
  destruct x; cbn [option_map]; [rewrite E; cbn|]; eauto.
Qed.
Lemma page_total : forall s, exists r, Tea_Page s = Ret r.
Proof.
  intro s. unfold Tea_Page, Tea_ParseStringBlock. destruct (parse_sound (S (length s)) s ltac:(lia)) as (x & -> & _). cbn [bind].
  destruct x as [l|]; [|eauto]. destruct (purify_total l) as (r & ->). cbn [bind]. apply parse_paras_total.
Qed.
