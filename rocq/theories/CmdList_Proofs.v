(** CmdList_Proofs.v -- proofs about the command table. *)

From Verif Require Import Base Lex CmdList_Model CmdList_Spec.

(** ** Order facts *)

Lemma zcmp_gt z : (z >? 0)%Z = true <-> (z ?= 0)%Z = Gt.
Proof. rewrite Z.gtb_lt. rewrite Z.compare_gt_iff. reflexivity. Qed.
Lemma zcmp_lt z : (z <? 0)%Z = true <-> (z ?= 0)%Z = Lt.
Proof. rewrite Z.ltb_lt. reflexivity. Qed.

Lemma lex_app_l p a b : lex (p ++ a) (p ++ b) = lex a b.
Proof. induction p as [|x p IH]; simpl; auto. rewrite Z.compare_refl. auto. Qed.

Lemma lex_prefix p c r : lex (p ++ c :: r) p = Gt.
Proof. rewrite <- (app_nil_r p) at 2. rewrite lex_app_l. reflexivity. Qed.

(** Two keys either are prefix-related or differ at some position. *)
Lemma lex_cases (a b : list Z) :
  (exists r, b = a ++ r) \/ (exists c r, a = b ++ c :: r) \/
  (exists p x y a' b', a = p ++ x :: a' /\ b = p ++ y :: b' /\ x <> y).
Proof.
  revert b; induction a as [|x a IH]; intros b.
  - left. exists b. reflexivity.
  - destruct b as [|y b]; [right; left; exists x, a; reflexivity|].
    destruct (Z.eq_dec x y) as [->|Hxy].
    + destruct (IH b) as [[r ->]|[(c & r & ->)|(p & u & v & a' & b' & -> & -> & H)]].
      * left. exists r. reflexivity.
      * right; left. exists c, r. reflexivity.
      * right; right. exists (y :: p), u, v, a', b'. auto.
    + right; right. exists [], x, y, a, b. auto.
Qed.

Lemma lex_diff p x y a b : x <> y -> lex (p ++ x :: a) (p ++ y :: b) = Z.compare x y.
Proof.
  intros H. rewrite lex_app_l. simpl. destruct (Z.compare_spec x y); auto; congruence.
Qed.

(** ** The order of a table *)

Lemma ss_app_inv {A} (R : A -> A -> Prop) l1 x l2 :
  StronglySorted R (l1 ++ x :: l2) ->
  StronglySorted R l1 /\ StronglySorted R l2 /\
  (forall y, In y l1 -> R y x) /\ (forall y, In y l2 -> R x y) /\
  (forall y z, In y l1 -> In z l2 -> R y z).
Proof.
  induction l1 as [|a l1 IH]; simpl; intros H.
  - apply StronglySorted_inv in H as [H1 H2]. rewrite Forall_forall in H2.
    repeat split; auto; try constructor; simpl; tauto.
  - apply StronglySorted_inv in H as [H1 H2]. destruct (IH H1) as (P1 & P2 & P3 & P4 & P5).
    rewrite Forall_forall in H2.
    assert (Hin : forall y, In y l1 \/ y = x \/ In y l2 -> R a y).
    { intros y Hy. apply H2. rewrite in_app_iff. simpl. intuition (subst; auto). }
    split.
    { constructor; auto. apply Forall_forall. intros y Hy. apply Hin. auto. }
    split; auto. split; [|split; auto].
    + intros y [<-|Hy]; auto.
    + intros y z [<-|Hy] Hz; auto.
Qed.

Lemma ss_app {A} (R : A -> A -> Prop) l1 x l2 :
  StronglySorted R l1 -> StronglySorted R l2 ->
  (forall y, In y l1 -> R y x) -> (forall y, In y l2 -> R x y) ->
  (forall y z, In y l1 -> In z l2 -> R y z) ->
  StronglySorted R (l1 ++ x :: l2).
Proof.
  induction l1 as [|a l1 IH]; simpl; intros H1 H2 H3 H4 H5.
  - constructor; auto. apply Forall_forall; auto.
  - apply StronglySorted_inv in H1 as [H1 H1'].
    constructor.
    + apply IH; auto.
    + apply Forall_forall. intros y Hy. rewrite in_app_iff in Hy. simpl in Hy.
      rewrite Forall_forall in H1'. destruct Hy as [Hy|[<-|Hy]]; auto.
Qed.

Lemma ordered_node e l r :
  ordered (Node e l r) <->
  ordered l /\ ordered r /\
  (forall y, In y (entries l) -> name_lt y e) /\ (forall y, In y (entries r) -> name_lt e y).
Proof.
  unfold ordered; simpl. split.
  - intros H. apply ss_app_inv in H. tauto.
  - intros (H1 & H2 & H3 & H4). apply ss_app; auto.
    intros y z Hy Hz. specialize (H3 y Hy). specialize (H4 z Hz).
    unfold name_lt in *. eapply lex_trans; eauto.
Qed.

Lemma wf_node e l r : wf (Node e l r) <-> wf_entry e /\ wf l /\ wf r.
Proof.
  unfold wf; simpl. rewrite Forall_app, Forall_cons_iff. tauto.
Qed.

(** ** Lookup *)

Lemma is_cmd_delim_iff o :
  is_cmd_delim o = true <-> (o = None \/ exists c, o = Some c /\ delimiter c).
Proof.
  unfold is_cmd_delim, delimiter. destruct o as [c|]; [|split; auto].
  rewrite !orb_true_iff, !ceq_true. split.
  - intros H. right. exists c. split; auto. tauto.
  - intros [H|(c' & H & H')]; [discriminate|]. injection H as <-. tauto.
Qed.

Lemma starts_with_key line name rest :
  starts_with line name rest -> key line = key name ++ key rest.
Proof. intros (n & -> & H). rewrite key_app. f_equal. apply key_lower. auto. Qed.

Lemma key_starts line name kr :
  key line = key name ++ kr ->
  starts_with line name (skipn (length name) line) /\ kr = key (skipn (length name) line).
Proof.
  intros H. assert (Hl : key line = key (firstn (length name) line) ++ key (skipn (length name) line)).
  { rewrite <- key_app, firstn_skipn. reflexivity. }
  assert (Hlen : length (key line) = length name + length kr).
  { rewrite H, app_length, key_length. reflexivity. }
  rewrite key_length in Hlen.
  assert (Hf : key (firstn (length name) line) = key name /\ key (skipn (length name) line) = kr).
  { rewrite H in Hl.
    assert (Hn : length (key name) = length (key (firstn (length name) line))).
    { rewrite !key_length, firstn_length. lia. }
    revert Hl Hn. generalize (key name) (key (firstn (length name) line)) (key (skipn (length name) line)).
    clear. intros a b c. revert b. induction a as [|x a IH]; intros [|y b] H1 H2; simpl in *; try discriminate; auto.
    injection H1 as -> H1. injection H2 as H2. destruct (IH b H1 H2). subst; auto. }
  destruct Hf as [H1 H2]. split; auto.
  exists (firstn (length name) line). split; [symmetry; apply firstn_skipn|]. apply key_lower. auto.
Qed.

(** One node of the search, in terms of keys. *)
Lemma lookup_node line e l r :
  nonul line -> wf_entry e ->
  pBat_GetCommandProc line (Node e l r) =
  if zprefix (key (e_name e)) (key line) then
    if (e_limit e =? 0) || is_cmd_delim (nth_error line (length (e_name e))) then Ret (Some e)
    else pBat_GetCommandProc line r
  else match lex (key line) (key (e_name e)) with
       | Lt => pBat_GetCommandProc line l
       | _ => pBat_GetCommandProc line r
       end.
Proof.
  intros Hl (Hn & Hne & Hlim). cbn [pBat_GetCommandProc].
  pose proof (strnicmp_lex line (e_name e) Hl Hn) as Hc.
  destruct (zprefix (key (e_name e)) (key line)) eqn:Hz.
  - apply Z.compare_eq in Hc. rewrite Hc. cbn [Z.gtb Z.ltb Z.compare].
    apply zprefix_spec in Hz as [kr Hz].
    assert (Hlen : length line = length (e_name e) + length kr).
    { rewrite <- (key_length line), Hz, app_length, key_length. reflexivity. }
    destruct (e_limit e =? 0) eqn:E0; [reflexivity|]. apply Nat.eqb_neq in E0.
    destruct Hlim as [Hlim|Hlim]; [lia|]. rewrite Hlim.
    destruct (Nat.ltb_spec (length line) (length (e_name e))); [lia|].
    cbn [orb]. destruct (is_cmd_delim (nth_error line (length (e_name e)))) eqn:Ed; [reflexivity|].
    pose proof (stricmp_lex line (e_name e) Hl Hn) as Hs.
    destruct kr as [|k kr].
    { exfalso. rewrite Nat.add_0_r in Hlen.
      assert (nth_error line (length (e_name e)) = None) by (apply nth_error_None; simpl in Hlen; lia).
      rewrite H0 in Ed. discriminate. }
    rewrite Hz, lex_prefix in Hs. apply zcmp_gt in Hs. rewrite Hs. reflexivity.
  - destruct (lex (key line) (key (e_name e))) eqn:El.
    + apply lex_eq in El. exfalso. rewrite El in Hz.
      assert (zprefix (key (e_name e)) (key (e_name e)) = true)
        by (apply zprefix_spec; exists []; rewrite app_nil_r; auto). congruence.
    + destruct (strnicmp line (e_name e) (length (e_name e)) >? 0)%Z eqn:E.
      * apply zcmp_gt in E. congruence.
      * apply zcmp_lt in Hc. rewrite Hc. reflexivity.
    + apply zcmp_gt in Hc. rewrite Hc. reflexivity.
Qed.

Definition selected (line : cstr) (e : entry) : Prop :=
  exists rest, starts_with line (e_name e) rest /\ (e_limit e <> 0 -> stops rest).

Lemma nth_stops line n :
  n <= length line -> is_cmd_delim (nth_error line n) = true -> stops (skipn n line).
Proof.
  intros Hn H. apply is_cmd_delim_iff in H as [H|(c & H & Hd)].
  - left. apply nth_error_None in H. apply skipn_all2. lia.
  - right. exists c, (skipn (S n) line). split; auto.
    clear Hn Hd. revert line H. induction n as [|n IH]; intros [|x line] H; simpl in *; try discriminate.
    + congruence.
    + auto.
Qed.

Lemma lookup_sound line t :
  nonul line -> wf t ->
  exists r, pBat_GetCommandProc line t = Ret r /\
            forall e, r = Some e -> In e (entries t) /\ selected line e.
Proof.
  intros Hl. induction t as [|e l IHl r IHr]; intros Hw.
  - exists None. split; auto. discriminate.
  - apply wf_node in Hw as (He & Hwl & Hwr).
    rewrite lookup_node by auto.
    destruct (IHl Hwl) as (rl & Hrl & Hsl). destruct (IHr Hwr) as (rr & Hrr & Hsr).
    assert (Gl : exists r0, pBat_GetCommandProc line l = Ret r0 /\
              forall e0, r0 = Some e0 -> In e0 (entries (Node e l r)) /\ selected line e0).
    { exists rl. split; auto. intros e0 H. apply Hsl in H as [H1 H2]. split; auto. simpl.
      apply in_or_app; auto. }
    assert (Gr : exists r0, pBat_GetCommandProc line r = Ret r0 /\
              forall e0, r0 = Some e0 -> In e0 (entries (Node e l r)) /\ selected line e0).
    { exists rr. split; auto. intros e0 H. apply Hsr in H as [H1 H2]. split; auto. simpl.
      apply in_or_app; right; simpl; auto. }
    destruct (zprefix (key (e_name e)) (key line)) eqn:Hz.
    + destruct ((e_limit e =? 0) || is_cmd_delim (nth_error line (length (e_name e)))) eqn:Ed; auto.
      exists (Some e). split; auto. intros e0 H. injection H as <-.
      split; [simpl; apply in_or_app; right; simpl; auto|].
      apply zprefix_spec in Hz as [kr Hz].
      pose proof (key_starts line (e_name e) kr Hz) as [H1 H2].
      eexists. split; [exact H1|]. intros H0.
      apply orb_true_iff in Ed as [Ed|Ed]; [apply Nat.eqb_eq in Ed; congruence|].
      apply nth_stops; auto.
      rewrite <- (key_length line), Hz, app_length, key_length. lia.
    + destruct (lex (key line) (key (e_name e))); auto.
Qed.

(** Completeness, general form.  [rest] sorts before whatever follows [name] in
    longer registered names, and registered names that end inside [name] do not
    end at a delimiter. *)
Definition unshadowed (t : tree) (name rest : cstr) : Prop :=
  (forall e' x, In e' (entries t) -> x <> [] -> key (e_name e') = key (name ++ x) ->
     ~ (exists r, starts_with rest x r) /\ lex (key rest) (key x) = Lt) /\
  (forall e' c y, In e' (entries t) -> e_limit e' <> 0 -> key name = key (e_name e' ++ c :: y) ->
     ~ delimiter c).

Lemma delimiter_tolower c d : tolower c = tolower d -> delimiter c -> delimiter d.
Proof.
  intros H Hc.
  assert (Hall : (negb (is_cmd_delim (Some (tolower d))) || is_cmd_delim (Some d)) = true).
  { clear H. revert d. apply (ascii_forall (fun d => negb (is_cmd_delim (Some (tolower d))) || is_cmd_delim (Some d))).
    vm_compute. reflexivity. }
  assert (Hc2 : tolower c = c).
  { destruct Hc as [->|[->|[->|[->|[->| ->]]]]]; reflexivity. }
  rewrite Hc2 in H. rewrite <- H in Hall.
  assert (Hc3 : is_cmd_delim (Some c) = true) by (apply is_cmd_delim_iff; right; eauto).
  rewrite Hc3 in Hall. simpl negb in Hall. cbn [orb] in Hall.
  apply is_cmd_delim_iff in Hall as [Hx|(x & Hx & Hd)]; [discriminate|]. injection Hx as <-. auto.
Qed.

Lemma nth_app_split (a : cstr) n c : nth_error a n = Some c -> exists p q, a = p ++ c :: q /\ length p = n.
Proof. apply nth_error_split. Qed.

Lemma lookup_complete line t e rest :
  nonul line -> wf t -> ordered t -> In e (entries t) ->
  starts_with line (e_name e) rest -> (e_limit e <> 0 -> stops rest) ->
  unshadowed t (e_name e) rest ->
  pBat_GetCommandProc line t = Ret (Some e) \/
  exists e', pBat_GetCommandProc line t = Ret (Some e') /\ In e' (entries t) /\ e_limit e' = 0 /\
             exists c y, key (e_name e) = key (e_name e' ++ c :: y).
Proof.
  intros Hl. induction t as [|e1 l IHl r IHr]; intros Hw Ho Hin Hst Hstop Hun; [contradiction|].
  apply wf_node in Hw as (He & Hwl & Hwr).
  apply ordered_node in Ho as (Hol & Hor & Hlt & Hgt).
  pose proof (starts_with_key _ _ _ Hst) as Hkl.
  rewrite lookup_node by auto.
  assert (InL : forall y, In y (entries l) -> In y (entries (Node e1 l r)))
    by (intros; simpl; apply in_or_app; auto).
  assert (InR : forall y, In y (entries r) -> In y (entries (Node e1 l r)))
    by (intros; simpl; apply in_or_app; simpl; auto).
  assert (InE : In e1 (entries (Node e1 l r))) by (simpl; apply in_or_app; simpl; auto).
  assert (Hunl : unshadowed l (e_name e) rest).
  { destruct Hun as [U1 U2]. split.
    - intros e' x H. apply U1; auto.
    - intros e' c y H. apply U2; auto. }
  assert (Hunr : unshadowed r (e_name e) rest).
  { destruct Hun as [U1 U2]. split.
    - intros e' x H. apply U1; auto.
    - intros e' c y H. apply U2; auto. }
  assert (GL : In e (entries l) ->
     pBat_GetCommandProc line l = Ret (Some e) \/
     exists e', pBat_GetCommandProc line l = Ret (Some e') /\ In e' (entries (Node e1 l r)) /\ e_limit e' = 0 /\
             exists c y, key (e_name e) = key (e_name e' ++ c :: y)).
  { intros H. destruct (IHl Hwl Hol H Hst Hstop Hunl) as [H1|(e' & H1 & H2 & H3 & H4)]; auto.
    right. exists e'. auto 6. }
  assert (GR : In e (entries r) ->
     pBat_GetCommandProc line r = Ret (Some e) \/
     exists e', pBat_GetCommandProc line r = Ret (Some e') /\ In e' (entries (Node e1 l r)) /\ e_limit e' = 0 /\
             exists c y, key (e_name e) = key (e_name e' ++ c :: y)).
  { intros H. destruct (IHr Hwr Hor H Hst Hstop Hunr) as [H1|(e' & H1 & H2 & H3 & H4)]; auto.
    right. exists e'. auto 6. }
  (* where e is *)
  assert (Hpos : e1 = e \/ (In e (entries l) /\ name_lt e e1) \/ (In e (entries r) /\ name_lt e1 e)).
  { simpl in Hin. apply in_app_iff in Hin as [H|[H|H]]; auto. }
  clear IHl IHr Hin.
  destruct (lex_cases (key (e_name e1)) (key (e_name e))) as [[x Hx]|[(c & x & Hx)|(p & u & v & a & b & Ha & Hb & Huv)]].
  - (* the node is a prefix of the name *)
    assert (Hz : zprefix (key (e_name e1)) (key line) = true).
    { apply zprefix_spec. rewrite Hkl, Hx, <- app_assoc. eauto. }
    rewrite Hz.
    destruct (Nat.eqb_spec (e_limit e1) 0) as [E0|E0].
    { cbn [orb]. destruct Hpos as [->|[[H Hn]|[H Hn]]]; auto.
      - exfalso. unfold name_lt in Hn. rewrite Hx in Hn. destruct x as [|c x].
        + rewrite app_nil_r, lex_refl in Hn. discriminate.
        + rewrite lex_prefix in Hn. discriminate.
      - right. exists e1. repeat split; auto. destruct x as [|c x].
        + exfalso. unfold name_lt in Hn. rewrite Hx, app_nil_r, lex_refl in Hn. discriminate.
        + apply key_starts in Hx as [(n & Hn1 & Hn2) Hx2].
          destruct (skipn (length (e_name e1)) (e_name e)) as [|c0 y0] eqn:Es; [discriminate|].
          exists c0, y0. rewrite Hn1, !key_app. f_equal. apply key_lower. auto. }
    cbn [orb].
    destruct x as [|kc x].
    { (* same name *)
      rewrite app_nil_r in Hx.
      destruct Hpos as [->|[[H Hn]|[H Hn]]]; try (unfold name_lt in Hn; rewrite Hx, lex_refl in Hn; discriminate).
      assert (Hd : is_cmd_delim (nth_error line (length (e_name e))) = true).
      { apply is_cmd_delim_iff. destruct Hst as (n & -> & Hsn).
        assert (Hlen : length n = length (e_name e)).
        { apply key_lower in Hsn. rewrite <- (key_length n), Hsn, key_length. auto. }
        rewrite nth_error_app2 by lia. rewrite Hlen, Nat.sub_diag.
        destruct (Hstop E0) as [->|(d & r0 & -> & Hd)]; simpl; eauto. }
      rewrite Hd. auto. }
    assert (Hgo : In e (entries r)).
    { destruct Hpos as [->|[[H Hn]|[H Hn]]]; auto.
      - exfalso. apply (f_equal (@length Z)) in Hx. rewrite app_length in Hx. simpl in Hx. lia.
      - exfalso. unfold name_lt in Hn. rewrite Hx, lex_prefix in Hn. discriminate. }
    assert (Hd : is_cmd_delim (nth_error line (length (e_name e1))) = false).
    { apply not_true_is_false. intros Hd.
      destruct Hun as [_ U2].
      pose proof Hx as Hx'. apply key_starts in Hx as [(n & Hn1 & Hn2) Hx2].
      destruct (skipn (length (e_name e1)) (e_name e)) as [|c0 y0] eqn:Es; [discriminate|].
      assert (Hk : key (e_name e) = key (e_name e1 ++ c0 :: y0)).
      { rewrite Hn1, !key_app. f_equal. apply key_lower. auto. }
      apply (U2 e1 c0 y0 InE E0 Hk).
      destruct Hst as (m & Hm1 & Hm2).
      apply key_lower in Hm2. rewrite Hn1 in Hm2.
      apply key_lower in Hn2.
      assert (Ln : length n = length (e_name e1)) by (rewrite <- (key_length n), Hn2, key_length; auto).
      assert (Hnm : exists c1, nth_error m (length (e_name e1)) = Some c1 /\ tolower c1 = tolower c0).
      { assert (Hk2 : nth_error (key m) (length (e_name e1)) = Some (code (tolower c0))).
        { rewrite Hm2, key_app, nth_error_app2; rewrite key_length; [|lia].
          rewrite Ln, Nat.sub_diag. reflexivity. }
        unfold key in Hk2. rewrite nth_error_map in Hk2.
        destruct (nth_error m (length (e_name e1))) as [c1|]; simpl in Hk2; [|discriminate].
        exists c1. split; auto. injection Hk2 as Hk2. apply code_inj. auto. }
      destruct Hnm as (c1 & Hc1 & Hc2).
      rewrite Hm1, nth_error_app1 in Hd by (apply nth_error_Some; congruence).
      rewrite Hc1 in Hd. apply is_cmd_delim_iff in Hd as [Hd|(c2 & Hd & Hdd)]; [discriminate|].
      injection Hd as <-. eapply delimiter_tolower; eauto. }
    rewrite Hd. auto.
  - (* the node extends the name *)
    assert (Hgo : In e (entries l)).
    { destruct Hpos as [->|[[H Hn]|[H Hn]]]; auto.
      - exfalso. apply (f_equal (@length Z)) in Hx. rewrite app_length in Hx. simpl in Hx. lia.
      - exfalso. unfold name_lt in Hn. rewrite Hx, lex_prefix in Hn. discriminate. }
    pose proof (key_starts _ _ _ Hx) as [(n & Hn1 & Hn2) Hx2].
    remember (skipn (length (e_name e)) (e_name e1)) as s eqn:Hs.
    assert (Hsne : s <> []) by (intros ->; discriminate).
    assert (Hk : key (e_name e1) = key (e_name e ++ s)).
    { rewrite Hn1, !key_app. f_equal. apply key_lower. auto. }
    destruct Hun as [U1 _]. destruct (U1 e1 s InE Hsne Hk) as [U1a U1b].
    assert (Hz : zprefix (key (e_name e1)) (key line) = false).
    { apply not_true_is_false. intros Hz. apply zprefix_spec in Hz as [kr Hz].
      rewrite Hkl, Hk, key_app, <- app_assoc in Hz. apply app_inv_head in Hz.
      apply U1a. apply key_starts in Hz as [Hz _]. eauto. }
    rewrite Hz, Hk, Hkl, key_app, lex_app_l, U1b. auto.
  - (* they differ *)
    assert (Hz : zprefix (key (e_name e1)) (key line) = false).
    { apply not_true_is_false. intros Hz. apply zprefix_spec in Hz as [kr Hz].
      rewrite Hkl, Ha, Hb, <- !app_assoc in Hz. apply app_inv_head in Hz. simpl in Hz. congruence. }
    assert (Hlx : lex (key line) (key (e_name e1)) = lex (key (e_name e)) (key (e_name e1))).
    { rewrite Hkl, Hb, Ha, <- app_assoc. cbn [app]. rewrite !lex_diff by auto. reflexivity. }
    rewrite Hz, Hlx.
    destruct Hpos as [->|[[H Hn]|[H Hn]]].
    + exfalso. rewrite Ha in Hb. apply app_inv_head in Hb. congruence.
    + unfold name_lt in Hn. rewrite Hn. auto.
    + unfold name_lt in Hn. apply lex_lt_gt in Hn. rewrite Hn. auto.
Qed.

(** The usual case: what follows the name is the end of the line or a delimiter
    that sorts before the next character of any longer registered name. *)
Definition delimiter_below (t : tree) (name : cstr) (d : ascii) : Prop :=
  forall e' c x, In e' (entries t) -> same_name (e_name e') (name ++ c :: x) ->
    (code d < code (tolower c))%Z.

Lemma key_inj_app a b c d : key a = key b -> key (a ++ c) = key (b ++ d) -> key c = key d.
Proof. intros H H2. rewrite !key_app, H in H2. apply app_inv_head in H2. auto. Qed.

Lemma delim_code d : delimiter d -> code (tolower d) = code d.
Proof. intros [->|[->|[->|[->|[->| ->]]]]]; reflexivity. Qed.

Definition delim_free (s : cstr) : Prop := Forall (fun c => ~ delimiter c) s.

Lemma delim_free_key a c y : delim_free a -> (exists p, key a = key (p ++ c :: y)) -> ~ delimiter c.
Proof.
  intros Ha (p & Hp) Hc.
  assert (Hk : nth_error (key a) (length p) = Some (code (tolower c))).
  { rewrite Hp, key_app, nth_error_app2; rewrite key_length; auto. rewrite Nat.sub_diag. reflexivity. }
  unfold key in Hk. rewrite nth_error_map in Hk.
  destruct (nth_error a (length p)) as [c1|] eqn:E; simpl in Hk; [|discriminate].
  injection Hk as Hk. apply code_inj in Hk. apply nth_error_In in E.
  unfold delim_free in Ha. rewrite Forall_forall in Ha. apply (Ha c1 E).
  eapply delimiter_tolower; [symmetry; exact Hk|auto].
Qed.

Lemma unshadowed_delim t name d rest :
  delim_free name -> delimiter d -> delimiter_below t name d -> unshadowed t name (d :: rest).
Proof.
  intros Hf Hd Hb. split.
  - intros e' x Hin Hx Hk. destruct x as [|c x]; [congruence|].
    assert (Hlt : (code d < code (tolower c))%Z) by (eapply Hb; eauto; apply key_lower; eauto).
    rewrite <- (delim_code d Hd) in Hlt. split.
    + intros (r & Hr). apply starts_with_key in Hr. simpl in Hr. injection Hr as Hr _. lia.
    + simpl. destruct (Z.compare_spec (code (tolower d)) (code (tolower c))); auto; lia.
  - intros e' c y Hin Hlim Hk. eapply delim_free_key; eauto.
Qed.

Lemma unshadowed_nil t name : delim_free name -> unshadowed t name [].
Proof.
  intros Hf. split.
  - intros e' x Hin Hx Hk. destruct x as [|c x]; [congruence|]. split; [|reflexivity].
    intros (r & Hr). apply starts_with_key in Hr. discriminate.
  - intros e' c y Hin Hlim Hk. eapply delim_free_key; eauto.
Qed.

(** ** Registration *)

Lemma add_node x e l r :
  nonul (e_name x) -> nonul (e_name e) ->
  pBat_AddCommandDynamic x (Node e l r) =
  match lex (key (e_name x)) (key (e_name e)) with
  | Gt => Node e l (pBat_AddCommandDynamic x r)
  | Lt => Node e (pBat_AddCommandDynamic x l) r
  | Eq => Node e l r
  end.
Proof.
  intros Hx He. cbn [pBat_AddCommandDynamic]. pose proof (stricmp_lex _ _ Hx He) as H.
  destruct (lex (key (e_name x)) (key (e_name e))).
  - apply Z.compare_eq in H. rewrite H. reflexivity.
  - destruct (stricmp (e_name x) (e_name e) >? 0)%Z eqn:E; [apply zcmp_gt in E; congruence|].
    apply zcmp_lt in H. rewrite H. reflexivity.
  - apply zcmp_gt in H. rewrite H. reflexivity.
Qed.

Definition registered (t : tree) (name : cstr) : Prop :=
  exists e, In e (entries t) /\ same_name (e_name e) name.

Lemma add_present x t :
  wf_entry x -> wf t -> ordered t -> registered t (e_name x) -> pBat_AddCommandDynamic x t = t.
Proof.
  intros Hx. induction t as [|e l IHl r IHr]; intros Hw Ho (y & Hy & Hs); [contradiction|].
  apply wf_node in Hw as (He & Hwl & Hwr). apply ordered_node in Ho as (Hol & Hor & Hlt & Hgt).
  rewrite add_node by (apply Hx || apply He).
  apply key_lower in Hs. simpl in Hy. apply in_app_iff in Hy as [Hy|[<-|Hy]].
  - specialize (Hlt y Hy). unfold name_lt in Hlt. rewrite Hs in Hlt. rewrite Hlt.
    rewrite IHl; auto. exists y. split; auto. apply key_lower; auto.
  - rewrite Hs, lex_refl. reflexivity.
  - specialize (Hgt y Hy). unfold name_lt in Hgt. rewrite Hs in Hgt. apply lex_lt_gt in Hgt. rewrite Hgt.
    rewrite IHr; auto. exists y. split; auto. apply key_lower; auto.
Qed.

Lemma add_fresh x t :
  wf_entry x -> wf t -> ordered t -> ~ registered t (e_name x) ->
  Permutation (entries (pBat_AddCommandDynamic x t)) (x :: entries t) /\
  wf (pBat_AddCommandDynamic x t) /\ ordered (pBat_AddCommandDynamic x t).
Proof.
  intros Hx. induction t as [|e l IHl r IHr]; intros Hw Ho Hn.
  - simpl. split; [auto|]. split; [|repeat constructor]. constructor; [auto|constructor].
  - apply wf_node in Hw as (He & Hwl & Hwr). apply ordered_node in Ho as (Hol & Hor & Hlt & Hgt).
    rewrite add_node by (apply Hx || apply He).
    destruct (lex (key (e_name x)) (key (e_name e))) eqn:El.
    + exfalso. apply Hn. exists e. split; [simpl; apply in_or_app; simpl; auto|].
      apply key_lower. apply lex_eq in El. auto.
    + destruct IHl as (P & W & O); auto.
      { intros (y & Hy & Hs). apply Hn. exists y. split; auto. simpl. apply in_or_app; auto. }
      split; [|split].
      * simpl. rewrite P. reflexivity.
      * apply wf_node. auto.
      * apply ordered_node. split; [auto|]. split; [auto|]. split; auto.
        intros y Hy. eapply Permutation_in in Hy; [|exact P]. destruct Hy as [<-|Hy]; auto.
    + destruct IHr as (P & W & O); auto.
      { intros (y & Hy & Hs). apply Hn. exists y. split; auto. simpl. apply in_or_app; simpl; auto. }
      split; [|split].
      * simpl. rewrite P.
        change (e :: x :: entries r) with ([e] ++ x :: entries r).
        rewrite app_assoc. rewrite <- Permutation_middle. rewrite <- app_assoc. reflexivity.
      * apply wf_node. auto.
      * apply ordered_node. split; [auto|]. split; [auto|]. split; auto.
        intros y Hy. eapply Permutation_in in Hy; [|exact P]. destruct Hy as [<-|Hy]; auto.
        unfold name_lt. apply lex_lt_gt. auto.
Qed.

(** A new command never hides another one. *)
Lemma add_lookup x t line :
  nonul line -> wf_entry x -> wf t ->
  (exists e, pBat_GetCommandProc line t = Ret (Some e) /\
             pBat_GetCommandProc line (pBat_AddCommandDynamic x t) = Ret (Some e)) \/
  (pBat_GetCommandProc line t = Ret None /\
   (pBat_GetCommandProc line (pBat_AddCommandDynamic x t) = Ret None \/
    (pBat_GetCommandProc line (pBat_AddCommandDynamic x t) = Ret (Some x) /\ selected line x))).
Proof.
  intros Hl Hx. induction t as [|e l IHl r IHr]; intros Hw.
  - right. split; auto. simpl pBat_AddCommandDynamic.
    assert (W : wf (Node x Leaf Leaf)) by (apply wf_node; repeat split; try apply Hx; constructor).
    destruct (lookup_sound line _ Hl W) as (r & Hr & Hs). destruct r as [e|]; auto.
    destruct (Hs e eq_refl) as [Hin Hsel]. simpl in Hin. destruct Hin as [<-|[]]. auto.
  - apply wf_node in Hw as (He & Hwl & Hwr).
    destruct (lookup_sound line l Hl Hwl) as (rl & Hrl & _).
    destruct (lookup_sound line r Hl Hwr) as (rr & Hrr & _).
    rewrite add_node by (apply Hx || apply He).
    assert (T : forall t0 ro, pBat_GetCommandProc line t0 = Ret ro ->
      (exists e0, pBat_GetCommandProc line t0 = Ret (Some e0) /\ pBat_GetCommandProc line t0 = Ret (Some e0)) \/
      (pBat_GetCommandProc line t0 = Ret None /\ (pBat_GetCommandProc line t0 = Ret None \/
        (pBat_GetCommandProc line t0 = Ret (Some x) /\ selected line x)))).
    { intros t0 [e0|] H; [left; eauto|right; auto]. }
    destruct (lex (key (e_name x)) (key (e_name e))); rewrite !lookup_node by auto;
      destruct (zprefix (key (e_name e)) (key line));
      try destruct ((e_limit e =? 0) || is_cmd_delim (nth_error line (length (e_name e))));
      try (left; exists e; split; reflexivity);
      try destruct (lex (key line) (key (e_name e))); eauto.
Qed.

(** ** Rebuilding *)

Lemma fill_entries t : Permutation (_pBat_FillInfoFromList t) (entries t).
Proof.
  induction t as [|e l IHl r IHr]; simpl; auto.
  rewrite IHl, IHr. apply Permutation_middle.
Qed.

Lemma sort_insert_perm x l : Permutation (sort_insert x l) (x :: l).
Proof.
  induction l as [|y l IH]; simpl; auto.
  destruct (stricmp (e_name x) (e_name y) <=? 0)%Z; auto.
  rewrite IH. apply perm_swap.
Qed.
Lemma qsort_perm l : Permutation (qsort l) l.
Proof. induction l as [|x l IH]; simpl; auto. rewrite sort_insert_perm. auto. Qed.

Definition distinct (l : list entry) : Prop := NoDup (map (fun e => map tolower (e_name e)) l).

Lemma slice_split {A} (l : list A) b m t :
  b < m -> m < t -> t <= S (length l) ->
  exists x, nth_error l (m - 1) = Some x /\
    firstn (t - 1 - b) (skipn b l) =
    firstn (m - 1 - b) (skipn b l) ++ x :: firstn (t - 1 - m) (skipn m l).
Proof.
  intros H1 H2 H3. destruct (nth_error l (m - 1)) as [x|] eqn:E.
  - exists x. split; auto.
    destruct (nth_error_split _ _ E) as (p & q & -> & Hp).
    assert (Hq : t - 1 - m <= length q).
    { rewrite app_length in H3. simpl in H3. lia. }
    rewrite (skipn_app b p (x :: q)). replace (b - length p) with 0 by lia. cbn [skipn].
    rewrite (skipn_app m p (x :: q)). rewrite (skipn_all2 (n := m) p) by lia.
    replace (m - length p) with 1 by lia. cbn [skipn app].
    rewrite !firstn_app, !skipn_length.
    replace (m - 1 - b - (length p - b)) with 0 by lia. cbn [firstn]. rewrite app_nil_r.
    replace (t - 1 - b - (length p - b)) with (S (t - 1 - m)) by lia. cbn [firstn].
    rewrite !firstn_all2 with (l := skipn b p) by (rewrite skipn_length; lia). reflexivity.
  - apply nth_error_None in E. lia.
Qed.

Lemma distinct_perm l l' : Permutation l l' -> distinct l -> distinct l'.
Proof. intros P. unfold distinct. apply Permutation_NoDup. apply Permutation_map. auto. Qed.

Lemma distinct_cons_fresh x t : distinct (x :: entries t) -> ~ registered t (e_name x).
Proof.
  intros H (y & Hy & Hs). unfold distinct in H. simpl in H. apply NoDup_cons_iff in H as [H _].
  apply H. apply in_map_iff. exists y. auto.
Qed.

Lemma distinct_app_r a b : distinct (a ++ b) -> distinct b.
Proof.
  unfold distinct. rewrite map_app. induction a as [|x a IH]; simpl; auto.
  intros H. apply NoDup_cons_iff in H as [_ H]. auto.
Qed.

Lemma putseed_ok info :
  Forall wf_entry info ->
  forall fuel b t acc,
    t - b < fuel -> b < t -> t <= S (length info) ->
    wf acc -> ordered acc ->
    distinct (firstn (t - 1 - b) (skipn b info) ++ entries acc) ->
    exists t', _pBat_PutSeed fuel info b t acc = Ret t' /\ wf t' /\ ordered t' /\
      Permutation (entries t') (firstn (t - 1 - b) (skipn b info) ++ entries acc).
Proof.
  intros Hinfo. induction fuel as [|f IH]; intros b t acc Hf Hbt Ht Hw Ho Hd; [lia|].
  cbn [_pBat_PutSeed]. pose proof (Nat.div_mod (b + t) 2 ltac:(lia)) as Hm.
  pose proof (Nat.mod_upper_bound (b + t) 2 ltac:(lia)) as Hm2.
  set (m := (b + t) / 2) in *. destruct (Nat.eqb_spec m b) as [E|E].
  - exists acc. replace (t - 1 - b) with 0 by lia. cbn [firstn app]. auto.
  - destruct (slice_split info b m t) as (x & Hx & Hsl); try lia.
    rewrite Hx. rewrite Hsl in *.
    assert (Wx : wf_entry x).
    { rewrite Forall_forall in Hinfo. apply Hinfo. eapply nth_error_In; eauto. }
    remember (firstn (m - 1 - b) (skipn b info)) as A.
    remember (firstn (t - 1 - m) (skipn m info)) as B.
    rewrite <- app_assoc in Hd. cbn [app] in Hd.
    assert (D1 : distinct (x :: entries acc)).
    { apply distinct_app_r with (a := A ++ B). eapply distinct_perm; [|exact Hd].
      rewrite <- app_assoc. apply Permutation_app_head. apply Permutation_middle. }
    destruct (add_fresh x acc Wx Hw Ho (distinct_cons_fresh _ _ D1)) as (P1 & W1 & O1).
    destruct (IH b m (pBat_AddCommandDynamic x acc)) as (t1 & E1 & W2 & O2 & P2); try lia; auto.
    { rewrite <- HeqA. eapply distinct_perm; [apply Permutation_app_head; symmetry; exact P1|].
      apply distinct_app_r with (a := B).
      eapply distinct_perm; [|exact Hd].
      rewrite !app_assoc.
      transitivity (x :: (A ++ B) ++ entries acc).
      - symmetry. rewrite <- app_assoc. apply Permutation_middle.
      - transitivity (x :: (B ++ A) ++ entries acc).
        + constructor. apply Permutation_app_tail. apply Permutation_app_comm.
        + apply Permutation_middle. }
    rewrite E1. cbn [bind]. rewrite <- HeqA in P2.
    assert (Pall : Permutation (B ++ entries t1) (A ++ x :: B ++ entries acc)).
    { rewrite P2, P1. rewrite app_assoc. rewrite <- Permutation_middle.
      rewrite <- (Permutation_middle A). constructor. rewrite (app_assoc A B).
      apply Permutation_app_tail. apply Permutation_app_comm. }
    destruct (IH m t t1) as (t2 & E2 & W3 & O3 & P3); try lia; auto.
    { rewrite <- HeqB. eapply distinct_perm; [symmetry; exact Pall|]. auto. }
    exists t2. rewrite <- HeqB in P3. split; [auto|]. split; [auto|]. split; [auto|].
    rewrite P3, <- app_assoc. cbn [app]. auto.
Qed.

Lemma map_ok info :
  Forall wf_entry info -> distinct info -> length info <> 2 -> length info <> 3 ->
  exists t, pBat_MapCommandInfo info = Ret t /\ wf t /\ ordered t /\ Permutation (entries t) info.
Proof.
  intros Hw Hd H2 H3. unfold pBat_MapCommandInfo.
  pose proof (Nat.div_mod (length info) 2 ltac:(lia)) as Hm.
  pose proof (Nat.mod_upper_bound (length info) 2 ltac:(lia)) as Hm2.
  destruct (Z.eqb_spec (Z.of_nat (length info / 2) - 1) 0) as [E|E]; [lia|].
  pose proof (Permutation_length (qsort_perm info)) as HL.
  assert (Hall : firstn (length info + 1 - 1 - 0) (skipn 0 (qsort info)) = qsort info).
  { cbn [skipn]. apply firstn_all2. lia. }
  destruct (putseed_ok (qsort info)) with (fuel := S (S (length info))) (b := 0) (t := length info + 1) (acc := Leaf)
    as (t & E1 & W & O & P); try lia.
  - eapply Permutation_Forall; [symmetry; apply qsort_perm|auto].
  - constructor.
  - constructor.
  - rewrite Hall. simpl entries. rewrite app_nil_r. eapply distinct_perm; [symmetry; apply qsort_perm|auto].
  - exists t. split; [exact E1|]. split; [auto|]. split; [auto|].
    rewrite P, Hall. simpl entries. rewrite app_nil_r. apply qsort_perm.
Qed.

Lemma ordered_distinct t : ordered t -> distinct (entries t).
Proof.
  unfold ordered, distinct. induction 1 as [|x l Hs IH Hf]; simpl; constructor; auto.
  intros Hin. apply in_map_iff in Hin as (y & Hy & Hin). rewrite Forall_forall in Hf.
  specialize (Hf y Hin). unfold name_lt in Hf.
  assert (key (e_name y) = key (e_name x)) by (apply key_lower; auto).
  rewrite H, lex_refl in Hf. discriminate.
Qed.

Lemma remap_ok t :
  wf t -> ordered t -> length (entries t) <> 2 -> length (entries t) <> 3 ->
  exists t', pBat_ReMapCommandInfo t = Ret t' /\ wf t' /\ ordered t' /\ entries t' = entries t.
Proof.
  intros Hw Ho H2 H3. unfold pBat_ReMapCommandInfo.
  pose proof (fill_entries t) as P. pose proof (Permutation_length P) as PL.
  destruct (map_ok (_pBat_FillInfoFromList t)) as (t' & E & W & O & P'); try lia.
  - eapply Permutation_Forall; [symmetry; exact P|auto].
  - eapply distinct_perm; [symmetry; exact P|]. apply ordered_distinct; auto.
  - exists t'. split; [auto|]. split; [auto|]. split; [auto|].
    assert (PP : Permutation (entries t') (entries t)) by (rewrite P'; auto).
    revert O Ho PP. unfold ordered. generalize (entries t') (entries t). clear.
    induction l as [|x l IH]; intros l0 O Ho PP.
    + apply Permutation_nil in PP. auto.
    + destruct l0 as [|y l0]; [symmetry in PP; apply Permutation_nil in PP; discriminate|].
      apply StronglySorted_inv in O as [O1 O2]. apply StronglySorted_inv in Ho as [Ho1 Ho2].
      rewrite Forall_forall in O2, Ho2.
      assert (x = y).
      { assert (Hx : In x (y :: l0)) by (eapply Permutation_in; [exact PP|left; auto]).
        assert (Hy : In y (x :: l)) by (eapply Permutation_in; [symmetry; exact PP|left; auto]).
        destruct Hx as [|Hx]; auto. destruct Hy as [|Hy]; auto.
        specialize (O2 y Hy). specialize (Ho2 x Hx). unfold name_lt in *.
        apply lex_lt_gt in O2. congruence. }
      subst y. f_equal. apply IH; auto. eapply Permutation_cons_inv; eauto.
Qed.

(** ** Redefinition *)

Definition redefined (e x : entry) : entry :=
  mkEntry (e_name e) (if e_def x then e_proc x else e_proc e) (e_limit x) (e_def x) (e_look x).

Lemma replace_node x e l r :
  nonul (e_name x) -> nonul (e_name e) ->
  pBat_ReplaceCommand x (Node e l r) =
  if zprefix (key (e_name e)) (key (e_name x)) then (Node (redefined e x) l r, true)
  else match lex (key (e_name x)) (key (e_name e)) with
       | Lt => let (l', b) := pBat_ReplaceCommand x l in (Node e l' r, b)
       | _ => let (r', b) := pBat_ReplaceCommand x r in (Node e l r', b)
       end.
Proof.
  intros Hx He. cbn [pBat_ReplaceCommand]. pose proof (strnicmp_lex _ _ Hx He) as H.
  destruct (zprefix (key (e_name e)) (key (e_name x))) eqn:Hz.
  - apply Z.compare_eq in H. rewrite H. reflexivity.
  - destruct (lex (key (e_name x)) (key (e_name e))) eqn:El.
    + apply lex_eq in El. exfalso. rewrite El in Hz.
      assert (zprefix (key (e_name e)) (key (e_name e)) = true)
        by (apply zprefix_spec; exists []; rewrite app_nil_r; auto). congruence.
    + destruct (strnicmp (e_name x) (e_name e) (length (e_name e)) >? 0)%Z eqn:E.
      * apply zcmp_gt in E. congruence.
      * apply zcmp_lt in H. rewrite H. reflexivity.
    + apply zcmp_gt in H. rewrite H. reflexivity.
Qed.

Lemma replace_ok x t :
  wf_entry x -> wf t -> ordered t ->
  registered t (e_name x) ->
  (forall e', In e' (entries t) -> ~ same_name (e_name e') (e_name x) ->
     ~ exists y, starts_with (e_name x) (e_name e') y) ->
  exists l1 e l2 t', entries t = l1 ++ e :: l2 /\ same_name (e_name e) (e_name x) /\
    pBat_ReplaceCommand x t = (t', true) /\ entries t' = l1 ++ redefined e x :: l2.
Proof.
  intros Hx. induction t as [|e l IHl r IHr]; intros Hw Ho (y & Hy & Hs) Hnp; [contradiction|].
  apply wf_node in Hw as (He & Hwl & Hwr). apply ordered_node in Ho as (Hol & Hor & Hlt & Hgt).
  rewrite replace_node by (apply Hx || apply He).
  assert (InE : In e (entries (Node e l r))) by (simpl; apply in_or_app; simpl; auto).
  destruct (zprefix (key (e_name e)) (key (e_name x))) eqn:Hz.
  - exists (entries l), e, (entries r), (Node (redefined e x) l r). split; [reflexivity|].
    split; [|split; reflexivity].
    destruct (list_eq_dec ascii_dec (map tolower (e_name e)) (map tolower (e_name x))) as [H|H]; auto.
    exfalso. apply (Hnp e InE H). apply zprefix_spec in Hz as [kr Hz].
    apply key_starts in Hz as [Hz _]. eauto.
  - apply key_lower in Hs.
    assert (Hnl : forall e', In e' (entries l) -> ~ same_name (e_name e') (e_name x) ->
              ~ exists y, starts_with (e_name x) (e_name e') y)
      by (intros; apply Hnp; auto; simpl; apply in_or_app; auto).
    assert (Hnr : forall e', In e' (entries r) -> ~ same_name (e_name e') (e_name x) ->
              ~ exists y, starts_with (e_name x) (e_name e') y)
      by (intros; apply Hnp; auto; simpl; apply in_or_app; simpl; auto).
    simpl in Hy. apply in_app_iff in Hy as [Hy|[<-|Hy]].
    + specialize (Hlt y Hy). unfold name_lt in Hlt. rewrite Hs in Hlt. rewrite Hlt.
      destruct IHl as (l1 & e0 & l2 & t' & H1 & H2 & H3 & H4); auto.
      { exists y. split; auto. apply key_lower; auto. }
      rewrite H3. exists l1, e0, (l2 ++ e :: entries r), (Node e t' r). split; [|split; [auto|split]].
      * simpl. rewrite H1, <- app_assoc. reflexivity.
      * reflexivity.
      * simpl. rewrite H4, <- app_assoc. reflexivity.
    + exfalso. rewrite Hs in Hz.
      assert (zprefix (key (e_name x)) (key (e_name x)) = true)
        by (apply zprefix_spec; exists []; rewrite app_nil_r; auto). congruence.
    + specialize (Hgt y Hy). unfold name_lt in Hgt. rewrite Hs in Hgt. apply lex_lt_gt in Hgt. rewrite Hgt.
      destruct IHr as (l1 & e0 & l2 & t' & H1 & H2 & H3 & H4); auto.
      { exists y. split; auto. apply key_lower; auto. }
      rewrite H3. exists (entries l ++ e :: l1), e0, l2, (Node e l t'). split; [|split; [auto|split]].
      * simpl. rewrite H1, <- app_assoc. reflexivity.
      * reflexivity.
      * simpl. rewrite H4, <- app_assoc. reflexivity.
Qed.

(** At most one command changes, whatever the table. *)
Lemma replace_one x t t' b :
  nonul (e_name x) -> wf t -> pBat_ReplaceCommand x t = (t', b) ->
  (b = false /\ t' = t) \/
  (b = true /\ exists l1 e l2, entries t = l1 ++ e :: l2 /\ entries t' = l1 ++ redefined e x :: l2 /\
     exists y, starts_with (e_name x) (e_name e) y).
Proof.
  intros Hx. revert t' b. induction t as [|e l IHl r IHr]; intros t' b Hw H.
  - injection H as <- <-. auto.
  - apply wf_node in Hw as (He & Hwl & Hwr).
    rewrite replace_node in H by (auto || apply He).
    destruct (zprefix (key (e_name e)) (key (e_name x))) eqn:Hz.
    + injection H as <- <-. right. split; auto. exists (entries l), e, (entries r).
      split; [reflexivity|]. split; [reflexivity|].
      apply zprefix_spec in Hz as [kr Hz]. apply key_starts in Hz as [Hz _]. eauto.
    + assert (R : forall r' b', pBat_ReplaceCommand x r = (r', b') -> (Node e l r', b') = (t', b) ->
        (b = false /\ t' = Node e l r) \/
        (b = true /\ exists l1 e0 l2, entries (Node e l r) = l1 ++ e0 :: l2 /\
           entries t' = l1 ++ redefined e0 x :: l2 /\ exists y, starts_with (e_name x) (e_name e0) y)).
      { intros r' b' H1 H2. injection H2 as <- <-.
        destruct (IHr _ _ Hwr H1) as [[-> ->]|(-> & l1 & e0 & l2 & E1 & E2 & E3)]; auto.
        right. split; auto. exists (entries l ++ e :: l1), e0, l2. simpl.
        rewrite E1, E2, <- !app_assoc. auto. }
      destruct (lex (key (e_name x)) (key (e_name e))).
      * destruct (pBat_ReplaceCommand x r) as [r' b'] eqn:Er. eauto.
      * destruct (pBat_ReplaceCommand x l) as [l' b'] eqn:Er. injection H as <- <-.
        destruct (IHl _ _ Hwl eq_refl) as [[-> ->]|(-> & l1 & e0 & l2 & E1 & E2 & E3)]; auto.
        right. split; auto. exists l1, e0, (l2 ++ e :: entries r). simpl.
        rewrite E1, E2, <- !app_assoc. auto.
      * destruct (pBat_ReplaceCommand x r) as [r' b'] eqn:Er. eauto.
Qed.

(** ** DEF *)

Lemma lookup_exact_found name t :
  nonul name -> wf t -> ordered t -> registered t name ->
  exists e, pBat_GetCommandProc name t = Ret (Some e).
Proof.
  intros Hl. induction t as [|e1 l IHl r IHr]; intros Hw Ho (y & Hy & Hs); [contradiction|].
  apply wf_node in Hw as (He & Hwl & Hwr). apply ordered_node in Ho as (Hol & Hor & Hlt & Hgt).
  rewrite lookup_node by auto. apply key_lower in Hs. simpl in Hy.
  apply in_app_iff in Hy as [Hy|[<-|Hy]].
  - specialize (Hlt y Hy). unfold name_lt in Hlt. rewrite Hs in Hlt.
    destruct (zprefix (key (e_name e1)) (key name)) eqn:Hz.
    + exfalso. apply zprefix_spec in Hz as [[|k kr] Hz].
      * rewrite app_nil_r in Hz. rewrite Hz, lex_refl in Hlt. discriminate.
      * rewrite Hz, lex_prefix in Hlt. discriminate.
    + rewrite Hlt. apply IHl; auto. exists y. split; auto. apply key_lower; auto.
  - assert (Hz : zprefix (key (e_name e1)) (key name) = true)
      by (rewrite Hs; apply zprefix_spec; exists []; rewrite app_nil_r; auto).
    rewrite Hz.
    assert (nth_error name (length (e_name e1)) = None).
    { apply nth_error_None. rewrite <- (key_length name), <- Hs, key_length. auto. }
    rewrite H. cbn [is_cmd_delim]. rewrite orb_true_r. eauto.
  - specialize (Hgt y Hy). unfold name_lt in Hgt. rewrite Hs in Hgt. apply lex_lt_gt in Hgt.
    assert (G : exists e, pBat_GetCommandProc name r = Ret (Some e)).
    { apply IHr; auto. exists y. split; auto. apply key_lower; auto. }
    destruct (zprefix (key (e_name e1)) (key name)) eqn:Hz.
    + destruct ((e_limit e1 =? 0) || is_cmd_delim (nth_error name (length (e_name e1)))); eauto.
    + rewrite Hgt. auto.
Qed.

Lemma cmd_def_ok name body t :
  nonul name -> name <> [] -> wf t -> ordered t -> 3 <= length (entries t) ->
  exists t' ok, cmd_def false name body t = Ret (t', ok) /\ wf t' /\ ordered t' /\
    if ok then Permutation (entries t') (mkEntry name body (length name) true false :: entries t)
    else t' = t /\ exists e, In e (entries t) /\ selected name e.
Proof.
  intros Hn Hne Hw Ho H3. unfold cmd_def.
  set (x := mkEntry name body (length name) true false).
  assert (Wx : wf_entry x) by (unfold x; split; [auto|split; simpl; auto]).
  destruct (lookup_sound name t Hn Hw) as (r & Hr & Hs). rewrite Hr. cbn [bind].
  destruct r as [e|].
  - exists t, false. destruct (Hs e eq_refl). split; [auto|]. split; [auto|]. split; [auto|]. split; eauto.
  - assert (Hf : ~ registered t (e_name x)).
    { intros H. apply lookup_exact_found in H; auto. destruct H as [e H]. simpl in H. congruence. }
    destruct (add_fresh x t Wx Hw Ho Hf) as (P & W & O).
    pose proof (Permutation_length P) as PL. simpl in PL.
    destruct (remap_ok _ W O) as (t' & E & W' & O' & En); try lia.
    rewrite E. cbn [bind]. destruct t' as [|e l0 r0].
    { exfalso. simpl in En. rewrite <- En in PL. discriminate. }
    exists (Node e l0 r0), true. split; [auto|]. split; [auto|]. split; [auto|]. rewrite En. auto.
Qed.

Lemma duplicate_same t : pBat_DuplicateCommandList t = t.
Proof. induction t as [|[] l IHl r IHr]; simpl; congruence. Qed.

(** ** The built-in table *)

Lemma builtin_table_eq :
  builtin_table = match pBat_MapCommandInfo lpCmdInfo with Ret t => t | _ => Leaf end.
Proof. reflexivity. Qed.
Local Opaque builtin_table lpCmdInfo.

Definition below_check (t : tree) (name : cstr) (d : ascii) : bool :=
  forallb (fun e' => if zprefix (key name) (key (e_name e')) then
                       match nth_error (key (e_name e')) (length name) with
                       | Some k => (code d <? k)%Z
                       | None => true
                       end
                     else true) (entries t).

Lemma below_check_ok t name d : below_check t name d = true -> delimiter_below t name d.
Proof.
  intros H e' c x Hin Hs. unfold below_check in H. rewrite forallb_forall in H. specialize (H e' Hin).
  apply key_lower in Hs. rewrite key_app in Hs.
  assert (Hz : zprefix (key name) (key (e_name e')) = true) by (apply zprefix_spec; eauto).
  rewrite Hz, Hs, nth_error_app2, key_length, Nat.sub_diag in H by (rewrite key_length; lia).
  simpl in H. apply Z.ltb_lt. auto.
Qed.

Definition wf_check (e : entry) : bool :=
  forallb (fun c => negb (ceq c "000"%char)) (e_name e) && negb (length (e_name e) =? 0) &&
  ((e_limit e =? 0) || (e_limit e =? length (e_name e))).
Lemma wf_check_ok e : wf_check e = true -> wf_entry e.
Proof.
  unfold wf_check. rewrite !andb_true_iff, orb_true_iff, negb_true_iff. intros [[H1 H2] H3].
  split; [|split].
  - intros Hin. rewrite forallb_forall in H1. apply H1 in Hin. rewrite ceq_refl in Hin. discriminate.
  - intros E. rewrite E in H2. discriminate.
  - rewrite !Nat.eqb_eq in H3. auto.
Qed.

Fixpoint sorted_check (l : list entry) : bool :=
  match l with
  | [] => true
  | x :: l' => forallb (fun y => match lex (key (e_name x)) (key (e_name y)) with Lt => true | _ => false end) l'
               && sorted_check l'
  end.
Lemma sorted_check_ok l : sorted_check l = true -> StronglySorted name_lt l.
Proof.
  induction l as [|x l IH]; simpl; intros H; constructor; apply andb_true_iff in H as [H1 H2]; auto.
  apply Forall_forall. intros y Hy. rewrite forallb_forall in H1. specialize (H1 y Hy).
  unfold name_lt. destruct (lex (key (e_name x)) (key (e_name y))); auto; discriminate.
Qed.

Lemma builtin_wf : wf builtin_table.
Proof.
  apply Forall_forall. intros e He. apply wf_check_ok.
  assert (H : forallb wf_check (entries builtin_table) = true) by (vm_compute; reflexivity).
  rewrite forallb_forall in H. exact (H e He).
Qed.
Lemma builtin_ordered : ordered builtin_table.
Proof. apply sorted_check_ok. vm_compute. reflexivity. Qed.

Definition entry_eqb (a b : entry) : bool :=
  streqb (e_name a) (e_name b) && streqb (e_proc a) (e_proc b) && (e_limit a =? e_limit b) &&
  Bool.eqb (e_def a) (e_def b) && Bool.eqb (e_look a) (e_look b).
Lemma entry_eqb_ok a b : entry_eqb a b = true -> a = b.
Proof.
  destruct a, b. unfold entry_eqb; simpl. rewrite !andb_true_iff, !streqb_true, !eqb_true_iff, Nat.eqb_eq.
  intros [[[[-> ->] ->] ->] ->]. reflexivity.
Qed.
Lemma subset_check_ok l1 l2 :
  forallb (fun x => existsb (entry_eqb x) l2) l1 = true -> forall x, In x l1 -> In x l2.
Proof.
  intros H x Hx. rewrite forallb_forall in H. specialize (H x Hx). apply existsb_exists in H as (y & Hy & E).
  apply entry_eqb_ok in E. subst; auto.
Qed.

Lemma builtin_entries : Permutation (entries builtin_table) lpCmdInfo.
Proof.
  destruct (map_ok lpCmdInfo) as (t & E & _ & _ & P).
  - apply Forall_forall. intros e He. apply wf_check_ok.
    assert (H : forallb wf_check lpCmdInfo = true) by (vm_compute; reflexivity).
    rewrite forallb_forall in H. exact (H e He).
  - eapply distinct_perm; [|apply ordered_distinct, builtin_ordered].
    apply NoDup_Permutation.
    + apply NoDup_map_inv with (f := fun e => map tolower (e_name e)). apply ordered_distinct, builtin_ordered.
    + apply NoDup_map_inv with (f := fun e => string_of_list_ascii (e_name e)).
      assert (H : let l := map (fun e => string_of_list_ascii (e_name e)) lpCmdInfo in
                  nodup string_dec l = l) by (vm_compute; reflexivity).
      cbv zeta in H. rewrite <- H. apply NoDup_nodup.
    + intros x. split; intros H; revert x H; apply subset_check_ok; vm_compute; reflexivity.
  - vm_compute. discriminate.
  - vm_compute. discriminate.
  - rewrite builtin_table_eq, E. exact P.
Qed.

Definition delims : list ascii := [" "; ","; ";"; "010"; "009"; "/"]%char.
Lemma delims_all d : delimiter d -> In d delims.
Proof. unfold delimiter, delims. simpl. intuition congruence. Qed.

Definition table_check (t : tree) : bool :=
  forallb (fun e =>
    forallb (fun c => negb (is_cmd_delim (Some c))) (e_name e) &&
    forallb (fun e' => negb ((e_limit e' =? 0) && zprefix (key (e_name e')) (key (e_name e)) &&
                             negb (length (e_name e') =? length (e_name e)))) (entries t) &&
    forallb (fun d => (ceq d ";"%char && (streqb (e_name e) (s2l "GOTO") || streqb (e_name e) (s2l "CALL"))) || below_check t (e_name e) d) delims)
    (entries t).

Lemma table_found t e n d rest :
  wf t -> ordered t -> table_check t = true ->
  In e (entries t) -> same_name n (e_name e) -> delimiter d -> nonul n -> nonul rest ->
  ~ (d = ";"%char /\ (e_name e = s2l "GOTO" \/ e_name e = s2l "CALL")) ->
  pBat_GetCommandProc (n ++ d :: rest) t = Ret (Some e).
Proof.
  intros Hw Ho Hb Hin' Hs Hd Hn Hr Hex.
  unfold table_check in Hb. rewrite forallb_forall in Hb. specialize (Hb e Hin').
  rewrite !andb_true_iff in Hb. destruct Hb as [[H1 H2] H3].
  assert (Hnl : nonul (n ++ d :: rest)).
  { unfold nonul in *. rewrite in_app_iff. simpl. intros [H|[H|H]]; auto.
    subst d. destruct Hd as [H|[H|[H|[H|[H|H]]]]]; discriminate. }
  assert (Hf : delim_free (e_name e)).
  { apply Forall_forall. intros c Hc Hdc. rewrite forallb_forall in H1. specialize (H1 c Hc).
    assert (is_cmd_delim (Some c) = true) by (apply is_cmd_delim_iff; right; eauto).
    rewrite H in H1. discriminate. }
  destruct (lookup_complete (n ++ d :: rest) t e (d :: rest) Hnl Hw Ho Hin')
    as [H|(e' & E1 & E2 & E3 & c & y & E4)]; auto.
  - exists n. auto.
  - intros _. right. eauto.
  - apply unshadowed_delim; auto. apply below_check_ok. rewrite forallb_forall in H3.
    specialize (H3 d (delims_all d Hd)). apply orb_true_iff in H3 as [H3|H3]; auto.
    exfalso. apply Hex. apply andb_true_iff in H3 as [H3 H4]. apply ceq_true in H3. apply orb_true_iff in H4. rewrite !streqb_true in H4. auto.
  - exfalso. rewrite forallb_forall in H2. specialize (H2 e' E2).
    rewrite E3 in H2. cbn [Nat.eqb] in H2.
    assert (Hz : zprefix (key (e_name e')) (key (e_name e)) = true)
      by (apply zprefix_spec; rewrite E4, key_app; eauto).
    rewrite Hz in H2. apply (f_equal (@length Z)) in E4. rewrite !key_length, app_length in E4.
    simpl in E4. destruct (Nat.eqb_spec (length (e_name e')) (length (e_name e))); [lia|]. discriminate.
Qed.

Lemma builtin_check : table_check builtin_table = true.
Proof. vm_compute. reflexivity. Qed.

Lemma builtin_found_aux e n d rest :
  In e lpCmdInfo -> same_name n (e_name e) -> delimiter d -> nonul n -> nonul rest ->
  ~ (d = ";"%char /\ (e_name e = s2l "GOTO" \/ e_name e = s2l "CALL")) ->
  pBat_GetCommandProc (n ++ d :: rest) builtin_table = Ret (Some e).
Proof.
  intros Hin. apply table_found.
  - exact builtin_wf.
  - exact builtin_ordered.
  - exact builtin_check.
  - exact (Permutation_in _ (Permutation_sym builtin_entries) Hin).
Qed.

(** CALL followed by a semicolon: the walk down the table, case by case. *)
Lemma same_name_cons n x s :
  same_name n (x :: s) -> exists y n', n = y :: n' /\ tolower y = tolower x /\ same_name n' s.
Proof.
  unfold same_name. destruct n as [|y n']; simpl; intros H; [discriminate|]. injection H as H1 H2. eauto.
Qed.
Lemma tolower_cases x y : tolower y = tolower x -> y = tolower x \/ y = toupper x.
Proof.
  intros H.
  assert (A : forall c, (ceq c (tolower c) || ceq c (toupper (tolower c))) &&
                        ceq (toupper (tolower c)) (toupper c) = true).
  { apply (ascii_forall (fun c => (ceq c (tolower c) || ceq c (toupper (tolower c))) && ceq (toupper (tolower c)) (toupper c))).
    vm_compute. reflexivity. }
  pose proof (A x) as Ax. pose proof (A y) as Ay.
  apply andb_true_iff in Ax as [_ Ax]. apply andb_true_iff in Ay as [Ay _].
  apply ceq_true in Ax. rewrite H in Ay. apply orb_true_iff in Ay as [Ay|Ay]; apply ceq_true in Ay; auto.
  right. congruence.
Qed.

Lemma builtin_call_semicolon e n rest :
  In e lpCmdInfo -> e_name e = s2l "CALL" -> same_name n (s2l "CALL") ->
  pBat_GetCommandProc (n ++ ";"%char :: rest) builtin_table = Ret (Some e).
Proof.
  intros Hin He Hs.
  assert (Ee : e = mkEntry (s2l "CALL") (s2l "CmdCall") (length (s2l "CALL")) false false).
  { assert (H : forallb (fun e => negb (streqb (e_name e) (s2l "CALL")) ||
        entry_eqb e (mkEntry (s2l "CALL") (s2l "CmdCall") (length (s2l "CALL")) false false)) lpCmdInfo = true)
      by (vm_compute; reflexivity).
    rewrite forallb_forall in H. specialize (H e Hin). rewrite He, streqb_refl in H. apply entry_eqb_ok. auto. }
  subst e. clear Hin He.
  apply same_name_cons in Hs as (c1 & n1 & -> & H1 & Hs). apply same_name_cons in Hs as (c2 & n2 & -> & H2 & Hs).
  apply same_name_cons in Hs as (c3 & n3 & -> & H3 & Hs). apply same_name_cons in Hs as (c4 & n4 & -> & H4 & Hs).
  assert (n4 = []) by (destruct n4; [auto|discriminate]). subst n4.
  apply tolower_cases in H1, H2, H3, H4.
  destruct H1 as [->| ->], H2 as [->| ->], H3 as [->| ->], H4 as [->| ->]; vm_compute; reflexivity.
Qed.

Lemma builtin_found e n d rest :
  In e lpCmdInfo -> same_name n (e_name e) -> delimiter d -> nonul n -> nonul rest ->
  ~ (d = ";"%char /\ e_name e = s2l "GOTO") ->
  pBat_GetCommandProc (n ++ d :: rest) builtin_table = Ret (Some e).
Proof.
  intros Hin Hs Hd Hn Hr Hex.
  destruct (ascii_dec d ";"%char) as [->|Hd2].
  - destruct (list_eq_dec ascii_dec (e_name e) (s2l "CALL")) as [Ec|Ec].
    + apply builtin_call_semicolon; auto. rewrite <- Ec. auto.
    + apply builtin_found_aux; auto. intros [_ [H|H]]; auto.
  - apply builtin_found_aux; auto. intros [H _]; auto.
Qed.

(** ** Registration sequences *)
Definition register_all (xs : list entry) (t : tree) : tree :=
  fold_left (fun t x => pBat_AddCommandDynamic x t) xs t.

Lemma registered_dec t name : registered t name \/ ~ registered t name.
Proof.
  unfold registered. induction (entries t) as [|e l IH].
  - right. intros (e & [] & _).
  - destruct (list_eq_dec ascii_dec (map tolower (e_name e)) (map tolower name)) as [H|H].
    + left. exists e. split; [left; auto|auto].
    + destruct IH as [(y & Hy & Hs)|IH].
      * left. exists y. split; [right; auto|auto].
      * right. intros (y & [<-|Hy] & Hs); auto. apply IH. eauto.
Qed.

Lemma register_all_ok xs t :
  Forall wf_entry xs -> wf t -> ordered t ->
  wf (register_all xs t) /\ ordered (register_all xs t) /\
  forall e, In e (entries (register_all xs t)) <->
    In e (entries t) \/
    exists pre post, xs = pre ++ e :: post /\ ~ registered t (e_name e) /\
       forall y, In y pre -> ~ same_name (e_name y) (e_name e).
Proof.
  revert t. induction xs as [|x xs IH]; intros t Hx Hw Ho.
  - simpl. split; [auto|]. split; [auto|]. intros e. split; auto.
    intros [H|(pre & post & H & _)]; auto. destruct pre; discriminate.
  - apply Forall_cons_iff in Hx as [Hx Hxs]. simpl.
    destruct (registered_dec t (e_name x)) as [Hr|Hr].
    + rewrite add_present by auto. destruct (IH t Hxs Hw Ho) as (W & O & HI).
      split; [auto|]. split; [auto|]. intros e. unfold register_all in HI. rewrite HI.
      split; intros [H|(pre & post & E & Hn & Hp)]; auto; right.
      * exists (x :: pre), post. rewrite E. split; [reflexivity|]. split; [auto|].
        intros y [<-|Hy]; auto. intros Hs. apply Hn. destruct Hr as (z & Hz & Hzs). exists z. split; auto.
        unfold same_name in *. congruence.
      * destruct pre as [|p pre]; injection E as -> E.
        -- contradiction.
        -- exists pre, post. split; [auto|]. split; [auto|]. intros y Hy. apply Hp. right; auto.
    + destruct (add_fresh x t Hx Hw Ho Hr) as (P & W1 & O1).
      destruct (IH _ Hxs W1 O1) as (W & O & HI).
      split; [auto|]. split; [auto|]. intros e. unfold register_all in HI. rewrite HI.
      assert (Hin : forall y, In y (entries (pBat_AddCommandDynamic x t)) <-> y = x \/ In y (entries t)).
      { intros y. split; intros H.
        - eapply Permutation_in in H; [|exact P]. destruct H; auto.
        - eapply Permutation_in; [symmetry; exact P|]. destruct H; [left|right]; auto. }
      split.
      * intros [H|(pre & post & E & Hn & Hp)].
        -- apply Hin in H as [->|H]; auto. right. exists [], xs. split; [reflexivity|]. split; auto; try (intros y []).
        -- right. exists (x :: pre), post. rewrite E. split; [reflexivity|]. split.
           ++ intros (z & Hz & Hs). apply Hn. exists z. split; auto. apply Hin. auto.
           ++ intros y [<-|Hy]; auto. intros Hs. apply Hn. exists x. split; auto. apply Hin. auto.
      * intros [H|(pre & post & E & Hn & Hp)].
        -- left. apply Hin. auto.
        -- destruct pre as [|p pre]; injection E as -> E.
           ++ left. apply Hin. auto.
           ++ right. exists pre, post. split; [auto|]. split.
              ** intros (z & Hz & Hs). apply Hin in Hz as [->|Hz].
                 --- apply (Hp p); [left; auto|auto].
                 --- apply Hn. exists z. auto.
              ** intros y Hy. apply Hp. right; auto.
Qed.
