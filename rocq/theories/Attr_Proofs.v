(** Attr_Proofs.v -- proofs about file attributes and list splitting. *)

From Coq Require Import Permutation.
From Verif Require Import Base Attr_Model Attr_Spec.

(** ** Attribute strings *)

Definition pos (a : attr) : N :=
  match a with AReadonly => 0 | AVoid => 2 | AHidden => 4 | ASystem => 6 | AArchive => 8 | ADir => 10 end.

Lemma letter_flag_attr c :
  letter_flag c = match attr_of c with Some a => N.shiftl 1 (pos a) | None => 0%N end.
Proof.
  assert (A : forall c, N.eqb (letter_flag c) (match attr_of c with Some a => N.shiftl 1 (pos a) | None => 0%N end) = true).
  { apply (ascii_forall (fun c => N.eqb (letter_flag c) (match attr_of c with Some a => N.shiftl 1 (pos a) | None => 0%N end))).
    vm_compute. reflexivity. }
  apply N.eqb_eq, A.
Qed.

Lemma attr_of_dash : attr_of "-"%char = None. Proof. reflexivity. Qed.

Lemma pos_inj a b : pos a = pos b -> a = b.
Proof. destruct a, b; simpl; intros H; congruence || discriminate. Qed.
Lemma pos_odd a b : pos a <> (pos b + 1)%N.
Proof. destruct a, b; discriminate. Qed.

Lemma bit_one p k : N.testbit (N.shiftl 1 p) k = (k =? p)%N.
Proof.
  destruct (N.eqb_spec k p) as [->|H].
  - rewrite N.shiftl_spec_high' by lia. rewrite N.sub_diag. reflexivity.
  - destruct (N.lt_ge_cases k p) as [Hl|Hl].
    + apply N.shiftl_spec_low. auto.
    + rewrite N.shiftl_spec_high' by lia. destruct (k - p)%N as [|q] eqn:E; [lia|]. reflexivity.
Qed.

Lemma make_attr_bits s : forall neg w a,
  (N.testbit (make_attr s neg w) (pos a) = true <->
     N.testbit w (pos a) = true \/ exists n, In (a, n) (requests s neg)) /\
  (N.testbit (make_attr s neg w) (pos a + 1) = true <->
     N.testbit w (pos a + 1) = true \/ In (a, true) (requests s neg)).
Proof.
  induction s as [|c s IH]; intros neg w a.
  - simpl. split; (split; [auto|]); (intros [H|H]; [auto|]); [destruct H as [n []]|contradiction].
  - cbn [make_attr requests]. rewrite letter_flag_attr.
    destruct (attr_of c) as [a0|] eqn:Ea.
    + assert (Hc : ceq c "-"%char = false).
      { apply ceq_false. intros ->. rewrite attr_of_dash in Ea. discriminate. }
      rewrite Hc. assert (Hz : (N.shiftl 1 (pos a0) =? 0)%N = false) by (destruct a0; reflexivity).
      rewrite Hz. cbn [negb]. rewrite andb_true_r.
      assert (B1 : N.testbit (N.shiftl 1 (pos a0)) (pos a) = true <-> a = a0).
      { rewrite bit_one, N.eqb_eq. split; [apply pos_inj|congruence]. }
      assert (B2 : N.testbit (N.shiftl 1 (pos a0)) (pos a + 1) = false).
      { rewrite bit_one. apply N.eqb_neq. intros H. symmetry in H. apply pos_odd in H. auto. }
      assert (B3 : N.testbit (N.shiftl (N.shiftl 1 (pos a0)) 1) (pos a) = false).
      { rewrite N.shiftl_shiftl, bit_one. apply N.eqb_neq. apply pos_odd. }
      assert (B4 : N.testbit (N.shiftl (N.shiftl 1 (pos a0)) 1) (pos a + 1) = true <-> a = a0).
      { rewrite N.shiftl_shiftl, bit_one, N.eqb_eq. split.
        - intros H. apply pos_inj. lia.
        - congruence. }
      destruct neg.
      * destruct (IH false (N.lor w (N.lor (N.shiftl 1 (pos a0)) (N.shiftl (N.shiftl 1 (pos a0)) 1))) a) as [H1 H2].
        rewrite H1, H2, !N.lor_spec, B2, B3, !orb_true_iff, B1, B4. simpl.
        split; split; intros H; repeat destruct H as [H|H]; subst; try discriminate; eauto.
        -- destruct H as [n H]. eauto.
        -- destruct H as [n H]. destruct H as [H|H]; [injection H as <- _; auto|eauto].
        -- injection H as <-. auto.
      * destruct (IH false (N.lor w (N.shiftl 1 (pos a0))) a) as [H1 H2].
        rewrite H1, H2, !N.lor_spec, B2, !orb_true_iff, B1. simpl.
        split; split; intros H; repeat destruct H as [H|H]; subst; try discriminate; eauto.
        -- destruct H as [n H]. eauto.
        -- destruct H as [n H]. destruct H as [H|H]; [injection H as <- _; auto|eauto].
    + rewrite andb_false_r. rewrite N.lor_0_r.
      replace (if ceq c "-"%char then true else neg) with (neg || Ascii.eqb c "-"%char).
      * apply IH.
      * unfold ceq. destruct (Ascii.eqb c "-"%char); [apply orb_true_r|apply orb_false_r].
Qed.

Lemma has_bit w p : has w (N.shiftl 1 p) = N.testbit w p.
Proof.
  unfold has. destruct (N.testbit w p) eqn:E.
  - apply negb_true_iff, N.eqb_neq. intros H. apply (f_equal (fun x => N.testbit x p)) in H.
    rewrite N.land_spec, bit_one, E, N.eqb_refl in H. discriminate.
  - apply negb_false_iff, N.eqb_eq. apply N.bits_inj_0. intros k. rewrite N.land_spec, bit_one.
    destruct (N.eqb_spec k p); subst; rewrite ?E; auto using andb_false_r.
Qed.

Lemma has_req s a : has (pBat_MakeFileAttributes s) (N.shiftl 1 (pos a)) = true <-> requested s a.
Proof.
  rewrite has_bit. destruct (make_attr_bits s false 0 a) as [H _]. unfold pBat_MakeFileAttributes.
  rewrite H. unfold requested. rewrite N.bits_0. split; auto. intros [X|X]; auto; discriminate.
Qed.
Lemma has_ref s a : has (pBat_MakeFileAttributes s) (N.shiftl 1 (pos a + 1)) = true <-> refused s a.
Proof.
  rewrite has_bit. destruct (make_attr_bits s false 0 a) as [_ H]. unfold pBat_MakeFileAttributes.
  rewrite H. unfold refused. rewrite N.bits_0. split; auto. intros [X|X]; auto; discriminate.
Qed.

(** The attribute whose refusal is consulted for [a]. *)
Definition consulted (a : attr) : attr :=
  match a with ASystem | AVoid => AHidden | _ => a end.

Lemma step_ok s a a' r (x : bool) (P : Prop) :
  (x = true <-> P) ->
  let w := pBat_MakeFileAttributes s in
  ((if has w (N.shiftl 1 (pos a)) then r && (if has w (N.shiftl 1 (pos a' + 1)) then negb x else x) else r) = true
   <-> r = true /\ (requested s a -> (P <-> ~ refused s a'))).
Proof.
  intros Hx w. pose proof (has_req s a) as H1. pose proof (has_ref s a') as H2. fold w in H1, H2.
  destruct (has w (N.shiftl 1 (pos a))).
  - assert (requested s a) by (apply H1; auto). rewrite andb_true_iff.
    destruct (has w (N.shiftl 1 (pos a' + 1))).
    + assert (refused s a') by (apply H2; auto). rewrite negb_true_iff.
      destruct x; split; intros [Ha Hb]; split; auto; try discriminate.
      * exfalso. apply Hb; auto. apply Hx. auto.
      * intros _. split; [intros HP; apply Hx in HP; discriminate|tauto].
    + assert (~ refused s a') by (intros HR; apply H2 in HR; discriminate).
      destruct x; split; intros [Ha Hb]; split; auto; try discriminate.
      * intros _. split; auto. intros _. apply Hx; auto.
      * apply Hx. apply Hb; auto.
  - assert (~ requested s a) by (intros HR; apply H1 in HR; discriminate). tauto.
Qed.

Lemma check_exact s f :
  pBat_CheckFileAttributes (pBat_MakeFileAttributes s) f = true <->
  forall a, requested s a -> (holds_attr f a <-> ~ refused s (consulted a)).
Proof.
  unfold pBat_CheckFileAttributes.
  destruct (N.eqb_spec (pBat_MakeFileAttributes s) 0) as [E|E].
  - split; auto. intros _ a Ha. apply has_req in Ha. rewrite E in Ha. destruct a; discriminate.
  - cbv zeta.
    change PBAT_CMD_ATTR_ARCHIVE with (N.shiftl 1 (pos AArchive)).
    change PBAT_CMD_ATTR_ARCHIVE_N with (N.shiftl 1 (pos AArchive + 1)).
    change PBAT_CMD_ATTR_HIDEN with (N.shiftl 1 (pos AHidden)).
    change PBAT_CMD_ATTR_HIDEN_N with (N.shiftl 1 (pos AHidden + 1)).
    change PBAT_CMD_ATTR_SYSTEM with (N.shiftl 1 (pos ASystem)).
    change PBAT_CMD_ATTR_VOID with (N.shiftl 1 (pos AVoid)).
    change PBAT_CMD_ATTR_DIR with (N.shiftl 1 (pos ADir)).
    change PBAT_CMD_ATTR_DIR_N with (N.shiftl 1 (pos ADir + 1)).
    change PBAT_CMD_ATTR_READONLY with (N.shiftl 1 (pos AReadonly)).
    change PBAT_CMD_ATTR_READONLY_N with (N.shiftl 1 (pos AReadonly + 1)).
    rewrite (step_ok s AReadonly AReadonly _ _ (holds_attr f AReadonly))
      by (simpl; rewrite andb_true_iff, negb_true_iff; tauto).
    rewrite (step_ok s ADir ADir _ _ (holds_attr f ADir)) by (simpl; tauto).
    rewrite (step_ok s AVoid AHidden _ _ (holds_attr f AVoid)) by (simpl; apply N.eqb_eq).
    rewrite (step_ok s ASystem AHidden _ _ (holds_attr f ASystem)) by (simpl; split; [discriminate|tauto]).
    rewrite (step_ok s AHidden AHidden _ _ (holds_attr f AHidden)) by (simpl; split; [discriminate|tauto]).
    rewrite (step_ok s AArchive AArchive _ _ (holds_attr f AArchive)) by (simpl; split; [discriminate|tauto]).
    split.
    + intros H a Ha. destruct a; simpl consulted; tauto.
    + intros H. pose proof (H AArchive) as H1. pose proof (H AHidden) as H2. pose proof (H ASystem) as H3.
      pose proof (H AVoid) as H4. pose proof (H ADir) as H5. pose proof (H AReadonly) as H6.
      cbn [consulted] in *. clear H. auto 10.
Qed.

(** ** Splitting *)

Lemma chain_ext h h' l : forall p, (forall n, In n l -> h' n = h n) -> chain h p l -> chain h' p l.
Proof.
  induction l as [|n l IH]; intros p Hh; simpl; auto. intros [-> H]. split; auto.
  rewrite Hh by (left; auto). apply IH; auto. intros m Hm. apply Hh. right. auto.
Qed.

(** [build h first l last]: [l] is linked in order in [h], starts at [first] and
    ends at [last], whose own link is not constrained. *)
Fixpoint linked (h : heap) (l : list nat) : Prop :=
  match l with
  | n :: ((m :: _) as l') => h n = Some m /\ linked h l'
  | _ => True
  end.
Definition first (l : list nat) : option nat := match l with [] => None | n :: _ => Some n end.
Definition final (l : list nat) : option nat := match l with [] => None | n :: _ => Some (last l n) end.

Lemma last_indep (l : list nat) : forall b x y, last (b :: l) x = last (b :: l) y.
Proof. induction l as [|c l IH]; intros b x y; auto. apply (IH c). Qed.

Lemma final_snoc l n : final (l ++ [n]) = Some n.
Proof. destruct l as [|a l]; simpl; auto. f_equal. destruct (l ++ [n]) eqn:E; [destruct l; discriminate|].
  rewrite <- E. apply last_last. Qed.
Lemma first_snoc l n : first (l ++ [n]) = match first l with None => Some n | x => x end.
Proof. destruct l; auto. Qed.

Lemma linked_ext h h' l : (forall n, In n l -> Some n <> final l -> h' n = h n) -> NoDup l ->
  linked h l -> linked h' l.
Proof.
  induction l as [|a l IH]; simpl; auto. intros Hh Hnd. destruct l as [|b l]; auto.
  intros [H1 H2]. apply NoDup_cons_iff in Hnd as [Hn1 Hn2]. split.
  - rewrite Hh; auto. simpl. intros E. injection E as E. apply Hn1. rewrite E.
    clear. revert b. induction l as [|c l IH]; intros b; simpl; auto. right. apply IH.
  - apply IH; auto. intros n Hn Hf. apply Hh; auto. intros E. apply Hf. rewrite E. unfold final.
    f_equal. apply last_indep.
Qed.

Lemma linked_snoc h l n :
  linked h l -> (forall m, final l = Some m -> h m = Some n) -> linked h (l ++ [n]).
Proof.
  induction l as [|a l IH]; simpl; auto. destruct l as [|b l].
  - intros _ H. simpl. split; auto.
  - intros [H1 H2] Hf. cbn [app]. split; auto. apply IH; auto. intros m Hm. apply Hf. simpl. rewrite <- Hm.
    simpl. f_equal. apply last_indep.
Qed.

Lemma linked_chain h l :
  linked h l -> (forall m, final l = Some m -> h m = None) -> chain h (first l) l.
Proof.
  induction l as [|a l IH]; simpl; auto. intros H Hf. split; auto. destruct l as [|b l].
  - simpl. apply Hf. auto.
  - destruct H as [H1 H2]. rewrite H1. apply IH; auto. intros m Hm. apply Hf. simpl. rewrite <- Hm. simpl.
    f_equal. apply last_indep.
Qed.

Lemma final_in l m : final l = Some m -> In m l.
Proof.
  destruct l as [|a l]; unfold final; [discriminate|]. intros H. injection H as H.
  destruct (exists_last (l := a :: l)) as (l' & x & E); [discriminate|].
  assert (E2 : last (a :: l) a = m) by exact H. rewrite E in E2 |- *. rewrite last_last in E2. subst x.
  apply in_or_app. right. left. auto.
Qed.

Lemma NoDup_app_remove_r (A : list nat) : forall B, NoDup (A ++ B) -> NoDup A.
Proof.
  induction A as [|a A IH]; intros B H; [constructor|]. cbn [app] in H.
  apply NoDup_cons_iff in H as [H1 H2]. constructor; eauto. intros Hx. apply H1, in_or_app. auto.
Qed.
Lemma NoDup_app_remove_l (A : list nat) : forall B, NoDup (A ++ B) -> NoDup B.
Proof. induction A as [|a A IH]; intros B H; auto. cbn [app] in H. apply NoDup_cons_iff in H. apply IH, H. Qed.

Lemma split_ok check l : forall fuel h A B pIn,
  length l < fuel -> chain h pIn l -> NoDup (A ++ B ++ l) -> linked h A -> linked h B ->
  exists h', split_loop fuel check h pIn (final A) (final B) (first A) (first B) =
               Ret (h', first (A ++ filter check l), first (B ++ filter (fun n => negb (check n)) l)) /\
    chain h' (first (A ++ filter check l)) (A ++ filter check l) /\
    chain h' (first (B ++ filter (fun n => negb (check n)) l)) (B ++ filter (fun n => negb (check n)) l) /\
    forall n, ~ In n (A ++ B ++ l) -> h' n = h n.
Proof.
  induction l as [|n l IH]; intros fuel h A B pIn Hf Hc Hnd HA HB; (destruct fuel as [|f]; [simpl in Hf; lia|]).
  - simpl in Hc. subst pIn. cbn [split_loop filter]. rewrite !app_nil_r in *.
    eexists. split; [reflexivity|].
    assert (NA : NoDup A) by (apply NoDup_app_remove_r in Hnd; auto).
    assert (NB : NoDup B) by (apply NoDup_app_remove_l in Hnd; auto).
    assert (D : forall x, In x A -> ~ In x B).
    { intros x Hx Hy. clear -Hnd Hx Hy. induction A as [|a A IH]; [contradiction|]. cbn [app] in Hnd.
      apply NoDup_cons_iff in Hnd as [H1 H2]. destruct Hx as [->|Hx]; auto. apply H1. apply in_or_app; auto. }
    set (h1 := match final A with Some m => set_next h m None | None => h end).
    set (h2 := match final B with Some m => set_next h1 m None | None => h1 end).
    assert (E1 : forall x, ~ In x A -> h1 x = h x).
    { intros x Hx. unfold h1. destruct (final A) as [m|] eqn:Em; auto. unfold set_next.
      destruct (Nat.eqb_spec x m); auto. subst. exfalso. apply Hx, final_in; auto. }
    assert (E2 : forall x, ~ In x B -> h2 x = h1 x).
    { intros x Hx. unfold h2. destruct (final B) as [m|] eqn:Em; auto. unfold set_next.
      destruct (Nat.eqb_spec x m); auto. subst. exfalso. apply Hx, final_in; auto. }
    split; [|split].
    + apply chain_ext with (h := h1); [intros x Hx; apply E2; auto|]. apply linked_chain.
      * apply linked_ext with (h := h); auto. intros x Hx Hfx. unfold h1. destruct (final A) as [m|]; auto.
        unfold set_next. destruct (Nat.eqb_spec x m); auto. subst. congruence.
      * intros m Hm. unfold h1. rewrite Hm. unfold set_next. rewrite Nat.eqb_refl. auto.
    + apply linked_chain.
      * apply linked_ext with (h := h); auto. intros x Hx Hfx. unfold h2.
        assert (h1 x = h x) by (apply E1; intros H; apply (D x); auto).
        destruct (final B) as [m|]; auto.
        unfold set_next. destruct (Nat.eqb_spec x m); auto. subst. congruence.
      * intros m Hm. unfold h2. rewrite Hm. unfold set_next. rewrite Nat.eqb_refl. auto.
    + intros x Hx. rewrite in_app_iff in Hx. rewrite E2, E1; auto.
  - destruct Hc as [-> Hc]. cbn [split_loop filter].
    assert (Hperm : forall x, In x (A ++ B ++ l) -> x <> n).
    { intros x Hx ->. rewrite app_assoc in Hnd. apply NoDup_remove_2 in Hnd. apply Hnd. rewrite <- app_assoc. auto. }
    assert (Nr : NoDup (A ++ B ++ l)).
    { rewrite app_assoc in Hnd. apply NoDup_remove_1 in Hnd. rewrite <- app_assoc in Hnd. auto. }
    assert (NA : NoDup A) by (apply NoDup_app_remove_r in Nr; auto).
    assert (NB : NoDup B) by (apply NoDup_app_remove_l, NoDup_app_remove_r in Nr; auto).
    assert (DA : forall x, In x A -> ~ In x B /\ ~ In x l /\ x <> n).
    { intros x Hx. split; [|split].
      - intros Hy. clear -Nr Hx Hy. induction A as [|a A IH]; [contradiction|]. cbn [app] in Nr.
        apply NoDup_cons_iff in Nr as [H1 H2]. destruct Hx as [->|Hx]; auto. apply H1. rewrite !in_app_iff; auto.
      - intros Hy. clear -Nr Hx Hy. induction A as [|a A IH]; [contradiction|]. cbn [app] in Nr.
        apply NoDup_cons_iff in Nr as [H1 H2]. destruct Hx as [->|Hx]; auto. apply H1. rewrite !in_app_iff; auto.
      - apply Hperm. rewrite in_app_iff; auto. }
    assert (DB : forall x, In x B -> ~ In x A /\ ~ In x l /\ x <> n).
    { intros x Hx. split; [intros Hy; destruct (DA x Hy); auto|]. split.
      - intros Hy. apply NoDup_app_remove_l in Nr. clear -Nr Hx Hy. induction B as [|a B IH]; [contradiction|].
        cbn [app] in Nr. apply NoDup_cons_iff in Nr as [H1 H2]. destruct Hx as [->|Hx]; auto.
        apply H1. rewrite !in_app_iff; auto.
      - apply Hperm. rewrite !in_app_iff; auto. }
    destruct (check n) eqn:Ec.
    + set (h1 := match final A with Some m => set_next h m (Some n) | None => h end).
      assert (E : (match final A with
                   | Some m => split_loop f check (set_next h m (Some n)) (set_next h m (Some n) n) (Some n) (final B) (first A) (first B)
                   | None => split_loop f check h (h n) (Some n) (final B) (Some n) (first B) end)
                  = split_loop f check h1 (h1 n) (final (A ++ [n])) (final B) (first (A ++ [n])) (first B)).
      { rewrite final_snoc, first_snoc. unfold h1. destruct A as [|a A]; auto. }
      rewrite E. clear E.
      assert (E1 : forall x, ~ In x A -> h1 x = h x).
      { intros x Hx. unfold h1. destruct (final A) as [m|] eqn:Em; auto. unfold set_next.
        destruct (Nat.eqb_spec x m); auto. subst. exfalso. apply Hx, final_in; auto. }
      destruct (IH f h1 (A ++ [n]) B (h1 n)) as (h' & R1 & R2 & R3 & R4).
      * simpl in Hf. lia.
      * rewrite E1 by (intros H; apply DA in H; tauto).
        apply chain_ext with (h := h); auto. intros x Hx. apply E1. intros H. apply DA in H. tauto.
      * rewrite <- app_assoc. cbn [app].
        assert (P : NoDup (n :: A ++ B ++ l)) by (constructor; auto; intros H; apply (Hperm n H); auto).
        clear -P. apply (Permutation_NoDup (l := n :: A ++ B ++ l)); auto.
        apply Permutation_middle.
      * apply linked_snoc.
        -- apply linked_ext with (h := h); auto. intros x Hx Hfx. unfold h1. destruct (final A) as [m|]; auto.
           unfold set_next. destruct (Nat.eqb_spec x m); auto. subst. congruence.
        -- intros m Hm. unfold h1. rewrite Hm. unfold set_next. rewrite Nat.eqb_refl. auto.
      * apply linked_ext with (h := h); auto. intros x Hx _. apply E1. apply DB; auto.
      * exists h'. rewrite <- app_assoc in R1, R2. cbn [app] in R1, R2. cbn [negb].
        split; [exact R1|]. split; [exact R2|]. split; [exact R3|].
        intros x Hx. rewrite R4, E1; auto.
        -- intros H. apply Hx. rewrite in_app_iff; auto.
        -- rewrite !in_app_iff in *. simpl in *. tauto.
    + set (h1 := match final B with Some m => set_next h m (Some n) | None => h end).
      assert (E : (match final B with
                   | Some m => split_loop f check (set_next h m (Some n)) (set_next h m (Some n) n) (final A) (Some n) (first A) (first B)
                   | None => split_loop f check h (h n) (final A) (Some n) (first A) (Some n) end)
                  = split_loop f check h1 (h1 n) (final A) (final (B ++ [n])) (first A) (first (B ++ [n]))).
      { rewrite final_snoc, first_snoc. unfold h1. destruct B as [|a B]; auto. }
      rewrite E. clear E.
      assert (E1 : forall x, ~ In x B -> h1 x = h x).
      { intros x Hx. unfold h1. destruct (final B) as [m|] eqn:Em; auto. unfold set_next.
        destruct (Nat.eqb_spec x m); auto. subst. exfalso. apply Hx, final_in; auto. }
      destruct (IH f h1 A (B ++ [n]) (h1 n)) as (h' & R1 & R2 & R3 & R4).
      * simpl in Hf. lia.
      * rewrite E1 by (intros H; apply DB in H; tauto).
        apply chain_ext with (h := h); auto. intros x Hx. apply E1. intros H. apply DB in H. tauto.
      * rewrite <- app_assoc. cbn [app]. auto.
      * apply linked_ext with (h := h); auto. intros x Hx _. apply E1. apply DA; auto.
      * apply linked_snoc.
        -- apply linked_ext with (h := h); auto. intros x Hx Hfx. unfold h1. destruct (final B) as [m|]; auto.
           unfold set_next. destruct (Nat.eqb_spec x m); auto. subst. congruence.
        -- intros m Hm. unfold h1. rewrite Hm. unfold set_next. rewrite Nat.eqb_refl. auto.
      * exists h'. rewrite <- app_assoc in R1, R3. cbn [app] in R1, R3. cbn [negb].
        split; [exact R1|]. split; [exact R2|]. split; [exact R3|].
        intros x Hx. rewrite R4, E1; auto.
        -- intros H. apply Hx. rewrite !in_app_iff; auto.
        -- rewrite !in_app_iff in *. simpl in *. tauto.
Qed.
