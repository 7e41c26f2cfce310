(** Pipe_Proofs.v -- who owns which descriptor at every moment, what is in the pipes, and that
    the threads never wait for each other in vain *)

From Verif Require Import Base Pipe_Model Pipe_Spec.
From Coq Require Import Permutation Arith Lia List Bool.
Import ListNotations.

Lemma upd_same : forall A (g : nat -> A) i x, upd g i x i = x.
Proof. intros. unfold upd. now rewrite Nat.eqb_refl. Qed.
Lemma upd_other : forall A (g : nat -> A) i x j, j <> i -> upd g i x j = g j.
Proof. intros. unfold upd. now rewrite (proj2 (Nat.eqb_neq j i)). Qed.

(** a table whose entries are exactly those of a list *)
Definition V (tab : nat -> option file) (L : list (nat * file)) : Prop :=
  NoDup (map fst L) /\ forall f x, tab f = Some x <-> In (f, x) L.
Lemma V_perm : forall tab L L', Permutation L L' -> V tab L -> V tab L'.
Proof.
  intros tab L L' P [N H]. split.
  - eapply Permutation_NoDup; [apply Permutation_map; exact P|exact N].
  - intros f x. rewrite H. split; apply Permutation_in; [exact P|now apply Permutation_sym].
Qed.
Lemma V_none : forall tab L f, V tab L -> tab f = None -> ~ In f (map fst L).
Proof.
  intros tab L f [N H] E I. apply in_map_iff in I. destruct I as ((f' & x) & F & I). cbn in F. subst f'.
  apply H in I. congruence.
Qed.
Lemma V_alloc : forall tab L f x, V tab L -> tab f = None -> V (upd tab f (Some x)) ((f, x) :: L).
Proof.
  intros tab L f x HV E. pose proof (V_none _ _ _ HV E) as NI. destruct HV as [N H]. split.
  - cbn. now constructor.
  - intros f' x'. unfold upd. destruct (Nat.eqb_spec f' f) as [->|D].
    + split; [intro X; injection X as <-; now left|]. intros [X|X]; [now inversion X|].
      exfalso. apply NI. apply in_map_iff. now exists (f, x').
    + rewrite H. split; [now right|]. intros [X|X]; [inversion X; congruence|exact X].
Qed.
Lemma V_close : forall tab L f x, V tab ((f, x) :: L) -> V (upd tab f None) L.
Proof.
  intros tab L f x [N H]. cbn in N. inversion N as [|? ? NI N']; subst. split; [exact N'|].
  intros f' x'. unfold upd. destruct (Nat.eqb_spec f' f) as [->|D].
  - split; [discriminate|]. intro I. exfalso. apply NI. apply in_map_iff. now exists (f, x').
  - rewrite H. split; [intros [X|X]; [inversion X; congruence|exact X]|now right].
Qed.
Lemma V_dup2 : forall tab L f y x, V tab ((f, y) :: L) -> V (upd tab f (Some x)) ((f, x) :: L).
Proof.
  intros tab L f y x [N H]. split; [exact N|]. cbn in N. inversion N as [|? ? NI N']; subst.
  intros f' x'. unfold upd. destruct (Nat.eqb_spec f' f) as [->|D].
  - split; [intro X; injection X as <-; now left|]. intros [X|X]; [now inversion X|].
    exfalso. apply NI. apply in_map_iff. now exists (f, x').
  - rewrite H. split; (intros [X|X]; [inversion X; congruence|now right]).
Qed.
Lemma V_in : forall tab L f x, V tab L -> In (f, x) L -> tab f = Some x.
Proof. intros tab L f x [N H] I. now apply H. Qed.
(** there are always free descriptors *)
Lemma V_fresh : forall tab L, V tab L -> exists n, forall f, n <= f -> tab f = None.
Proof.
  intros tab L [N H].
  assert (X : exists n, forall f x, In (f, x) L -> f < n).
  { clear. induction L as [|(g & y) L [n IH]]; [exists 0; intros f x []|]. exists (S (max g n)).
    intros f x [E|I]; [inversion E; lia|]. specialize (IH _ _ I). lia. }
  destruct X as (n & X). exists n. intros f L0. destruct (tab f) as [x|] eqn:E; [|reflexivity].
  apply H, X in E. lia.
Qed.

Local Arguments Nat.ltb : simpl never.
Local Arguments Nat.eqb : simpl never.
Local Arguments Nat.sub : simpl never.

Section Proofs.
Variable Q : Type.
Variable act : nat -> Q -> action Q.
Variable q0 : nat -> Q.
Variables (m cap : nat).
Notation thread := (thread Q).
Notation st := (st Q).
Notation step := (step Q act q0 m cap).
Notation exec := (exec Q act q0 m cap).
Notation begins := (begins Q q0 m).
Notation pc := (pc Q). Notation fin := (fin Q). Notation fout := (fout Q). Notation ferr := (ferr Q).
Notation ro := (ro Q). Notation ri := (ri Q). Notation has := (has Q). Notation oo := (oo Q). Notation oi := (oi Q).
Notation q := (q Q). Notation rgot := (rgot Q). Notation sent := (sent Q). Notation broken := (broken Q).
Notation got := (got Q). Notation heof := (heof Q). Notation hq := (hq Q).
Notation tab := (tab Q). Notation cont := (cont Q). Notation th := (th Q). Notation inp := (inp Q). Notation outp := (outp Q).
Notation is_open := (is_open Q).

(** * What the threads own *)
Definition std (t : thread) := [(fin t, Std 0); (fout t, Std 1); (ferr t, Std 2)].
Definition inraw (t : thread) (j : nat) := if has t then [(ri t, Rd (j - 1))] else [].
Definition outs (k : nat) (t : thread) := if k =? m then [(fout t, Std 1)] else [(fout t, Wr k); (oo t, Std 1)].
Definition owns (k : nat) (t : thread) : list (nat * file) :=
  match pc t with
  | Idle => []
  | MPipe j => std t ++ inraw t j
  | MClone j a b => std t ++ inraw t j ++ [(a, Rd j); (b, Wr j)]
  | O1 => std t ++ (ro t, Wr k) :: inraw t k
  | O2 => std t ++ (ro t, Wr k) :: (oo t, Std 1) :: inraw t k
  | O3 => (fin t, Std 0) :: (fout t, Wr k) :: (ferr t, Std 2) :: (ro t, Wr k) :: (oo t, Std 1) :: inraw t k
  | I1 => (fin t, Std 0) :: (ferr t, Std 2) :: outs k t ++ inraw t k
  | I2 => (fin t, Std 0) :: (ferr t, Std 2) :: (oi t, Std 0) :: outs k t ++ inraw t k
  | I3 => (fin t, Rd (k - 1)) :: (ferr t, Std 2) :: (oi t, Std 0) :: outs k t ++ inraw t k
  | Run => (ferr t, Std 2) :: outs k t ++ (if has t then [(fin t, Rd (k - 1)); (oi t, Std 0)] else [(fin t, Std 0)])
  | P1 => (ferr t, Std 2) :: outs k t ++ [(fin t, Rd (k - 1)); (oi t, Std 0)]
  | P2 => (ferr t, Std 2) :: outs k t ++ [(fin t, Std 0); (oi t, Std 0)]
  | P3 => (ferr t, Std 2) :: outs k t ++ [(fin t, Std 0)]
  | P4 => std t ++ [(oo t, Std 1)]
  | C1 => std t
  | C2 => [(fout t, Std 1); (ferr t, Std 2)]
  | C3 => [(ferr t, Std 2)]
  | End => if k =? m then std t else []
  end.
(** where a thread can be *)
Definition fit (k : nat) (t : thread) : Prop :=
  match pc t with
  | Idle => k < m
  | MPipe j => k = m /\ j <= m /\ has t = (0 <? j)
  | MClone j _ _ => k = m /\ j < m /\ has t = (0 <? j)
  | O1 | O2 | O3 | P3 | P4 | C1 | C2 | C3 => k < m /\ has t = (0 <? k)
  | I1 | I2 | I3 | P1 | P2 => has t = true /\ 0 < k
  | Run | End => has t = (0 <? k)
  end.
(** how many threads there are *)
Definition spawned (p : place) : nat := match p with MPipe j | MClone j _ _ => j | _ => m end.
Definition all (g : nat -> thread) := flat_map (fun i => owns i (g i)) (seq 0 (S m)).
Definition rest (g : nat -> thread) (k : nat) := flat_map (fun i => if i =? k then [] else owns i (g i)) (seq 0 (S m)).
Local Arguments rest : simpl never.
Local Arguments all : simpl never.

Lemma fm_ext : forall (F G : nat -> list (nat * file)) l, (forall i, In i l -> F i = G i) -> flat_map F l = flat_map G l.
Proof. intros F G. induction l as [|i l IH]; intros H; [reflexivity|]. cbn. rewrite H, IH; [reflexivity| |now left]. intros j J. apply H. now right. Qed.
Lemma fm_split : forall (F : nat -> list (nat * file)) k n, k <= n ->
  Permutation (flat_map F (seq 0 (S n))) (F k ++ flat_map (fun i => if i =? k then [] else F i) (seq 0 (S n))).
Proof.
  intros F k n L.
  assert (E : seq 0 (S n) = seq 0 k ++ k :: seq (S k) (n - k)).
  { replace (S n) with (k + S (n - k)) by lia. rewrite seq_app. reflexivity. }
  rewrite E, !flat_map_app. cbn. rewrite Nat.eqb_refl. cbn.
  rewrite (fm_ext (fun i => if i =? k then [] else F i) F (seq 0 k)).
  2:{ intros i I. apply in_seq in I. now rewrite (proj2 (Nat.eqb_neq i k)) by lia. }
  rewrite (fm_ext (fun i => if i =? k then [] else F i) F (seq (S k) (n - k))).
  2:{ intros i I. apply in_seq in I. now rewrite (proj2 (Nat.eqb_neq i k)) by lia. }
  apply Permutation_app_swap_app.
Qed.
Lemma all_split : forall g k, k <= m -> Permutation (all g) (owns k (g k) ++ rest g k).
Proof. intros g k L. unfold all, rest. apply (fm_split (fun i => owns i (g i))). exact L. Qed.
Lemma rest_upd : forall g k t, rest (upd g k t) k = rest g k.
Proof.
  intros g k t. apply fm_ext. intros i _. destruct (Nat.eqb_spec i k) as [->|D]; [reflexivity|]. now rewrite upd_other.
Qed.
Lemma V_upd : forall tab g k t, k <= m -> V tab (owns k t ++ rest g k) -> V tab (all (upd g k t)).
Proof.
  intros tb g k t L H. eapply V_perm; [|exact H]. apply Permutation_sym.
  etransitivity; [apply all_split with (k := k); exact L|]. now rewrite upd_same, rest_upd.
Qed.

Variables (input : cstr) (f0 f1 f2 : nat).
Record ainv (s : st) : Prop := {
  a_fit : forall k, k <= m -> fit k (th s k);
  a_v : V (tab s) (all (th s));
  a_sp : forall k, k < m -> pc (th s k) = Idle <-> spawned (pc (th s m)) <= k;
  a_main : fin (th s m) = f0 /\ fout (th s m) = f1 /\ ferr (th s m) = f2
}.
Lemma a_vk : forall s k, ainv s -> k <= m -> V (tab s) (owns k (th s k) ++ rest (th s) k).
Proof. intros s k A L. eapply V_perm; [apply all_split; exact L|apply a_v; exact A]. Qed.
Lemma a_tab : forall s k f x, ainv s -> k <= m -> In (f, x) (owns k (th s k)) -> tab s f = Some x.
Proof. intros s k f x A L I. eapply V_in; [apply a_vk; eassumption|]. apply in_app_iff. now left. Qed.
(** who owns an open descriptor *)
Lemma a_owner : forall s f x, ainv s -> tab s f = Some x -> exists k, k <= m /\ In (f, x) (owns k (th s k)).
Proof.
  intros s f x A E. destruct (a_v _ A) as [_ H]. apply H in E. unfold all in E. apply in_flat_map in E.
  destruct E as (k & K & I). apply in_seq in K. exists k. split; [lia|exact I].
Qed.

Lemma step1 : forall s s' k t', ainv s -> k <= m -> th s' = upd (th s) k t' -> fit k t' -> pc t' <> Idle -> pc (th s k) <> Idle ->
  (k = m -> spawned (pc t') = spawned (pc (th s k))) ->
  fin t' = fin (th s k) -> fout t' = fout (th s k) -> ferr t' = ferr (th s k) ->
  V (tab s') (owns k t' ++ rest (th s) k) -> ainv s'.
Proof.
  intros s s' k t' A L E F N N0 SP E1 E2 E3 HV. destruct A as [AF AV AS AM]. split; rewrite E.
  - intros i Li. destruct (Nat.eq_dec i k) as [->|D]; [now rewrite upd_same|rewrite upd_other by exact D; now apply AF].
  - apply V_upd; assumption.
  - intros i Li. destruct (Nat.eq_dec m k) as [->|D].
    + rewrite upd_same, SP by reflexivity. rewrite upd_other by lia. now apply AS.
    + rewrite (upd_other _ _ _ _ m D). destruct (Nat.eq_dec i k) as [->|D'].
      * rewrite upd_same. specialize (AS k Li). split; [now intro|]. intro X. apply AS in X. congruence.
      * rewrite upd_other by exact D'. now apply AS.
  - destruct (Nat.eq_dec m k) as [->|D].
    + rewrite upd_same, E1, E2, E3. exact AM.
    + rewrite upd_other by exact D. exact AM.
Qed.

Ltac pull a r :=
  match r with
  | a :: ?l2 => constr:((@nil (nat * file), l2))
  | ?b :: ?t => let p := pull a t in match p with (?x, ?y) => constr:((b :: x, y)) end
  end.
Ltac perm :=
  cbn [app]; repeat match goal with
  | |- Permutation ?l ?l => apply Permutation_refl
  | |- Permutation (?a :: ?l) ?r => let p := pull a r in
      match p with (?x, ?y) => change (Permutation (a :: l) (x ++ a :: y)); apply Permutation_cons_app; cbn [app] end
  end.
(** what is known of the thread, with its descriptors *)
Ltac open_k A L E :=
  let HV := fresh "HV" in let HF := fresh "HF" in
  pose proof (a_vk _ _ A L) as HV; pose proof (a_fit _ A _ L) as HF;
  unfold owns in HV; unfold fit in HF; rewrite E in HV, HF; cbn beta iota in HV, HF.
(** the entry [f] of the table, put first *)
Lemma V_take : forall tb L f x L', V tb L -> Permutation L ((f, x) :: L') -> V tb ((f, x) :: L') /\ tb f = Some x.
Proof.
  intros tb L f x L' H P. pose proof (V_perm _ _ _ P H) as H'. split; [exact H'|]. eapply V_in; [exact H'|now left].
Qed.
Lemma has_k : forall (b : bool) k, b = (0 <? k) -> (b = true <-> 0 < k).
Proof. intros b k ->. apply Nat.ltb_lt. Qed.

Ltac bools :=
  unfold outs, inraw, std in *;
  repeat match goal with
  | H : _ /\ _ |- _ => destruct H
  | H : has ?t = true |- _ => rewrite !H in *; clear H
  | |- context [if has ?t then _ else _] => destruct (has t) eqn:?
  | |- context [?k =? m] => destruct (Nat.eqb_spec k m); [subst|]
  end.

Theorem ainv_step : forall s k s', ainv s -> k <= m -> step s k s' -> ainv s'.
Proof.
  intros s k s' A L St. inversion St; subst s'; clear St;
    match goal with E : pc (th s k) = _ |- _ => open_k A L E end.
  - (* s_pipe *)
    eapply step1 with (s := s) (k := k) (t' := with_pc Q (th s k) (MClone j a b)); try reflexivity; try eassumption.
    + unfold fit. cbn. tauto.
    + discriminate.
    + rewrite H. discriminate.
    + rewrite H. reflexivity.
    + cbn [tab set_cont set_th set_tab]. unfold owns. cbn [pc with_pc].
      eapply V_perm; [|apply V_alloc; [apply V_alloc; [exact HV|exact H1]|rewrite upd_other by congruence; exact H2]].
      unfold std, inraw. cbn. destruct (has (th s k)); perm.
  - (* s_clone *)
    destruct HF as (-> & Lj & HF).
    assert (J : pc (th s j) = Idle).
    { apply (a_sp _ A j Lj). rewrite H. cbn. lia. }
    destruct A as [AF AV AS AM]. split; cbn [th tab set_th set_tab].
    + intros i Li. destruct (Nat.eq_dec i j) as [->|D]; [rewrite upd_same; unfold fit; cbn; tauto|].
      rewrite upd_other by exact D. destruct (Nat.eq_dec i m) as [->|D']; [rewrite upd_same; unfold fit; cbn; intuition lia|].
      rewrite upd_other by exact D'. now apply AF.
    + eapply V_upd; [lia|].
      assert (X1 : tab s (fin (th s m)) = Some (Std 0)) by (eapply V_in; [exact HV|unfold std; cbn; tauto]).
      assert (X2 : tab s (fout (th s m)) = Some (Std 1)) by (eapply V_in; [exact HV|unfold std; cbn; tauto]).
      assert (X3 : tab s (ferr (th s m)) = Some (Std 2)) by (eapply V_in; [exact HV|unfold std; cbn; tauto]).
      assert (x1 = Std 0) by congruence. assert (x2 = Std 1) by congruence. assert (x3 = Std 2) by congruence. subst x1 x2 x3.
      set (g := upd (th s) m (with_in Q (th s m) (S j) a)) in *.
      assert (P : Permutation (rest g j) ((fin (th s m), Std 0) :: (fout (th s m), Std 1) :: (ferr (th s m), Std 2) :: (a, Rd j) :: rest (th s) m)).
      { assert (P1 : Permutation (rest g j) (all g)).
        { apply Permutation_sym. etransitivity; [apply all_split with (k := j); lia|].
          unfold g at 1. rewrite upd_other by lia. unfold owns. rewrite J. reflexivity. }
        etransitivity; [exact P1|]. etransitivity; [apply all_split with (k := m); lia|].
        unfold g. rewrite upd_same, rest_upd. unfold owns, std, inraw. cbn. replace (S j - 1) with j by lia. reflexivity. }
      eapply V_perm; [apply Permutation_app_head, Permutation_sym, P|].
      unfold owns, new. cbn [pc]. unfold std, inraw. cbn [fin fout ferr ro ri has].
      eapply V_perm; [|apply V_alloc; [apply V_alloc; [apply V_alloc; [exact HV|exact H0]|]|]].
      2:{ rewrite upd_other by congruence. exact H1. }
      2:{ rewrite !upd_other by congruence. exact H2. }
      unfold std, inraw. cbn. destruct (has (th s m)); perm.
    + intros i Li. rewrite (upd_other _ _ j _ m) by lia. rewrite upd_same. cbn [pc with_in spawned].
      destruct (Nat.eq_dec i j) as [->|D]; [rewrite upd_same; cbn; split; [discriminate|lia]|].
      rewrite upd_other by exact D. rewrite upd_other by lia. rewrite AS by exact Li. rewrite H. cbn. lia.
    + rewrite (upd_other _ _ j _ m) by lia. rewrite upd_same. exact AM.
  - (* s_last *)
    destruct HF as (-> & _ & HF).
    eapply step1 with (s := s) (k := m) (t' := with_pc Q (th s m) (after_out Q (th s m))); try reflexivity; try eassumption.
    + unfold fit, after_out. cbn. destruct (has (th s m)) eqn:E; cbn; [|congruence]. split; [reflexivity|]. now apply (has_k true).
    + unfold after_out. cbn. destruct (has _); discriminate.
    + rewrite H. discriminate.
    + intros _. rewrite H. unfold after_out. cbn. destruct (has _); reflexivity.
    + cbn [tab set_th]. eapply V_perm; [|exact HV]. unfold owns, after_out. cbn. destruct (has (th s m)) eqn:E; cbn; unfold outs, inraw, std; rewrite Nat.eqb_refl; cbn; rewrite ?E; perm.
  - (* s_o1 *)
    assert (X : x = Std 1). { cut (tab s (fout (th s k)) = Some (Std 1)); [congruence|]. eapply V_in; [exact HV|unfold std; cbn; tauto]. } subst x.
    eapply step1 with (s := s) (k := k) (t' := with_oo Q (th s k) f); try reflexivity; try eassumption; try (unfold fit; cbn; tauto); try discriminate; try (rewrite H; discriminate).
    + rewrite H. reflexivity.
    + cbn [tab set_th set_tab]. eapply V_perm; [|apply V_alloc; [exact HV|exact H0]]. unfold owns, std, inraw. cbn. destruct (has _); perm.
  - (* s_o2 *)
    assert (X : x = Wr k). { cut (tab s (ro (th s k)) = Some (Wr k)); [congruence|]. eapply V_in; [exact HV|unfold std; cbn; tauto]. } subst x.
    eapply step1 with (s := s) (k := k) (t' := with_pc Q (th s k) O3); try reflexivity; try eassumption; try (unfold fit; cbn; tauto); try discriminate; try (rewrite H; discriminate).
    + rewrite H. reflexivity.
    + cbn [tab set_th set_tab].
      eapply V_perm; [|eapply V_dup2 with (y := Std 1) (L := (fin (th s k), Std 0) :: (ferr (th s k), Std 2) :: (ro (th s k), Wr k) :: (oo (th s k), Std 1) :: inraw (th s k) k ++ rest (th s) k); eapply V_perm; [|exact HV]];
        unfold owns, std, inraw; cbn; destruct (has _); perm.
  - (* s_o3 *)
    eapply step1 with (s := s) (k := k) (t' := with_pc Q (th s k) (after_out Q (th s k))); try reflexivity; try eassumption.
    + unfold fit, after_out. cbn. destruct HF as (HF1 & HF2). destruct (has (th s k)) eqn:E; cbn; [|congruence]. split; [reflexivity|]. now apply (has_k true).
    + unfold after_out. cbn. destruct (has _); discriminate.
    + rewrite H. discriminate.
    + intros ->. lia.
    + cbn [tab set_th set_tab]. eapply V_close with (x := Wr k). eapply V_perm; [|exact HV].
      unfold owns, after_out, outs, inraw. cbn. destruct (Nat.eqb_spec k m); [lia|]. destruct (has (th s k)) eqn:E; cbn; unfold inraw; cbn; rewrite ?E; perm.
  - (* s_i1 *)
    assert (X : x = Std 0). { cut (tab s (fin (th s k)) = Some (Std 0)); [congruence|]. eapply V_in; [exact HV|cbn; tauto]. } subst x.
    eapply step1 with (s := s) (k := k) (t' := with_oi Q (th s k) f); try reflexivity; try eassumption; try (unfold fit; cbn; tauto); try discriminate; try (rewrite H; discriminate).
    + rewrite H. reflexivity.
    + cbn [tab set_th set_tab]. eapply V_perm; [|apply V_alloc; [exact HV|exact H0]]. unfold owns, outs, inraw. cbn. destruct HF as (-> & _). destruct (k =? m); perm.
  - (* s_i2 *)
    destruct HF as (HF & Lk).
    assert (X : x = Rd (k - 1)). { cut (tab s (ri (th s k)) = Some (Rd (k - 1))); [congruence|]. eapply V_in; [exact HV|]. unfold inraw. rewrite HF. rewrite !in_app_iff; cbn. rewrite !in_app_iff; cbn. tauto. } subst x.
    eapply step1 with (s := s) (k := k) (t' := with_pc Q (th s k) I3); try reflexivity; try eassumption; try (unfold fit; cbn; tauto); try discriminate; try (rewrite H; discriminate).
    + rewrite H. reflexivity.
    + cbn [tab set_th set_tab]. cbn [app] in HV. apply V_dup2 with (x := Rd (k - 1)) in HV. exact HV.
  - (* s_i3 *)
    destruct HF as (HF & Lk).
    eapply step1 with (s := s) (k := k) (t' := with_pc Q (th s k) Run); try reflexivity; try eassumption; try discriminate; try (rewrite H; discriminate).
    + unfold fit. cbn. rewrite HF. symmetry. now apply Nat.ltb_lt.
    + rewrite H. reflexivity.
    + cbn [tab set_th set_tab]. eapply V_close with (x := Rd (k - 1)). eapply V_perm; [|exact HV].
      unfold owns, outs, inraw. cbn. rewrite HF. destruct (k =? m); perm.
  - (* s_read *)
    eapply step1 with (s := s) (k := k); try reflexivity; try eassumption; try discriminate; try (rewrite H; discriminate). rewrite H; reflexivity.
  - eapply step1 with (s := s) (k := k); try reflexivity; try eassumption; try discriminate; try (rewrite H; discriminate). rewrite H; reflexivity.
  - eapply step1 with (s := s) (k := k); try reflexivity; try eassumption; try discriminate; try (rewrite H; discriminate). rewrite H; reflexivity.
  - eapply step1 with (s := s) (k := k); try reflexivity; try eassumption; try discriminate; try (rewrite H; discriminate). rewrite H; reflexivity.
  - eapply step1 with (s := s) (k := k); try reflexivity; try eassumption; try discriminate; try (rewrite H; discriminate). rewrite H; reflexivity.
  - eapply step1 with (s := s) (k := k); try reflexivity; try eassumption; try discriminate; try (rewrite H; discriminate). rewrite H; reflexivity.
  - eapply step1 with (s := s) (k := k); try reflexivity; try eassumption; try discriminate; try (rewrite H; discriminate). rewrite H; reflexivity.
  - (* s_stop *)
    eapply step1 with (s := s) (k := k) (t' := with_pc Q (th s k) (stopped Q m k (th s k))); try reflexivity; try eassumption; try discriminate; try (rewrite H; discriminate).
    + unfold fit, stopped, after_in. cbn. destruct (has (th s k)) eqn:E; cbn; [split; [reflexivity|]; now apply (has_k true)|].
      destruct (Nat.eqb_spec k m); cbn; [exact HF|]. split; [lia|exact HF].
    + unfold stopped, after_in. cbn. destruct (has _); [|destruct (k =? m)]; discriminate.
    + intros ->. rewrite H. unfold stopped, after_in. cbn. destruct (has _); [|rewrite Nat.eqb_refl]; reflexivity.
    + cbn [tab set_th]. eapply V_perm; [|exact HV]. unfold owns, stopped, after_in. cbn. destruct (has (th s k)) eqn:E; cbn; [reflexivity|].
      unfold outs. destruct (Nat.eqb_spec k m); cbn; [unfold std; cbn; perm|]. destruct (Nat.eqb_spec k m); [lia|]. perm.
  - (* s_p1 *)
    destruct HF as (HF & Lk).
    assert (X : x = Std 0). { cut (tab s (oi (th s k)) = Some (Std 0)); [congruence|]. eapply V_in; [exact HV|]. rewrite !in_app_iff; cbn. rewrite !in_app_iff; cbn. tauto. } subst x.
    eapply step1 with (s := s) (k := k) (t' := with_pc Q (th s k) P2); try reflexivity; try eassumption; try (unfold fit; cbn; tauto); try discriminate; try (rewrite H; discriminate).
    + rewrite H. reflexivity.
    + cbn [tab set_th set_tab]. eapply V_perm; [|eapply V_dup2 with (y := Rd (k - 1)) (L := (ferr (th s k), Std 2) :: outs k (th s k) ++ (oi (th s k), Std 0) :: rest (th s) k); eapply V_perm; [|exact HV]]; unfold owns, outs; cbn; destruct (k =? m); perm.
  - (* s_p2 *)
    destruct HF as (HF & Lk).
    eapply step1 with (s := s) (k := k) (t' := with_pc Q (th s k) (after_in m k)); try reflexivity; try eassumption.
    + unfold fit, after_in. cbn. destruct (Nat.eqb_spec k m); cbn; rewrite HF; [|split; [lia|]]; symmetry; now apply Nat.ltb_lt.
    + unfold after_in. cbn. destruct (k =? m); discriminate.
    + rewrite H. discriminate.
    + intros ->. rewrite H. unfold after_in. cbn. rewrite Nat.eqb_refl. reflexivity.
    + cbn [tab set_th set_tab]. eapply V_close with (x := Std 0). eapply V_perm; [|exact HV].
      unfold owns, outs, after_in. cbn. destruct (Nat.eqb_spec k m); cbn; [unfold std; cbn; perm|]. destruct (Nat.eqb_spec k m); [lia|]. perm.
  - (* s_p3 *)
    assert (X : x = Std 1). { cut (tab s (oo (th s k)) = Some (Std 1)); [congruence|]. eapply V_in; [exact HV|]. unfold outs. destruct (Nat.eqb_spec k m); [lia|]. cbn. tauto. } subst x.
    eapply step1 with (s := s) (k := k) (t' := with_pc Q (th s k) P4); try reflexivity; try eassumption; try (unfold fit; cbn; tauto); try discriminate; try (rewrite H; discriminate).
    + rewrite H. reflexivity.
    + cbn [tab set_th set_tab]. eapply V_perm; [|eapply V_dup2 with (y := Wr k) (L := (ferr (th s k), Std 2) :: (oo (th s k), Std 1) :: (fin (th s k), Std 0) :: rest (th s) k); eapply V_perm; [|exact HV]]; unfold owns, outs, std; cbn; (destruct (Nat.eqb_spec k m); [lia|]); perm.
  - (* s_p4 *)
    eapply step1 with (s := s) (k := k) (t' := with_pc Q (th s k) C1); try reflexivity; try eassumption; try (unfold fit; cbn; tauto); try discriminate; try (rewrite H; discriminate).
    + rewrite H. reflexivity.
    + cbn [tab set_th set_tab]. eapply V_close with (x := Std 1). eapply V_perm; [|exact HV]. unfold owns, std; cbn. perm.
  - eapply step1 with (s := s) (k := k) (t' := with_pc Q (th s k) C2); try reflexivity; try eassumption; try (unfold fit; cbn; tauto); try discriminate; try (rewrite H; discriminate).
    + rewrite H. reflexivity.
    + cbn [tab set_th set_tab]. eapply V_close with (x := Std 0). exact HV.
  - eapply step1 with (s := s) (k := k) (t' := with_pc Q (th s k) C3); try reflexivity; try eassumption; try (unfold fit; cbn; tauto); try discriminate; try (rewrite H; discriminate).
    + rewrite H. reflexivity.
    + cbn [tab set_th set_tab]. eapply V_close with (x := Std 1). exact HV.
  - eapply step1 with (s := s) (k := k) (t' := with_pc Q (th s k) End); try reflexivity; try eassumption; try (unfold fit; cbn; tauto); try discriminate; try (rewrite H; discriminate).
    + rewrite H. reflexivity.
    + cbn [tab set_th set_tab]. eapply V_close with (x := Std 2). eapply V_perm; [|exact HV]. unfold owns. cbn. destruct (Nat.eqb_spec k m); [lia|]. reflexivity.
Qed.

Notation distinct := (f0 <> f1 /\ f0 <> f2 /\ f1 <> f2).

Lemma ainv_begins : distinct -> ainv (begins input f0 f1 f2).
Proof.
  intros (D1 & D2 & D3). split; cbn [th begins tab].
  - intros k L. unfold fit. cbn. destruct (Nat.eqb_spec k m) as [->|D]; [|lia]. repeat split; lia.
  - eapply V_perm.
    { apply Permutation_sym. etransitivity; [apply all_split with (k := m); lia|].
      assert (E : rest (fun k : nat => T Q (if k =? m then MPipe 0 else Idle) f0 f1 f2 0 0 false 0 0 (q0 k) [] [] false [] false (q0 k)) m = []).
      { unfold rest. rewrite (fm_ext _ (fun _ => [])); [clear; induction (seq 0 (S m)); [reflexivity|cbn; exact IHl]|].
        intros i _. destruct (Nat.eqb_spec i m) as [->|D]; [reflexivity|]. reflexivity. }
      rewrite E, app_nil_r. unfold owns. cbn. rewrite Nat.eqb_refl. reflexivity. }
    unfold std, inraw. cbn.
    assert (V0 : V (fun _ => None) []) by (split; [constructor|intros f x; split; [discriminate|intros []]]).
    apply V_alloc with (f := f0) (x := Std 0) in V0; [|reflexivity].
    apply V_alloc with (f := f1) (x := Std 1) in V0; [|rewrite upd_other by congruence; reflexivity].
    apply V_alloc with (f := f2) (x := Std 2) in V0; [|rewrite !upd_other by congruence; reflexivity].
    eapply V_perm; [|exact V0]. perm.
  - intros k L. cbn. rewrite Nat.eqb_refl. rewrite (proj2 (Nat.eqb_neq k m)) by lia. cbn. split; [lia|reflexivity].
  - cbn. tauto.
Qed.

(** * What the commands read and wrote *)
Definition past (p : place) : Prop := match p with P1 | P2 | P3 | P4 | C1 | C2 | C3 | End => True | _ => False end.
Definition start (k : nat) : did Q := Did Q [] false [] (q0 k).
Definition hist (s : st) (k : nat) : did Q := Did Q (got (th s k)) (heof (th s k)) (sent (th s k)) (hq (th s k)).
Definition dat (t : thread) := (q t, rgot t, sent t, broken t, got t, heof t, hq t).
Definition dat0 (k : nat) := (q0 k, [] : cstr, [] : cstr, false, [] : cstr, false, q0 k).
Record dinv (s : st) : Prop := {
  d_idle : forall k, k < m -> pc (th s k) = Idle -> dat (th s k) = dat0 k;
  d_r0 : rgot (th s 0) ++ inp s = input;
  d_r : forall k, k < m -> rgot (th s (S k)) ++ cont s k = sent (th s k);
  d_o : outp s = sent (th s m);
  d_bm : broken (th s m) = false;
  d_b : forall k, k <= m -> broken (th s k) = true -> ~ is_open s (Rd k);
  d_m : forall k, k <= m -> moves Q act k (start k) (hist s k);
  d_q : forall k, k <= m -> broken (th s k) = false -> q (th s k) = hq (th s k) /\ rgot (th s k) = got (th s k);
  d_p : forall k, k <= m -> prefix (got (th s k)) (rgot (th s k));
  d_s : forall k, k <= m -> past (pc (th s k)) -> act k (q (th s k)) = AStop;
  d_e0 : heof (th s 0) = true -> got (th s 0) = input;
  d_e : forall k, k < m -> heof (th s (S k)) = true ->
        past (pc (th s k)) /\ broken (th s k) = false /\ got (th s (S k)) = sent (th s k)
}.
Lemma dinv_begins : dinv (begins input f0 f1 f2).
Proof.
  split; cbn [begins th inp outp cont Pipe_Model.begins Pipe_Model.th Pipe_Model.inp Pipe_Model.outp Pipe_Model.cont Pipe_Model.rgot Pipe_Model.sent Pipe_Model.pc Pipe_Model.broken Pipe_Model.heof Pipe_Model.got].
  - intros k L _. reflexivity.
  - reflexivity.
  - reflexivity.
  - reflexivity.
  - reflexivity.
  - discriminate.
  - intros k L. constructor.
  - intros k L _. split; reflexivity.
  - intros k L. exists []. reflexivity.
  - intros k L. destruct (k =? m); intros [].
  - discriminate.
  - discriminate.
Qed.

(** steps after which the same bytes are read, written, and in the pipes *)
Lemma quiet : forall s s', dinv s ->
  (forall i, i <= m -> dat (th s' i) = dat (th s i)) ->
  (forall i, i < m -> pc (th s' i) = Idle -> pc (th s i) = Idle) ->
  (forall i, i <= m -> past (pc (th s i)) -> past (pc (th s' i))) ->
  (forall i, i <= m -> past (pc (th s' i)) -> past (pc (th s i)) \/ act i (q (th s i)) = AStop) ->
  (forall i, i < m -> cont s' i = cont s i) -> inp s' = inp s -> outp s' = outp s ->
  (forall i, i < m -> is_open s' (Rd i) -> is_open s (Rd i) \/ pc (th s i) = Idle) -> dinv s'.
Proof.
  intros s s' D HD HI HP HP' HC Hi Ho HR.
  assert (Eq : forall i, i <= m -> q (th s' i) = q (th s i) /\ rgot (th s' i) = rgot (th s i) /\ sent (th s' i) = sent (th s i) /\
     broken (th s' i) = broken (th s i) /\ got (th s' i) = got (th s i) /\ heof (th s' i) = heof (th s i) /\ hq (th s' i) = hq (th s i)).
  { intros i Li. specialize (HD i Li). unfold dat in HD. repeat split; congruence. }
  split.
  - intros k L E. rewrite HD by lia. apply (d_idle _ D); auto.
  - rewrite Hi. destruct (Eq 0 ltac:(lia)) as (_ & -> & _). apply D.
  - intros k L. rewrite HC by exact L. destruct (Eq k ltac:(lia)) as (_ & _ & -> & _). destruct (Eq (S k) ltac:(lia)) as (_ & -> & _). now apply D.
  - rewrite Ho. destruct (Eq m ltac:(lia)) as (_ & _ & -> & _). apply D.
  - destruct (Eq m ltac:(lia)) as (_ & _ & _ & -> & _). apply D.
  - intros k L B O. destruct (Eq k L) as (_ & _ & _ & EB & _). rewrite EB in B.
    destruct (Nat.eq_dec k m) as [->|Dk]; [rewrite (d_bm _ D) in B; discriminate|].
    destruct (HR k ltac:(lia) O) as [X|X]; [now apply (d_b _ D k)|].
    pose proof (d_idle _ D k ltac:(lia) X) as Y. unfold dat, dat0 in Y. injection Y. congruence.
  - intros k L. unfold hist. destruct (Eq k L) as (_ & _ & -> & _ & -> & -> & ->). now apply D.
  - intros k L. destruct (Eq k L) as (-> & -> & _ & -> & -> & _ & ->). now apply D.
  - intros k L. destruct (Eq k L) as (_ & -> & _ & _ & -> & _). now apply D.
  - intros k L P. destruct (Eq k L) as (-> & _). destruct (HP' k L P); [now apply D|assumption].
  - destruct (Eq 0 ltac:(lia)) as (_ & _ & _ & _ & -> & -> & _). apply D.
  - intros k L. destruct (Eq k ltac:(lia)) as (_ & _ & -> & -> & _). destruct (Eq (S k) ltac:(lia)) as (_ & _ & _ & _ & -> & -> & _).
    intro E. destruct (d_e _ D k L E) as (X & Y). split; [|exact Y]. apply HP; [lia|exact X].
Qed.
(** the same, for a step of one thread *)
Lemma quiet1 : forall s s' k t', dinv s -> k <= m -> th s' = upd (th s) k t' -> dat t' = dat (th s k) -> pc t' <> Idle ->
  (past (pc (th s k)) -> past (pc t')) -> (past (pc t') -> past (pc (th s k)) \/ act k (q (th s k)) = AStop) ->
  cont s' = cont s -> inp s' = inp s -> outp s' = outp s ->
  (forall f x, tab s' f = Some x -> is_open s x) -> dinv s'.
Proof.
  intros s s' k t' D L E ED N P P' Ec Ei Eo HR. eapply quiet; try eassumption.
  - intros i Li. rewrite E. destruct (Nat.eq_dec i k) as [->|X]; [now rewrite upd_same|now rewrite upd_other].
  - intros i Li. rewrite E. destruct (Nat.eq_dec i k) as [->|X]; [rewrite upd_same; congruence|now rewrite upd_other].
  - intros i Li. rewrite E. destruct (Nat.eq_dec i k) as [->|X]; [now rewrite upd_same|now rewrite upd_other].
  - intros i Li. rewrite E. destruct (Nat.eq_dec i k) as [->|X]; [now rewrite upd_same|rewrite upd_other by exact X; tauto].
  - intros i _. now rewrite Ec.
  - intros i _ (f & O). left. eapply HR. exact O.
Qed.
Lemma open_upd : forall s f x f' x', is_open s x -> upd (tab s) f (Some x) f' = Some x' -> is_open s x'.
Proof.
  intros s f x f' x' O. unfold upd. destruct (f' =? f); intro E; [now injection E as <-|]. now exists f'.
Qed.
Lemma open_none : forall s f f' x', upd (tab s) f None f' = Some x' -> is_open s x'.
Proof. intros s f f' x'. unfold upd. destruct (f' =? f); intro E; [discriminate|]. now exists f'. Qed.

(** what a running thread reads from and writes to *)
Lemma run_in : forall s k x, ainv s -> k <= m -> pc (th s k) = Run -> tab s (fin (th s k)) = Some x ->
  (k = 0 /\ x = Std 0) \/ (exists j, k = S j /\ x = Rd j).
Proof.
  intros s k x A L E F. open_k A L E. destruct k as [|j].
  - left. split; [reflexivity|]. rewrite HF in HV. change (0 <? 0) with false in HV. apply (V_in _ _ (fin (th s 0)) (Std 0)) in HV; [congruence|].
    cbn. rewrite !in_app_iff. cbn. tauto.
  - right. exists j. split; [reflexivity|]. rewrite HF in HV. change (0 <? S j) with true in HV. apply (V_in _ _ (fin (th s (S j))) (Rd j)) in HV; [congruence|].
    replace (S j - 1) with j by lia. cbn. rewrite !in_app_iff. cbn. tauto.
Qed.
Lemma run_out : forall s k x, ainv s -> k <= m -> pc (th s k) = Run -> tab s (fout (th s k)) = Some x ->
  (k = m /\ x = Std 1) \/ (k < m /\ x = Wr k).
Proof.
  intros s k x A L E F. open_k A L E. unfold outs in HV. destruct (Nat.eqb_spec k m) as [->|D].
  - left. split; [reflexivity|]. apply (V_in _ _ (fout (th s m)) (Std 1)) in HV; [congruence|]. cbn. tauto.
  - right. split; [lia|]. apply (V_in _ _ (fout (th s k)) (Wr k)) in HV; [congruence|]. cbn. tauto.
Qed.
(** a thread that exists before another *)
Lemma run_before : forall s k, ainv s -> k < m -> pc (th s (S k)) = Run -> pc (th s k) <> Idle.
Proof.
  intros s k A L E X. apply (a_sp _ A k L) in X. destruct (Nat.eq_dec (S k) m) as [M|M].
  - rewrite <- M in X. rewrite E in X. cbn in X. lia.
  - assert (Y : pc (th s (S k)) <> Idle) by congruence. apply Y. apply (a_sp _ A (S k)); lia.
Qed.
(** if nobody can write to a pipe whose reader runs, then the writer has stopped *)
Lemma no_writer : forall s k, ainv s -> k < m -> pc (th s (S k)) = Run -> ~ is_open s (Wr k) -> past (pc (th s k)).
Proof.
  intros s k A L E N. pose proof (run_before _ _ A L E) as B.
  assert (X : forall f, ~ In (f, Wr k) (owns k (th s k))).
  { intros f I. apply N. exists f. eapply a_tab; [exact A| |exact I]. lia. }
  pose proof (a_fit _ A k ltac:(lia)) as F. unfold owns in X. unfold fit in F.
  destruct (pc (th s k)) eqn:P; try exact I; try congruence; exfalso; try (destruct F; lia).
  - apply (X (ro (th s k))). cbn. tauto.
  - apply (X (ro (th s k))). cbn. tauto.
  - apply (X (ro (th s k))). cbn. tauto.
  - apply (X (fout (th s k))). unfold outs. rewrite (proj2 (Nat.eqb_neq k m)) by lia. cbn. tauto.
  - apply (X (fout (th s k))). unfold outs. rewrite (proj2 (Nat.eqb_neq k m)) by lia. cbn. tauto.
  - apply (X (fout (th s k))). unfold outs. rewrite (proj2 (Nat.eqb_neq k m)) by lia. cbn. tauto.
  - apply (X (fout (th s k))). unfold outs. rewrite (proj2 (Nat.eqb_neq k m)) by lia. cbn. tauto.
Qed.

Lemma d_reads : forall s s' k x f, ainv s -> dinv s -> k <= m -> pc (th s k) = Run -> act k (q (th s k)) = ARead f ->
  th s' = upd (th s) k (reads Q (th s k) x (f x)) -> tab s' = tab s -> outp s' = outp s ->
  (k = 0 -> match x with Some c => inp s = c :: inp s' | None => inp s = [] /\ inp s' = [] end) -> (k <> 0 -> inp s' = inp s) ->
  (forall j, j < m -> S j <> k -> cont s' j = cont s j) ->
  (forall j, j < m -> S j = k -> is_open s (Rd j) /\
     match x with Some c => cont s j = c :: cont s' j | None => cont s j = [] /\ cont s' j = [] /\ past (pc (th s j)) end) ->
  dinv s'.
Proof.
  intros s s' k x f A D L Pk Ac Et Etab Eo H0 H0' Hc Hc'.
  assert (NE : forall c, x = Some c -> broken (th s k) = false -> heof (th s k) = false).
  { intros c -> B. destruct (heof (th s k)) eqn:E; [exfalso|reflexivity]. destruct (d_q _ D k L B) as (_ & R).
    destruct k as [|j].
    - specialize (H0 eq_refl). cbn in H0. pose proof (d_e0 _ D E) as G. pose proof (d_r0 _ D) as G'. rewrite R, G, H0 in G'.
      rewrite <- (app_nil_r input) in G' at 2. apply app_inv_head in G'. discriminate.
    - destruct (Hc' j ltac:(lia) eq_refl) as (_ & X). destruct (d_e _ D j ltac:(lia) E) as (_ & _ & G).
      pose proof (d_r _ D j ltac:(lia)) as G'. rewrite R, G, X in G'.
      rewrite <- (app_nil_r (sent (th s j))) in G' at 2. apply app_inv_head in G'. discriminate. }
  assert (OPEN : forall y, is_open s' y -> is_open s y) by (intros y (g & O); exists g; now rewrite Etab in O).
  assert (Oth : forall i, i <> k -> th s' i = th s i) by (intros i Di; rewrite Et; now apply upd_other).
  assert (Own : th s' k = reads Q (th s k) x (f x)) by (rewrite Et; apply upd_same).
  split.
  - intros i Li E. destruct (Nat.eq_dec i k) as [->|X]; [rewrite Own in E; discriminate|]. rewrite (Oth i X) in *. now apply D.
  - destruct (Nat.eq_dec 0 k) as [<-|X].
    + rewrite Own. cbn. specialize (H0 eq_refl). rewrite <- (d_r0 _ D). destruct x; [rewrite H0, <- app_assoc; reflexivity|]. destruct H0 as (-> & ->). reflexivity.
    + rewrite (Oth 0 X), H0' by congruence. apply D.
  - intros j Lj. assert (E : sent (th s' j) = sent (th s j)).
    { destruct (Nat.eq_dec j k) as [->|X]; [now rewrite Own|now rewrite (Oth j X)]. }
    rewrite E, <- (d_r _ D j Lj). destruct (Nat.eq_dec (S j) k) as [<-|X].
    + rewrite Own. cbn. destruct (Hc' j Lj eq_refl) as (_ & Y). destruct x; [rewrite Y, <- app_assoc; reflexivity|]. destruct Y as (-> & -> & _). reflexivity.
    + rewrite (Oth _ X), Hc by assumption. reflexivity.
  - rewrite Eo, (d_o _ D). destruct (Nat.eq_dec m k) as [->|X]; [now rewrite Own|now rewrite (Oth m X)].
  - destruct (Nat.eq_dec m k) as [<-|X]; [rewrite Own|rewrite (Oth m X)]; apply D.
  - intros i Li B O. apply (d_b _ D i Li); [|now apply OPEN]. destruct (Nat.eq_dec i k) as [->|X]; [now rewrite Own in B|now rewrite (Oth i X) in B].
  - intros i Li. unfold hist. destruct (Nat.eq_dec i k) as [->|X]; [|rewrite (Oth i X); now apply D].
    rewrite Own. cbn. pose proof (d_m _ D k L) as M. unfold hist in M. destruct (broken (th s k)) eqn:B; [exact M|].
    eapply ms_more; [exact M|]. destruct (d_q _ D k L B) as (<- & _). destruct x as [c|].
    + rewrite (NE c eq_refl eq_refl). now apply m_read.
    + now apply m_end.
  - intros i Li. destruct (Nat.eq_dec i k) as [->|X]; [|rewrite (Oth i X); now apply D].
    rewrite Own. cbn. intro B. rewrite B. destruct (d_q _ D k L B) as (_ & ->). split; [reflexivity|]. destruct x; reflexivity.
  - intros i Li. destruct (Nat.eq_dec i k) as [->|X]; [|rewrite (Oth i X); now apply D].
    rewrite Own. cbn. destruct (d_p _ D k L) as (z & Z). destruct (broken (th s k)) eqn:B.
    + destruct x as [c|]; rewrite Z; [exists (z ++ [c]); now rewrite app_assoc|now exists z].
    + destruct (d_q _ D k L B) as (_ & ->). destruct x; exists []; now rewrite app_nil_r.
  - intros i Li. destruct (Nat.eq_dec i k) as [->|X]; [rewrite Own; intros []|rewrite (Oth i X); now apply D].
  - destruct (Nat.eq_dec 0 k) as [<-|X]; [|rewrite (Oth 0 X); apply D]. rewrite Own. cbn. destruct (broken (th s 0)) eqn:B; [apply D|].
    specialize (H0 eq_refl). destruct x as [c|]; [rewrite (NE c eq_refl eq_refl); discriminate|]. intros _.
    destruct (d_q _ D 0 ltac:(lia) B) as (_ & <-). rewrite <- (d_r0 _ D). destruct H0 as (-> & _). now rewrite app_nil_r.
  - intros j Lj E. destruct (Nat.eq_dec j k) as [->|X].
    + exfalso. rewrite (Oth (S k)) in E by lia. destruct (d_e _ D k Lj E) as (Y & _). rewrite Pk in Y. exact Y.
    + rewrite (Oth j X). destruct (Nat.eq_dec (S j) k) as [<-|X']; [|rewrite (Oth _ X') in *; now apply D].
      rewrite Own in *. cbn in *. destruct (broken (th s (S j))) eqn:B; [now apply D|].
      destruct x as [c|]; [rewrite (NE c eq_refl eq_refl) in E; discriminate|].
      destruct (Hc' j Lj eq_refl) as (O & C & _ & P). split; [exact P|]. split.
      * destruct (broken (th s j)) eqn:B'; [|reflexivity]. exfalso. now apply (d_b _ D j ltac:(lia)).
      * destruct (d_q _ D (S j) L B) as (_ & <-). rewrite <- (d_r _ D j Lj), C. now rewrite app_nil_r.
Qed.

Theorem dinv_step : forall s k s', ainv s -> dinv s -> k <= m -> step s k s' -> dinv s'.
Proof.
  intros s k s' A D L St. inversion St; subst s'; clear St.
  - (* s_pipe *)
    pose proof (a_fit _ A k L) as F. unfold fit in F. rewrite H in F. destruct F as (-> & _ & _).
    assert (J : pc (th s j) = Idle) by (apply (a_sp _ A j H0); rewrite H; cbn; lia).
    assert (E : cont s j = []).
    { pose proof (d_idle _ D j H0 J) as Y. injection Y as _ _ Y2 _ _ _ _. pose proof (d_r _ D j H0) as R. rewrite Y2 in R. now apply app_eq_nil in R. }
    eapply quiet; [exact D|..]; cbn [th cont inp outp set_cont set_th set_tab Pipe_Model.th Pipe_Model.cont Pipe_Model.inp Pipe_Model.outp]; try reflexivity.
    + intros i Li. destruct (Nat.eq_dec i m) as [->|X]; [now rewrite upd_same|now rewrite upd_other].
    + intros i Li. now rewrite upd_other by lia.
    + intros i Li. destruct (Nat.eq_dec i m) as [->|X]; [rewrite upd_same, H; intros []|now rewrite upd_other].
    + intros i Li. destruct (Nat.eq_dec i m) as [->|X]; [rewrite upd_same; intros []|rewrite upd_other by exact X; tauto].
    + intros i Li. destruct (Nat.eq_dec i j) as [->|X]; [now rewrite upd_same|now rewrite upd_other].
    + intros i Li (g & O). cbn in O. destruct (Nat.eq_dec g b) as [->|X]; [rewrite upd_same in O; discriminate|rewrite upd_other in O by exact X].
      destruct (Nat.eq_dec g a) as [->|X']; [rewrite upd_same in O; injection O as <-; now right|rewrite upd_other in O by exact X']. left. now exists g.
  - (* s_clone *)
    pose proof (a_fit _ A k L) as F. unfold fit in F. rewrite H in F. destruct F as (-> & Lj & _).
    assert (J : pc (th s j) = Idle) by (apply (a_sp _ A j Lj); rewrite H; cbn; lia).
    eapply quiet; [exact D|..]; cbn [th cont inp outp set_cont set_th set_tab Pipe_Model.th Pipe_Model.cont Pipe_Model.inp Pipe_Model.outp]; try reflexivity.
    + intros i Li. destruct (Nat.eq_dec i j) as [->|X]; [rewrite upd_same; rewrite (d_idle _ D j Lj J); reflexivity|rewrite upd_other by exact X].
      destruct (Nat.eq_dec i m) as [->|X']; [now rewrite upd_same|now rewrite upd_other].
    + intros i Li. destruct (Nat.eq_dec i j) as [->|X]; [rewrite upd_same; discriminate|rewrite upd_other by exact X]. now rewrite upd_other by lia.
    + intros i Li. destruct (Nat.eq_dec i j) as [->|X]; [rewrite J; intros []|rewrite upd_other by exact X].
      destruct (Nat.eq_dec i m) as [->|X']; [rewrite H; intros []|now rewrite upd_other].
    + intros i Li. destruct (Nat.eq_dec i j) as [->|X]; [rewrite upd_same; intros []|rewrite upd_other by exact X].
      destruct (Nat.eq_dec i m) as [->|X']; [rewrite upd_same; intros []|rewrite upd_other by exact X'; tauto].
    + intros i Li (g & O). cbn in O. left. unfold upd in O. repeat match type of O with context [?u =? ?v] => destruct (u =? v) end;
        try (injection O as ->); eexists; eassumption.
  - (* s_last *)
    eapply quiet1 with (s := s) (k := k); try reflexivity; try eassumption.
    + cbn. unfold after_out. destruct (has _); discriminate.
    + rewrite H. intros [].
    + cbn. unfold after_out. destruct (has _); intros [].
    + intros g y O. now exists g.
  - eapply quiet1 with (s := s) (k := k); try reflexivity; try eassumption; try discriminate; try (rewrite H; intros []); try (let X := fresh in intro X; exact (False_ind _ X)).
    intros g y O. eapply open_upd; [|exact O]. eexists; eassumption.
  - eapply quiet1 with (s := s) (k := k); try reflexivity; try eassumption; try discriminate; try (rewrite H; intros []); try (let X := fresh in intro X; exact (False_ind _ X)).
    intros g y O. eapply open_upd; [|exact O]. eexists; eassumption.
  - eapply quiet1 with (s := s) (k := k); try reflexivity; try eassumption.
    + cbn. unfold after_out. destruct (has _); discriminate.
    + rewrite H. intros [].
    + cbn. unfold after_out. destruct (has _); intros [].
    + intros g y O. eapply open_none. exact O.
  - eapply quiet1 with (s := s) (k := k); try reflexivity; try eassumption; try discriminate; try (rewrite H; intros []); try (let X := fresh in intro X; exact (False_ind _ X)).
    intros g y O. eapply open_upd; [|exact O]. eexists; eassumption.
  - eapply quiet1 with (s := s) (k := k); try reflexivity; try eassumption; try discriminate; try (rewrite H; intros []); try (let X := fresh in intro X; exact (False_ind _ X)).
    intros g y O. eapply open_upd; [|exact O]. eexists; eassumption.
  - eapply quiet1 with (s := s) (k := k); try reflexivity; try eassumption; try discriminate; try (rewrite H; intros []); try (let X := fresh in intro X; exact (False_ind _ X)).
    intros g y O. eapply open_none. exact O.
  - (* s_read *)
    destruct (run_in _ _ _ A L H H1) as [(_ & X)|(j' & Ek & X)]; [discriminate|]. injection X as <-.
    eapply d_reads with (s := s) (k := k) (x := Some c) (f := f); try reflexivity; try eassumption; cbn [cont set_cont set_th Pipe_Model.cont].
    + intros ->. discriminate.
    + intros i Li Ni. apply upd_other. congruence.
    + intros i Li Ni. assert (i = j) by congruence. subst i. split; [eexists; eassumption|]. now rewrite upd_same.
  - (* s_eof *)
    destruct (run_in _ _ _ A L H H1) as [(_ & X)|(j' & Ek & X)]; [discriminate|]. injection X as <-.
    eapply d_reads with (s := s) (k := k) (x := None) (f := f); try reflexivity; try eassumption.
    + intros ->. discriminate.
    + intros i Li Ni. assert (i = j) by congruence. subst i. split; [eexists; eassumption|]. split; [assumption|]. split; [assumption|].
      apply no_writer; try assumption. now rewrite <- Ek.
  - (* s_get *)
    destruct (run_in _ _ _ A L H H1) as [(E & _)|(j' & Ek & X)]; [|discriminate]. subst k.
    eapply d_reads with (s := s) (k := 0) (x := Some c) (f := f); try reflexivity; try eassumption; try discriminate; try congruence.
    intros _. exact H2.
  - destruct (run_in _ _ _ A L H H1) as [(E & _)|(j' & Ek & X)]; [|discriminate]. subst k.
    eapply d_reads with (s := s) (k := 0) (x := None) (f := f); try reflexivity; try eassumption; try discriminate.
    intros _. split; exact H2.
  - (* s_write *)
    destruct (run_out _ _ _ A L H H1) as [(_ & X)|(Lk & X)]; [discriminate|]. injection X as ->.
    assert (B : broken (th s k) = false).
    { destruct (broken (th s k)) eqn:B; [|reflexivity]. exfalso. now apply (d_b _ D k L). }
    set (s' := set_cont Q (set_th Q s k (writes Q (th s k) c (f true))) k (cont s k ++ [c])).
    assert (Oth : forall i, i <> k -> th s' i = th s i) by (intros i Di; now apply upd_other).
    assert (Own : th s' k = writes Q (th s k) c (f true)) by apply upd_same.
    assert (OPEN : forall y, is_open s' y -> is_open s y) by (intros y (g & O); exists g; exact O).
    assert (NC : forall i, i < m -> cont s' i = if i =? k then cont s k ++ [c] else cont s i) by reflexivity.
    split.
    + intros i Li E. destruct (Nat.eq_dec i k) as [->|X]; [rewrite Own in E; discriminate|]. rewrite (Oth i X) in *. now apply D.
    + change (inp s') with (inp s). rewrite <- (d_r0 _ D). destruct (Nat.eq_dec 0 k) as [<-|X]; [now rewrite Own|now rewrite (Oth 0 X)].
    + intros i Li. rewrite NC by exact Li. assert (E : rgot (th s' (S i)) = rgot (th s (S i))).
      { destruct (Nat.eq_dec (S i) k) as [<-|X]; [now rewrite Own|now rewrite (Oth _ X)]. }
      rewrite E. destruct (Nat.eqb_spec i k) as [->|X].
      * rewrite Own. cbn. rewrite app_assoc. now rewrite (d_r _ D k Li).
      * rewrite (Oth i X). now apply D.
    + change (outp s') with (outp s). rewrite (Oth m) by lia. apply D.
    + rewrite (Oth m) by lia. apply D.
    + intros i Li Bi O. apply (d_b _ D i Li); [|now apply OPEN]. destruct (Nat.eq_dec i k) as [->|X]; [now rewrite Own in Bi|now rewrite (Oth i X) in Bi].
    + intros i Li. unfold hist. destruct (Nat.eq_dec i k) as [->|X]; [|rewrite (Oth i X); now apply D].
      rewrite Own. cbn. rewrite B. eapply ms_more; [apply (d_m _ D k L)|]. unfold hist. destruct (d_q _ D k L B) as (<- & _). now apply m_write.
    + intros i Li. destruct (Nat.eq_dec i k) as [->|X]; [|rewrite (Oth i X); now apply D]. rewrite Own. cbn. rewrite B.
      destruct (d_q _ D k L B) as (_ & ->). tauto.
    + intros i Li. destruct (Nat.eq_dec i k) as [->|X]; [rewrite Own|rewrite (Oth i X)]; now apply D.
    + intros i Li. destruct (Nat.eq_dec i k) as [->|X]; [rewrite Own; intros []|rewrite (Oth i X); now apply D].
    + destruct (Nat.eq_dec 0 k) as [<-|X]; [rewrite Own|rewrite (Oth 0 X)]; apply D.
    + intros i Li E. destruct (Nat.eq_dec i k) as [->|X].
      * exfalso. rewrite (Oth (S k)) in E by lia. destruct (d_e _ D k Li E) as (Y & _). rewrite H in Y. exact Y.
      * rewrite (Oth i X). destruct (Nat.eq_dec (S i) k) as [<-|X']; [rewrite Own in *|rewrite (Oth _ X') in *]; now apply D.
  - (* s_epipe *)
    destruct (run_out _ _ _ A L H H1) as [(_ & X)|(Lk & X)]; [discriminate|]. injection X as ->.
    set (s' := set_th Q s k (fails Q (th s k) (f false))).
    assert (Oth : forall i, i <> k -> th s' i = th s i) by (intros i Di; now apply upd_other).
    assert (Own : th s' k = fails Q (th s k) (f false)) by apply upd_same.
    split.
    + intros i Li E. destruct (Nat.eq_dec i k) as [->|X]; [rewrite Own in E; discriminate|]. rewrite (Oth i X) in *. now apply D.
    + change (inp s') with (inp s). rewrite <- (d_r0 _ D). destruct (Nat.eq_dec 0 k) as [<-|X]; [now rewrite Own|now rewrite (Oth 0 X)].
    + intros i Li. change (cont s' i) with (cont s i).
      assert (E : rgot (th s' (S i)) = rgot (th s (S i))).
      { destruct (Nat.eq_dec (S i) k) as [<-|X]; [now rewrite Own|now rewrite (Oth _ X)]. }
      rewrite E, (d_r _ D i Li). destruct (Nat.eq_dec i k) as [->|X]; [now rewrite Own|now rewrite (Oth i X)].
    + change (outp s') with (outp s). rewrite (Oth m) by lia. apply D.
    + rewrite (Oth m) by lia. apply D.
    + intros i Li Bi (g & O). destruct (Nat.eq_dec i k) as [->|X].
      * apply H2. exists g. exact O.
      * rewrite (Oth i X) in Bi. apply (d_b _ D i Li Bi). exists g. exact O.
    + intros i Li. unfold hist. destruct (Nat.eq_dec i k) as [->|X]; [rewrite Own|rewrite (Oth i X)]; now apply D.
    + intros i Li. destruct (Nat.eq_dec i k) as [->|X]; [rewrite Own; discriminate|rewrite (Oth i X); now apply D].
    + intros i Li. destruct (Nat.eq_dec i k) as [->|X]; [rewrite Own|rewrite (Oth i X)]; now apply D.
    + intros i Li. destruct (Nat.eq_dec i k) as [->|X]; [rewrite Own; intros []|rewrite (Oth i X); now apply D].
    + destruct (Nat.eq_dec 0 k) as [<-|X]; [rewrite Own|rewrite (Oth 0 X)]; apply D.
    + intros i Li E. destruct (Nat.eq_dec i k) as [->|X].
      * exfalso. rewrite (Oth (S k)) in E by lia. destruct (d_e _ D k Li E) as (Y & _). rewrite H in Y. exact Y.
      * rewrite (Oth i X). destruct (Nat.eq_dec (S i) k) as [<-|X']; [rewrite Own in *|rewrite (Oth _ X') in *]; now apply D.
  - (* s_put *)
    destruct (run_out _ _ _ A L H H1) as [(-> & _)|(_ & X)]; [|discriminate].
    set (s' := set_outp Q (set_th Q s m (writes Q (th s m) c (f true))) (outp s ++ [c])).
    assert (Oth : forall i, i <> m -> th s' i = th s i) by (intros i Di; now apply upd_other).
    assert (Own : th s' m = writes Q (th s m) c (f true)) by apply upd_same.
    pose proof (d_bm _ D) as B.
    split.
    + intros i Li. rewrite (Oth i) by lia. now apply D.
    + change (inp s') with (inp s). rewrite <- (d_r0 _ D). destruct (Nat.eq_dec 0 m) as [<-|X]; [now rewrite Own|now rewrite (Oth 0 X)].
    + intros i Li. change (cont s' i) with (cont s i). rewrite (Oth i), <- (d_r _ D i Li) by lia.
      destruct (Nat.eq_dec (S i) m) as [E|X]; [rewrite E, Own; reflexivity|now rewrite (Oth _ X)].
    + rewrite Own. cbn. now rewrite (d_o _ D).
    + rewrite Own. exact B.
    + intros i Li Bi (g & O). apply (d_b _ D i Li); [|exists g; exact O]. destruct (Nat.eq_dec i m) as [->|X]; [now rewrite Own in Bi|now rewrite (Oth i X) in Bi].
    + intros i Li. unfold hist. destruct (Nat.eq_dec i m) as [->|X]; [|rewrite (Oth i X); now apply D].
      rewrite Own. cbn. rewrite B. eapply ms_more; [apply (d_m _ D m L)|]. unfold hist. destruct (d_q _ D m L B) as (<- & _). now apply m_write.
    + intros i Li. destruct (Nat.eq_dec i m) as [->|X]; [|rewrite (Oth i X); now apply D]. rewrite Own. cbn. rewrite B.
      destruct (d_q _ D m L B) as (_ & ->). tauto.
    + intros i Li. destruct (Nat.eq_dec i m) as [->|X]; [rewrite Own|rewrite (Oth i X)]; now apply D.
    + intros i Li. destruct (Nat.eq_dec i m) as [->|X]; [rewrite Own; intros []|rewrite (Oth i X); now apply D].
    + destruct (Nat.eq_dec 0 m) as [<-|X]; [rewrite Own|rewrite (Oth 0 X)]; apply D.
    + intros i Li E. rewrite (Oth i) by lia.
      assert (Y : heof (th s' (S i)) = heof (th s (S i)) /\ got (th s' (S i)) = got (th s (S i))).
      { destruct (Nat.eq_dec (S i) m) as [X'|X']; [rewrite X', Own; split; reflexivity|rewrite (Oth _ X'); split; reflexivity]. }
      destruct Y as (Y1 & Y2). rewrite Y1 in E. rewrite Y2. now apply D.
  - (* s_stop *)
    eapply quiet1 with (s := s) (k := k); try reflexivity; try eassumption.
    + cbn. unfold stopped, after_in. destruct (has _); [|destruct (k =? m)]; discriminate.
    + rewrite H. intros [].
    + intros _. now right.
    + intros g y O. now exists g.
  - eapply quiet1 with (s := s) (k := k); try reflexivity; try eassumption; try discriminate; try (rewrite H; now left); try (intros; exact I).
    intros g y O. eapply open_upd; [|exact O]. eexists; eassumption.
  - eapply quiet1 with (s := s) (k := k); try reflexivity; try eassumption; try discriminate.
    + cbn. unfold after_in. destruct (k =? m); discriminate.
    + intros _. cbn. unfold after_in. destruct (k =? m); exact I.
    + rewrite H. now left.
    + intros g y O. eapply open_none. exact O.
  - eapply quiet1 with (s := s) (k := k); try reflexivity; try eassumption; try discriminate; try (rewrite H; now left); try (intros; exact I).
    intros g y O. eapply open_upd; [|exact O]. eexists; eassumption.
  - eapply quiet1 with (s := s) (k := k); try reflexivity; try eassumption; try discriminate; try (rewrite H; now left); try (intros; exact I).
    intros g y O. eapply open_none. exact O.
  - eapply quiet1 with (s := s) (k := k); try reflexivity; try eassumption; try discriminate; try (rewrite H; now left); try (intros; exact I).
    intros g y O. eapply open_none. exact O.
  - eapply quiet1 with (s := s) (k := k); try reflexivity; try eassumption; try discriminate; try (rewrite H; now left); try (intros; exact I).
    intros g y O. eapply open_none. exact O.
  - eapply quiet1 with (s := s) (k := k); try reflexivity; try eassumption; try discriminate; try (rewrite H; now left); try (intros; exact I).
    intros g y O. eapply open_none. exact O.
Qed.

Theorem reach : distinct -> forall s, exec (begins input f0 f1 f2) s -> ainv s /\ dinv s.
Proof.
  intros DD s E. induction E as [|s k s' E (A & D) L St]; [split; [now apply ainv_begins|apply dinv_begins]|].
  split; [eapply ainv_step; eassumption|eapply dinv_step; eassumption].
Qed.

(** * Nobody waits in vain *)
Definition can (s : st) (k : nat) : Prop := exists s', step s k s'.
Lemma fresh : forall s, ainv s -> exists n, forall f, n <= f -> tab s f = None.
Proof. intros s A. eapply V_fresh. apply (a_v _ A). Qed.
Lemma open_dec : forall s x, ainv s -> is_open s x \/ ~ is_open s x.
Proof.
  intros s x A. destruct (a_v _ A) as [_ H].
  assert (DF : forall x y : file, {x = y} + {x <> y}) by (decide equality; apply Nat.eq_dec).
  destruct (in_dec DF x (map snd (all (th s)))) as [I|N].
  - left. apply in_map_iff in I. destruct I as ((f & y) & E & I). cbn in E. subst y. exists f. now apply H.
  - right. intros (f & E). apply N. apply H in E. apply in_map_iff. now exists (f, x).
Qed.
Ltac in_owns := rewrite ?in_app_iff; cbn; rewrite ?in_app_iff; cbn; tauto.
Lemma place_can : forall s k, ainv s -> k <= m -> match pc (th s k) with Idle | Run | End => True | _ => can s k end.
Proof.
  intros s k A L. destruct (fresh s A) as (n & F). unfold can.
  pose proof (F n ltac:(lia)) as F1. pose proof (F (S n) ltac:(lia)) as F2. pose proof (F (S (S n)) ltac:(lia)) as F3.
  destruct (pc (th s k)) as [|j|j a b| | | | | | | | | | | | | | |] eqn:E; try exact I; open_k A L E.
  - destruct HF as (-> & Lj & HF). destruct (Nat.eq_dec j m) as [->|D]; [eexists; now apply s_last|].
    eexists; apply s_pipe with (j := j) (a := n) (b := S n); auto; lia.
  - destruct HF as (-> & Lj & HF). eexists. eapply s_clone with (f1 := n) (f2 := S n) (f3 := S (S n)); auto; try lia; try eassumption.
    + eapply V_in; [exact HV|]. left. reflexivity.
    + eapply V_in; [exact HV|]. right. left. reflexivity.
    + eapply V_in; [exact HV|]. right. right. left. reflexivity.
  - eexists. eapply s_o1 with (f := n); auto. eapply V_in; [exact HV|]. right. left. reflexivity.
  - eexists. eapply s_o2; auto. eapply V_in; [exact HV|]. right. right. right. left. reflexivity.
  - eexists. now apply s_o3.
  - eexists. eapply s_i1 with (f := n); auto. eapply V_in; [exact HV|]. left. reflexivity.
  - eexists. eapply s_i2; auto. eapply V_in; [exact HV|]. unfold inraw. destruct HF as (-> & _). in_owns.
  - eexists. now apply s_i3.
  - eexists. eapply s_p1; auto. eapply V_in; [exact HV|]. in_owns.
  - eexists. now apply s_p2.
  - eexists. eapply s_p3; auto. eapply V_in; [exact HV|]. unfold outs. destruct (Nat.eqb_spec k m); [lia|]. right. right. left. reflexivity.
  - eexists. now apply s_p4.
  - eexists. now apply s_c1.
  - eexists. now apply s_c2.
  - eexists. now apply s_c3.
Qed.
Lemma run_can : forall s k, ainv s -> k <= m -> pc (th s k) = Run ->
  can s k \/ (exists j, k = S j /\ cont s j = [] /\ is_open s (Wr j)) \/ (k < m /\ is_open s (Rd k) /\ cap <= length (cont s k)).
Proof.
  intros s k A L E. pose proof E as E'. open_k A L E'. destruct (act k (q (th s k))) as [f|c f|] eqn:Ac.
  - assert (X : exists x, tab s (fin (th s k)) = Some x).
    { destruct (has (th s k)); eexists; (eapply V_in; [exact HV|]); in_owns. }
    destruct X as (x & X). destruct (run_in _ _ _ A L E X) as [(-> & ->)|(j & -> & ->)].
    + left. destruct (inp s) eqn:I; eexists; [eapply s_getend|eapply s_get]; eassumption.
    + destruct (cont s j) eqn:C.
      * destruct (open_dec s (Wr j) A) as [O|O]; [right; left; eauto|]. left. eexists. eapply s_eof; eassumption.
      * left. eexists. eapply s_read; eassumption.
  - assert (X : exists x, tab s (fout (th s k)) = Some x).
    { unfold outs in HV. destruct (k =? m); eexists; (eapply V_in; [exact HV|]); right; left; reflexivity. }
    destruct X as (x & X). destruct (run_out _ _ _ A L E X) as [(-> & ->)|(Lk & ->)].
    + left. eexists. eapply s_put; eassumption.
    + destruct (open_dec s (Rd k) A) as [O|O]; [|left; eexists; eapply s_epipe; eassumption].
      destruct (le_lt_dec cap (length (cont s k))); [right; right; auto|]. left. eexists. eapply s_write; eassumption.
  - left. eexists. now apply s_stop.
Qed.
(** who can have a pipe open *)
Lemma reader : forall s k, ainv s -> is_open s (Rd k) -> (exists i, i <= m /\ can s i) \/ (S k <= m /\ pc (th s (S k)) = Run).
Proof.
  intros s k A (f & E). destruct (a_owner _ _ _ A E) as (i & Li & I). pose proof (place_can s i A Li) as C. pose proof (a_fit _ A i Li) as F.
  unfold owns in I. unfold fit in F. destruct (pc (th s i)) eqn:P; try (left; exists i; split; assumption).
  - destruct I.
  - right. rewrite F in I. destruct I as [I|I]; [discriminate|]. apply in_app_iff in I. destruct I as [I|I].
    + exfalso. unfold outs in I. destruct (i =? m); cbn in I; intuition discriminate.
    + destruct i as [|i]; [change (0 <? 0) with false in I|change (0 <? S i) with true in I]; cbn in I.
      * intuition discriminate.
      * replace (S i - 1) with i in I by lia. destruct I as [I|[I|[]]]; [|discriminate]. injection I as _ ->. auto.
  - exfalso. destruct (i =? m); cbn in I; intuition discriminate.
Qed.
Lemma writer : forall s k, ainv s -> is_open s (Wr k) -> (exists i, i <= m /\ can s i) \/ (k < m /\ pc (th s k) = Run).
Proof.
  intros s k A (f & E). destruct (a_owner _ _ _ A E) as (i & Li & I). pose proof (place_can s i A Li) as C.
  unfold owns in I. destruct (pc (th s i)) eqn:P; try (left; exists i; split; assumption).
  - destruct I.
  - right. destruct I as [I|I]; [discriminate|]. apply in_app_iff in I. destruct I as [I|I].
    + unfold outs in I. destruct (Nat.eqb_spec i m); cbn in I; [intuition discriminate|]. destruct I as [I|[I|[]]]; [|discriminate].
      injection I as _ ->. split; [lia|exact P].
    + exfalso. destruct (has (th s i)); cbn in I; intuition discriminate.
  - exfalso. destruct (i =? m); cbn in I; intuition discriminate.
Qed.
Lemma not_full : 0 < cap -> forall s, ainv s -> forall d k, d = m - k -> k < m -> is_open s (Rd k) -> cap <= length (cont s k) -> exists i, i <= m /\ can s i.
Proof.
  intros C0 s A. induction d as [|d IH]; intros k Ed L O F; [lia|].
  destruct (reader s k A O) as [X|(L' & P)]; [exact X|].
  destruct (run_can s (S k) A L' P) as [X|[(j & E & C & _)|(L2 & O2 & F2)]].
  - exists (S k). auto.
  - injection E as <-. rewrite C in F. cbn in F. lia.
  - apply (IH (S k)); auto; lia.
Qed.
Lemma run_moves : 0 < cap -> forall s, ainv s -> forall k, k <= m -> pc (th s k) = Run -> exists i, i <= m /\ can s i.
Proof.
  intros C0 s A. induction k as [|k IH]; intros L P.
  - destruct (run_can s 0 A L P) as [X|[(j & E & _)|(L2 & O2 & F2)]]; [exists 0; auto|discriminate|eapply not_full; eauto].
  - destruct (run_can s (S k) A L P) as [X|[(j & E & C & O)|(L2 & O2 & F2)]]; [exists (S k); auto| |eapply not_full; eauto].
    injection E as <-. destruct (writer s k A O) as [X|(L' & P')]; [exact X|]. apply IH; [lia|exact P'].
Qed.
Theorem no_deadlock : 0 < cap -> forall s, ainv s -> (forall k, k <= m -> pc (th s k) = End) \/ exists k s', k <= m /\ step s k s'.
Proof.
  intros C0 s A.
  assert (X : forall n, n <= S m -> (forall k, k < n -> pc (th s k) = End) \/ exists i, i <= m /\ can s i).
  { induction n as [|n IH]; intros Ln; [left; intros k L; lia|].
    destruct IH as [IH|IH]; [lia| |now right].
    pose proof (place_can s n A ltac:(lia)) as C.
    destruct (pc (th s n)) eqn:P; try (right; exists n; split; [lia|exact C]).
    - right. pose proof (a_fit _ A n ltac:(lia)) as F. unfold fit in F. rewrite P in F. apply (a_sp _ A n F) in P.
      pose proof (place_can s m A ltac:(lia)) as C'. exists m. split; [lia|].
      destruct (pc (th s m)) eqn:P'; cbn in P'; cbn in P; try lia; exact C'.
    - right. eapply run_moves; [exact C0|exact A| |exact P]. lia.
    - left. intros k Lk. destruct (Nat.eq_dec k n) as [->|D]; [exact P|]. apply IH. lia. }
  destruct (X (S m) ltac:(lia)) as [Y|(i & Li & s' & Y)]; [left|right; now exists i, s']. intros k L. apply Y. lia.
Qed.

(** * What is left of it *)
Lemma restored : distinct -> forall s, ainv s -> (forall k, k <= m -> pc (th s k) = End) -> forall f, tab s f = tab (begins input f0 f1 f2) f.
Proof.
  intros (D1 & D2 & D3) s A E f.
  assert (R : rest (th s) m = []).
  { unfold rest. rewrite (fm_ext _ (fun _ => [])); [clear; induction (seq 0 (S m)); [reflexivity|cbn; exact IHl]|].
    intros i I. apply in_seq in I. destruct (Nat.eqb_spec i m) as [->|D]; [reflexivity|]. unfold owns. rewrite E by lia. now rewrite (proj2 (Nat.eqb_neq i m) D). }
  pose proof (a_vk _ m A ltac:(lia)) as HV. unfold owns in HV. rewrite R, app_nil_r, E, Nat.eqb_refl in HV by lia.
  destruct (a_main _ A) as (M1 & M2 & M3). unfold std in HV. rewrite M1, M2, M3 in HV.
  destruct HV as [_ H]. cbn. unfold upd. destruct (Nat.eqb_spec f f2) as [->|N2]; [apply H; cbn; tauto|].
  destruct (Nat.eqb_spec f f1) as [->|N1]; [apply H; cbn; tauto|]. destruct (Nat.eqb_spec f f0) as [->|N0]; [apply H; cbn; tauto|].
  destruct (tab s f) as [x|] eqn:T; [|reflexivity]. apply H in T. cbn in T. intuition congruence.
Qed.
Lemma main_back : forall s, ainv s -> pc (th s m) = End -> tab s f0 = Some (Std 0) /\ tab s f1 = Some (Std 1) /\ tab s f2 = Some (Std 2).
Proof.
  intros s A E. destruct (a_main _ A) as (<- & <- & <-). pose proof (a_vk _ m A ltac:(lia)) as HV. unfold owns in HV. rewrite E, Nat.eqb_refl in HV.
  repeat split; (eapply V_in; [exact HV|]); unfold std; cbn; tauto.
Qed.

(** * What the chain gives *)
Lemma chain_of : forall s, dinv s -> chain Q act q0 m input (hist s).
Proof.
  intros s D. split; [intros k L; now apply D|]. split; [|split].
  - cbn. destruct (d_p _ D 0 ltac:(lia)) as (z & Z). exists (z ++ inp s). rewrite app_assoc, <- Z. symmetry. apply D.
  - apply D.
  - intros k L. cbn. split.
    + destruct (d_p _ D (S k) L) as (z & Z). exists (z ++ cont s k). rewrite app_assoc, <- Z. symmetry. now apply D.
    + intro E. destruct (d_e _ D k L E) as (P & B & G). split; [exact G|]. unfold stopped_at. cbn.
      destruct (d_q _ D k ltac:(lia) B) as (<- & _). apply (d_s _ D); [lia|exact P].
Qed.
Lemma gives_of : forall s, dinv s -> past (pc (th s m)) -> gives Q act q0 m input (outp s).
Proof.
  intros s D P. exists (hist s). split; [now apply chain_of|]. split.
  - unfold stopped_at. cbn. destruct (d_q _ D m ltac:(lia) (d_bm _ D)) as (<- & _). apply (d_s _ D); [lia|exact P].
  - cbn. symmetry. apply D.
Qed.
End Proofs.

(** * A chain of commands can give only one thing *)
Section Unique.
Variable Q : Type.
Variable act : nat -> Q -> action Q.
Variable q0 : nat -> Q.
Lemma pre_refl : forall a, prefix a a. Proof. intro a. exists []. now rewrite app_nil_r. Qed.
Lemma pre_trans : forall a b c, prefix a b -> prefix b c -> prefix a c.
Proof. intros a b c (x & ->) (y & ->). exists (x ++ y). now rewrite app_assoc. Qed.
Lemma pre_cmp : forall c a b, prefix a c -> prefix b c -> prefix a b \/ prefix b a.
Proof.
  induction c as [|z c IH]; intros a b (x & X) (y & Y).
  - symmetry in X. apply app_eq_nil in X. destruct X as (-> & _). left. now exists b.
  - destruct a as [|a0 a]; [left; now exists b|]. destruct b as [|b0 b]; [right; now exists (a0 :: a)|].
    cbn in X, Y. injection X as <- X. injection Y as <- Y. destruct (IH a b) as [(u & U)|(u & U)]; [now exists x|now exists y| |].
    + left. exists u. now rewrite U.
    + right. exists u. now rewrite U.
Qed.
Lemma pre_anti : forall a b, prefix a b -> prefix b a -> a = b.
Proof.
  intros a b (x & ->) (y & Y). rewrite <- app_assoc in Y. rewrite <- (app_nil_r a) in Y at 1. apply app_inv_head in Y.
  symmetry in Y. apply app_eq_nil in Y. destruct Y as (-> & _). now rewrite app_nil_r.
Qed.
Lemma moves_trans : forall k a b c, moves Q act k a b -> moves Q act k b c -> moves Q act k a c.
Proof. intros k a b c H1 H2. induction H2; [exact H1|]. eapply ms_more; eassumption. Qed.
Lemma move_in : forall k a b, move Q act k a b -> prefix (d_in Q a) (d_in Q b) /\ prefix (d_out Q a) (d_out Q b) /\ (d_end Q a = true -> d_end Q b = true /\ d_in Q a = d_in Q b).
Proof.
  intros k a b M. destruct M; cbn; (split; [|split]); try apply pre_refl; try discriminate; try (now eexists); auto.
Qed.
Lemma moves_in : forall k a b, moves Q act k a b -> prefix (d_in Q a) (d_in Q b) /\ prefix (d_out Q a) (d_out Q b) /\ (d_end Q a = true -> d_end Q b = true /\ d_in Q a = d_in Q b).
Proof.
  intros k a b M. induction M as [|d1 d2 M (I1 & I2 & I3) S1]; [repeat split; auto using pre_refl|].
  destruct (move_in _ _ _ S1) as (J1 & J2 & J3). repeat split; eauto using pre_trans.
  - now apply J3, I3.
  - destruct (I3 H) as (E & ->). now apply J3.
Qed.
(** the inputs of two runs of a command can be those of one *)
Definition compat (d d' : did Q) : Prop :=
  (prefix (d_in Q d) (d_in Q d') \/ prefix (d_in Q d') (d_in Q d)) /\
  (d_end Q d = true -> prefix (d_in Q d') (d_in Q d)) /\ (d_end Q d' = true -> prefix (d_in Q d) (d_in Q d')).
Lemma compat_sym : forall d d', compat d d' -> compat d' d.
Proof. unfold compat. tauto. Qed.
Lemma compat_down : forall k d1 d2 d', move Q act k d1 d2 -> compat d2 d' -> compat d1 d'.
Proof.
  intros k d1 d2 d' M (C1 & C2 & C3). destruct (move_in _ _ _ M) as (I & _ & E). repeat split.
  - destruct C1 as [C|C]; [left; eapply pre_trans; eassumption|]. eapply pre_cmp; eassumption.
  - intro X. destruct (E X) as (Y & ->). auto.
  - intro X. eapply pre_trans; [exact I|]. auto.
Qed.
(** from one state, two compatible next moves are the same *)
Lemma move_det : forall k d a b, move Q act k d a -> move Q act k d b -> compat a b -> a = b.
Proof.
  intros k d a b Ma Mb C. inversion Ma as [i o x c f A1|i e o x f A1|i e o x c f A1]; subst; inversion Mb as [i' o' x' c' f' A2|i' e' o' x' f' A2|i' e' o' x' c' f' A2]; subst; try congruence.
  - rewrite A1 in A2. injection A2 as <-. destruct C as (C & _). cbn in C. assert (c = c'); [|now subst].
    destruct C as [(z & Z)|(z & Z)]; rewrite <- app_assoc in Z; apply app_inv_head in Z; now injection Z.
  - exfalso. destruct C as (_ & _ & C). cbn in C. destruct (C eq_refl) as (z & Z). rewrite <- (app_nil_r i) in Z at 1. rewrite <- app_assoc in Z. apply app_inv_head in Z. discriminate.
  - exfalso. destruct C as (_ & C & _). cbn in C. destruct (C eq_refl) as (z & Z). rewrite <- (app_nil_r i) in Z at 1. rewrite <- app_assoc in Z. apply app_inv_head in Z. discriminate.
Qed.
(** one run is the beginning of the other *)
Lemma runs_cmp : forall k s a b, moves Q act k s a -> moves Q act k s b -> compat a b -> moves Q act k a b \/ moves Q act k b a.
Proof.
  intros k s a b Ma. revert b. induction Ma as [|a1 a2 Ma IH M]; intros b Mb C; [now left|].
  assert (C1 : compat a1 b) by (eapply compat_down; eassumption).
  destruct (IH b Mb C1) as [X|X].
  - (* a1 ->* b: the first move is the same *)
    clear IH Mb C1.
    assert (Y : a1 = b \/ exists z, move Q act k a1 z /\ moves Q act k z b).
    { clear - X. induction X as [|d1 d2 X [->|(z & Z1 & Z2)] S1]; [now left| |].
      - right. exists d2. split; [exact S1|constructor].
      - right. exists z. split; [exact Z1|]. eapply ms_more; eassumption. }
    destruct Y as [->|(z & Z1 & Z2)].
    + right. eapply ms_more; [constructor|exact M].
    + assert (E : a2 = z).
      { eapply move_det; [exact M|exact Z1|]. apply compat_sym.
        assert (G : forall w w', moves Q act k w w' -> compat w' a2 -> compat w a2).
        { intros w w' G. induction G; [auto|]. intro X'. apply IHG. eapply compat_down; eassumption. }
        eapply G; [exact Z2|]. now apply compat_sym. }
      subst z. left. exact Z2.
  - right. eapply ms_more; eassumption.
Qed.
Lemma stopped_last : forall k a b, stopped_at Q act k a -> moves Q act k a b -> a = b.
Proof.
  intros k a b S0 M. induction M as [|d1 d2 M IH S1]; [reflexivity|]. subst d1. unfold stopped_at in S0. inversion S1; subst; cbn in S0; congruence.
Qed.
Lemma chains_compat : forall m input h h', chain Q act q0 m input h -> chain Q act q0 m input h' -> forall k, k <= m -> compat (h k) (h' k).
Proof.
  intros m input h h' (H1 & H2 & H3 & H4) (H1' & H2' & H3' & H4').
  induction k as [|k IH]; intros L.
  - repeat split.
    + eapply pre_cmp; eassumption.
    + intro E. rewrite (H3 E). exact H2'.
    + intro E. rewrite (H3' E). exact H2.
  - specialize (IH ltac:(lia)). destruct (H4 k L) as (P & E). destruct (H4' k L) as (P' & E').
    destruct (runs_cmp k _ _ _ (H1 k ltac:(lia)) (H1' k ltac:(lia)) IH) as [M|M]; destruct (moves_in _ _ _ M) as (_ & Mo & _); repeat split.
    + eapply pre_cmp; [|exact P']. eapply pre_trans; eassumption.
    + intro Z. destruct (E Z) as (-> & St). rewrite (stopped_last _ _ _ St M). exact P'.
    + intro Z. destruct (E' Z) as (-> & St). eapply pre_trans; eassumption.
    + eapply pre_cmp; [exact P|]. eapply pre_trans; eassumption.
    + intro Z. destruct (E Z) as (-> & St). eapply pre_trans; eassumption.
    + intro Z. destruct (E' Z) as (-> & St). rewrite (stopped_last _ _ _ St M). exact P.
Qed.
Lemma chain_prefix : forall m input h o, chain Q act q0 m input h -> gives Q act q0 m input o -> prefix (d_out Q (h m)) o.
Proof.
  intros m input h o C (h' & C' & St & <-).
  pose proof (chains_compat _ _ _ _ C C' m ltac:(lia)) as X. destruct C as (H1 & _). destruct C' as (H1' & _).
  destruct (runs_cmp m _ _ _ (H1 m ltac:(lia)) (H1' m ltac:(lia)) X) as [M|M].
  - apply (moves_in _ _ _ M).
  - rewrite (stopped_last _ _ _ St M). apply pre_refl.
Qed.
Theorem gives_one : forall m input o o', gives Q act q0 m input o -> gives Q act q0 m input o' -> o = o'.
Proof.
  intros m input o o' G G'. apply pre_anti.
  - destruct G as (h & C & S1 & <-). now apply (chain_prefix m input).
  - destruct G' as (h & C & S1 & <-). now apply (chain_prefix m input).
Qed.
End Unique.
