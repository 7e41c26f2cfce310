(** Stream_Proofs.v -- lemmas on streams and redirections. *)

From Verif Require Import Base Parse_Model Stream_Model Stream_Spec.

Lemma get_put t n v m : fd_get (fd_put t n v) m = if m =? n then v else fd_get t m.
Proof.
  unfold fd_get. revert t m. induction n as [|n IH]; intros [|x t] [|m]; simpl; auto.
  - destruct m; reflexivity.
  - rewrite IH. destruct m; reflexivity.
Qed.
Lemma get_free t : fd_get t (fd_free t) = None.
Proof. unfold fd_get. induction t as [|[d|] t IH]; simpl; auto. Qed.

Lemma same_refl s : same_io s s.
Proof. repeat split. Qed.
Lemma same_sym a b : same_io a b -> same_io b a.
Proof. intros (A & B & C & D & E & F & G). repeat split; auto. Qed.
Lemma same_trans a b c : same_io a b -> same_io b c -> same_io a c.
Proof. intros (A & B & C & D & E & F & G) (A' & B' & C' & D' & E' & F' & G'). repeat split; try congruence; intros n; rewrite G; auto. Qed.
Lemma same_ready a b : same_io a b -> ready a -> ready b.
Proof.
  intros (A & B & C & D & E & F & G) (R1 & R2 & R3 & R4). unfold ready. rewrite <- A, <- B, <- C, <- !G. auto.
Qed.
Lemma same_stk a b k : same_io a b -> same_io (set_stk a k) (set_stk b k).
Proof. intros (A & B & C & D & E & F & G). repeat split; auto. Qed.
Lemma same_around a b : same_io a b -> around a = around b.
Proof.
  intros (A & B & C & D & E & F & G). unfold around, reads, writes, complains. rewrite A, B, C, D, E, !G. reflexivity.
Qed.

(** The two states but for the stack. *)
Definition sim (a b : io) : Prop := same_io (set_stk a []) (set_stk b []).
Lemma sim_trans a b c : sim a b -> sim b c -> sim a c.
Proof. apply same_trans. Qed.
Lemma sim_stk a k : sim (set_stk a k) a.
Proof. repeat split. Qed.
Lemma sim_same a b : sim a b -> io_stk a = io_stk b -> same_io a b.
Proof. intros (A & B & C & D & E & F & G) K. repeat split; auto. Qed.
Lemma same_sim a b : same_io a b -> sim a b.
Proof. intros (A & B & C & D & E & F & G). repeat split; auto. Qed.
Lemma sim_ready a b : sim a b -> ready a -> ready b.
Proof. intros S R. apply (same_ready _ _ S). exact R. Qed.

Lemma ready_fd s x : ready s -> exists d, fd_get (io_tab s) (io_fd s x) = Some d.
Proof. intros (A & B & C & _). destruct x; auto. Qed.
Lemma ready_ne s x y : ready s -> io_fd s x = io_fd s y -> x = y.
Proof. intros (_ & _ & _ & A & B & C) E. destruct x, y; simpl in E; congruence. Qed.

(** *** Undoing *)
Fixpoint undo (k : list frame) (s : io) : outcome io :=
  match k with [] => Ret s | f :: r => do s' <- pop_frame f s; undo r s' end.
Lemma undo_app a b s : undo (a ++ b) s = do s' <- undo a s; undo b s'.
Proof. revert s. induction a as [|f a IH]; intros s; simpl; auto. destruct (pop_frame f s); simpl; auto. Qed.
Lemma pop_sim f a b a' : sim a b -> pop_frame f a = Ret a' -> exists b', pop_frame f b = Ret b' /\ sim a' b' /\ io_stk b' = io_stk b.
Proof.
  intros (A & B & C & D & E & F & G) H. simpl in A, B, C, D, E, G. unfold pop_frame in *. destruct (fr_fd f) as [x|].
  - unfold sys_dup2 in *. rewrite <- G. destruct (fd_get (io_tab a) (fr_old f)) as [d|]; [|discriminate]. cbn [bind] in *.
    injection H as <-. eexists. split; [reflexivity|]. split; [|reflexivity].
    assert (X : io_fd a x = io_fd b x) by (destruct x; auto).
    repeat split; auto. simpl. intros n. unfold sys_close. rewrite !get_put, X, G. reflexivity.
  - cbn [bind] in *. injection H as <-. eexists. split; [reflexivity|]. split; [|reflexivity]. repeat split; auto.
Qed.
Lemma undo_sim k a b a' : sim a b -> undo k a = Ret a' -> exists b', undo k b = Ret b' /\ sim a' b' /\ io_stk b' = io_stk b.
Proof.
  revert a b. induction k as [|f k IH]; intros a b S H; simpl in *.
  - injection H as <-. exists b. auto.
  - destruct (pop_frame f a) as [a1| |] eqn:P; try discriminate. cbn [bind] in H.
    destruct (pop_sim f a b a1 S P) as (b1 & -> & S1 & K1). cbn [bind].
    destruct (IH a1 b1 S1 H) as (b' & U & S' & K'). exists b'. split; [auto|]. split; [auto|congruence].
Qed.

(** [s] is [s0] with some more redirections. *)
Definition opened (s0 s : io) : Prop :=
  exists k s1, Forall (fun f => fr_lock f = false) k /\ io_stk s = k ++ io_stk s0 /\ ready s /\ undo k s = Ret s1 /\ sim s1 s0.
Lemma opened_refl s : ready s -> opened s s.
Proof. intros R. exists [], s. split; [constructor|]. split; [reflexivity|]. split; [exact R|]. split; [reflexivity|apply same_refl]. Qed.
Lemma opened_trans a b c : opened a b -> opened b c -> opened a c.
Proof.
  intros (k & s & F & K & R & U & S) (k' & s' & F' & K' & R' & U' & S').
  destruct (undo_sim k b s' s (ltac:(destruct S' as (A & B & C & D & E & _ & G); repeat split; simpl in *; auto)) U) as (s2 & U2 & S2 & _).
  exists (k' ++ k), s2. split; [apply Forall_app; auto|]. split; [rewrite K', K, app_assoc; reflexivity|]. split; auto.
  split; [rewrite undo_app, U'; auto|].
  apply (sim_trans _ s); auto. destruct S2 as (A & B & C & D & E & _ & G); repeat split; simpl in *; auto.
Qed.

Lemma pop_prefix k base s : Forall (fun f => fr_lock f = false) k -> (match base with f :: _ => fr_lock f = true | [] => True end) ->
  pop_frames (k ++ base) s = do s' <- undo k s; Ret (set_stk s' base).
Proof.
  intros F B. revert s. induction F as [|f k L F IH]; intros s; simpl.
  - destruct base as [|g base]; simpl; auto. rewrite B. reflexivity.
  - rewrite L. destruct (pop_frame f s); simpl; auto.
Qed.
Definition base_locked (s : io) : Prop := match io_stk s with f :: _ => fr_lock f = true | [] => True end.
Lemma pop_opened s0 s s1 : base_locked s0 -> opened s0 s -> same_io s s1 ->
  exists s2, pBat_PopStreamStackUntilLock s1 = Ret s2 /\ same_io s2 s0.
Proof.
  intros B (k & s' & F & K & R & U & S) E. unfold pBat_PopStreamStackUntilLock.
  assert (K1 : io_stk s1 = k ++ io_stk s0) by (rewrite <- K; symmetry; apply E).
  rewrite K1, pop_prefix by auto. destruct (undo_sim k s s1 s' (same_sim _ _ E) U) as (s2 & U2 & S2 & _).
  rewrite U2. cbn [bind]. eexists. split; [reflexivity|]. apply sim_same; [|reflexivity].
  apply (sim_trans _ s'); auto. destruct S2 as (A & B' & C & D & E' & _ & G); repeat split; simpl in *; auto.
Qed.

(** *** Opening *)
Lemma open_one s newtab newfd (x : std) d o e :
  ready s -> fd_get newtab newfd = Some d -> fd_get (io_tab s) newfd = None ->
  (forall n, n <> newfd -> fd_get newtab n = fd_get (io_tab s) n) ->
  exists old t2 t3, sys_dup newtab (io_fd s x) = Ret (old, t2) /\ sys_dup2 t2 newfd (io_fd s x) = Ret t3 /\
    let s' := mkIo (sys_close t3 newfd) (io_in s) (io_out s) (io_err s) o e (mkFrame (Some x) old (io_o s, io_e s) false :: io_stk s) in
    opened s s' /\ (forall y, fd_get (io_tab s') (io_fd s y) = if io_fd s y =? io_fd s x then Some d else fd_get (io_tab s) (io_fd s y)).
Proof.
  intros R N Z O. destruct (ready_fd s x R) as (dx & X).
  assert (NE : forall y, io_fd s y <> newfd) by (intros y E; destruct (ready_fd s y R) as (dy & Y); congruence).
  assert (X' : fd_get newtab (io_fd s x) = Some dx) by (rewrite O; auto).
  set (old := fd_free newtab). pose proof (get_free newtab) as FR. fold old in FR.
  assert (ON : old <> newfd) by (intros E; rewrite E in FR; congruence).
  assert (OX : forall y, old <> io_fd s y).
  { intros y E. rewrite E, O in FR by auto. destruct (ready_fd s y R) as (dy & Y). congruence. }
  exists old, (fd_put newtab old (Some dx)), (fd_put (fd_put newtab old (Some dx)) (io_fd s x) (Some d)).
  split; [unfold sys_dup; rewrite X'; reflexivity|].
  split; [unfold sys_dup2; rewrite get_put; destruct (Nat.eqb_spec newfd old); [congruence|]; rewrite N; reflexivity|].
  cbv zeta. split.
  - exists [mkFrame (Some x) old (io_o s, io_e s) false]. eexists. split; [constructor; [reflexivity|constructor]|]. split; [reflexivity|]. split; [|split].
    + assert (G : forall y, exists dd, fd_get (sys_close (fd_put (fd_put newtab old (Some dx)) (io_fd s x) (Some d)) newfd) (io_fd s y) = Some dd).
      { intros y. unfold sys_close. rewrite !get_put. destruct (Nat.eqb_spec (io_fd s y) newfd); [destruct (NE y); auto|].
        destruct (Nat.eqb_spec (io_fd s y) (io_fd s x)); [eauto|]. destruct (Nat.eqb_spec (io_fd s y) old); [eauto|].
        rewrite O by auto. apply ready_fd; auto. }
      destruct R as (_ & _ & _ & R). split; [exact (G STDIN)|]. split; [exact (G STDOUT)|]. split; [exact (G STDERR)|exact R].
    + simpl. unfold pop_frame. cbn [fr_fd fr_old io_tab]. unfold sys_dup2, sys_close. rewrite !get_put.
      destruct (Nat.eqb_spec old newfd); [congruence|]. destruct (Nat.eqb_spec old (io_fd s x)); [destruct (OX x); auto|].
      rewrite Nat.eqb_refl. cbn [bind]. reflexivity.
    + repeat split; auto. simpl. intros n. unfold sys_close. rewrite !get_put. simpl.
      change (io_fd _ x) with (io_fd s x). destruct (Nat.eqb_spec n old) as [->|A].
      { rewrite <- O by auto. auto. }
      assert (Q : io_fd (mkIo (fd_put (fd_put (fd_put newtab old (Some dx)) (io_fd s x) (Some d)) newfd None) (io_in s) (io_out s)
        (io_err s) o e (mkFrame (Some x) old (io_o s, io_e s) false :: io_stk s)) x = io_fd s x) by (destruct x; reflexivity).
      rewrite ?Q. destruct (Nat.eqb_spec n (io_fd s x)) as [->|B]; auto.
      destruct (Nat.eqb_spec n newfd) as [->|C]; auto.
  - intros y. simpl. unfold sys_close. rewrite !get_put. destruct (Nat.eqb_spec (io_fd s y) newfd); [destruct (NE y); auto|].
    destruct (Nat.eqb_spec (io_fd s y) (io_fd s x)); auto. destruct (Nat.eqb_spec (io_fd s y) old); [destruct (OX y); auto|].
    apply O; auto.
Qed.

Lemma new_ok t d : let '(f, t1) := sys_new t d in fd_get t f = None /\ fd_get t1 f = Some d /\ forall n, n <> f -> fd_get t1 n = fd_get t n.
Proof.
  unfold sys_new. split; [apply get_free|]. rewrite get_put, Nat.eqb_refl. split; auto.
  intros n H. rewrite get_put. destruct (Nat.eqb_spec n (fd_free t)); [congruence|auto].
Qed.

Lemma open_output co s name x tr : ready s -> exists s', pBat_OpenOutput co s name x tr = Ret s' /\ opened s s' /\
  io_in s' = io_in s /\ io_out s' = io_out s /\ io_err s' = io_err s /\
  (co name x tr = false -> s' = s) /\
  (co name x tr = true -> io_o s' = (match x with STDOUT => true | _ => io_o s end) /\ io_e s' = (match x with STDERR => false | _ => io_e s end) /\
     forall y, fd_get (io_tab s') (io_fd s y) = if io_fd s y =? io_fd s x then Some (DFile name tr) else fd_get (io_tab s) (io_fd s y)).
Proof.
  intros R. unfold pBat_OpenOutput. destruct (co name x tr); cbn [negb].
  - pose proof (new_ok (io_tab s) (DFile name tr)) as N. destruct (sys_new (io_tab s) (DFile name tr)) as [newfd t1].
    destruct N as (N1 & N2 & N3). set (oe := match x with STDIN => (io_o s, io_e s) | STDOUT => (true, io_e s) | STDERR => (io_o s, false) end).
    destruct (open_one s t1 newfd x _ (fst oe) (snd oe) R N2 N1 N3) as (old & t2 & t3 & D1 & D2 & O & G).
    rewrite D1. cbn [bind]. rewrite D2. cbn [bind]. destruct oe as [o e] eqn:OE. eexists. split; [reflexivity|].
    split; [exact O|]. repeat split; auto; try discriminate.
    + cbn [io_o]. unfold oe in OE. destruct x; congruence.
    + cbn [io_e]. unfold oe in OE. destruct x; congruence.
  - exists s. split; [reflexivity|]. split; [apply opened_refl; auto|]. repeat split; auto; discriminate.
Qed.

(** *** All the redirections of a command *)
Lemma places_open co s name x tr s' : ready s -> pBat_OpenOutput co s name x tr = Ret s' ->
  places_of s' = match x with
    | STDIN => if co name STDIN tr then mkP (Some (DFile name tr)) (p_1 (places_of s)) (p_2 (places_of s)) (io_o s) (io_e s) else places_of s
    | STDOUT => open_out co (Some (name, tr)) (places_of s)
    | STDERR => open_err co (Some (name, tr)) (places_of s)
    end.
Proof.
  intros R E. destruct (open_output co s name x tr R) as (s1 & E1 & O & I1 & I2 & I3 & F0 & F1). rewrite E in E1. injection E1 as <-.
  unfold open_out, open_err, places_of. cbn [p_in p_1 p_2 p_o p_e]. rewrite I1, I2, I3.
  destruct (co name x tr) eqn:C.
  - destruct (F1 eq_refl) as (P1 & P2 & G). rewrite P1, P2.
    pose proof (G STDIN) as GI. pose proof (G STDOUT) as GO. pose proof (G STDERR) as GE. cbn [io_fd] in GI, GO, GE.
    rewrite GI, GO, GE. destruct R as (_ & _ & _ & A & B & D).
    destruct x; rewrite C; cbn [io_fd]; rewrite ?Nat.eqb_refl;
      repeat match goal with |- context [?a =? ?b] => destruct (Nat.eqb_spec a b); try congruence end; reflexivity.
  - rewrite (F0 eq_refl). destruct x; rewrite C; reflexivity.
Qed.
Lemma opened_ready s s' : opened s s' -> ready s'.
Proof. intros (? & ? & _ & _ & R & _). exact R. Qed.
Lemma exec_output co st s : ready s -> exists s', pBat_ExecOutput co st s = Ret s' /\ opened s s' /\ places_of s' = redirect co st (places_of s).
Proof.
  intros R. unfold pBat_ExecOutput, redirect.
  assert (X1 : exists s', (match st_in st with Some f => pBat_OpenOutput co s f STDIN false | None => Ret s end) = Ret s' /\ opened s s' /\
     places_of s' = open_in co (st_in st) (places_of s)).
  { destruct (st_in st) as [n|]; [|exists s; split; [reflexivity|]; split; [apply opened_refl; auto|reflexivity]].
    destruct (open_output co s n STDIN false R) as (s1 & E1 & O & _). exists s1. split; auto. split; auto. rewrite (places_open _ _ _ _ _ _ R E1). reflexivity. }
  destruct X1 as (s1 & E1 & O1 & P1). rewrite E1. cbn [bind]. pose proof (opened_ready _ _ O1) as R1.
  assert (X2 : exists s', (match st_out st with Some (f, t) => pBat_OpenOutput co s1 f STDOUT t | None => Ret s1 end) = Ret s' /\ opened s1 s' /\
     places_of s' = open_out co (st_out st) (places_of s1)).
  { destruct (st_out st) as [[n t]|]; [|exists s1; split; [reflexivity|]; split; [apply opened_refl; auto|reflexivity]].
    destruct (open_output co s1 n STDOUT t R1) as (s2 & E2 & O & _). exists s2. split; auto. split; auto. rewrite (places_open _ _ _ _ _ _ R1 E2). reflexivity. }
  destruct X2 as (s2 & E2 & O2 & P2). rewrite E2. cbn [bind]. pose proof (opened_ready _ _ O2) as R2.
  assert (X3 : exists s', (match st_err st with Some (f, t) => pBat_OpenOutput co s2 f STDERR t | None => Ret s2 end) = Ret s' /\ opened s2 s' /\
     places_of s' = open_err co (st_err st) (places_of s2)).
  { destruct (st_err st) as [[n t]|]; [|exists s2; split; [reflexivity|]; split; [apply opened_refl; auto|reflexivity]].
    destruct (open_output co s2 n STDERR t R2) as (s3 & E3 & O & _). exists s3. split; auto. split; auto. rewrite (places_open _ _ _ _ _ _ R2 E3). reflexivity. }
  destruct X3 as (s3 & E3 & O3 & P3). rewrite E3. cbn [bind]. pose proof (opened_ready _ _ O3) as R3.
  rewrite <- P1, <- P2, <- P3. assert (O : opened s s3) by (eauto using opened_trans).
  assert (P : forall o e, opened s3 (set_ptrs (set_stk s3 (mkFrame None 0 (io_o s3, io_e s3) false :: io_stk s3)) o e)).
  { intros o e. exists [mkFrame None 0 (io_o s3, io_e s3) false]. eexists. split; [constructor; [reflexivity|constructor]|]. split; [reflexivity|]. split; [exact R3|].
    split; [reflexivity|]. repeat split. }
  destruct (st_redir st).
  - exists s3. split; [reflexivity|]. split; auto.
  - eexists. split; [reflexivity|]. split; [eapply opened_trans; [exact O|apply P]|reflexivity].
  - eexists. split; [reflexivity|]. split; [eapply opened_trans; [exact O|apply P]|reflexivity].
Qed.
Lemma sees_around s : sees (places_of s) = around s.
Proof. unfold sees, around, reads, writes, complains. simpl. destruct (io_o s), (io_e s); reflexivity. Qed.
Lemma redirect_straight co st s : straight s -> sees (redirect co st (places_of s)) = redirected co st (around s).
Proof.
  intros [A B]. unfold redirect, redirected, around, reads, writes, complains, places_of. rewrite A, B.
  destruct st as [o e i m]. cbn [st_in st_out st_err st_redir].
  destruct i as [n|]; cbn [open_in to_file]; [destruct (co n STDIN false)|];
  (destruct o as [[n1 t1]|]; cbn [open_out to_file]; [destruct (co n1 STDOUT t1)|]);
  (destruct e as [[n2 t2]|]; cbn [open_err to_file]; [destruct (co n2 STDERR t2)|]); destruct m; reflexivity.
Qed.
Lemma same_places a b : same_io a b -> places_of a = places_of b.
Proof. intros (A & B & C & D & E & F & G). unfold places_of. rewrite A, B, C, D, E, !G. reflexivity. Qed.
