(** Run_Proofs.v -- lemmas on the execution of lines. *)

From Verif Require Import Base StrLib_Model Env_Model Var_Model Expand_Model Args_Model Block_Model CmdList_Model
  Parse_Model Stream_Model Stream_Spec Stream_Proofs If_Model Body_Model For_Model Run_Model Run_Spec.

Section R.
Variable leaf : list event -> xworld -> cstr -> leafres.
Variable can_open : list event -> cstr -> std -> bool -> bool.
Variable fio : forio.
Variable table : tree.
Variable strtod : cstr -> dbl * nat.
Variable exists_file : list event -> cstr -> bool.
Variable ka : Z.
Notation run := (run leaf can_open fio table strtod exists_file ka).
Notation run_lines := (run_lines leaf can_open fio table strtod exists_file ka).
Notation run_line := (run_line leaf can_open fio table strtod exists_file ka).

(** *** Pipes *)
Definition only_more (s0 : io) (l : option nat) (s : io) : Prop :=
  io_in s = io_in s0 /\ io_out s = io_out s0 /\ io_err s = io_err s0 /\ io_o s = io_o s0 /\ io_e s = io_e s0 /\ io_stk s = io_stk s0 /\
  match l with
  | None => forall n, fd_get (io_tab s) n = fd_get (io_tab s0) n
  | Some f => fd_get (io_tab s0) f = None /\ (exists d, fd_get (io_tab s) f = Some d) /\
              forall n, n <> f -> fd_get (io_tab s) n = fd_get (io_tab s0) n
  end.
Lemma pipe_more s0 c l r : only_more s0 l (r_io r) ->
  let '(_, _, l', r') := pipe_loop c l r in only_more s0 l' (r_io r').
Proof.
  revert l r. induction c as [|[[n t] st] c IH]; intros l r H; [exact H|].
  cbn [pipe_loop]. destruct c as [|[[[] t2] st2] c2]; try exact H.
  set (t0 := match l with Some f => _ | None => _ end).
  assert (T0 : forall m, fd_get t0 m = fd_get (io_tab s0) m).
  { intros m. destruct H as (_ & _ & _ & _ & _ & _ & H). unfold t0. destruct l as [f|]; auto.
    destruct H as (H1 & _ & H3). unfold sys_close. rewrite get_put. destruct (Nat.eqb_spec m f) as [->|N]; auto. }
  pose proof (new_ok t0 (DPipe (length (r_log r)))) as N. destruct (sys_new t0 (DPipe (length (r_log r)))) as [f t1].
  destruct N as (N1 & N2 & N3).
  match goal with |- context [pipe_loop ?k (Some f) ?x] => specialize (IH (Some f) x); revert IH; destruct (pipe_loop k (Some f) x) as [[[pre cur] l'] r']; intros IH end.
  apply IH.
  destruct H as (A & B & C & D & E & F & _). repeat split; auto; cbn [add_event set_io set_tab r_io io_tab].
  - rewrite <- T0. auto.
  - eauto.
  - intros m M. rewrite N3 by auto. auto.
Qed.
Lemma pipe_keeps c l r : let '(pre, cur, _, r') := pipe_loop c l r in
  c = pre ++ cur /\ r_x r' = r_x r /\ r_abort r' = r_abort r /\ (c <> [] -> cur <> []).
Proof.
  revert l r. induction c as [|[[n t] st] c IH]; intros l r; [simpl; auto|].
  cbn [pipe_loop]. destruct c as [|[[[] t2] st2] c2]; try (simpl; repeat split; auto; discriminate).
  set (t0 := match l with Some f => _ | None => _ end).
  destruct (sys_new t0 (DPipe (length (r_log r)))) as [f t1].
  match goal with |- context [pipe_loop ?k (Some f) ?x] => specialize (IH (Some f) x); revert IH; destruct (pipe_loop k (Some f) x) as [[[pre cur] l'] r']; intros IH end.
 
  destruct IH as (A & B & C & D). repeat split; auto; [simpl; congruence|]. intros _. apply D. discriminate.
Qed.

Lemma operators_ok c r : c <> [] -> ready (r_io r) -> exists skip pre cur r1,
  pBat_ExecOperators c r = Ret (skip, pre, cur, r1) /\ opened (r_io r) (r_io r1) /\ r_x r1 = r_x r /\ r_abort r1 = r_abort r /\
  c = pre ++ cur /\ cur <> [].
Proof.
  intros N R. unfold pBat_ExecOperators. destruct c as [|[[n t] st] c]; [congruence|].
  destruct (op_skips n (errlevel r) || look_ahead t).
  { eexists _, [], _, r. split; [reflexivity|]. split; [apply opened_refl; auto|]. auto. }
  match goal with |- context [pipe_loop ?k None r] =>
    pose proof (pipe_more (r_io r) k None r ltac:(repeat split)) as M; pose proof (pipe_keeps k None r) as K; revert M K;
    destruct (pipe_loop k None r) as [[[pre cur] l] r1]; intros M (K1 & K2 & K3 & K4) end.
  specialize (K4 N).
  destruct l as [f|].
  - destruct M as (A & B & C & D & E & F & M1 & (d & M2) & M3).
    assert (NE : forall x, io_fd (r_io r) x <> f) by (intros x X; destruct (ready_fd (r_io r) x R); congruence).
    destruct (open_one (r_io r) (io_tab (r_io r1)) f STDIN d (io_o (r_io r)) (io_e (r_io r)) R M2 M1 M3) as (old & t2 & t3 & D1 & D2 & O & G).
    unfold pBat_OpenOutputD. change (io_fd (r_io r1) STDIN) with (io_in (r_io r1)); rewrite A;  change (io_in (r_io r)) with (io_fd (r_io r) STDIN); rewrite D1. cbn [bind].
    rewrite D2. cbn [bind]. eexists _, _, _, _. split; [reflexivity|]. cbn [set_io r_io r_x r_abort]. split; auto.
    unfold set_tab, set_stk. cbn [io_tab io_in io_out io_err io_o io_e io_stk]. rewrite A, B, C, D, E, F. exact O.
  - eexists _, _, _, _. split; [reflexivity|]. split; auto.
    destruct M as (A & B & C & D & E & F & M). exists [], (r_io r1). split; [constructor|]. split; [exact F|].
    assert (S : same_io (r_io r1) (r_io r)) by (repeat split; auto).
    split; [apply (same_ready _ _ (same_sym _ _ S)); auto|]. split; [reflexivity|apply same_sim; auto].
Qed.

(** *** Everything that is run leaves the streams as they were *)
Lemma relock_ok s : relock (locked s) (get_lock (io_stk s)) = s.
Proof. destruct s as [t i o e a b [|[fd old su lk] k]]; reflexivity. Qed.
Lemma locked_base s : base_locked (locked s).
Proof. unfold base_locked, locked. destruct (io_stk s); reflexivity || exact I. Qed.
Lemma same_relock a b l : same_io a b -> same_io (relock a l) (relock b l).
Proof. intros (A & B & C & D & E & F & G). repeat split; auto. cbn. rewrite F. reflexivity. Qed.
Lemma ready_locked s : ready s -> ready (locked s).
Proof. auto. Qed.

Ltac inv_bind H :=
  match type of H with
  | bind ?x _ = Ret _ => let E := fresh "E" in destruct x eqn:E; try discriminate H; cbn [bind] in H
  end.

Lemma run_same f :
  (forall j r c b r', run f j r = Ret (c, b, r') -> ready (r_io r) -> same_io (r_io r') (r_io r)) /\
  (forall t r r', run_lines f t r = Ret r' -> ready (r_io r) -> same_io (r_io r') (r_io r)) /\
  (forall t r r', run_line f t r = Ret r' -> ready (r_io r) -> same_io (r_io r') (r_io r)).
Proof.
  induction f as [|f (IH1 & IH2 & IH3)]; [repeat split; intros; discriminate|].
  split; [|split].
  - intros j r c b r' H R. destruct j as [c0|c0|t|t k c0].
    + (* line *)
      destruct c0 as [|[[n t] st] tl]; cbn [Run_Model.run] in H; [injection H as _ _ <-; apply same_refl|].
      match type of H with context [pBat_ExecOperators ?k ?q] =>
        destruct (operators_ok k q ltac:(discriminate) (ready_locked _ R)) as (skip & pre & cur & r1 & E & O & X & A & C & N);
        rewrite E in H end. cbn [bind] in H. destruct cur as [|[[n1 t1] st1] tl1]; [congruence|]. cbn [set_io r_io] in O.
      pose proof (locked_base (r_io r)) as LB.
      destruct (skip || negb (r_abort r1 =? 0)%Z).
      * destruct (pop_opened _ _ _ LB O (same_refl _)) as (s & P & S). rewrite P in H. cbn [bind] in H.
        assert (SR : same_io (relock s (get_lock (io_stk (r_io r)))) (r_io r)).
        { rewrite <- (relock_ok (r_io r)) at 2. apply same_relock; auto. }
        destruct (negb (r_abort r1 =? 0)%Z || look_ahead t); [injection H as _ _ <-; exact SR|].
        inv_bind H. destruct a as [[c' b'] r3]. injection H as _ _ <-.
        apply IH1 in E0; [|apply (same_ready _ _ (same_sym _ _ SR)); exact R].
        apply (same_trans _ _ _ E0 SR).
      * assert (O2 : exists s, (if look_ahead t then Ret (r_io r1) else pBat_ExecOutput (can_open (r_log r1)) st1 (r_io r1)) = Ret s /\
                      opened (locked (r_io r)) s).
        { destruct (look_ahead t); [exists (r_io r1); auto|]. assert (R1 : ready (r_io r1)) by (destruct O as (? & ? & _ & _ & R1 & _); exact R1).
          destruct (exec_output (can_open (r_log r1)) st1 (r_io r1) R1) as (s & Es & Os & _). exists s. split; auto.
          apply (opened_trans _ _ _ O Os). }
        destruct O2 as (s & Es & Os). rewrite Es in H. cbn [bind] in H.
        inv_bind H. destruct a as [[c2 stop] r2]. cbn [bind] in H.
        assert (Rs : ready s) by (destruct Os as (? & ? & _ & _ & R1 & _); exact R1).
        apply IH1 in E0; [|exact Rs]. cbn [set_io r_io] in E0.
        destruct (pop_opened _ _ _ LB Os (same_sym _ _ E0)) as (s2 & P & S). rewrite P in H. cbn [bind] in H.
        assert (SR : same_io (relock s2 (get_lock (io_stk (r_io r)))) (r_io r)).
        { rewrite <- (relock_ok (r_io r)) at 2. apply same_relock; auto. }
        destruct c2 as [|it2 tl2]; [discriminate|]. destruct (stop || look_ahead t); [injection H as _ _ <-; exact SR|].
        inv_bind H. destruct a as [[c' b'] r3]. injection H as _ _ <-.
        apply IH1 in E1; [|apply (same_ready _ _ (same_sym _ _ SR)); exact R].
        apply (same_trans _ _ _ E1 SR).
    + (* command *)
      destruct c0 as [|[[n t] st] tl]; cbn [Run_Model.run] in H; [discriminate|].
      set (p := pBat_SkipAllBlanks t) in *. clearbody p.
      destruct (pBat_GetCommandProc p table) as [e| |]; try discriminate. cbn [bind] in H.
      set (proc := match e with Some e => e_proc e | None => [] end) in *. clearbody proc.
      destruct (streqb proc (s2l "CmdBlock")).
      { inv_bind H. destruct a as [b0 e0]. inv_bind H. destruct a as [u w].
        assert (X : forall r1, Ret (((n, t, st) :: tl), false, r1) = Ret (c, b, r') -> same_io (r_io r1) (r_io r) -> same_io (r_io r') (r_io r))
          by (intros r1 Y; injection Y as _ _ <-; auto).
        destruct e0 as [|ch e1]; [apply (X _ H); apply same_refl|].
        destruct ch as [[] [] [] [] [] [] [] []]; try (apply (X _ H); apply same_refl).
        destruct (pBat_SkipBlanks e1) as [|ch0 l0]; [|apply (X _ H); apply same_refl].
        inv_bind H. destruct a as [[c1 b1] r1]. apply (X _ H). apply IH1 in E1; auto. }
      destruct (streqb proc (s2l "CmdIf")).
      { inv_bind H. destruct a as [res w]. destruct res as [code keep|[] rest].
        - injection H as _ _ <-. apply same_refl.
        - inv_bind H. destruct a as [b0 e0]. destruct (after_par e0) as [|ch0 l0].
          + inv_bind H. destruct a as [[c1 b1] r1]. injection H as _ _ <-. apply IH1 in E1; auto.
          + inv_bind H. destruct a as [[c1 b1] r1]. injection H as _ _ <-. apply IH1 in E1; auto.
        - destruct (opens (pBat_SkipBlanks rest)); [|injection H as _ _ <-; apply same_refl].
          inv_bind H. destruct a as [b0 e0]. destruct (_ && _).
          + inv_bind H. destruct a as [b1 e1]. destruct (after_par e1) as [|ch0 l0].
            * inv_bind H. destruct a as [[c1 b2] r1]. injection H as _ _ <-. apply IH1 in E2; auto.
            * injection H as _ _ <-. apply same_refl.
          + destruct (after_par e0); injection H as _ _ <-; apply same_refl. }
      destruct (streqb proc (s2l "CmdFor")).
      { inv_bind H. destruct a as [[code|b0 code|b0 s0 cmd] w]; [injection H as _ _ <-; apply same_refl|injection H as _ _ <-; apply same_refl|].
        inv_bind H. destruct a as [[c1 b1] r1]. injection H as _ _ <-. apply IH1 in E0; [|destruct cmd; auto]. destruct cmd; auto. }
      injection H as _ _ <-. apply same_refl.
    + (* block *)
      cbn [Run_Model.run] in H. inv_bind H. injection H as _ _ <-. apply IH2 in E; [|apply ready_locked; auto]. cbn [set_io r_io] in *.
      rewrite <- (relock_ok (r_io r)) at 2. apply same_relock; auto.
    + (* for *)
      cbn [Run_Model.run] in H. inv_bind H. destruct a as [|s0|w s0]; [injection H as _ _ <-; apply same_refl|apply IH1 in H; auto|].
      inv_bind H. destruct a as [[c1 b1] r1]. apply IH1 in E0; auto. cbn [set_x r_io] in E0.
      destruct (r_abort r1 =? 0)%Z; [|injection H as _ _ <-; exact E0].
      apply IH1 in H; [apply (same_trans _ _ _ H E0)|]. apply (same_ready _ _ (same_sym _ _ E0)); auto.
  - intros t r r' H R. cbn [Run_Model.run_lines] in H. destruct t as [|c0 t]; [injection H as <-; apply same_refl|].
    inv_bind H. destruct (pBat_SkipAllBlanks (c0 :: t)) as [|ch0 l0]; [apply IH2 in H; auto|].
    inv_bind H. apply IH3 in E0; auto. destruct (_ || _); [injection H as <-; exact E0|].
    apply IH2 in H; [apply (same_trans _ _ _ H E0)|]. apply (same_ready _ _ (same_sym _ _ E0)); auto.
  - intros t r r' H R. cbn [Run_Model.run_line] in H.
    assert (G : (do (p, w) <- pBat_ParseLine (vw_cd (x_var (r_x r))) (r_x r) t;
                 match p with
                 | inl _ => Ret (set_x r w)
                 | inr c => do (_, _, r1) <- run f (JLine c) (set_x r w); Ret r1
                 end) = Ret r' -> same_io (r_io r') (r_io r)).
    { clear H. intros H. inv_bind H. destruct a as [p w]. destruct p as [e|c]; [injection H as <-; apply same_refl|].
      inv_bind H. destruct a as [[c1 b1] r1]. injection H as <-. apply IH1 in E0; auto. }
    destruct (pBat_SkipBlanks t) as [|ch l]; [auto|].
    destruct ch as [[] [] [] [] [] [] [] []]; auto. injection H as <-. apply same_refl.
Qed.

(** *** Chains of ordinary commands *)
Definition inp_of (l : option nat) (r : rst) : option dest :=
  match l with Some f => fd_get (io_tab (r_io r)) f | None => reads (r_io r) end.
Definition not_pipe (c : chain) : Prop := match c with (NODE_PIPE, _, _) :: _ => False | _ => True end.

Lemma pipe_items_loop n left last rest s0 l r : only_more s0 l (r_io r) -> not_pipe rest ->
  exists pre l' r' n', pipe_loop (pipe_items n left last ++ rest) l r = (pre, (n', fst last, snd last) :: rest, l', r') /\
    only_more s0 l' (r_io r') /\ r_x r' = r_x r /\ r_abort r' = r_abort r /\
    (inp_of l' r', r_log r') = start left (inp_of l r) (r_log r).
Proof.
  intros H N. revert n l r H. induction left as [|[t st] left IH]; intros n l r H.
  - cbn [pipe_items app]. exists [], l, r, n. split; [|auto].
    cbn [pipe_loop]. destruct rest as [|[[[] t] st] rest]; try reflexivity. destruct N.
  - cbn [pipe_items app].
    assert (X : exists t2 st2 c2, pipe_items NODE_PIPE left last ++ rest = (NODE_PIPE, t2, st2) :: c2)
      by (destruct left as [|[t2 st2] left]; simpl; eauto).
    destruct X as (t2 & st2 & c2 & X).
    set (t0 := match l with Some f => sys_close (io_tab (r_io r)) f | None => io_tab (r_io r) end).
    assert (T0 : forall m, fd_get t0 m = fd_get (io_tab s0) m).
    { intros m. destruct H as (_ & _ & _ & _ & _ & _ & H). unfold t0. destruct l as [f|]; auto.
      destruct H as (H1 & _ & H3). unfold sys_close. rewrite get_put. destruct (Nat.eqb_spec m f) as [->|M]; auto. }
    pose proof (new_ok t0 (DPipe (length (r_log r)))) as K. destruct (sys_new t0 (DPipe (length (r_log r)))) as [f t1] eqn:SN.
    destruct K as (N1 & N2 & N3).
    set (r1 := add_event (set_io r (set_tab (r_io r) t1)) (Started (length (r_log r)) t st (inp_of l r))).
    assert (H1 : only_more s0 (Some f) (r_io r1)).
    { destruct H as (A & B & C & D & E & F & _). repeat split; auto; cbn [r1 add_event set_io set_tab r_io io_tab].
      - rewrite <- T0. auto.
      - eauto.
      - intros m M. rewrite N3 by auto. auto. }
    destruct (IH NODE_PIPE (Some f) r1 H1) as (pre & l' & r' & n' & E & M & RX & RA & ST).
    exists ((n, t, st) :: pre), l', r', n'. split; [|split; [exact M|split; [exact RX|split; [exact RA|]]]].
    + cbn [pipe_loop]. rewrite X. rewrite <- X. fold t0. rewrite SN. fold (inp_of l r). fold r1. rewrite E. reflexivity.
    + cbn [start]. assert (I : inp_of (Some f) r1 = Some (DPipe (length (r_log r)))) by exact N2. rewrite I in ST. exact ST.
Qed.

Lemma skip_back r : exists s, pBat_PopStreamStackUntilLock (locked (r_io r)) = Ret s /\
  set_io (set_io r (locked (r_io r))) (relock s (get_lock (io_stk (r_io r)))) = r.
Proof.
  destruct r as [[t i o e a b [|[fd old su lk] k]] x ab lg]; eexists; split; try reflexivity.
Qed.

Lemma run_skip f n t st tl r : op_skips n (errlevel r) = true -> look_ahead t = false -> (r_abort r = 0)%Z ->
  run (S f) (JLine ((n, t, st) :: tl)) r = do (c, _, r') <- run f (JLine tl) r; Ret ((n, t, st) :: c, false, r').
Proof.
  intros SK LA AB. destruct (skip_back r) as (s & P & Q).
  cbn [Run_Model.run]. unfold pBat_ExecOperators.
  change (errlevel (set_io r (locked (r_io r)))) with (errlevel r). rewrite SK, LA. cbn [orb bind].
  cbn [set_io r_abort]. rewrite AB. cbn [Z.eqb negb orb]. cbn [set_io r_io] in *. rewrite P. cbn [bind].
  cbn [set_io] in Q. rewrite Q. reflexivity.
Qed.
Lemma run_skip_abort f n t st tl r : op_skips n (errlevel r) = true -> (r_abort r <> 0)%Z ->
  run (S f) (JLine ((n, t, st) :: tl)) r = Ret ((n, t, st) :: tl, false, r).
Proof.
  intros SK AB. destruct (skip_back r) as (s & P & Q).
  cbn [Run_Model.run]. unfold pBat_ExecOperators.
  change (errlevel (set_io r (locked (r_io r)))) with (errlevel r). rewrite SK. cbn [orb bind].
  cbn [set_io r_abort]. apply Z.eqb_neq in AB. rewrite AB. cbn [negb orb]. cbn [set_io r_io] in *. rewrite P. cbn [bind].
  cbn [set_io] in Q. rewrite Q. reflexivity.
Qed.
Lemma run_skip_pipe f n left last rest r : op_skips n (errlevel r) = true -> (r_abort r = 0)%Z ->
  Forall (fun c => look_ahead (fst c) = false) (left ++ [last]) ->
  run (S (length left) + f) (JLine (pipe_items n left last ++ rest)) r =
  do (c, _, r') <- run f (JLine rest) r; Ret (pipe_items n left last ++ c, false, r').
Proof.
  revert n. induction left as [|[t st] left IH]; intros n SK AB H.
  - cbn [pipe_items length plus app]. inversion H; subst. rewrite run_skip by auto. reflexivity.
  - cbn [pipe_items length app]. inversion H; subst. cbn [plus]. rewrite run_skip by auto.
    specialize (IH NODE_PIPE eq_refl AB H3). cbn [plus] in IH. rewrite IH.
    destruct (run f (JLine rest) r) as [[[c b] r']| |]; reflexivity.
Qed.

Definition first_of (left : list (cstr * stream)) (last : cstr * stream) : cstr := match left with (t, _) :: _ => t | [] => fst last end.
Lemma pipe_items_head n left last : exists st c, pipe_items n left last = (n, first_of left last, st) :: c.
Proof. destruct left as [|[t st] left]; simpl; eauto. Qed.

Lemma operators_pipe n left last rest r : op_skips n (errlevel r) = false -> look_ahead (first_of left last) = false ->
  not_pipe rest -> ready (r_io r) ->
  exists pre r1 n' inp, pBat_ExecOperators (pipe_items n left last ++ rest) r = Ret (false, pre, (n', fst last, snd last) :: rest, r1) /\
    opened (r_io r) (r_io r1) /\ r_x r1 = r_x r /\ r_abort r1 = r_abort r /\
    start left (reads (r_io r)) (r_log r) = (inp, r_log r1) /\ places_of (r_io r1) = read_from inp (places_of (r_io r)).
Proof.
  intros SK LA NP R. destruct (pipe_items_head n left last) as (st & c & E).
  destruct (pipe_items_loop n left last rest (r_io r) None r ltac:(repeat split) NP) as (pre & l' & r' & n' & EL & M & RX & RA & ST).
  unfold pBat_ExecOperators. rewrite E in EL |- *. cbn [app] in EL |- *. rewrite SK, LA. cbn [orb]. rewrite EL.
  destruct l' as [f|].
  - destruct M as (A & B & C & D & E1 & F & M1 & (d & M2) & M3).
    destruct (open_one (r_io r) (io_tab (r_io r')) f STDIN d (io_o (r_io r)) (io_e (r_io r)) R M2 M1 M3) as (old & t2 & t3 & D1 & D2 & O & G).
    unfold pBat_OpenOutputD. change (io_fd (r_io r') STDIN) with (io_in (r_io r')); rewrite A; change (io_in (r_io r)) with (io_fd (r_io r) STDIN).
    rewrite D1. cbn [bind]. rewrite D2. cbn [bind]. eexists _, _, _, _. split; [reflexivity|]. cbn [set_io r_io r_x r_abort].
    assert (XX : set_tab (set_stk (set_tab (r_io r') t3) (mkFrame (Some STDIN) old (io_o (r_io r'), io_e (r_io r')) false :: io_stk (r_io r')))
         (sys_close t3 f) = mkIo (sys_close t3 f) (io_in (r_io r)) (io_out (r_io r)) (io_err (r_io r)) (io_o (r_io r)) (io_e (r_io r))
           (mkFrame (Some STDIN) old (io_o (r_io r), io_e (r_io r)) false :: io_stk (r_io r))).
    { unfold set_tab, set_stk. cbn [io_tab io_in io_out io_err io_o io_e io_stk]. rewrite A, B, C, D, E1, F. reflexivity. }
    cbn [set_tab set_stk io_tab] in XX |- *. unfold set_tab, set_stk in XX |- *. cbn [io_tab io_in io_out io_err io_o io_e io_stk] in XX |- *.
    rewrite XX. split; [exact O|]. split; [exact RX|]. split; [exact RA|]. split.
    + symmetry. exact ST.
    + unfold places_of, read_from. cbn [p_in p_1 p_2 p_o p_e io_tab io_in io_out io_err io_o io_e].
      pose proof (G STDIN) as GI. pose proof (G STDOUT) as GO. pose proof (G STDERR) as GE. cbn [io_fd io_tab] in GI, GO, GE.
      rewrite GI, GO, GE. destruct R as (_ & _ & _ & N1 & N2 & N3). cbn [io_fd]. rewrite Nat.eqb_refl.
      destruct (Nat.eqb_spec (io_out (r_io r)) (io_in (r_io r))); [congruence|].
      destruct (Nat.eqb_spec (io_err (r_io r)) (io_in (r_io r))); [congruence|]. unfold inp_of. rewrite M2. reflexivity.
  - assert (S : same_io (r_io r') (r_io r)) by (destruct M as (A & B & C & D & E1 & F & M); repeat split; auto).
    eexists _, _, _, _. split; [reflexivity|]. split.
    { exists [], (r_io r'). split; [constructor|]. split; [apply S|]. split; [apply (same_ready _ _ (same_sym _ _ S)); auto|].
      split; [reflexivity|apply same_sim; auto]. }
    split; [exact RX|]. split; [exact RA|]. split; [symmetry; exact ST|].
    rewrite (same_places _ _ S). unfold inp_of, reads. destruct S as (-> & _ & _ & _ & _ & _ & G). rewrite G. reflexivity.
Qed.

Lemma run_plain f n t st tl r : plain table t ->
  run (Datatypes.S f) (JCommand ((n, t, st) :: tl)) r =
  let p := pBat_SkipAllBlanks t in
  let x := leaf (r_log r) (r_x r) p in
  let '(i, o, e) := sees (places_of (r_io r)) in
  Ret ((n, lf_text x, st) :: tl, lf_stop x,
       mkR (r_io r) (x_set_err (lf_x x) (lf_code x)) (lf_abort x) (Ran p i o e :: r_log r)).
Proof.
  intros (_ & e & G & P). cbn [Run_Model.run]. rewrite G. cbn [bind].
  assert (X : forall k, match e with Some e => e_proc e <> k | None => True end -> k <> [] ->
    streqb (match e with Some e => e_proc e | None => [] end) k = false).
  { intros k H K. apply streqb_false. destruct e; auto. }
  rewrite !X; try (destruct e; tauto || exact I); try discriminate. rewrite sees_around. reflexivity.
Qed.

Lemma skips_chosen n err : n <> NODE_PIPE -> op_skips n err = negb (chosen n err).
Proof. intros H. destruct n; simpl; auto; try congruence. destruct (err =? 0)%Z; reflexivity. Qed.
Lemma items_not_pipe l : Forall (fun p => pl_op p <> NODE_PIPE) l -> not_pipe (items l).
Proof.
  intros H. destruct l as [|p l]; [exact I|]. inversion H; subst. unfold items. cbn [map concat].
  destruct (pipe_items_head (pl_op p) (pl_left p) (pl_last p)) as (st & c & ->). simpl. destruct (pl_op p); auto.
Qed.
Lemma pipe_items_length n left last : length (pipe_items n left last) = Datatypes.S (length left).
Proof. revert n. induction left as [|[t st] l IH]; intros n; simpl; auto. Qed.

Lemma run_chain l : plain_line table l -> forall f r, ready (r_io r) -> length (items l) + 2 <= f ->
  exists c r', run f (JLine (items l)) r = Ret (c, false, r') /\ same_io (r_io r') (r_io r) /\
    line_result leaf can_open (places_of (r_io r)) l (r_x r, r_abort r, r_log r) = (r_x r', r_abort r', r_log r').
Proof.
  induction l as [|[op left [t st]] l IH]; intros PL f r R F.
  - destruct f as [|f]; [simpl in F; lia|]. exists [], r. split; [reflexivity|]. split; [apply same_refl|reflexivity].
  - inversion PL as [|? ? (NP & P & PLF) PL']; subst. cbn [pl_op pl_left pl_last fst] in *.
    assert (NPL : not_pipe (items l)) by (apply items_not_pipe; eapply Forall_impl; [|exact PL']; simpl; tauto).
    assert (LA : Forall (fun c => look_ahead (fst c) = false) (left ++ [(t, st)])).
    { apply Forall_app. split; [eapply Forall_impl; [|exact PLF]; intros c H; apply H|]. constructor; [apply P|constructor]. }
    assert (LF : look_ahead (first_of left (t, st)) = false).
    { destruct left as [|[t0 st0] left]; [apply P|]. inversion LA; auto. }
    change (items (mkPl op left (t, st) :: l)) with (pipe_items op left (t, st) ++ items l) in *.
    rewrite app_length, pipe_items_length in F.
    cbn [line_result]. change (vw_err (x_var (r_x r))) with (errlevel r).
    pose proof (skips_chosen op (errlevel r) NP) as SC. destruct (chosen op (errlevel r)); cbn [negb] in SC.
    + destruct (pipe_items_head op left (t, st)) as (st0 & c0 & EH).
      destruct (operators_pipe op left (t, st) (items l) (set_io r (locked (r_io r))) SC LF NPL (ready_locked _ R))
        as (pre & r1 & n' & inp & EO & O & RX & RA & ST & PO).
      cbn [set_io r_io r_log r_x r_abort fst snd] in *. change (reads (locked (r_io r))) with (p_in (places_of (r_io r))) in ST. rewrite ST.
      change (places_of (locked (r_io r))) with (places_of (r_io r)) in PO.
      destruct f as [|f]; [lia|]. rewrite EH in EO |- *. cbn [app] in EO |- *. cbn [Run_Model.run]. cbn [set_io] in EO |- *. rewrite EO. cbn [bind]. rewrite RA.
      pose proof (locked_base (r_io r)) as LB. rewrite LF.
      destruct (Z.eqb_spec (r_abort r) 0) as [AB|AB]; cbn [orb negb].
      * pose proof (opened_ready _ _ O) as R1.
        destruct (exec_output (can_open (r_log r1)) st (r_io r1) R1) as (s & Es & Os & Ps). rewrite Es. cbn [bind].
        destruct f as [|f]; [lia|]. rewrite run_plain by exact P. cbn [set_io r_io r_x r_log r_abort]. rewrite PO in Ps. rewrite Ps, RX.
        destruct (sees (redirect (can_open (r_log r1)) st (read_from inp (places_of (r_io r))))) as [[i o] e]. cbn [bind r_io].
        destruct (pop_opened _ _ _ LB (opened_trans _ _ _ O Os) (same_refl _)) as (s2 & P2 & S2). rewrite P2. cbn [bind].
        assert (SR : same_io (relock s2 (get_lock (io_stk (r_io r)))) (r_io r)).
        { rewrite <- (relock_ok (r_io r)) at 2. apply same_relock; auto. }
        set (y := leaf (r_log r1) (r_x r) (pBat_SkipAllBlanks t)).
        destruct (lf_stop y); cbn [orb].
        -- eexists _, _. split; [reflexivity|]. cbn [r_io r_x r_abort r_log set_io]. split; [exact SR|reflexivity].
        -- match goal with |- context [Run_Model.run _ _ _ _ _ _ _ (Datatypes.S f) (JLine (items l)) ?q] => set (r2 := q) end.
           destruct (IH PL' (Datatypes.S f) r2) as (c & r' & E' & S' & L').
           { apply (same_ready _ _ (same_sym _ _ SR)); exact R. } { lia. }
           rewrite E'. cbn [bind]. eexists _, _. split; [reflexivity|]. split; [apply (same_trans _ _ _ S' SR)|].
           rewrite <- L'. rewrite <- (same_places _ _ SR). reflexivity.
      * destruct (pop_opened _ _ _ LB O (same_refl _)) as (s2 & P2 & S2). rewrite P2. cbn [bind].
        assert (SR : same_io (relock s2 (get_lock (io_stk (r_io r)))) (r_io r)).
        { rewrite <- (relock_ok (r_io r)) at 2. apply same_relock; auto. }
        eexists _, _. split; [reflexivity|]. cbn [r_io r_x r_abort r_log set_io]. split; [exact SR|]. rewrite RX, RA. reflexivity.
    + destruct (Z.eqb_spec (r_abort r) 0) as [AB|AB].
      * replace f with (Datatypes.S (length left) + (f - Datatypes.S (length left))) by lia.
        rewrite run_skip_pipe by auto.
        destruct (IH PL' (f - Datatypes.S (length left)) r R) as (c & r' & E' & S' & L'); [lia|]. rewrite E'. cbn [bind].
        eexists _, _. split; [reflexivity|]. split; auto.
      * destruct (pipe_items_head op left (t, st)) as (st0 & c0 & ->). destruct f as [|f]; [lia|]. cbn [app].
        rewrite run_skip_abort by auto. eexists _, _. split; [reflexivity|]. split; [apply same_refl|reflexivity].
Qed.
End R.
