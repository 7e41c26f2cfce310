(** RunIf_Proofs.v -- lemmas on running blocks and IF. *)

From Verif Require Import Base Lex StrLib_Model Env_Model Var_Model Expand_Model Args_Model Block_Model CmdList_Model
  Parse_Model Args_Spec Args_Proofs Block_Spec Block_Proofs Block_Props Stream_Model Stream_Spec Stream_Proofs If_Model Body_Model For_Model Run_Model Run_Spec
  Run_Proofs RunBlock_Spec RunBlock_Proofs.

Lemma bind_eq {A B} (a b : outcome A) (f g : A -> outcome B) : a = b -> (forall x, f x = g x) -> bind a f = bind b g.
Proof. intros -> H. destruct b; cbn [bind]; auto. Qed.

Lemma next_block a i rest : Forall blank a -> inner i -> pBat_GetNextBlock (a ++ "("%char :: i ++ ")"%char :: rest) = Ret (i, ")"%char :: rest).
Proof.
  intros A I. unfold pBat_GetNextBlock.
  assert (S : pBat_SkipBlanks (a ++ "("%char :: i ++ ")"%char :: rest) = "("%char :: i ++ ")"%char :: rest).
  { apply skip_blanks; auto. intros c r [= <- _]. unfold blank. cbv. intuition discriminate. }
  rewrite S. rewrite C53_block by auto. cbn [bind]. rewrite ceq_refl.
  rewrite app_length. destruct (Nat.ltb_spec (length i + length (")"%char :: rest)) (length (")"%char :: rest))); [lia|].
  replace (length i + length (")"%char :: rest) - length (")"%char :: rest)) with (length i) by lia.
  rewrite firstn_app, Nat.sub_diag, firstn_all. simpl. rewrite app_nil_r. reflexivity.
Qed.
Lemma after_blank r : Forall blank r -> after_par (")"%char :: r) = [].
Proof.
  intros H. unfold after_par. rewrite ceq_refl. pose proof (skip_blanks r [] H ltac:(discriminate)) as X. rewrite app_nil_r in X. exact X.
Qed.
Lemma block_start i t : block_text i t -> exists r, Forall blank r /\ inner i /\ pBat_SkipAllBlanks t = "("%char :: i ++ ")"%char :: r.
Proof.
  intros (b & r & B & I & R & ->). exists r. split; auto. split; auto. rewrite allskip by auto. apply allskip_stop. cbv. intuition discriminate.
Qed.
Lemma block_not_ahead i t : block_text i t -> look_ahead t = false.
Proof. intros H. destruct (block_start i t H) as (r & _ & _ & E). unfold look_ahead. rewrite E. reflexivity. Qed.

(** What follows the condition. *)
Lemma open_skip a i x : Forall blank a -> pBat_SkipBlanks (a ++ parens i ++ x) = "("%char :: i ++ ")"%char :: x.
Proof.
  intros A. unfold parens. cbn [app]. rewrite <- app_assoc. cbn [app]. apply skip_blanks; auto. intros c r [= <- _]. unfold blank. cbv. intuition discriminate.
Qed.
Lemma body_block a i x : Forall blank a -> inner i -> body_of (pBat_SkipBlanks (a ++ parens i ++ x)) = Ret (i, ")"%char :: x).
Proof.
  intros A I. rewrite open_skip by auto. unfold body_of. cbn [opens]. rewrite ceq_refl. pose proof (next_block [] i x ltac:(constructor) I) as X. exact X.
Qed.
Lemma body_command a l : Forall blank a -> line false l -> (forall c r, l = c :: r -> ~ blank c /\ c <> "("%char) ->
  body_of (pBat_SkipBlanks (a ++ l)) = Ret (l, []) /\ opens (pBat_SkipBlanks (a ++ l)) = false.
Proof.
  intros A L H. rewrite skip_blanks; auto; [|intros c r E; apply (H c r E)].
  assert (O : opens l = false).
  { destruct l as [|c l]; auto. cbn [opens]. destruct (ceq c "("%char) eqn:C; auto. apply ceq_true in C. destruct (H c l eq_refl). congruence. }
  split; auto. unfold body_of. rewrite O. unfold pBat_GetBlockLine. pose proof (C53_line false l [] L (or_introl eq_refl)) as E. rewrite app_nil_r in E. rewrite E.
  cbn [bind]. assert (B : match l with c :: r => if ceq c "("%char then r else l | [] => l end = l) by (destruct l; auto; cbn [opens] in O; rewrite O; auto).
  rewrite B. cbn [length]. rewrite Nat.sub_0_r. destruct (Nat.ltb_spec (length l) 0); [lia|]. rewrite firstn_all. reflexivity.
Qed.
Lemma after_else e x : same_name e (s2l "else") -> (exists d y, x = d :: y /\ blank d) -> forall b, Forall blank b ->
  after_par (")"%char :: b ++ e ++ x) = e ++ x /\ (strnicmp (e ++ x) (s2l "ELSE") 4 = 0)%Z /\ delim_at (e ++ x) 4 = true /\ skipn 4 (e ++ x) = x /\ e <> [].
Proof.
  intros E (d & y & -> & D) b B.
  assert (E' : same_name e (s2l "ELSE")) by exact E.
  assert (L : length e = 4) by (apply (f_equal (@length _)) in E; rewrite map_length in E; exact E).
  destruct e as [|c0 [|c1 [|c2 [|c3 [|? ?]]]]]; try discriminate. 
  destruct (kw_delim' (s2l "ELSE") _ d y (Path_Proofs.nonul_s2l "ELSE" eq_refl) D E') as [K1 K2]. 
  split; [|split; [exact K1|split; [exact K2|split; [reflexivity|discriminate]]]].
  unfold after_par. rewrite ceq_refl. apply skip_blanks; auto. intros c r [= <- _].
  injection E as E0 _ _ _. intros BL. cbn in BL. 
  repeat (destruct BL as [<-|BL]; [discriminate E0|]). destruct BL.
Qed.

Section R.
Variable leaf : list event -> xworld -> cstr -> leafres.
Variable can_open : list event -> cstr -> std -> bool -> bool.
Variable fio : forio.
Variable table : tree.
Variable strtod : cstr -> dbl * nat.
Variable exists_file : list event -> cstr -> bool.
Variable ka : Z.
Notation run := (run leaf can_open fio table strtod exists_file ka).
Notation lines_go := (lines_go leaf can_open fio table strtod exists_file ka).
Notation chain_goes := (chain_goes leaf can_open fio table strtod exists_file ka).
Notation lines_seq := (lines_seq leaf can_open fio table strtod exists_file ka).

Lemma run_block_cmd f n t st tl i u w r : block_text i t -> handled table (pBat_SkipAllBlanks t) "CmdBlock" ->
  pBat_DelayedExpand (r_x r) i = Ret (u, w) ->
  run (S f) (JCommand ((n, t, st) :: tl)) r = do (_, _, r1) <- run f (JBlock i) (set_x r w); Ret ((n, t, st) :: tl, false, r1).
Proof.
  intros B (e & G & P) D. cbn [Run_Model.run]. rewrite G. cbn [bind]. rewrite P, streqb_refl.
  destruct (block_start i t B) as (q & Q & I & ->). pose proof (next_block [] i q ltac:(constructor) I) as NB; cbn [app] in NB; rewrite NB; clear NB. cbn [bind]. rewrite D. cbn [bind].
  pose proof (skip_blanks q [] Q ltac:(discriminate)) as X. rewrite app_nil_r in X. rewrite X. reflexivity.
Qed.

Lemma run_block_job f i r : run (S f) (JBlock i) r =
  do r1 <- Run_Model.run_lines leaf can_open fio table strtod exists_file ka f i (set_io r (locked (r_io r)));
  Ret ([], false, set_io r1 (relock (r_io r1) (get_lock (io_stk (r_io r))))).
Proof. reflexivity. Qed.
Lemma run_nil f r : run (S f) (JLine []) r = Ret ([], false, r).
Proof. reflexivity. Qed.

(** The only command of a line. *)
Lemma run_alone n t st r : ready (r_io r) -> chosen n (errlevel r) = true -> r_abort r = 0%Z -> look_ahead t = false ->
  exists s1, ready s1 /\ places_of s1 = redirect (can_open (r_log r)) st (places_of (r_io r)) /\
    (forall s2, same_io s2 s1 -> exists s3, pBat_PopStreamStackUntilLock s2 = Ret s3 /\ same_io (relock s3 (get_lock (io_stk (r_io r)))) (r_io r)) /\
    forall f, run (S f) (JLine [(n, t, st)]) r =
     do (c2, stop, r2) <- run f (JCommand [(n, t, st)]) (mkR s1 (r_x r) 0 (r_log r));
     do s0 <- pBat_PopStreamStackUntilLock (r_io r2);
     let r3 := set_io r2 (relock s0 (get_lock (io_stk (r_io r)))) in
     match c2 with
     | [] => Undef
     | it2 :: tl2 => if stop then Ret (c2, false, r3) else do (c', _, r4) <- run f (JLine tl2) r3; Ret (it2 :: c', false, r4)
     end.
Proof.
  intros R CH AB LA. assert (NP : n <> NODE_PIPE) by (intros ->; discriminate).
  pose proof (skips_chosen n (errlevel r) NP) as SK. rewrite CH in SK. cbn [negb] in SK.
  destruct (operators_pipe n [] (t, st) [] (set_io r (locked (r_io r))) SK LA I (ready_locked _ R))
    as (pre & r1 & n' & inp & EO & O & RX & RA & ST & PO).
  cbn [pipe_items app fst snd set_io r_io r_x r_abort r_log start] in *. injection ST as <- LOG. 
  assert (PRE : pre = [] /\ n' = n).
  { revert EO. unfold pBat_ExecOperators. change (errlevel (set_io r (locked (r_io r)))) with (errlevel r). rewrite SK, LA. cbn [orb pipe_loop]. intros [= <- <- _]. auto. }
  destruct PRE as [-> ->].
  pose proof (opened_ready _ _ O) as R1. destruct (exec_output (can_open (r_log r1)) st (r_io r1) R1) as (s & Es & Os & Ps).
  exists s. pose proof (opened_ready _ _ Os) as Rs. split; auto. split.
  { rewrite Ps, PO, LOG. reflexivity. }
  assert (Q : set_io r1 s = mkR s (r_x r) 0 (r_log r)).
  { unfold set_io. rewrite RX, RA, AB, LOG. reflexivity. }
  pose proof (locked_base (r_io r)) as LB.
  split.
  - intros s2 SS. destruct (pop_opened _ _ _ LB (opened_trans _ _ _ O Os) (same_sym _ _ SS)) as (s3 & P2 & S2). exists s3. split; auto.
    rewrite <- (relock_ok (r_io r)) at 2. apply same_relock; auto.
  - intros f. cbn [Run_Model.run]. setoid_rewrite EO || (unfold set_io in EO |- *; rewrite EO). cbn [bind]. rewrite RA, AB. cbn [Z.eqb negb orb]. rewrite LA, Es. cbn [bind]. rewrite Q.
    apply bind_eq; [reflexivity|]. intros [[c2 stop] r2]. apply bind_eq; [reflexivity|]. intros s0. destruct c2; auto. destruct stop; reflexivity.
Qed.

Lemma block_goes n t st i ls u w r : ready (r_io r) -> chosen n (errlevel r) = true -> r_abort r = 0%Z ->
  block_text i t -> handled table (pBat_SkipAllBlanks t) "CmdBlock" -> blines ls i -> pBat_DelayedExpand (r_x r) i = Ret (u, w) ->
  exists s1, ready s1 /\ places_of s1 = redirect (can_open (r_log r)) st (places_of (r_io r)) /\
    same_runs (chain_goes [(n, t, st)] r) (lines_seq ls (mkR s1 w 0 (r_log r))) (ends_like r).
Proof.
  intros R CH AB B H L D. destruct (run_alone n t st r R CH AB (block_not_ahead i t B)) as (s1 & R1 & P1 & POP & U).
  exists (locked s1). split; [apply ready_locked; auto|]. split; [exact P1|].
  assert (X : forall f, run (S (S (S f))) (JLine [(n, t, st)]) r =
    do r2 <- Run_Model.run_lines leaf can_open fio table strtod exists_file ka f i (mkR (locked s1) w 0 (r_log r));
    do s0 <- pBat_PopStreamStackUntilLock (relock (r_io r2) (get_lock (io_stk s1)));
    Ret ([(n, t, st)], false, set_io r2 (relock s0 (get_lock (io_stk (r_io r)))))).
  { intros f. rewrite U. rewrite (run_block_cmd (S f) n t st [] i u w) by auto.
    rewrite run_block_job. cbn [set_x set_io r_io r_x r_abort r_log].
    destruct (Run_Model.run_lines _ _ _ _ _ _ _ f i _) as [r2| |]; auto. }
  assert (SM : forall f r2, Run_Model.run_lines leaf can_open fio table strtod exists_file ka f i (mkR (locked s1) w 0 (r_log r)) = Ret r2 ->
    exists s0, pBat_PopStreamStackUntilLock (relock (r_io r2) (get_lock (io_stk s1))) = Ret s0 /\ same_io (relock s0 (get_lock (io_stk (r_io r)))) (r_io r)).
  { intros f r2 E. destruct (run_same leaf can_open fio table strtod exists_file ka f) as (_ & I2 & _). apply I2 in E; [|apply ready_locked; auto].
    cbn [r_io] in E. apply POP. rewrite <- (relock_ok s1) at 2. apply same_relock. exact E. }
  split.
  - intros r' (f & c' & b & E). apply (more_run _ _ _ _ _ _ _ f (S (S (S f)))) in E; [|lia]. rewrite X in E.
    destruct (Run_Model.run_lines _ _ _ _ _ _ _ f i _) as [r2| |] eqn:E2; try discriminate. cbn [bind] in E.
    destruct (SM f r2 E2) as (s0 & P0 & S0). rewrite P0 in E. cbn [bind] in E. injection E as <- <- <-.
    exists r2. split; [apply (blines_go _ _ _ _ _ _ _ ls i L); exists f; exact E2|]. split; [exact S0|]. auto.
  - intros r1 E. apply (blines_go _ _ _ _ _ _ _ ls i L) in E. destruct E as (f & E2).
    destruct (SM f r1 E2) as (s0 & P0 & S0). eexists. split.
    + exists (S (S (S f))). eexists _, _. rewrite X, E2. cbn [bind]. rewrite P0. cbn [bind]. reflexivity.
    + split; [exact S0|]. auto.
Qed.

(** ** IF *)
Lemma run_ahead n t st tl r f : chosen n (errlevel r) = true -> r_abort r = 0%Z -> look_ahead t = true ->
  run (S f) (JLine ((n, t, st) :: tl)) r =
  do (c2, _, r2) <- run f (JCommand ((n, t, st) :: tl)) (set_io r (locked (r_io r)));
  do s <- pBat_PopStreamStackUntilLock (r_io r2);
  match c2 with [] => Undef | _ :: _ => Ret (c2, false, set_io r2 (relock s (get_lock (io_stk (r_io r))))) end.
Proof.
  intros CH AB LA. assert (NP : n <> NODE_PIPE) by (intros ->; discriminate).
  pose proof (skips_chosen n (errlevel r) NP) as SK. rewrite CH in SK. cbn [negb] in SK.
  cbn [Run_Model.run]. unfold pBat_ExecOperators. change (errlevel (set_io r (locked (r_io r)))) with (errlevel r). rewrite SK, LA. cbn [orb bind].
  change (r_abort (set_io r (locked (r_io r)))) with (r_abort r). rewrite AB. cbn [Z.eqb negb orb].
  apply bind_eq; [reflexivity|]. intros [[c2 stop] r2]. apply bind_eq; [reflexivity|]. intros s0. destruct c2; auto. rewrite Bool.orb_true_r. reflexivity.
Qed.

Lemma run_keeps f : forall j r c b r', run f j r = Ret (c, b, r') -> match j with JLine [] | JBlock _ | JFor _ [] => True | _ => c <> [] end.
Proof.
  induction f as [|f IH]; [discriminate|]. intros j r c b r' H. destruct j as [[|[[n t] st] tl]|[|[[n t] st] tl]|i|s0 [|it tl]]; auto.
  - cbn [Run_Model.run] in H.
    destruct (pBat_ExecOperators _ _) as [[[[skip pre] cur] r1]| |]; try discriminate. cbn [bind] in H. destruct cur as [|[[n1 t1] st1] tl1]; [discriminate|].
    destruct (_ || _).
    + destruct (pBat_PopStreamStackUntilLock _); try discriminate. cbn [bind] in H. destruct (_ || _); [injection H as <- _ _; discriminate|].
      destruct (run f _ _) as [[[? ?] ?]| |]; try discriminate. injection H as <- _ _. intros E. apply app_eq_nil in E. destruct E. discriminate.
    + destruct (if look_ahead t then _ else _); try discriminate. cbn [bind] in H. destruct (run f _ _) as [[[c2 ?] ?]| |]; try discriminate. cbn [bind] in H.
      destruct (pBat_PopStreamStackUntilLock _); try discriminate. cbn [bind] in H. destruct c2; [discriminate|]. destruct (_ || _).
      * injection H as <- _ _. intros E. apply app_eq_nil in E. destruct E. discriminate.
      * destruct (run f _ _) as [[[? ?] ?]| |]; try discriminate. injection H as <- _ _. intros E. apply app_eq_nil in E. destruct E. discriminate.
  - cbn [Run_Model.run] in H. discriminate.
  - cbn [Run_Model.run] in H.
    repeat match type of H with
    | Ret _ = Ret _ => injection H as <- _ _
    | Undef = _ => discriminate
    | OutOfFuel = _ => discriminate
    | bind ?x _ = _ => let E := fresh "E" in destruct x as [?| |] eqn:E; try discriminate; cbn [bind] in H
    | context [match ?x with _ => _ end] => let E := fresh "E" in destruct x eqn:E; try discriminate
    end; try discriminate;
    match goal with E : run f _ _ = Ret (?c, _, _) |- ?c <> [] => apply IH in E; exact E end.
  - cbn [Run_Model.run] in H. destruct (for_next _ _ _ _) as [[|s1|w s1]| |]; try discriminate; cbn [bind] in H; [injection H as <- _ _; discriminate|apply IH in H; exact H|].
    destruct (run f (JLine _) _) as [[[c' ?] ?]| |] eqn:E; try discriminate. cbn [bind] in H. apply IH in E.
    destruct (r_abort _ =? 0)%Z; [|injection H as <- _ _; exact E]. destruct c'; [congruence|]. apply IH in H. exact H.
Qed.

Notation if_says := (if_says table strtod exists_file ka).
Lemma pop_locked r s : ready (r_io r) -> same_io s (locked (r_io r)) ->
  exists s0, pBat_PopStreamStackUntilLock s = Ret s0 /\ same_io (relock s0 (get_lock (io_stk (r_io r)))) (r_io r).
Proof.
  intros R E. destruct (pop_opened _ _ _ (locked_base (r_io r)) (opened_refl _ (ready_locked _ R)) (same_sym _ _ E)) as (s3 & P2 & S2).
  exists s3. split; auto. rewrite <- (relock_ok (r_io r)) at 2. apply same_relock; auto.
Qed.

Lemma if_runs n t st tl r w c1 (g : chain -> chain) : ready (r_io r) -> chosen n (errlevel r) = true -> r_abort r = 0%Z -> look_ahead t = true ->
  c1 <> [] -> (forall c, c <> [] -> g c <> []) ->
  (forall f, run (S f) (JCommand ((n, t, st) :: tl)) (set_io r (locked (r_io r))) =
     do (c', _, r1) <- run f (JLine c1) (mkR (locked (r_io r)) w 0 (r_log r)); Ret (g c', true, set_err r1 0)) ->
  same_runs (chain_goes ((n, t, st) :: tl) r) (chain_goes c1 (mkR (locked (r_io r)) w 0 (r_log r))) (ends_well r).
Proof.
  intros R CH AB LA C1 G H.
  assert (X : forall f, run (S (S f)) (JLine ((n, t, st) :: tl)) r =
    do (c', _, r1) <- run f (JLine c1) (mkR (locked (r_io r)) w 0 (r_log r));
    do s <- pBat_PopStreamStackUntilLock (r_io r1);
    match g c' with [] => Undef | _ :: _ => Ret (g c', false, set_io (set_err r1 0) (relock s (get_lock (io_stk (r_io r))))) end).
  { intros f. rewrite run_ahead by auto. rewrite H. destruct (run f _ _) as [[[? ?] ?]| |]; auto. }
  assert (SM : forall f c' b r2, run f (JLine c1) (mkR (locked (r_io r)) w 0 (r_log r)) = Ret (c', b, r2) ->
    g c' <> [] /\ exists s0, pBat_PopStreamStackUntilLock (r_io r2) = Ret s0 /\ same_io (relock s0 (get_lock (io_stk (r_io r)))) (r_io r)).
  { intros f c' b r2 E. split.
    - apply G. apply run_keeps in E. destruct c1; [congruence|exact E].
    - apply pop_locked; auto. destruct (run_same leaf can_open fio table strtod exists_file ka f) as (I2 & _).
      apply I2 in E; [exact E|apply ready_locked; auto]. }
  split.
  - intros r' (f & c' & b & E). apply (more_run _ _ _ _ _ _ _ f (S (S f))) in E; [|lia]. rewrite X in E.
    destruct (run f (JLine c1) _) as [[[c2 b2] r2]| |] eqn:E2; try discriminate. cbn [bind] in E.
    destruct (SM f c2 b2 r2 E2) as (G2 & s0 & P0 & S0). rewrite P0 in E. cbn [bind] in E. destruct (g c2); [congruence|]. injection E as <- <- <-.
    exists r2. split; [exists f, c2, b2; exact E2|]. split; [exact S0|]. auto.
  - intros r1 (f & c2 & b2 & E2). destruct (SM f c2 b2 r1 E2) as (G2 & s0 & P0 & S0). destruct (g c2) as [|q qs] eqn:Q; [congruence|].
    exists (set_io (set_err r1 0) (relock s0 (get_lock (io_stk (r_io r))))). split.
    + exists (S (S f)), (q :: qs), false. rewrite X, E2. cbn [bind]. rewrite P0. cbn [bind]. rewrite Q. reflexivity.
    + split; [exact S0|]. auto.
Qed.

Lemma command_if f n t st tl r b rest w : if_says t r b rest w ->
  run (S f) (JCommand ((n, t, st) :: tl)) (set_io r (locked (r_io r))) =
  let c := (n, t, st) :: tl in let r := set_x (set_io r (locked (r_io r))) w in
  if b then
    do (b, e) <- body_of (pBat_SkipBlanks rest);
    match after_par e with
    | [] => do (c', _, r1) <- run f (JLine ((n, Body_Model.in_block b, st) :: tl)) r; Ret (c', true, set_err r1 0)
    | _ => do (_, _, r1) <- run f (JLine [(NODE_NONE, Body_Model.in_block b, no_redir)]) r; Ret (c, true, set_err r1 0)
    end
  else
    let l := pBat_SkipBlanks rest in
    if opens l then
      do (_, e) <- pBat_GetNextBlock l;
      let l := after_par e in
      if (strnicmp l (s2l "ELSE") 4 =? 0)%Z && (delim_at l 4 || (length l =? 4)) then
        do (b, e) <- body_of (pBat_SkipBlanks (skipn 4 l));
        match after_par e with
        | [] => do (c', _, r1) <- run f (JLine ((n, Body_Model.in_block b, st) :: tl)) r; Ret (c', true, set_err r1 0)
        | _ => Ret (c, true, set_err r PBAT_UNEXPECTED_ELEMENT)
        end
      else match l with
           | [] => Ret (c, true, set_err r 0)
           | _ => Ret (c, true, set_err r PBAT_UNEXPECTED_ELEMENT)
           end
    else Ret (c, true, set_err r 0).
Proof.
  intros ((e & G & P) & C). cbn [Run_Model.run]. rewrite G. cbn [bind]. rewrite P.
  change (streqb (s2l "CmdIf") (s2l "CmdBlock")) with false. cbn [Z.eqb]. rewrite streqb_refl.
  change (r_log (set_io r (locked (r_io r)))) with (r_log r). change (r_x (set_io r (locked (r_io r)))) with (r_x r).
  rewrite C. cbn [bind]. destruct b; reflexivity.
Qed.

Lemma set_if r w : r_abort r = 0%Z -> set_x (set_io r (locked (r_io r))) w = mkR (locked (r_io r)) w 0 (r_log r).
Proof. intros A. unfold set_x, set_io. cbn [r_io r_abort r_log]. rewrite A. reflexivity. Qed.
Lemma if_nothing n t st tl r w : ready (r_io r) -> chosen n (errlevel r) = true -> r_abort r = 0%Z -> look_ahead t = true ->
  (forall f, run (S f) (JCommand ((n, t, st) :: tl)) (set_io r (locked (r_io r))) = Ret ((n, t, st) :: tl, true, set_err (set_x (set_io r (locked (r_io r))) w) 0)) ->
  (exists r', chain_goes ((n, t, st) :: tl) r r') /\
  forall r', chain_goes ((n, t, st) :: tl) r r' -> ends_well r (mkR (r_io r) w 0 (r_log r)) r'.
Proof.
  intros R CH AB LA H. destruct (pop_locked r (locked (r_io r)) R (same_refl _)) as (s0 & P & S).
  assert (X : forall f, run (Datatypes.S (Datatypes.S f)) (JLine ((n, t, st) :: tl)) r =
    Ret ((n, t, st) :: tl, false, set_io (set_err (set_x r w) 0) (relock s0 (get_lock (io_stk (r_io r)))))).
  { intros f. rewrite run_ahead by auto. rewrite H. cbn [bind set_err set_x set_io r_io]. rewrite P. reflexivity. }
  split.
  - eexists. exists 2. eexists _, _. apply X.
  - intros r' (f & c' & b & E). apply (more_run _ _ _ _ _ _ _ f (Datatypes.S (Datatypes.S f))) in E; [|lia]. rewrite X in E. injection E as <- <- <-.
    split; [exact S|]. split; [reflexivity|]. split; [exact AB|reflexivity].
Qed.
End R.

(** For examples: a line of one plain command. *)
Definition plain_text (par : bool) (b t : cstr) : bool :=
  forallb (fun c => inset (s2l " ,;@" ++ ["009"%char]) c) b &&
  match t with c :: _ => negb (inset (s2l " ,;@(" ++ ["009"%char]) c) | [] => true end &&
  negb (block_cmd (t ++ [nl])) && plainly (s2l (if par then ")&|" else "&|")) t.
Lemma inset_in s c : inset s c = true <-> In c s.
Proof.
  unfold inset. rewrite existsb_exists. split; [intros (d & I & E); apply ceq_true in E; subst; auto|].
  intros I. exists c. split; auto. apply ceq_refl.
Qed.
Lemma plain_text_line par b t : plain_text par b t = true -> line par (b ++ t).
Proof.
  unfold plain_text. rewrite !Bool.andb_true_iff, Bool.negb_true_iff. intros (((A & B) & C) & D). apply ln_plain.
  - unfold lead. rewrite Forall_forall. intros x X. rewrite forallb_forall in A. apply inset_in. auto.
  - split.
    + intros c r ->. rewrite Bool.negb_true_iff in B. intros X. apply inset_in in X. congruence.
    + intros X. apply block_cmd_iff in X. unfold nl in C. congruence.
  - apply plainly_quiet. exact D.
Qed.
