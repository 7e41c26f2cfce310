(** EnvLocal_Props.v -- property C20: the local variables of procedures. *)

From Verif Require Import Base Lex Env_Model Env_Spec Env_Proofs EnvLocal_Proofs EnvStack_Model EnvStack_Spec EnvStack_Proofs
  Env_Props.

(** C20: as long as SET /X is not used, and for names starting with an
    underscore, a capital or a byte above 127, procedures are exactly dynamically
    scoped in their underscore variables, at any depth. *)
Theorem C20_scoping :
  forall trim l e,
    (forall n, is_trimmed n (trim n)) ->
    table_ok true e -> table_good e -> toplevel e -> unmarked e ->
    Forall (act_ok trim) l -> existsb uses_x l = false ->
    exists e', acts_run l e = Ret e' /\
      forall s, (forall n ka, nonul n -> addr_ok true ka -> pBat_GetEnv e n ka = Ret (s n)) ->
        (forall n, ~ nonul n -> s n = None) ->
        forall n ka, nonul n -> addr_ok true ka ->
          pBat_GetEnv e' n ka = Ret (sems trim (fun _ => false) l s n).
Proof.
  intros trim l e Ht He Hg Htop Hu Hl Hx.
  assert (T : forall n, trim n = pBat_AdjustVarName n)
    by (intros n; apply (trimmed_unique n); auto using adjust_trimmed).
  destruct (acts_balanced trim l) with (e := e) as (e' & R & B); auto.
  { apply Forall_forall. intros a _. apply act_balanced. auto. }
  exists e'. split; auto. intros s Hs Hs0 n ka Hn Ha. destruct B as (B1 & B2 & B3 & _).
  rewrite (get_ok true) by auto. f_equal.
  assert (P0 : forall n, pv e n = []).
  { intros m. unfold pv. destruct (lookup (e_buf e) m) as [v|] eqn:E; auto. apply (proj1 (toplevel_lookup true e He) Htop m v E). }
  assert (AB : abs (fun _ => false) s e).
  { split; [|split].
    - intros m. destruct (in_dec ascii_dec "000"%char m) as [i|i].
      + rewrite Hs0 by (intros X; auto). destruct (lookup (e_buf e) m) as [v|] eqn:E; auto. exfalso.
        apply find_some in E as [E1 E2]. destruct He as (_ & Hv & _). rewrite Forall_forall in Hv.
        specialize (Hv v E1). unfold var_ok in Hv. unfold named in E2.
        destruct (v_name v) as [[t a]|]; [|discriminate]. apply same_nameb_iff in E2. unfold same_name in E2.
        destruct Hv as (Hv & _). apply (in_map tolower) in i. rewrite <- E2 in i. apply in_map_iff in i as (c & C1 & C2).
        apply Hv. replace "000"%char with c; auto. destruct (ascii_dec c "000"%char); auto.
        exfalso. pose proof (tolower_nonul c n0). rewrite C1 in H. vm_compute in H. discriminate.
      + specialize (Hs m 1%Z i ltac:(reflexivity)). rewrite (get_ok true) in Hs by (auto; reflexivity).
        injection Hs as Hs. auto.
    - intros m. rewrite P0. auto.
    - intros m _. apply P0. }
  destruct (acts_scoped trim l T) with (prot := fun _ : cstr => false) (s := s) (e := e) (e' := e') as [_ (A & _)]; auto.
  apply Forall_forall. intros a _. apply act_scoped. auto.
Qed.
Print Assumptions C20_scoping.

(** C20: in general, an underscore variable which exists at the call and is not
    assigned with SET /X anywhere inside has its value back when the procedure
    returns. *)
Theorem C20_restored :
  forall trim addr body e n ka v,
    (forall n, is_trimmed n (trim n)) ->
    table_ok true e -> table_good e -> act_ok trim (ACall addr body) ->
    local_name n -> nonul n -> addr_ok true ka ->
    marks trim n (ACall addr body) = false ->
    pBat_GetEnv e n ka = Ret (Some v) ->
    exists e', act_run (ACall addr body) e = Ret e' /\ pBat_GetEnv e' n ka = Ret (Some v).
Proof.
  intros trim addr body e n ka v Ht He Hg Hok Hloc Hn Ha Hm Hv.
  assert (T : forall n, trim n = pBat_AdjustVarName n)
    by (intros m; apply (trimmed_unique m); auto using adjust_trimmed).
  destruct (act_balanced trim (ACall addr body) T e He Hg Hok) as (e3 & R & B). exists e3. split; auto.
  apply call_ok in Hok as [Had Hb]. rewrite call_run in R.
  destruct (push_ok addr e Had He Hg) as (e1 & R1 & T1 & G1 & L1 & _). rewrite R1 in R. cbn [bind] in R.
  destruct (acts_balanced trim body) with (e := e1) as (e2 & R2 & B2); auto.
  { apply Forall_forall. intros a _. apply act_balanced. auto. }
  rewrite R2 in R. cbn [bind] in R.
  destruct (call_facts addr e body e1 e2 e3 trim _ He Hg Had R1 R2 R B2) as (_ & C2 & _).
  rewrite (get_ok true) in Hv by auto. destruct (lookup (e_buf e) n) as [w|] eqn:E; [|discriminate].
  injection Hv as <-. rewrite (get_ok true); auto; [|apply B].
  apply local_iff in Hloc. destruct (C2 n w Hloc E) as (_ & K & _). rewrite K; auto.
Qed.
Print Assumptions C20_restored.

(** C20: an underscore variable which exists at the call and is assigned with
    SET /X by the procedure itself keeps, when the procedure returns, the value it
    has at the end of the procedure. *)
Theorem C20_exported :
  forall trim addr b1 b2 m mk mn c t e n ka v,
    (forall n, is_trimmed n (trim n)) ->
    table_ok true e -> table_good e ->
    act_ok trim (ACall addr (b1 ++ ASet m mk mn (c :: t) true :: b2)) ->
    local_name n -> nonul n -> addr_ok true ka -> same_name (trim m) n ->
    pBat_GetEnv e n ka = Ret (Some v) ->
    exists e1 e2 e3 w,
      pBat_PushEnvLocals addr e = Ret e1 /\
      acts_run (b1 ++ ASet m mk mn (c :: t) true :: b2) e1 = Ret e2 /\
      act_run (ACall addr (b1 ++ ASet m mk mn (c :: t) true :: b2)) e = Ret e3 /\
      pBat_GetEnv e2 n ka = Ret (Some w) /\ pBat_GetEnv e3 n ka = Ret (Some w).
Proof.
  intros trim addr b1 b2 m mk mn c t e n ka v Ht He Hg Hok Hloc Hn Ha Hm Hv.
  assert (T : forall n, trim n = pBat_AdjustVarName n)
    by (intros x; apply (trimmed_unique x); auto using adjust_trimmed).
  set (body := b1 ++ ASet m mk mn (c :: t) true :: b2) in *.
  destruct (act_balanced trim (ACall addr body) T e He Hg Hok) as (e3 & R & B). assert (R' := R).
  apply call_ok in Hok as [Had Hb]. rewrite call_run in R.
  destruct (push_ok addr e Had He Hg) as (e1 & R1 & T1 & G1 & L1 & _). rewrite R1 in R. cbn [bind] in R.
  assert (AB : forall l x, table_ok true x -> table_good x -> Forall (act_ok trim) l ->
     exists x', acts_run l x = Ret x' /\ balanced trim (fun n => existsb (marks trim n) l) x x').
  { intros l. apply acts_balanced. apply Forall_forall. intros a _. apply act_balanced. auto. }
  destruct (AB body e1 T1 G1 Hb) as (e2 & R2 & B2).
  rewrite R2 in R. cbn [bind] in R.
  destruct (call_facts addr e body e1 e2 e3 trim _ He Hg Had R1 R2 R B2) as (_ & C2 & _).
  rewrite (get_ok true) in Hv by auto. destruct (lookup (e_buf e) n) as [w|] eqn:E; [|discriminate].
  apply local_iff in Hloc. destruct (C2 n w Hloc E) as ((a & v1 & L & Ev1) & _ & K & _).
  (* the flag is set at the assignment and stays set *)
  assert (PV1 : pv e1 n <> []).
  { unfold pv. rewrite L, Ev1. unfold push_var. apply find_some in E as [_ E]. unfold named in E.
    destruct (v_name w) as [[? ?]|]; [discriminate|discriminate]. }
  unfold body in Hb. apply Forall_app in Hb as [Hb1 Hb2]. inversion Hb2 as [|? ? Hs Hb2']; subst.
  destruct (AB b1 e1 T1 G1 Hb1) as (x1 & X1 & Y1). destruct Y1 as (Y1 & Y2 & Y3 & _).
  destruct (set_step trim x1 m mk mn (c :: t) true T Y1 Y2 Hs) as (x2 & X2 & Z1 & Z2 & Z3 & _ & Z4 & _).
  destruct (AB b2 x2 Z1 Z2 Hb2') as (x3 & X3 & W1 & W2 & W3 & W4 & W5).
  assert (Ex : x3 = e2).
  { assert (APP : forall l1 l2 x, acts_run (l1 ++ l2) x = (do x' <- acts_run l1 x; acts_run l2 x')).
    { induction l1 as [|y l1 IH]; intros l2 x; auto. cbn [app acts_run]. destruct (act_run y x); cbn [bind]; auto. }
    unfold body in R2. rewrite APP, X1 in R2. cbn [bind acts_run act_run] in R2. rewrite X2 in R2. cbn [bind] in R2.
    rewrite X3 in R2. congruence. }
  subst x3.
  assert (I2 : inh e2 n = true).
  { apply W5.
    - rewrite Z3, Y3. auto.
    - apply Z4. cbn [marks]. apply same_nameb_iff. auto. }
  destruct (K I2) as [K1 _].
  exists e1, e2, e3.
  assert (G2 : pBat_GetEnv e2 n ka = Ret (option_map v_content (lookup (e_buf e2) n))) by (apply (get_ok true); auto; apply B2).
  assert (G3 : pBat_GetEnv e3 n ka = Ret (option_map v_content (lookup (e_buf e3) n))) by (apply (get_ok true); auto; apply B).
  unfold inh in I2. destruct (lookup (e_buf e2) n) as [w2|]; [|discriminate].
  exists (v_content w2). rewrite G2, G3, K1. auto.
Qed.
Print Assumptions C20_exported.

(** C20: the other variables are after the call as the procedure left them. *)
Theorem C20_global :
  forall trim addr body e n ka,
    (forall n, is_trimmed n (trim n)) ->
    table_ok true e -> table_good e -> act_ok trim (ACall addr body) ->
    ~ local_name n -> nonul n -> addr_ok true ka ->
    exists e1 e2 e3 v0 v,
      pBat_PushEnvLocals addr e = Ret e1 /\ acts_run body e1 = Ret e2 /\ act_run (ACall addr body) e = Ret e3 /\
      pBat_GetEnv e n ka = Ret v0 /\ pBat_GetEnv e1 n ka = Ret v0 /\
      pBat_GetEnv e2 n ka = Ret v /\ pBat_GetEnv e3 n ka = Ret v.
Proof.
  intros trim addr body e n ka Ht He Hg Hok Hloc Hn Ha.
  assert (T : forall n, trim n = pBat_AdjustVarName n)
    by (intros x; apply (trimmed_unique x); auto using adjust_trimmed).
  destruct (act_balanced trim (ACall addr body) T e He Hg Hok) as (e3 & R & B). assert (R' := R).
  apply call_ok in Hok as [Had Hb]. rewrite call_run in R.
  destruct (push_ok addr e Had He Hg) as (e1 & R1 & T1 & G1 & L1 & _). rewrite R1 in R. cbn [bind] in R.
  destruct (acts_balanced trim body) with (e := e1) as (e2 & R2 & B2); auto.
  { apply Forall_forall. intros a _. apply act_balanced. auto. }
  rewrite R2 in R. cbn [bind] in R.
  destruct (call_facts addr e body e1 e2 e3 trim _ He Hg Had R1 R2 R B2) as (C1 & _ & _).
  assert (Ln : localb n = false) by (destruct (localb n) eqn:X; auto; apply local_iff in X; contradiction).
  destruct (C1 n Ln) as [X Y].
  exists e1, e2, e3, (option_map v_content (lookup (e_buf e) n)), (option_map v_content (lookup (e_buf e2) n)).
  assert (B3 : table_ok true e3) by apply B. assert (B4 : table_ok true e2) by apply B2.
  rewrite !(get_ok true) by auto. rewrite X, Y. auto 10.
Qed.
Print Assumptions C20_global.

(** Two nested calls: the inner one changes the locals of both its callers. *)
Definition ex_call : list act :=
  [ACall (fun i => 1000 + Z.of_nat i)%Z
     [ASet (s2l "_a") 8 64 (s2l "2") false; ASet (s2l "_B") 8 80 (s2l "3") false;
      ACall (fun i => 2000 + Z.of_nat i)%Z
        [ASet (s2l "_a") 8 96 (s2l "4") false; ASet (s2l "_b") 8 112 (s2l "5") false;
         ASet (s2l "HOME") 8 128 (s2l "/tmp") false];
      AUnset (s2l "_a") 8]].

Example C20_ex :
  (exists e, acts_run ex_call ex_env = Ret e /\
     pBat_GetEnv e (s2l "_A") 8 = Ret (Some (s2l "1")) /\ pBat_GetEnv e (s2l "_b") 8 = Ret None /\
     pBat_GetEnv e (s2l "home") 8 = Ret (Some (s2l "/tmp"))) /\
  Forall (act_ok (fun n => n)) ex_call /\ existsb uses_x ex_call = false.
Proof.
  split; [eexists; split; [vm_compute; reflexivity|]; repeat split; vm_compute; reflexivity|].
  split; [|reflexivity].
  assert (N : forall n : string, forallb (fun c => negb (ceq c "000"%char)) (s2l n) = true -> nonul (s2l n))
    by apply s2l_word_nonul.
  constructor; [|constructor]. apply call_ok. split; [intros i; unfold addr_ok; lia|].
  apply Forall_cons; [|apply Forall_cons; [|apply Forall_cons; [|apply Forall_cons; [|constructor]]]].
  - split; [apply N; reflexivity|]. split; [reflexivity|]. split; [reflexivity|]. left. reflexivity.
  - split; [apply N; reflexivity|]. split; [reflexivity|]. split; [reflexivity|]. left. reflexivity.
  - apply call_ok. split; [intros i; unfold addr_ok; lia|].
    apply Forall_cons; [|apply Forall_cons; [|apply Forall_cons; [|constructor]]].
    + split; [apply N; reflexivity|]. split; [reflexivity|]. split; [reflexivity|]. left. reflexivity.
    + split; [apply N; reflexivity|]. split; [reflexivity|]. split; [reflexivity|]. left. reflexivity.
    + split; [apply N; reflexivity|]. split; [reflexivity|]. split; [reflexivity|]. right. left. reflexivity.
  - split; [apply N; reflexivity|]. reflexivity.
Qed.

Example C20_exported_ex :
  exists e, acts_run [ACall (fun i => 1000 + Z.of_nat i)%Z
                        [ASet (s2l "_a") 8 64 (s2l "2") true; ASet (s2l "_a") 8 64 (s2l "3") false]] ex_env = Ret e /\
    pBat_GetEnv e (s2l "_a") 8 = Ret (Some (s2l "3")).
Proof. eexists. split; vm_compute; reflexivity. Qed.

(** C20: the restriction on names is needed.  With the variables "_x", "path" and
    "user" the local variable is not found and the procedure's value remains. *)
Definition ex_lower : env := Eval vm_compute in
  match pBat_InitEnv [(s2l "_x=1", 16%Z); (s2l "path=/bin", 32%Z); (s2l "user=me", 48%Z)] with
  | Some e => e
  | None => mkEnv [] 0
  end.
Theorem C20_lowercase_refuted :
  ~ (forall addr body e n ka v e',
       table_ok true e -> toplevel e -> unmarked e -> act_ok (fun n => n) (ACall addr body) ->
       uses_x (ACall addr body) = false -> local_name n -> nonul n -> addr_ok true ka ->
       pBat_GetEnv e n ka = Ret (Some v) -> act_run (ACall addr body) e = Ret e' ->
       pBat_GetEnv e' n ka = Ret (Some v)).
Proof.
  intros H.
  specialize (H (fun i => 1000 + Z.of_nat i)%Z [ASet (s2l "_x") 8 64 (s2l "2") false] ex_lower (s2l "_x") 8%Z (s2l "1")).
  destruct (act_run (ACall (fun i => 1000 + Z.of_nat i)%Z [ASet (s2l "_x") 8 64 (s2l "2") false]) ex_lower) as [e'| |] eqn:E;
    [|vm_compute in E; discriminate|vm_compute in E; discriminate].
  assert (X : pBat_GetEnv e' (s2l "_x") 8 = Ret (Some (s2l "1"))).
  { apply H; try reflexivity.
    - split; [|split].
      + repeat constructor.
      + repeat constructor; intros X; cbv in X; intuition discriminate.
      + vm_compute. lia.
    - repeat constructor.
    - repeat constructor.
    - apply call_ok. split; [intros i; unfold addr_ok; lia|]. constructor; [|constructor].
      split; [apply s2l_word_nonul; reflexivity|]. split; [reflexivity|]. split; [reflexivity|]. left. reflexivity.
    - exists (s2l "x"). reflexivity.
    - apply s2l_word_nonul. reflexivity. }
  vm_compute in E. injection E as <-. vm_compute in X. discriminate.
Qed.
Print Assumptions C20_lowercase_refuted.

(** C20: a local variable the procedure creates is not always gone when it returns,
    even if it was not assigned with SET /X: it may reuse the place of a variable
    that was, and was removed. *)
Definition ex_stale : env := Eval vm_compute in
  match ops_run [OSet (s2l "G") 8 64 (s2l "1") true; OUnset (s2l "G") 8] ex_env with
  | Ret e => e
  | _ => mkEnv [] 0
  end.
Theorem C20_stale_mark_refuted :
  ~ (forall addr body e n ka e',
       table_ok true e -> table_good e -> toplevel e -> act_ok (fun n => n) (ACall addr body) ->
       uses_x (ACall addr body) = false -> local_name n -> nonul n -> addr_ok true ka ->
       pBat_GetEnv e n ka = Ret None -> act_run (ACall addr body) e = Ret e' ->
       pBat_GetEnv e' n ka = Ret None).
Proof.
  intros H.
  set (e := ex_stale).
  specialize (H (fun i => 1000 + Z.of_nat i)%Z [ASet (s2l "_y") 8 64 (s2l "2") false; ASet (s2l "_A") 8 64 (s2l "5") false] e (s2l "_y") 8%Z).
  destruct (act_run (ACall (fun i => 1000 + Z.of_nat i)%Z [ASet (s2l "_y") 8 64 (s2l "2") false; ASet (s2l "_A") 8 64 (s2l "5") false]) e) as [e'| |] eqn:E;
    [|vm_compute in E; discriminate|vm_compute in E; discriminate].
  assert (X : pBat_GetEnv e' (s2l "_y") 8 = Ret None).
  { apply H; try reflexivity.
    - split; [|split].
      + repeat constructor.
      + repeat constructor; intros X; cbv in X; intuition discriminate.
      + vm_compute. lia.
    - unfold table_good, e. cbn [e_buf]. apply Forall_cons; [left; reflexivity|].
      apply Forall_cons; [right; left; reflexivity|].
      apply Forall_cons; [right; left; reflexivity|]. apply Forall_cons; [exact I|constructor].
    - repeat constructor.
    - apply call_ok. split; [intros i; unfold addr_ok; lia|]. constructor; [|constructor; [|constructor]].
      + split; [apply s2l_word_nonul; reflexivity|]. split; [reflexivity|]. split; [reflexivity|]. left. reflexivity.
      + split; [apply s2l_word_nonul; reflexivity|]. split; [reflexivity|]. split; [reflexivity|]. left. reflexivity.
    - exists (s2l "y"). reflexivity.
    - apply s2l_word_nonul. reflexivity. }
  vm_compute in E. injection E as <-. vm_compute in X. discriminate.
Qed.
Print Assumptions C20_stale_mark_refuted.

(** C20: a procedure that does SETLOCAL without ENDLOCAL, or ENDLOCAL for a SETLOCAL
    of its caller, takes the local variables of its caller away. *)
Theorem C20_setlocal_refuted :
  forall addr, (forall i, addr_ok true (addr i)) ->
  exists w, pBat_GetEnv (w_env w) (s2l "_a") 8 = Ret (Some (s2l "1")) /\
    (exists w', evs_run [EvEnter addr; EvSetlocal addr []; EvLeave] w = Ret w' /\
       pBat_GetEnv (w_env w') (s2l "_a") 8 = Ret None) /\
    (exists w', evs_run [EvSetlocal addr []; EvEnter addr; EvEndlocal []; EvLeave] w = Ret w' /\
       pBat_GetEnv (w_env w') (s2l "_a") 8 = Ret None).
Proof.
  intros addr Ha. exists (mkWorld ex_env [] true false). split; [vm_compute; reflexivity|]. split.
  - eexists. split.
    + cbn. reflexivity.
    + cbn [w_env]. assert (A1 := Ha 1). assert (A2 := Ha 2). unfold addr_ok in *.
      vm_compute. destruct (addr 1) eqn:E1; try discriminate. destruct (addr 2) eqn:E2; try discriminate. reflexivity.
  - eexists. split; [vm_compute; reflexivity|]. vm_compute. reflexivity.
Qed.
Print Assumptions C20_setlocal_refuted.
