(** Env_Props.v -- properties C16, C17 and C46: the environment table. *)

From Coq Require Import Sorted.
From Verif Require Import Base Lex Env_Model Env_Spec Env_Proofs EnvLocal_Proofs EnvStack_Model EnvStack_Spec EnvStack_Proofs.

(** C16: after any history of assignments and removals, reading a variable by any
    spelling of its name gives the value of the last operation on that name. *)
Theorem C16_history :
  forall sg trim l e,
    (forall n, is_trimmed n (trim n)) ->
    table_ok sg e -> toplevel e -> Forall (op_ok sg) l ->
    exists e', ops_run l e = Ret e' /\
      forall n ka v0, nonul n -> addr_ok sg ka ->
        pBat_GetEnv e n ka = Ret v0 -> pBat_GetEnv e' n ka = Ret (expected trim l n v0).
Proof.
  intros sg trim l e Ht He Htop Hl.
  destruct (ops_ok sg l e He Htop Hl) as (e' & R & He' & _ & V). exists e'. split; auto.
  intros n ka v0 Hn Ha H0. rewrite (get_ok sg) in * by auto. injection H0 as <-. rewrite V. f_equal.
  apply expected_trim. intros m. apply (trimmed_unique m); auto using adjust_trimmed.
Qed.
Print Assumptions C16_history.

(** C16: the case of the letters of the name does not matter. *)
Theorem C16_any_case :
  forall sg e n m ka kb,
    table_ok sg e -> nonul n -> nonul m -> same_name n m -> addr_ok sg ka -> addr_ok sg kb ->
    exists v, pBat_GetEnv e n ka = Ret v /\ pBat_GetEnv e m kb = Ret v.
Proof.
  intros sg e n m ka kb He Hn Hm Hs Ha Hb. rewrite !(get_ok sg) by auto.
  eexists. split; [reflexivity|]. f_equal. f_equal. unfold lookup. generalize (e_buf e).
  induction l as [|x l IH]; simpl; auto.
  assert (E : named m x = named n x).
  { unfold named. destruct (v_name x) as [[t ?]|]; auto. unfold same_nameb, same_name in *. rewrite Hs. auto. }
  rewrite E, IH. auto.
Qed.
Print Assumptions C16_any_case.

(** A table of three variables, with addresses of one sign. *)
Definition ex_env : env := Eval vm_compute in
  match pBat_InitEnv [(s2l "PATH=/bin", 16%Z); (s2l "Home=/root", 32%Z); (s2l "_A=1", 48%Z)] with
  | Some e => e
  | None => mkEnv [] 0
  end.

Example C16_ex :
  (exists e, ops_run [OSet (s2l "path ") 8 64 (s2l "/usr") false; OUnset (s2l "HOME") 8;
                      OSet (s2l "new") 8 80 (s2l "v") false; OSet (s2l "new") 8 80 [] false] ex_env = Ret e /\
     pBat_GetEnv e (s2l "Path") 8 = Ret (Some (s2l "/usr")) /\ pBat_GetEnv e (s2l "home") 8 = Ret None /\
     pBat_GetEnv e (s2l "NEW") 8 = Ret None /\ pBat_GetEnv e (s2l "_a") 8 = Ret (Some (s2l "1"))).
Proof. eexists. split; [vm_compute; reflexivity|]. repeat split; vm_compute; reflexivity. Qed.

Lemma ex_env_ok : table_ok true ex_env /\ toplevel ex_env /\ table_good ex_env /\ unmarked ex_env.
Proof.
  split; [split; [|split]|split; [|split]].
  - repeat constructor.
  - repeat constructor; intros X; cbv in X; intuition discriminate.
  - vm_compute. lia.
  - repeat constructor.
  - unfold table_good, ex_env. cbn [e_buf]. apply Forall_cons; [left; reflexivity|]. apply Forall_cons; [right; left; reflexivity|].
    apply Forall_cons; [right; left; reflexivity|]. constructor.
  - repeat constructor.
Qed.

(** C16: assigning nothing does not remove the variable when the name is followed by
    a blank, although assigning something finds it. *)
Theorem C16_trailing_blank_refuted :
  ~ (forall e n t ka na e', table_ok true e -> toplevel e -> is_trimmed n t -> nonul n ->
       pBat_SetEnvEx e n ka na (Some []) false = Ret e' -> pBat_GetEnv e' t ka = Ret None).
Proof.
  intros H. specialize (H ex_env (s2l "_A ") (s2l "_A") 8%Z 9%Z).
  assert (R : pBat_SetEnvEx ex_env (s2l "_A ") 8%Z 9%Z (Some []) false = Ret ex_env) by (vm_compute; reflexivity).
  destruct ex_env_ok as (E1 & E2 & _). apply H in R; auto.
  - vm_compute in R. discriminate.
  - exists (s2l " "). split; [reflexivity|]. split; [repeat constructor|]. right. exists (s2l "_"), "A"%char.
    split; [reflexivity|]. split; discriminate.
  - intros X. vm_compute in X. intuition discriminate.
Qed.
Print Assumptions C16_trailing_blank_refuted.

(** C16: once a variable was removed, a variable that is in the table may not be
    found, if the address of the name asked for has another sign (as an int) than
    those of the names of the table. *)
Theorem C16_address_refuted :
  ~ (forall e n ka, table_ok true e -> toplevel e -> ka <> 0%Z ->
       forall kb v, (0 < kb)%Z -> pBat_GetEnv e n kb = Ret (Some v) -> pBat_GetEnv e n ka = Ret (Some v)).
Proof.
  intros H.
  set (e := mkEnv [mkVar (Some (s2l "a", 16%Z)) (s2l "1") false []; mkVar None [] false [];
                   mkVar None [] false []] 128).
  assert (He : table_ok true e).
  { split; [|split].
    - repeat constructor.
    - repeat constructor; intros X; cbv in X; intuition discriminate.
    - cbv [e_index e_nb e e_buf length]. lia. }
  specialize (H e (s2l "a") (-16)%Z He).
  assert (T : toplevel e) by repeat constructor.
  specialize (H T ltac:(discriminate) 16%Z (s2l "1") ltac:(reflexivity)).
  assert (X : pBat_GetEnv e (s2l "a") 16 = Ret (Some (s2l "1"))) by (vm_compute; reflexivity).
  apply H in X. vm_compute in X. discriminate.
Qed.
Print Assumptions C16_address_refuted.

(** C17: the table is well formed (strictly sorted ignoring case, so without
    duplicates, and within its capacity) at the start ... *)
Theorem C17_initial :
  forall sg (l : list (cstr * cstr * Z)),
    Forall (fun x => let '(n, v, a) := x in ~ In "="%char n /\ nonul n /\ addr_ok sg a) l ->
    NoDup (map (fun x => let '(n, v, a) := x in map tolower n) l) ->
    exists e, pBat_InitEnv (map (fun x => let '(n, v, a) := x in (n ++ "="%char :: v, a)) l) = Some e /\
      table_ok sg e /\ toplevel e.
Proof.
  intros sg l H1 H2. destruct (init_ok sg l H1 H2) as (e & E & T & U & _). eauto.
Qed.
Print Assumptions C17_initial.

(** ... it remains so after any history of assignments and removals ... *)
Theorem C17_history :
  forall sg l e,
    table_ok sg e -> toplevel e -> Forall (op_ok sg) l ->
    exists e', ops_run l e = Ret e' /\ table_ok sg e' /\ toplevel e'.
Proof. intros sg l e H1 H2 H3. destruct (ops_ok sg l e H1 H2 H3) as (e' & R & T & U & _). eauto. Qed.
Print Assumptions C17_history.

(** ... in the copy made by SETLOCAL ... *)
Theorem C17_copy :
  forall sg addr e,
    (forall i, addr_ok sg (addr i)) -> table_ok sg e ->
    table_ok sg (pBat_EnvDup addr e) /\ toplevel (pBat_EnvDup addr e).
Proof. intros sg addr e Ha He. destruct (dup_ok sg addr e Ha He) as (T & U & _). auto. Qed.
Print Assumptions C17_copy.

(** ... and through any nesting of procedure calls. *)
Theorem C17_procedures :
  forall trim l e,
    (forall n, is_trimmed n (trim n)) ->
    table_ok true e -> table_good e -> Forall (act_ok trim) l ->
    exists e', acts_run l e = Ret e' /\ table_ok true e' /\ table_good e'.
Proof.
  intros trim l e Ht He Hg Hl.
  assert (T : forall n, trim n = pBat_AdjustVarName n)
    by (intros n; apply (trimmed_unique n); auto using adjust_trimmed).
  destruct (acts_balanced trim l) with (e := e) as (e' & R & B); auto.
  { apply Forall_forall. intros a _. apply act_balanced. auto. }
  exists e'. split; auto. destruct B as (B1 & B2 & _). auto.
Qed.
Print Assumptions C17_procedures.

Example C17_ex :
  exists e, ops_run [OSet (s2l "b") 8 64 (s2l "x") false; OUnset (s2l "_a") 8; OSet (s2l "Z") 8 80 (s2l "v") false]
              ex_env = Ret e /\
    map v_name (e_buf e) =
      [Some (s2l "b", 64%Z); Some (s2l "Home", 32%Z); Some (s2l "PATH", 16%Z); Some (s2l "Z", 80%Z)].
Proof. eexists. split; vm_compute; reflexivity. Qed.

(** C17: with addresses of both signs there is no order at all: the comparison is
    cyclic. *)
Theorem C17_order_refuted :
  exists u v w, (pBat_EnvCompName u v < 0)%Z /\ (pBat_EnvCompName v w < 0)%Z /\ (pBat_EnvCompName w u < 0)%Z.
Proof.
  exists (mkVar (Some (s2l "a", (-16)%Z)) (s2l "1") false []),
         (mkVar (Some (s2l "b", 16%Z)) (s2l "1") false []), (mkVar None [] false []).
  vm_compute. repeat split.
Qed.
Print Assumptions C17_order_refuted.

(** C46: the variables of the process environment are those read at the start,
    their values without trailing blanks. *)
Theorem C46_initial_values :
  forall sg (l : list (cstr * cstr * Z)),
    Forall (fun x => let '(n, v, a) := x in ~ In "="%char n /\ nonul n /\ addr_ok sg a) l ->
    NoDup (map (fun x => let '(n, v, a) := x in map tolower n) l) ->
    exists e, pBat_InitEnv (map (fun x => let '(n, v, a) := x in (n ++ "="%char :: v, a)) l) = Some e /\
      (forall n v a, In (n, v, a) l -> exists w, is_rstripped v w /\
         forall m ka, same_name m n -> nonul m -> addr_ok sg ka -> pBat_GetEnv e m ka = Ret (Some w)) /\
      (forall m ka, (forall n v a, In (n, v, a) l -> ~ same_name m n) -> nonul m -> addr_ok sg ka ->
         pBat_GetEnv e m ka = Ret None).
Proof.
  intros sg l H1 H2. destruct (init_ok sg l H1 H2) as (e & E & T & U & V & W). exists e. split; auto. split.
  - intros n v a Hin. destruct (V n v a Hin) as (w & Hw & Hv). exists w. split; auto.
    intros m ka Hm Hn Ha. rewrite (get_ok sg) by auto. rewrite Hv; auto.
  - intros m ka Hm Hn Ha. rewrite (get_ok sg) by auto. rewrite W; auto.
Qed.
Print Assumptions C46_initial_values.

(** C46: so a value ending in a blank is not preserved. *)
Theorem C46_value_refuted :
  ~ (forall n v a e ka, ~ In "="%char n -> nonul n -> (0 < a)%Z -> (0 < ka)%Z ->
       pBat_InitEnv [(n ++ "="%char :: v, a)] = Some e -> pBat_GetEnv e n ka = Ret (Some v)).
Proof.
  intros H. specialize (H (s2l "PS") (s2l "> ") 16%Z).
  destruct (pBat_InitEnv [(s2l "PS" ++ "="%char :: s2l "> ", 16%Z)]) as [e|] eqn:E; [|vm_compute in E; discriminate].
  specialize (H e 8%Z).
  assert (X : pBat_GetEnv e (s2l "PS") 8 = Ret (Some (s2l "> "))).
  { apply H; try reflexivity; try (vm_compute; intuition discriminate). }
  vm_compute in E. injection E as <-. vm_compute in X. discriminate.
Qed.
Print Assumptions C46_value_refuted.

Example C46_ex :
  exists e, pBat_InitEnv [(s2l "TERM=xterm", 16%Z); (s2l "A=b=c ", 32%Z)] = Some e /\
    pBat_GetEnv e (s2l "term") 8 = Ret (Some (s2l "xterm")) /\ pBat_GetEnv e (s2l "a") 8 = Ret (Some (s2l "b=c")) /\
    pBat_GetEnv e (s2l "x") 8 = Ret None.
Proof. eexists. split; [vm_compute; reflexivity|]. repeat split; vm_compute; reflexivity. Qed.
