(** Clone_Props.v -- C93: instances that run at the same time do not see each other's variables. *)

From Verif Require Import Base Clone_Model Clone_Spec Clone_Proofs.

(** The copy knows what the original knows, which keeps it; the memory that was there is as it was, and nothing of it can be reached from the copy. *)
Theorem C93_copy (fuel : nat) (h : heap) (i : instance) (k : knowledge) :
  knows h i k -> depth (k_commands k) < fuel ->
  exists i' new, pBat_DuplicateData fuel i h = Ret (i', h ++ new) /\ knows (h ++ new) i' k /\ knows (h ++ new) i k /\
    forall l, reaches (h ++ new) (mkT i' (fun _ => Null)) l -> length h <= l < length (h ++ new).
Proof.
  intros K D. destruct (data_copies _ _ _ _ K D) as (i' & h' & E & K' & _). destruct (data_apart _ _ _ _ _ E) as [(new & -> & N) F].
  exists i', new. split; [exact E|]. split; [exact K'|]. split; [eapply knows_ext; eauto; apply grows_app|].
  intros l R. induction R as [r l R|l c l' R IH C I].
  - unfold reg in R. cbn [t_inst t_regs] in R. destruct (inst_field i' r) eqn:If; [|discriminate]. subst f. exact (F _ _ If _ eq_refl).
  - rewrite nth_error_app2 in C by lia. apply nth_error_In in C. exact (N _ C _ I).
Qed.
Print Assumptions C93_copy.

(** Whatever the instances did before, a step of one does not change what another can reach. *)
Theorem C93_isolated (s0 s s' : system) (k u : nat) (t : thread) :
  started s0 -> steps s0 s -> step s k s' -> u <> k -> nth_error (snd s) u = Some t ->
  nth_error (snd s') u = Some t /\ forall l, reaches (fst s) t l -> nth_error (fst s') l = nth_error (fst s) l.
Proof.
  intros [H (t0 & T0)] St S1 N T. destruct s0 as [h0 ts0]. cbn in T0. subst ts0.
  destruct (steps_owned _ _ _ (start_owned _ _ H) St) as (own & O). destruct (step_owned _ _ _ _ O S1) as (own' & O' & F1 & F2). split; [auto|].
  intros l R. destruct (reach_own _ _ _ _ _ O T R). apply F1; auto. congruence.
Qed.
Print Assumptions C93_isolated.

(** No block can be reached from two instances. *)
Theorem C93_disjoint (s0 s : system) (u v : nat) (t t' : thread) (l : nat) :
  started s0 -> steps s0 s -> u <> v -> nth_error (snd s) u = Some t -> nth_error (snd s) v = Some t' -> reaches (fst s) t l -> ~ reaches (fst s) t' l.
Proof.
  intros [H (t0 & T0)] St N T T' R R'. destruct s0 as [h0 ts0]. cbn in T0. subst ts0. destruct (steps_owned _ _ _ (start_owned _ _ H) St) as (own & O).
  destruct (reach_own _ _ _ _ _ O T R), (reach_own _ _ _ _ _ O T' R'). congruence.
Qed.
Print Assumptions C93_disjoint.

(** While an instance waits, it keeps what it knows, whatever the others do. *)
Theorem C93_waits (s0 s s' : system) (u : nat) (t : thread) (k : knowledge) :
  started s0 -> steps s0 s -> meanwhile u s s' -> nth_error (snd s) u = Some t -> knows (fst s) (t_inst t) k ->
  nth_error (snd s') u = Some t /\ knows (fst s') (t_inst t) k.
Proof.
  intros S0 St M T K. assert (St' : steps s0 s' /\ nth_error (snd s') u = Some t /\ knows (fst s') (t_inst t) k); [|tauto].
  induction M as [s|s j s1 s2 M IH N S1]; [auto|]. destruct (IH St T K) as (A & B & C).
  destruct (C93_isolated _ _ _ _ u t S0 A S1) as [D E]; auto. split; [eapply ss_next; eauto|]. split; [exact D|]. eapply same_knows; eauto.
Qed.
Print Assumptions C93_waits.

(** The exception: what SETLOCAL kept is not copied, so ENDLOCAL finds nothing in the copy. *)
Theorem C93_setlocal_refuted : exists fuel h i k i' h', knows h i k /\ i_setlocal i <> Null /\ pBat_DuplicateData fuel i h = Ret (i', h') /\ i_setlocal i' = Null.
Proof.
  exists 1, [Some (repeat Null LOCAL_VAR_BLOCK_SIZE); Some [Int 0; Int 0; Ptr 2]; Some []; Some [Null; Ptr 1]], (mkI Null (Ptr 0) (Ptr 0) Null 0 (Ptr 1) (Ptr 3) []),
    (mkK None_ (repeat None LOCAL_VAR_BLOCK_SIZE) (repeat None LOCAL_VAR_BLOCK_SIZE) [] [] []). eexists _, _. split; [|split; [discriminate|split; reflexivity]].
  assert (B : block_at [Some (repeat Null LOCAL_VAR_BLOCK_SIZE); Some [Int 0; Int 0; Ptr 2]; Some []; Some [Null; Ptr 1]] (Ptr 0) (repeat None LOCAL_VAR_BLOCK_SIZE)).
  { eexists _, _. split; [reflexivity|]. split; [reflexivity|]. split; [reflexivity|]. cbn. repeat constructor. }
  refine (conj _ (conj B (conj B (conj _ (conj _ eq_refl))))).
  - constructor.
  - split; [reflexivity|]. intros []. reflexivity.
  - exists 1, 2, 0%Z, []. cbn. repeat split; auto. reflexivity.
Qed.
Print Assumptions C93_setlocal_refuted.

(** An instance with a variable X = 1, a command defined by DEF, the one-letter variable %a and a kept directory; it makes a copy, which sets X to 2. *)
Definition ex_h : heap :=
  [Some [Text (s2l "X")]; Some [Text (s2l "1")]; Some [Ptr 0; Ptr 1; Null; Int 0; Junk]; Some [Ptr 2; Junk; Junk]; Some [Int 3; Int 1; Ptr 3];
   Some [Text (s2l "/tmp")]; Some [Ptr 5]; Some [Text (s2l "greet")]; Some [Text (s2l "echo hello")]; Some [Ptr 7; Int 2147483648; Int 5; Ptr 8; Null; Null];
   Some [Text (s2l "file")]; Some (repeat Null 97 ++ Ptr 10 :: repeat Null 30); Some (repeat Null LOCAL_VAR_BLOCK_SIZE)].
Definition ex_i : instance := mkI (Ptr 9) (Ptr 11) (Ptr 12) (Ptr 6) 1 (Ptr 4) Null [7%Z].
Definition ex_k : knowledge :=
  mkK (Command (s2l "greet") 2147483648 5 (Defined (s2l "echo hello")) None_ None_) (repeat None 97 ++ Some (s2l "file") :: repeat None 30) (repeat None LOCAL_VAR_BLOCK_SIZE)
      [s2l "/tmp"] [Some (s2l "X", s2l "1")] [7%Z].
Ltac txt := eexists; split; reflexivity.
Lemma F2_rep (h : heap) n : Forall2 (opt_text_at h) (repeat Null n) (repeat None n). Proof. induction n; constructor; auto. reflexivity. Qed.
Lemma ex_knows : knows ex_h ex_i ex_k.
Proof.
  refine (conj _ (conj _ (conj _ (conj _ (conj _ eq_refl))))); cbn [i_commands i_locals i_args i_paths i_count i_env ex_i k_commands k_locals k_args k_dirs k_env ex_k].
  - econstructor; [reflexivity|txt| |constructor..]. split; [reflexivity|txt].
  - eexists _, _. split; [reflexivity|]. split; [reflexivity|]. split; [reflexivity|]. apply Forall2_app; [apply F2_rep|]. constructor; [txt|apply F2_rep].
  - eexists _, _. split; [reflexivity|]. split; [reflexivity|]. split; [reflexivity|]. apply F2_rep.
  - split; [reflexivity|]. intros _. eexists _, _. split; [reflexivity|]. split; [reflexivity|]. split; [cbn; lia|]. cbn. constructor; [txt|constructor].
  - eexists _, 3, 3%Z, _. split; [reflexivity|]. split; [reflexivity|]. split; [reflexivity|]. split; [cbn; lia|]. split; [cbn; lia|]. cbn [length firstn]. constructor; [|constructor].
    eexists _, _, _, _. split; [reflexivity|]. split; [reflexivity|]. split; txt.
Qed.
Lemma ex_started : started (ex_h, [mkT ex_i (fun _ => Null)]).
Proof.
  split; [split|eexists; reflexivity].
  - assert (A : forallb (fun o => match o with Some c => forallb (fun f => match f with Ptr l => l <? length ex_h | _ => true end) c | None => true end) ex_h = true) by reflexivity.
    intros c l I J. rewrite forallb_forall in A. specialize (A _ I). cbn beta iota in A. rewrite forallb_forall in A. specialize (A _ J). apply Nat.ltb_lt. exact A.
  - intros t r l [<-|[]] E. unfold reg in E. cbn [t_inst t_regs] in E. destruct r as [|[|[|[|[|[|r]]]]]]; cbn in E; try (injection E as <-; cbn; lia); try discriminate. destruct r; discriminate.
Qed.
(** The copy in one step: it has new blocks only; then it changes its environment, and the original still knows X = 1. *)
Definition ex_copy := match pBat_DuplicateData 3 ex_i ex_h with Ret x => x | _ => (ex_i, []) end.
Example C93_ex_copy : pBat_DuplicateData 3 ex_i ex_h = Ret ex_copy /\ length (snd ex_copy) = 26 /\ i_env (fst ex_copy) = Ptr 25.
Proof. vm_compute. auto. Qed.
Example C93_ex : exists s, steps (ex_h, [mkT ex_i (fun _ => Null)]) s /\ length (snd s) = 2 /\
  (exists t, nth_error (snd s) 0 = Some t /\ knows (fst s) (t_inst t) ex_k) /\
  exists t, nth_error (snd s) 1 = Some t /\ env_at (fst s) (i_env (t_inst t)) [Some (s2l "X", s2l "2")].
Proof.
  pose proof ex_started as S0. set (t0 := mkT ex_i (fun _ => Null)) in *.
  (* 1 the clone, with the text 2 in a block of its own; 2-5 it writes it into its variable *)
  set (t1 := mkT (fst ex_copy) (fun j => if j <? 1 then Ptr (26 + j) else Null)). set (h1 := snd ex_copy ++ [Some [Text (s2l "2")]]).
  assert (A1 : step (ex_h, [t0]) 0 (h1, [t0; t1])).
  { assert (E : pBat_DuplicateData 3 ex_i ex_h = Ret (fst ex_copy, snd ex_copy)) by (vm_compute; reflexivity). exact (st_clone ex_h [t0] 0 t0 3 _ _ [s2l "2"] eq_refl E). }
  set (t2 := set_reg t1 7 (Ptr 24)). assert (A2 : step (h1, [t0; t1]) 1 (h1, [t0; t2])).
  { refine (st_op h1 [t0; t1] 1 t1 (OLoad 7 4 2) h1 t2 eq_refl _). eapply do_load; [reflexivity|]. vm_compute. reflexivity. }
  set (t3 := set_reg t2 7 (Ptr 23)). assert (A3 : step (h1, [t0; t2]) 1 (h1, [t0; t3])).
  { refine (st_op h1 [t0; t2] 1 t2 (OLoad 7 7 0) h1 t3 eq_refl _). eapply do_load; [reflexivity|]. vm_compute. reflexivity. }
  set (h2 := set_at 23 (Some [Ptr 21; Ptr 26; Null; Int 0; Junk]) h1). assert (A4 : step (h1, [t0; t3]) 1 (h2, [t0; t3])).
  { refine (st_op h1 [t0; t3] 1 t3 (OStore 7 1 6) h2 t3 eq_refl _). change h2 with (set_at 23 (Some (set_at 1 (Ptr 26) [Ptr 21; Ptr 22; Null; Int 0; Junk])) h1).
    eapply do_store; [reflexivity|reflexivity|vm_compute; reflexivity|cbn; lia]. }
  assert (M : meanwhile 0 (h1, [t0; t1]) (h2, [t0; t3])).
  { eapply (mw_next _ _ 1); [|lia|exact A4]. eapply (mw_next _ _ 1); [|lia|exact A3]. eapply (mw_next _ _ 1); [|lia|exact A2]. apply mw_end. }
  assert (St : steps (ex_h, [t0]) (h1, [t0; t1])) by (eapply ss_next; [apply ss_end|exact A1]).
  assert (K : knows h1 ex_i ex_k). { eapply knows_ext; [|exact ex_knows]. exists (skipn 13 h1). vm_compute. reflexivity. }
  exists (h2, [t0; t3]). split; [eapply ss_next; [|exact A4]; eapply ss_next; [|exact A3]; eapply ss_next; [|exact A2]; exact St|]. split; [reflexivity|]. split.
  - exists t0. exact (C93_waits _ _ _ 0 t0 ex_k S0 St M eq_refl K).
  - exists t3. split; [reflexivity|]. exists 25, 24, 3%Z, [Ptr 23; Junk; Junk]. split; [vm_compute; reflexivity|]. split; [vm_compute; reflexivity|]. split; [vm_compute; reflexivity|].
    split; [cbn; lia|]. split; [cbn; lia|]. cbn [length firstn]. constructor; [|constructor]. exists 23, (Ptr 21), (Ptr 26), [Null; Int 0; Junk]. split; [reflexivity|]. split; [vm_compute; reflexivity|].
    split; eexists; (split; [reflexivity|vm_compute; reflexivity]).
Qed.
