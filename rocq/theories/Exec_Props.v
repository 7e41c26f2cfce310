(** Exec_Props.v -- C87: programs are run, and what is told about them *)

From Verif Require Import Base Exec_Model Exec_Spec Exec_Proofs.

(** However many calls run at the same time, and in whatever order their steps and those of their
    processes come: what a call returns is the exit code of the program it ran, after it ended (or 0
    if it need not wait); if the program could not be started, it is an error, or what the script
    gives -- and then the program is never run. *)
Theorem C87_told : forall n jobs tr s, exec n jobs tr s ->
  forall pre i z post, tr = pre ++ Returned i z :: post -> told (jobs i) i pre tr z.
Proof.
  intros n jobs tr s H pre i z post E. subst tr.
  destruct (exec_split _ _ _ _ _ _ H) as [s1 [k [s2 [H1 [L [T H2]]]]]].
  assert (k = i) by (symmetry; eapply step_event; [exact T | reflexivity]). subst k.
  eapply return_told; [exact L | exact T | apply (exec_ok _ _ _ _ H1) |].
  intros K X. apply in_app_iff in X as [X | [X | X]]; [contradiction | discriminate |].
  apply in_split in X as [b1 [b2 ->]].
  replace (pre ++ Returned i z :: b1 ++ Started i :: b2) with ((pre ++ Returned i z :: b1) ++ Started i :: b2) in H by (rewrite <- app_assoc; reflexivity).
  destruct (exec_split _ _ _ _ _ _ H) as [s3 [k [s4 [H3 [L' [T' _]]]]]].
  assert (k = i) by (symmetry; eapply step_event; [exact T' | reflexivity]). subst k.
  pose proof (exec_ok _ _ _ _ H3 i) as O. pose proof (o_ret _ _ _ _ O z) as R. pose proof (o_pl _ _ _ _ O) as G.
  assert (P : pc (s3 i) = Done z) by (apply R; apply in_app_iff; right; left; reflexivity).
  inversion T' as [| | | | | | | | | | | | | | p h c b Q | | | | | | |].
  - unfold done, failed in *. destruct (script (jobs i)); discriminate.
  - unfold done, failed in *. destruct (script (jobs i)); discriminate.
  - rewrite Q in *. unfold place_fits, given_up, was_started in G. cbn in P. subst p. cbn in G. tauto.
Qed.

(** For a program that exits with a code: that is what a call that waits for it returns. *)
Theorem C87_code : forall n jobs tr s i z c, exec n jobs tr s ->
  wait (jobs i) = true -> In (Returned i z) tr -> In (Ended i (exited c)) tr -> (0 <= c < 256)%Z -> z = c.
Proof.
  intros n jobs tr s i z c H W R E C. apply in_split in R as [pre [post Q]].
  pose proof (exec_ok _ _ _ _ H i) as O. pose proof (o_en _ _ _ _ O) as EN. pose proof (o_st _ _ _ _ O) as ST.
  assert (S0 : In (Started i) tr).
  { apply ST. apply EN in E. unfold was_ended, was_started in *. destruct (at_stage (rc (s i))); try contradiction; auto. apply E. }
  assert (X : code_of (exited c) = c).
  { unfold code_of, exited. change 255%Z with (Z.ones 8). rewrite Z.land_ones by lia. change (2 ^ 8)%Z with 256%Z.
    rewrite (Z.mod_small c) by lia. rewrite Z.div_mul by lia. apply Z.mod_small; lia. }
  destruct (C87_told _ _ _ _ H _ _ _ _ Q) as [ws _ _ E' -> | W' _ _ | _ N _ _ | _ N _ _]; try congruence; try contradiction.
  assert (E2 : In (Ended i ws) tr) by (rewrite Q; apply in_app_iff; auto).
  apply EN in E. apply EN in E2. unfold was_ended in *. destruct (at_stage (rc (s i))); try contradiction.
  - destruct E as [E _], E2 as [E2 _]. congruence.
  - congruence.
Qed.

(** No program is run twice, and no call returns twice. *)
Theorem C87_once : forall n jobs tr s, exec n jobs tr s ->
  forall i, once (Started i) tr /\ once (ScriptStarted i) tr /\ forall z, once (Returned i z) tr.
Proof.
  intros n jobs tr s H i. split; [| split; [| intro z]]; apply (seen_once _ _ _ _ _ H); try intro; discriminate.
Qed.

(** Every order of steps is short; and where nothing is left to do but to wait for the end of
    programs, each call returned, or waits for its own program (or script) -- or for the script of
    another call. *)
Theorem C87_ends : forall n jobs tr s, exec n jobs tr s ->
  length tr <= 18 * n /\
  ((forall i e s', i < n -> step n jobs s i e s' -> an_end e) ->
   forall i, i < n ->
   returned i tr \/ (wait (jobs i) = true /\ (running i tr \/ script_running i tr)) \/
   (exists j, j < n /\ j <> i /\ script (jobs j) = true /\ script_running j tr)).
Proof.
  intros n jobs tr s H. split; [pose proof (exec_short _ _ _ _ H); lia |].
  intros Q i L. exact (quiet_all _ _ _ _ _ H Q L).
Qed.
(** So, without scripts, no call ever waits for what another one runs. *)
Theorem C87_alone : forall n jobs tr s, exec n jobs tr s -> (forall i, i < n -> script (jobs i) = false) ->
  (forall i e s', i < n -> step n jobs s i e s' -> an_end e) ->
  forall i, i < n -> returned i tr \/ (wait (jobs i) = true /\ running i tr).
Proof.
  intros n jobs tr s H NS Q i L. pose proof (exec_ok _ _ _ _ H i) as O. destruct (quiet_all _ _ _ _ _ H Q L) as [R | [[W [R | R]] | [j [Lj [_ [R _]]]]]]; auto.
  - destruct R as [R1 R2]. pose proof (o_sn _ _ _ _ O R1) as SB. pose proof (o_sc _ _ _ _ O) as SF.
    unfold script_began in SB. unfold script_fits in SF. specialize (NS i L).
    destruct SB as [SB | [[ws SB] | [ws SB]]]; rewrite SB in SF.
    + destruct SF; congruence.
    + destruct SF as [_ [SF _]]. specialize (SF W). pose proof (o_pl _ _ _ _ O) as P. unfold place_fits in P. rewrite SF in P. destruct P as [_ [P _]]; congruence.
    + destruct SF as [_ [z SF]]. left. exists z. apply (o_ret _ _ _ _ O). exact SF.
  - rewrite (NS j Lj) in R. discriminate.
Qed.


(** A call of another thread that starts a script (the default for START) keeps the pipe of this
    call open: the program ended, but the call cannot go on before the script ends. *)
Definition two (i : nat) : job := if i =? 0 then Job true false true else Job false true true.
Theorem C87_blocked_refuted : exists tr s, exec 2 two tr s /\
  In (Ended 0 (exited 0)) tr /\ ~ returned 0 tr /\ returned 1 tr /\
  forall i e s', i < 2 -> step 2 two s i e s' -> exists ws, e = ScriptEnded 1 ws.
Proof.
  pose proof (ex_init 2 two) as E.
  eapply ex_step with (i := 0) in E; [| lia | eapply st_pipe; reflexivity].
  eapply ex_step with (i := 1) in E; [| lia | eapply st_sforkn; reflexivity].
  eapply ex_step with (i := 1) in E; [| lia | eapply st_sexec; reflexivity].
  eapply ex_step with (i := 0) in E; [| lia | eapply st_fork; reflexivity].
  eapply ex_step with (i := 0) in E; [| lia | eapply st_close; reflexivity].
  eapply ex_step with (i := 0) in E; [| lia | eapply st_ready; reflexivity].
  eapply ex_step with (i := 0) in E; [| lia | eapply st_exec; reflexivity].
  eapply ex_step with (i := 0) in E; [| lia | eapply st_end with (ws := exited 0); reflexivity].
  eexists; eexists. split; [| split; [| split; [| split]]].
  - exact E.
  - cbn. tauto.
  - intros [z X]. cbn in X. repeat (destruct X as [X | X]; [discriminate X |]). exact X.
  - exists 0%Z. cbn. tauto.
  - intros i e s' L T. destruct i as [| [| i]]; [| | lia]; inversion T as [? ? ? Q | ? ? ? Q | ? ? ? Q | ? ? ? Q | ? ? ? Q | ? ? Q | ? ? Q | ? ? Q | ? ? ? ? Q | ? ? ? Q | ? ? ? Q | ? ? ? Q | ? ? ? ? Q | ? ? ? ? Q | ? ? ? ? Q | ? ? ? ? Q | ? ? ? ? Q | ? ? ? ? Q | ? ? ? ? ? Q | ? ? ? ? Q | ? ? ? ? ? Q | ? ? ? ? ? Q];
      try discriminate Q; eauto.
    + exfalso. match goal with W : ~ writer _ _ _ |- _ => apply W end. right. exists 1. split; [lia |]. right. left. reflexivity.
    + exfalso. match goal with W : ~ writer _ _ _ |- _ => apply W end. right. exists 1. split; [lia |]. right. left. reflexivity.
Qed.

(** A program that is killed by a signal looks as if it had been successful. *)
Definition alone (_ : nat) : job := Job true false false.
Theorem C87_signal_refuted : exists tr s, exec 1 alone tr s /\ In (Ended 0 (killed 9)) tr /\ In (Returned 0 0%Z) tr.
Proof.
  pose proof (ex_init 1 alone) as E.
  eapply ex_step with (i := 0) in E; [| lia | eapply st_pipe; reflexivity].
  eapply ex_step with (i := 0) in E; [| lia | eapply st_fork; reflexivity].
  eapply ex_step with (i := 0) in E; [| lia | eapply st_close; reflexivity].
  eapply ex_step with (i := 0) in E; [| lia | eapply st_ready; reflexivity].
  eapply ex_step with (i := 0) in E; [| lia | eapply st_exec; reflexivity].
  eapply ex_step with (i := 0) in E; [| lia | eapply st_eof; [reflexivity | | reflexivity]].
  2:{ intros [W | [j [L W]]]; [discriminate W |]. assert (j = 0) by lia. subst j. cbn in W. tauto. }
  eapply ex_step with (i := 0) in E; [| lia | eapply st_end with (ws := killed 9); reflexivity].
  eapply ex_step with (i := 0) in E; [| lia | eapply st_wait; reflexivity].
  eexists; eexists. split; [| split].
  - exact E.
  - cbn. tauto.
  - cbn. tauto.
Qed.

(** What the script exits with is not what is returned: START /WAIT of a file whose program exits
    with 1 returns 256. *)
Definition started (_ : nat) : job := Job true true true.
Theorem C87_script_refuted : exists tr s, exec 1 started tr s /\ In (ScriptEnded 0 (exited 1)) tr /\ In (Returned 0 256%Z) tr.
Proof.
  pose proof (ex_init 1 started) as E.
  eapply ex_step with (i := 0) in E; [| lia | eapply st_sfork; reflexivity].
  eapply ex_step with (i := 0) in E; [| lia | eapply st_sexec; reflexivity].
  eapply ex_step with (i := 0) in E; [| lia | eapply st_send with (ws := exited 1); reflexivity].
  eapply ex_step with (i := 0) in E; [| lia | eapply st_swait; reflexivity].
  eexists; eexists. split; [| split].
  - exact E.
  - cbn. tauto.
  - cbn. tauto.
Qed.

(** A process whose program could not be run is never waited for: it stays (a "zombie") as long as
    the interpreter runs, though the call returned and nothing is left to do. *)
Theorem C87_zombie_refuted : exists tr s, exec 1 alone tr s /\ In (Returned 0 PBAT_COMMAND_ERROR) tr /\
  (forall e s', ~ step 1 alone s 0 e s') /\ exists ws, at_stage (rc (s 0)) = Dead ws.
Proof.
  pose proof (ex_init 1 alone) as E.
  eapply ex_step with (i := 0) in E; [| lia | eapply st_pipe; reflexivity].
  eapply ex_step with (i := 0) in E; [| lia | eapply st_fork; reflexivity].
  eapply ex_step with (i := 0) in E; [| lia | eapply st_close; reflexivity].
  eapply ex_step with (i := 0) in E; [| lia | eapply st_ready; reflexivity].
  eapply ex_step with (i := 0) in E; [| lia | eapply st_noexec; reflexivity].
  eapply ex_step with (i := 0) in E; [| lia | eapply st_write; reflexivity].
  eapply ex_step with (i := 0) in E; [| lia | eapply st_read; reflexivity].
  eapply ex_step with (i := 0) in E; [| lia | eapply st_exit; reflexivity].
  eexists; eexists. split; [| split; [| split]].
  - exact E.
  - cbn. tauto.
  - intros e s' T. inversion T as [? ? ? Q | ? ? ? Q | ? ? ? Q | ? ? ? Q | ? ? ? Q | ? ? Q | ? ? Q | ? ? Q | ? ? ? ? Q | ? ? ? Q | ? ? ? Q | ? ? ? Q | ? ? ? ? Q | ? ? ? ? Q | ? ? ? ? Q | ? ? ? ? Q | ? ? ? ? Q | ? ? ? ? Q | ? ? ? ? ? Q | ? ? ? ? Q | ? ? ? ? ? Q | ? ? ? ? ? Q]; discriminate Q.
  - eexists. reflexivity.
Qed.

(** Two calls at once, as in a pipe: the process of the second one holds the pipe of the first one
    for a while; both return what their programs exit with. *)
Example C87_ex : exists tr s, exec 2 alone tr s /\ In (Returned 0 7%Z) tr /\ In (Returned 1 0%Z) tr.
Proof.
  pose proof (ex_init 2 alone) as E.
  eapply ex_step with (i := 0) in E; [| lia | eapply st_pipe; reflexivity].
  eapply ex_step with (i := 1) in E; [| lia | eapply st_pipe; reflexivity].
  eapply ex_step with (i := 0) in E; [| lia | eapply st_fork; reflexivity].
  eapply ex_step with (i := 1) in E; [| lia | eapply st_fork; reflexivity].
  eapply ex_step with (i := 1) in E; [| lia | eapply st_close; reflexivity].
  eapply ex_step with (i := 0) in E; [| lia | eapply st_close; reflexivity].
  eapply ex_step with (i := 0) in E; [| lia | eapply st_ready; reflexivity].
  eapply ex_step with (i := 1) in E; [| lia | eapply st_ready; reflexivity].
  eapply ex_step with (i := 1) in E; [| lia | eapply st_exec; reflexivity].
  eapply ex_step with (i := 0) in E; [| lia | eapply st_exec; reflexivity].
  eapply ex_step with (i := 1) in E; [| lia | eapply st_end with (ws := exited 0); reflexivity].
  eapply ex_step with (i := 0) in E; [| lia | eapply st_end with (ws := exited 7); reflexivity].
  eapply ex_step with (i := 1) in E; [| lia | eapply st_eof; [reflexivity | | reflexivity]].
  2:{ intros [W | [j [L W]]]; [discriminate W |]. assert (j = 0 \/ j = 1) as [-> | ->] by lia; cbn in W; tauto. }
  eapply ex_step with (i := 0) in E; [| lia | eapply st_eof; [reflexivity | | reflexivity]].
  2:{ intros [W | [j [L W]]]; [discriminate W |]. assert (j = 0 \/ j = 1) as [-> | ->] by lia; cbn in W; tauto. }
  eapply ex_step with (i := 1) in E; [| lia | eapply st_wait; reflexivity].
  eapply ex_step with (i := 0) in E; [| lia | eapply st_wait; reflexivity].
  eexists; eexists. split; [| split].
  - exact E.
  - cbn. tauto.
  - cbn. tauto.
Qed.

Print Assumptions C87_told.
Print Assumptions C87_code.
Print Assumptions C87_once.
Print Assumptions C87_ends.
Print Assumptions C87_alone.
Print Assumptions C87_blocked_refuted.
Print Assumptions C87_signal_refuted.
Print Assumptions C87_script_refuted.
Print Assumptions C87_zombie_refuted.
