(** EnvStack_Props.v -- properties C18, C19 and C47: SETLOCAL, ENDLOCAL and the
    environment block. *)

From Verif Require Import Base Lex Env_Model Env_Spec Env_Proofs EnvLocal_Proofs EnvStack_Model EnvStack_Spec
  EnvStack_Proofs Env_Props.

(** C18: whatever is done between SETLOCAL and its ENDLOCAL -- assignments,
    removals, calls, nested pairs -- the environment is afterwards the very one
    there was before, and so is what was saved by the enclosing SETLOCALs. *)
Theorem C18_restored :
  forall addr params h line w w',
    saves params -> ends line -> balanced_evs h ->
    Forall nonul params -> nonul line -> Forall ev_nonul h ->
    evs_run (EvSetlocal addr params :: h ++ [EvEndlocal line]) w = Ret w' ->
    w_env w' = w_env w /\ w_stack w' = w_stack w.
Proof.
  intros addr params h line w w' H1 H2 H3 H4 H5 H6 H7.
  destruct (pair_restores addr params h line w w' H1 H2 H3 H4 H5 H6 H7) as (A & B & _). auto.
Qed.
Print Assumptions C18_restored.

(** C18: SETLOCAL itself changes no variable. *)
Theorem C18_same_values :
  forall sg addr params w n ka,
    (forall i, addr_ok sg (addr i)) -> table_ok sg (w_env w) -> Forall nonul params -> nonul n -> addr_ok sg ka ->
    pBat_GetEnv (w_env (pBat_CmdSetLocal addr params w)) n ka = pBat_GetEnv (w_env w) n ka.
Proof.
  intros sg addr params w n ka Ha He Hp Hn Hk.
  assert (G : forall push w0, w_env w0 = w_env w ->
    w_env (setlocal addr params push w0) = w_env w \/
    w_env (setlocal addr params push w0) = pBat_EnvDup addr (w_env w)).
  { clear -Hp. induction params as [|p r IH]; intros push w0 E; cbn [setlocal].
    - destruct push; auto. right. cbn. congruence.
    - inversion Hp; subst. repeat (destruct (streqb _ _) || destruct (_ =? _)%Z || destruct (_ || _)); auto. }
  destruct (G true w eq_refl) as [E|E]; unfold pBat_CmdSetLocal; rewrite E; auto.
  destruct (dup_ok sg addr (w_env w) Ha He) as (T & _ & _ & _ & V). rewrite !(get_ok sg) by auto. rewrite V. auto.
Qed.
Print Assumptions C18_same_values.

(** C18: ENDLOCAL without SETLOCAL changes nothing. *)
Theorem C18_lone_endlocal :
  forall line w, w_stack w = [] -> pBat_CmdEndLocal line w = w.
Proof.
  intros line w H. unfold pBat_CmdEndLocal, pBat_PopEnvStack. rewrite H. destruct (_ =? _)%Z; auto.
Qed.
Print Assumptions C18_lone_endlocal.

(** C18: what is never ended is undone when the stack is freed: the environment is
    again that of before the oldest SETLOCAL. *)
Theorem C18_free :
  forall w, w_stack (pBat_FreeEnvStack w) = [] /\
    w_env (pBat_FreeEnvStack w) = match rev (w_stack w) with [] => w_env w | i :: _ => i_env i end.
Proof.
  assert (G : forall l w, w_stack (free_stack l w) = [] /\
    w_env (free_stack l w) = match rev l with [] => w_env w | i :: _ => i_env i end).
  { induction l as [|i l IH]; intros w; cbn [free_stack]; auto.
    destruct (IH (mkWorld (i_env i) l (i_delayed i) (i_cmdly i))) as [A B]. split; auto. rewrite B. simpl.
    destruct (rev l) as [|j r]; auto. }
  intros w. apply G.
Qed.
Print Assumptions C18_free.

Definition ex_hist : list ev :=
  [EvOp (OSet (s2l "path") 8 64 (s2l "/x") false);
   EvSetlocal (fun i => 5000 + Z.of_nat i)%Z [s2l "disabledelayedexpansion"];
   EvOp (OUnset (s2l "home") 8); EvEnter (fun i => 6000 + Z.of_nat i)%Z; EvLeave; EvEndlocal [];
   EvOp (OSet (s2l "home") 8 80 (s2l "/y") false)].

Example C18_ex :
  balanced_evs ex_hist /\ saves [s2l "EnableExtensions"] /\ ends [] /\
  (exists w', evs_run (EvSetlocal (fun i => 4000 + Z.of_nat i)%Z [s2l "EnableExtensions"] :: ex_hist ++ [EvEndlocal []])
                (mkWorld ex_env [] true false) = Ret w') /\
  (exists w', evs_run (EvSetlocal (fun i => 4000 + Z.of_nat i)%Z [s2l "EnableExtensions"] :: ex_hist)
                (mkWorld ex_env [] true false) = Ret w' /\
     pBat_GetEnv (w_env w') (s2l "HOME") 8 = Ret (Some (s2l "/y"))).
Proof.
  split; [|split; [|split; [|split]]].
  - unfold ex_hist. apply ba_op.
    apply (ba_pair _ [s2l "disabledelayedexpansion"] [EvOp (OUnset (s2l "home") 8); EvEnter (fun i => 6000 + Z.of_nat i)%Z; EvLeave] []
             [EvOp (OSet (s2l "home") 8 80 (s2l "/y") false)]).
    + constructor; [|constructor]. right. left. reflexivity.
    + intros (r & X). discriminate.
    + repeat constructor.
    + repeat constructor.
  - constructor; [|constructor]. right. right. right. right. left. reflexivity.
  - intros (r & X). discriminate.
  - eexists. vm_compute. reflexivity.
  - eexists. split; vm_compute; reflexivity.
Qed.

(** C19: after ENDLOCAL the switches are those SETLOCAL set: the options are
    obeyed, in order, before the switches are saved. *)
Theorem C19_switches :
  forall addr params h line w w',
    saves params -> ends line -> balanced_evs h ->
    Forall nonul params -> nonul line -> Forall ev_nonul h ->
    evs_run (EvSetlocal addr params :: h ++ [EvEndlocal line]) w = Ret w' ->
    switched "ENABLEDELAYEDEXPANSION" "DISABLEDELAYEDEXPANSION" params (w_delayed w) (w_delayed w') /\
    switched "CMDLYCORRECT" "CMDLYINCORRECT" params (w_cmdly w) (w_cmdly w').
Proof.
  intros addr params h line w w' H1 H2 H3 H4 H5 H6 H7.
  destruct (pair_restores addr params h line w w' H1 H2 H3 H4 H5 H6 H7) as (_ & _ & A & B). auto.
Qed.
Print Assumptions C19_switches.

(** C19: so without options in that SETLOCAL, they are restored, whatever the SETLOCALs
    inside. *)
Theorem C19_plain :
  forall addr params h line w w',
    Forall plain_word params -> ends line -> balanced_evs h ->
    Forall nonul params -> nonul line -> Forall ev_nonul h ->
    evs_run (EvSetlocal addr params :: h ++ [EvEndlocal line]) w = Ret w' ->
    w_delayed w' = w_delayed w /\ w_cmdly w' = w_cmdly w.
Proof.
  intros addr params h line w w' H1 H2 H3 H4 H5 H6 H7.
  assert (S : saves params) by (eapply Forall_impl; [|exact H1]; intros p Hp; unfold option_word; tauto).
  destruct (pair_restores addr params h line w w' S H2 H3 H4 H5 H6 H7) as (_ & _ & A & B).
  split.
  - apply (switched_plain _ _ params) in A; auto. eapply Forall_impl; [|exact H1].
    intros p Hp. unfold plain_word, is_word, same_name in *. split; intros X; rewrite X in Hp; destruct Hp as [Y|Y]; discriminate.
  - apply (switched_plain _ _ params) in B; auto. eapply Forall_impl; [|exact H1].
    intros p Hp. unfold plain_word, is_word, same_name in *. split; intros X; rewrite X in Hp; destruct Hp as [Y|Y]; discriminate.
Qed.
Print Assumptions C19_plain.

(** C19: but the options of SETLOCAL are not undone by its ENDLOCAL. *)
Theorem C19_options_refuted :
  ~ (forall addr params h line w w',
       saves params -> ends line -> balanced_evs h ->
       Forall nonul params -> nonul line -> Forall ev_nonul h ->
       evs_run (EvSetlocal addr params :: h ++ [EvEndlocal line]) w = Ret w' ->
       w_delayed w' = w_delayed w).
Proof.
  intros H.
  specialize (H (fun i => 4000 + Z.of_nat i)%Z [s2l "DisableDelayedExpansion"] [] [] (mkWorld ex_env [] true false)).
  assert (X : forall w', evs_run (EvSetlocal (fun i => 4000 + Z.of_nat i)%Z [s2l "DisableDelayedExpansion"] :: [] ++ [EvEndlocal []])
                 (mkWorld ex_env [] true false) = Ret w' -> w_delayed w' = true).
  { intros w' R. eapply H; try exact R.
    - constructor; [|constructor]. right. left. reflexivity.
    - intros (r & X). discriminate.
    - constructor.
    - constructor; [|constructor]. apply s2l_word_nonul. reflexivity.
    - intros [].
    - constructor. }
  specialize (X _ eq_refl). vm_compute in X. discriminate.
Qed.
Print Assumptions C19_options_refuted.

Example C19_ex :
  exists w', evs_run (EvSetlocal (fun i => 4000 + Z.of_nat i)%Z [] ::
                        [EvSetlocal (fun i => 4000 + Z.of_nat i)%Z [s2l "DISABLEDELAYEDEXPANSION"; s2l "cmdlycorrect"];
                         EvEndlocal []] ++ [EvEndlocal []])
               (mkWorld ex_env [] true false) = Ret w' /\ w_delayed w' = true /\ w_cmdly w' = false.
Proof. eexists. split; [vm_compute; reflexivity|]. split; reflexivity. Qed.

(** C47: the block built for a child process holds every variable as
    name=value, each ended by a NUL, and one more NUL; every byte of it is written
    and no byte outside. *)
Theorem C47_block :
  forall e,
    Forall (fun v => match v_name v with Some (n, _) => nonul n | None => True end /\ nonul (v_content v)) (e_buf e) ->
    exists size,
      pBat_GetEnvBlock e = Ret (map Some (block_bytes (variables (e_buf e))), size) /\
      size = length (block_bytes (variables (e_buf e))).
Proof. exact block_ok. Qed.
Print Assumptions C47_block.

Example C47_ex :
  exists m,
    pBat_GetEnvBlock (mkEnv [mkVar (Some (s2l "a", 16%Z)) (s2l "1") false []; mkVar None [] false [];
                             mkVar (Some (s2l "B", 16%Z)) (s2l "xy") false []] 128) = Ret (m, length m) /\ m = map Some (s2l "a=1" ++ "000"%char :: s2l "B=xy" ++ "000"%char :: ["000"%char]).
Proof. eexists (map Some (s2l "a=1" ++ "000"%char :: s2l "B=xy" ++ "000"%char :: ["000"%char])). split; vm_compute; reflexivity. Qed.

(** C18: with /Q, /? or an unknown parameter SETLOCAL saves nothing, so that it
    needs no ENDLOCAL. *)
Theorem C18_not_saved :
  forall addr params w, Forall nonul params -> ~ saves params ->
    w_env (pBat_CmdSetLocal addr params w) = w_env w /\
    w_stack (pBat_CmdSetLocal addr params w) = w_stack w.
Proof. intros addr params w Hn Hs. apply setlocal_not_saves; auto. Qed.
Print Assumptions C18_not_saved.

Example C18_not_saved_ex :
  ~ saves [s2l "/q"; s2l "CmdlyCorrect"] /\
  w_cmdly (pBat_CmdSetLocal (fun i => Z.of_nat i) [s2l "/q"; s2l "CmdlyCorrect"] (mkWorld ex_env [] true false)) = true.
Proof.
  split; [|vm_compute; reflexivity]. intros H. apply Forall_inv in H.
  destruct H as [H|[H|[H|[H|[H|H]]]]]; discriminate.
Qed.
