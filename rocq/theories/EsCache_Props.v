(** EsCache_Props.v -- property C08: the string cache. *)

From Verif Require Import Base EsCache_Model EsCache_Proofs.

(** C08: after any history, an acquired buffer is none of those held, is empty,
    and comes from the pool whenever a usable pool slot is not held (so released
    slots are reused).  [ok i] tells whether slot [i] could be allocated at
    start-up. *)
Theorem C08_acquire_disjoint :
  forall ok es w h w',
    steps (start ok) es = Some w -> acquire w = (h, w') ->
    ~ In h (w_held w) /\ acquired_text w' h = [] /\
    ((exists x, x < 128 /\ ok x = true /\ ~ In (Pool x) (w_held w)) ->
     exists i, h = Pool i /\ i < 128 /\ ok i = true).
Proof.
  intros ok es w h w' Hs Ha.
  pose proof (steps_ok ok es _ _ (Inv_start ok) Hs) as HI.
  destruct (acquire_ok ok w HI) as [H _]. unfold acquire_post in H. rewrite Ha in H. tauto.
Qed.
Print Assumptions C08_acquire_disjoint.

(** C08: the buffers held at the same time are pairwise distinct and never a
    slot whose allocation failed. *)
Theorem C08_held_distinct :
  forall ok es w, steps (start ok) es = Some w ->
    NoDup (w_held w) /\ forall x, In (Pool x) (w_held w) -> x < 128 /\ ok x = true.
Proof.
  intros ok es w Hs. pose proof (steps_ok ok es _ _ (Inv_start ok) Hs) as HI.
  unfold Inv in HI. tauto.
Qed.
Print Assumptions C08_held_distinct.

(** C08: when every usable slot is held the next buffer is a fresh one. *)
Theorem C08_fallback :
  forall ok es w h w',
    steps (start ok) es = Some w -> acquire w = (h, w') ->
    (forall x, x < 128 -> ok x = true -> In (Pool x) (w_held w)) ->
    exists k, h = Fresh k.
Proof.
  intros ok es w h w' Hs Ha Hall.
  pose proof (steps_ok ok (es ++ [EvAcquire]) (start ok) w' (Inv_start ok)) as HI'.
  assert (Hs' : steps (start ok) (es ++ [EvAcquire]) = Some w').
  { clear HI' Hall. revert Hs. generalize (start ok) as w0. induction es as [|e es IH]; intros w0 Hs; simpl in *.
    - injection Hs as ->. rewrite Ha. reflexivity.
    - destruct (step w0 e); [auto|discriminate]. }
  specialize (HI' Hs'). destruct (C08_acquire_disjoint ok es w h w' Hs Ha) as [Hn _].
  destruct h as [i|k]; [|eauto]. exfalso. apply Hn.
  pose proof (steps_ok ok es _ _ (Inv_start ok) Hs) as HI.
  destruct (acquire_ok ok w HI) as [Hp _]. unfold acquire_post in Hp. rewrite Ha in Hp.
  destruct Hp as (_ & _ & Hheld & _).
  destruct HI' as (_ & _ & _ & H4 & _). rewrite Hheld in H4.
  destruct (H4 i) as [Hi Ho]; [left; auto|]. auto.
Qed.
Print Assumptions C08_fallback.

(** A history with a failed slot, two acquisitions, a write and a release. *)
Example C08_ex :
  exists w w', steps (start (fun i => negb (i =? 0)))
    [EvAcquire; EvAcquire; EvWrite (Pool 1) (s2l "abc") 512; EvRelease (Pool 1) false] = Some w /\
  w_held w = [Pool 2] /\ acquire w = (Pool 1, w').
Proof. eexists. eexists. split; [vm_compute; reflexivity|]. split; vm_compute; reflexivity. Qed.
