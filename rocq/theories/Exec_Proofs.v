(** Exec_Proofs.v -- invariants of the calls of Exec_Model.v *)

From Verif Require Import Base Exec_Model Exec_Spec.

Lemma set_same : forall s i c, set s i c i = c.
Proof. intros; unfold set; rewrite Nat.eqb_refl; reflexivity. Qed.
Lemma set_other : forall s i c j, j <> i -> set s i c j = s j.
Proof. intros s i c j H; unfold set; destruct (Nat.eqb_spec j i); [contradiction | reflexivity]. Qed.

(** whom an event is about *)
Definition owner (e : event) : option nat :=
  match e with
  | Refused i | Started i | Ended i _ | ScriptRefused i | ScriptStarted i | ScriptEnded i _ | Returned i _ => Some i
  | Tau => None
  end.
Lemma in_other : forall (tr : list event) e x k, owner x = Some k -> owner e <> Some k -> (In x (tr ++ [e]) <-> In x tr).
Proof.
  intros tr e x k A B. rewrite in_app_iff. cbn. split; [intros [H | [H | []]]; [exact H | subst; contradiction] | auto].
Qed.

Definition was_started (c : call) : Prop :=
  match at_stage (rc c) with Running | Reaped _ => True | Dead _ => byte c = false | _ => False end.
Definition was_ended (c : call) (ws : Z) : Prop :=
  match at_stage (rc c) with Dead w => w = ws /\ byte c = false | Reaped w => w = ws | _ => False end.
Definition refused (c : call) : Prop :=
  match at_stage (rc c) with Failing | Wrote => True | Dead _ => byte c = true | NoChild => pc c = Close false | _ => False end.
Definition byte_fits (c : call) : Prop :=
  match at_stage (rc c) with Wrote => byte c = true | Dead _ => True | _ => byte c = false end.
Definition holds (i : nat) (c : call) : Prop :=
  match at_stage (rc c) with Forked => In i (held (rc c)) | Ready | Failing | Wrote => held (rc c) = [i] | _ => held (rc c) = [] end.
Definition given_up (c : call) : Prop :=
  match at_stage (rc c) with NoChild | Wrote => True | Dead _ => byte c = true | _ => False end.
Definition place_fits (j : job) (i : nat) (tr : list event) (c : call) : Prop :=
  match pc c with
  | Pipe | Fork | Close false => at_stage (rc c) = NoChild /\ (window j && script j = false)
  | Close true | Read => at_stage (rc c) <> NoChild /\ (forall ws, at_stage (rc c) <> Reaped ws) /\ (window j && script j = false)
  | Wait => was_started c /\ wait j = true /\ (forall ws, at_stage (rc c) <> Reaped ws)
  | SFork => given_up c /\ script j = true /\ (window j = true \/ In (Refused i) tr)
  | SWait => given_up c /\ script j = true /\ wait j = true /\ (window j = true \/ In (Refused i) tr)
  | Done _ => given_up c \/ was_started c
  end.
Definition script_fits (j : job) (i : nat) (tr : list event) (c : call) : Prop :=
  match at_stage (sc c) with
  | NoChild => pc c <> SWait /\ held (sc c) = []
  | Forked => script j = true /\ (wait j = true -> pc c = SWait) /\ (pc c = SWait \/ exists z, pc c = Done z)
  | Running => script j = true /\ (wait j = true -> pc c = SWait) /\ (pc c = SWait \/ exists z, pc c = Done z)
  | Dead ws => held (sc c) = [] /\ (wait j = true -> pc c = SWait) /\ (pc c = SWait \/ exists z, pc c = Done z) /\
      ((In (ScriptStarted i) tr /\ In (ScriptEnded i ws) tr) \/
       (In (ScriptRefused i) tr /\ (ws = exited PBAT_COMMAND_ERROR \/ ws = exited PBAT_DIRECTORY_ERROR)))
  | Reaped ws => held (sc c) = [] /\ exists z, pc c = Done z
  | _ => False
  end.
Definition script_started (c : call) : Prop :=
  match at_stage (sc c) with Running => True | _ => False end.

Definition script_began (c : call) : Prop := at_stage (sc c) = Running \/ (exists ws, at_stage (sc c) = Dead ws) \/ (exists ws, at_stage (sc c) = Reaped ws).

Record ok (j : job) (i : nat) (tr : list event) (c : call) : Prop := {
  o_ret : forall z, In (Returned i z) tr <-> pc c = Done z;
  o_st : In (Started i) tr <-> was_started c;
  o_en : forall ws, In (Ended i ws) tr <-> was_ended c ws;
  o_rf : refused c -> In (Refused i) tr;
  o_by : byte_fits c;
  o_ho : holds i c;
  o_pl : place_fits j i tr c;
  o_sc : script_fits j i tr c;
  o_ss : script_started c -> In (ScriptStarted i) tr /\ forall ws, ~ In (ScriptEnded i ws) tr;
  o_sn : In (ScriptStarted i) tr -> script_began c;
  o_se : forall w, In (ScriptEnded i w) tr -> script_began c;
}.

Lemma ok_other : forall j k tr e c, owner e <> Some k -> ok j k tr c -> ok j k (tr ++ [e]) c.
Proof.
  intros j k tr e c H [A B C D E F G I J L N].
  assert (Q : forall x, owner x = Some k -> (In x (tr ++ [e]) <-> In x tr)) by (intros; apply in_other with k; auto).
  split.
  - intro z. rewrite Q; auto.
  - rewrite Q; auto.
  - intro ws. rewrite Q; auto.
  - intro R. rewrite Q; auto.
  - auto.
  - auto.
  - unfold place_fits in *. destruct (pc c); auto; rewrite Q; auto.
  - unfold script_fits in *. destruct (at_stage (sc c)); auto. rewrite !Q; auto.
  - intro R. destruct (J R) as [J1 J2]. rewrite Q by auto. split; auto. intro ws; rewrite Q; auto.
  - rewrite Q by auto. exact L.
  - intro w. rewrite Q by auto. apply N.
Qed.

Lemma step_owner : forall n jobs s i e s', step n jobs s i e s' -> e = Tau \/ owner e = Some i.
Proof.
  intros n jobs s i e s' H; destruct H; cbn; auto; unfold failed; destruct (script (jobs i)); cbn; auto.
Qed.
Lemma step_others : forall n jobs s i e s', step n jobs s i e s' -> forall k, k <> i -> s' k = s k.
Proof. intros n jobs s i e s' H k K; destruct H; apply set_other; exact K. Qed.

Lemma inherits : forall n s i, i < n -> opened (pc (s i)) = true -> In i (inherited n s).
Proof. intros n s i H O. apply filter_In. split; [apply in_seq; lia | exact O]. Qed.

Ltac facts := cbn [pc rc sc byte at_stage held] in *.
Ltac unf := unfold script_began, place_fits, was_started, was_ended, refused, byte_fits, holds, given_up, script_fits, script_started in *.
Ltac app := repeat match goal with
  | |- context [In _ (_ ++ [_])] => rewrite in_app_iff
  | H : context [In _ (_ ++ [_])] |- _ => rewrite in_app_iff in H
  end; cbn [In] in *.

Ltac break := repeat match goal with
  | H : _ /\ _ |- _ => destruct H
  | H : exists _, _ |- _ => destruct H
  | H : False |- _ => contradiction
  | H : False \/ False |- _ => destruct H; contradiction
  | H : True |- _ => clear H
  end.
Ltac prune := break; try discriminate; try congruence;
  try match goal with H : ?x <> ?x |- _ => contradiction (H eq_refl) end;
  try match goal with H : forall ws, Reaped ?w <> Reaped ws |- _ => contradiction (H w eq_refl) end;
  try match goal with H : _ \/ _ |- _ => destruct H; break; discriminate end.
Ltac ors := repeat match goal with H : _ \/ _ |- _ => destruct H end; break.
Ltac one := intuition (try congruence; try discriminate; eauto).

Lemma in_ne : forall (x e : event) tr, e <> x -> (In x (tr ++ [e]) <-> In x tr).
Proof. intros x e tr H. rewrite in_app_iff. cbn. intuition congruence. Qed.
Lemma in_eq' : forall (x : event) tr, In x (tr ++ [x]).
Proof. intros. apply in_app_iff. right. left. reflexivity. Qed.
Lemma in_old : forall (x e : event) tr, In x tr -> In x (tr ++ [e]).
Proof. intros. apply in_app_iff. auto. Qed.
Lemma in_new : forall (x e : event) tr, In x (tr ++ [e]) -> In x tr \/ e = x.
Proof. intros x e tr H. apply in_app_iff in H. cbn in H. tauto. Qed.

Lemma ok_step : forall n jobs s i e s' tr, i < n -> step n jobs s i e s' -> ok (jobs i) i tr (s i) ->
  ok (jobs i) i (tr ++ [e]) (s' i).
Proof.
  intros n jobs s i e s' tr L H O.
  assert (IN : opened (pc (s i)) = true -> In i (inherited n s)) by (apply inherits; exact L).
  assert (WR : ~ writer n s i -> ~ In i (held (rc (s i)))) by
    (intros W X; apply W; right; exists i; auto).
  destruct H; rewrite set_same; destruct O as [A B C D E F G I J M N]; rewrite H in *; clear H; unf; facts.
  all: repeat match goal with r : child |- _ => destruct r as [? ?] end; facts.
  all: try match goal with p : place |- _ => destruct p as [| | [|] | | | | |]; prune end.
  all: repeat match goal with q : stage |- _ => destruct q; prune end.
  all: try match goal with |- context [failed ?j] => unfold failed; destruct (script j) eqn:Sj end.
  all: cbn [done] in *.
  all: try (exfalso; apply (WR ltac:(assumption)); first [assumption | rewrite F; left; reflexivity]).
  all: repeat match goal with H : ?b = true |- _ => is_var b; subst b | H : ?b = false |- _ => is_var b; subst b end.
  all: split; unf; facts.
  all: try match goal with |- forall z, In (Returned _ z) _ <-> _ =>
    let z := fresh in let X := fresh in intro z; split; intro X;
    [apply in_new in X; destruct X as [X | X]; [apply A in X; first [discriminate X | exact X] | first [discriminate X | injection X as <-; reflexivity]]
    | first [discriminate X | injection X as <-; apply in_eq' | apply in_old, A, X]] end.
  all: try match goal with |- In (Started _) _ <-> _ =>
    let X := fresh in split; intro X;
    [apply in_new in X; destruct X as [X | X]; [apply B in X; first [contradiction X | discriminate X | exact X | exact Logic.I | reflexivity] | first [discriminate X | exact Logic.I]]
    | first [contradiction X | discriminate X | apply in_eq' | apply in_old, B; first [exact X | exact Logic.I | reflexivity] ]] end.
  all: try match goal with |- forall z, In (Ended _ z) _ <-> _ =>
    let z := fresh in let X := fresh in intro z; split; intro X;
    [apply in_new in X; destruct X as [X | X]; [apply C in X; first [contradiction X | solve [break; discriminate] | exact X | apply X | split; [exact X | reflexivity]] | first [discriminate X | injection X as <-; split; reflexivity]]
    | first [contradiction X | solve [break; discriminate] | solve [break; subst; apply in_eq'] | solve [subst; apply in_old, C; auto] | apply in_old, C; first [exact X | split; [exact X | first [assumption | reflexivity]]]]] end.
  all: try match goal with |- _ -> In (Refused _) _ =>
    let X := fresh in intro X;
    first [contradiction X | discriminate X | apply in_eq' | apply in_old, D; first [exact X | exact Logic.I | reflexivity]] end.
  all: try first [reflexivity | assumption | exact Logic.I | apply IN; reflexivity].
  all: try match goal with |- In (ScriptStarted _) (_ ++ _) -> _ =>
     let X := fresh in intros X; apply in_new in X; destruct X as [X | X];
     [apply M in X; first [exact X | destruct X as [X | [[? X] | [? X]]]; discriminate X | right; left; eexists; reflexivity | right; right; eexists; reflexivity]
     | first [discriminate X | left; reflexivity]] end.
  all: try match goal with |- forall w, In (ScriptEnded _ _) (_ ++ _) -> _ =>
     let X := fresh in intros ? X; apply in_new in X; destruct X as [X | X];
     [apply N in X; first [exact X | destruct X as [X | [[? X] | [? X]]]; discriminate X | right; left; eexists; reflexivity | right; right; eexists; reflexivity]
     | first [discriminate X | right; left; eexists; reflexivity]] end.
  all: try match goal with |- _ -> In (ScriptStarted _) (_ ++ _) /\ _ =>
     let X := fresh in intro X; first [contradiction X | split; [first [apply in_eq' | apply in_old, J, X] |
       let Y := fresh in intros ? Y; apply in_new in Y; destruct Y as [Y | Y]; [first [apply (proj2 (J X)) in Y; contradiction Y | apply N in Y; destruct Y as [Y | [[? Y] | [? Y]]]; discriminate Y] | discriminate Y]]] end.
  all: clear A B C M N IN; try clear WR.
  all: try solve [repeat split; first [assumption | discriminate | reflexivity | intros; discriminate | congruence]].
  all: try solve [repeat match goal with |- _ /\ _ => split end; first [assumption | discriminate | reflexivity | intros; discriminate | congruence | exact Logic.I | eauto using in_old, in_eq']].
  all: try solve [repeat match goal with |- _ /\ _ => split end; first [assumption | discriminate | reflexivity | intros; discriminate | congruence | exact Logic.I | eauto using in_old, in_eq' | ors; eauto 6 using in_old, in_eq'; congruence ]].
  all: try solve [intuition (eauto using in_old, in_eq')].
  all: try (destruct (J Logic.I) as [JS _]).
  all: repeat match goal with |- _ /\ _ => split end; try assumption; try reflexivity.
  all: try solve [left; split; [apply in_old, JS | apply in_eq']].
  all: try solve [right; split; [apply in_eq' | destruct H0; subst; auto]].
  all: auto.
Qed.

Lemma ok_init : forall jobs i, ok (jobs i) i [] (init jobs i).
Proof.
  intros jobs i. unfold init, begin, none. destruct (jobs i) as [w [|] [|]]; split; unf; facts; cbn; intros; try tauto; try discriminate; auto;
    try (split; [contradiction | discriminate]); try (split; discriminate); try (split; [discriminate | reflexivity]).
Qed.
Lemma exec_ok : forall n jobs tr s, exec n jobs tr s -> forall i, ok (jobs i) i tr (s i).
Proof.
  intros n jobs tr s H. induction H as [| tr s k e s' H IH K T]; intro i; [apply ok_init |].
  destruct (Nat.eq_dec i k) as [-> | N].
  - eapply ok_step; eauto.
  - rewrite (step_others _ _ _ _ _ _ T i N). apply ok_other; [| apply IH].
    destruct (step_owner _ _ _ _ _ _ T) as [-> | ->]; [discriminate | congruence].
Qed.
Lemma exec_split : forall n jobs pre e post s, exec n jobs (pre ++ e :: post) s ->
  exists s1 i s2, exec n jobs pre s1 /\ i < n /\ step n jobs s1 i e s2 /\ exec n jobs (pre ++ [e]) s2.
Proof.
  intros n jobs pre e post. induction post as [| x post IH] using rev_ind; intros s H.
  - inversion H as [Q | tr s1 i e1 s2 H1 L T Q].
    + destruct pre; discriminate.
    + apply app_inj_tail in Q as [-> ->]. exists s1, i, s. auto.
  - replace (pre ++ e :: post ++ [x]) with ((pre ++ e :: post) ++ [x]) in H by (rewrite <- app_assoc; reflexivity).
    inversion H as [Q | tr s1 i e1 s2 H1 L T Q].
    + destruct pre; discriminate.
    + apply app_inj_tail in Q as [-> ->]. eapply IH; eauto.
Qed.
Lemma step_event : forall n jobs s i e s' k, step n jobs s i e s' -> owner e = Some k -> k = i.
Proof. intros n jobs s i e s' k T O. destruct (step_owner _ _ _ _ _ _ T) as [-> | P]; [discriminate | congruence]. Qed.

Lemma wexit : forall ws, WEXITSTATUS ws = code_of ws.
Proof.
  intro ws. unfold WEXITSTATUS, code_of. rewrite Z.shiftr_div_pow2 by lia. change 255%Z with (Z.ones 8).
  rewrite Z.land_ones by lia. reflexivity.
Qed.

(** when a call returns *)
Lemma return_told : forall n jobs s i z s' tr tr', i < n -> step n jobs s i (Returned i z) s' -> ok (jobs i) i tr (s i) ->
  (~ In (Started i) tr -> ~ In (Started i) tr') -> told (jobs i) i tr tr' z.
Proof.
  intros n jobs s i z s' tr tr' L T O K.
  inversion T; subst; clear T; match goal with H : s i = _ |- _ => rewrite H in O end;
    destruct O as [A B C D E F G I J M N]; unf; facts.
  - assert (Sj : failed (jobs i) = Done z) by (destruct (failed (jobs i)); cbn in *; congruence).
    unfold failed in Sj. destruct (script (jobs i)) eqn:Q; [discriminate | injection Sj as <-].
    destruct G as [G1 _]. rewrite G1 in *. apply not_run; auto. apply K. intro X; apply B in X; exact X.
  - assert (Sj : failed (jobs i) = Done z) by (destruct (failed (jobs i)); cbn in *; congruence).
    unfold failed in Sj. destruct (script (jobs i)) eqn:Q; [discriminate | injection Sj as <-].
    destruct G as [G1 [G2 _]].
    apply not_run; auto.
    + apply K. intro X. apply B in X. destruct (at_stage r); try contradiction; try discriminate.
    + apply D. destruct (at_stage r); try discriminate; auto.
  - apply ran_not_waited; auto. apply B. destruct G as [G1 [G2 _]].
    assert (W : ~ In i (held r)) by (intro X; match goal with W : ~ writer n s i |- _ => apply W end; right; exists i; split; [lia |]; left; match goal with Q : s i = _ |- _ => rewrite Q end; exact X).
    destruct (at_stage r); auto; try congruence; try (rewrite F in W; cbn in W; tauto); try contradiction.
  - destruct G as [G1 [G2 _]]. apply ran_waited with ws; auto.
    + apply B. exact G1.
    + apply C. auto.
    + apply wexit.
  - destruct G as [G1 [G2 G3]]. apply by_script; auto.
    + apply K. intro X. apply B in X. destruct (at_stage r); try contradiction. congruence.
    + apply script_not_waited; auto.
  - destruct G as [G1 [G2 G3]]. apply by_script; auto.
    + apply K. intro X. apply B in X. destruct (at_stage r); try contradiction. congruence.
    + apply script_no_process; auto. intro X. apply M in X. destruct X as [X | [[w X] | [w X]]]; rewrite X in I.
      * destruct I as [_ [_ [I | [? I]]]]; discriminate.
      * destruct I as [_ [_ [[I | [? I]] _]]]; discriminate.
      * destruct I as [_ [? I]]; discriminate.
  - destruct G as [G1 [G2 [G3 G4]]]. apply by_script; auto.
    + apply K. intro X. apply B in X. destruct (at_stage r); try contradiction. congruence.
    + destruct I as [_ [_ [_ [[I1 I2] | [I1 I2]]]]]; [apply script_waited | apply script_refused]; auto.
Qed.

(** a measure that every step makes smaller *)
Definition place_weight (p : place) : nat :=
  match p with Pipe => 18 | Fork => 17 | Close _ => 10 | Read => 9 | SFork => 8 | Wait | SWait => 1 | Done _ => 0 end.
Definition stage_weight (c : child) : nat :=
  match at_stage c with Forked => 6 | Ready => 5 | Running | Failing => 4 | Wrote => 3 | Dead _ => 1 | NoChild | Reaped _ => 0 end.
Definition weight (c : call) : nat := place_weight (pc c) + stage_weight (rc c) + stage_weight (sc c).
Fixpoint total (n : nat) (s : state) : nat := match n with 0 => 0 | S n => weight (s n) + total n s end.

Lemma total_same : forall n s s', (forall k, k < n -> s' k = s k) -> total n s' = total n s.
Proof. induction n; intros s s' H; cbn; [reflexivity |]. rewrite H by lia. rewrite (IHn s s'); auto. Qed.
Lemma total_less : forall n s s' i, i < n -> weight (s' i) < weight (s i) -> (forall k, k <> i -> s' k = s k) -> total n s' < total n s.
Proof.
  induction n; intros s s' i L W H; [lia |]. cbn. destruct (Nat.eq_dec i n) as [-> | N].
  - rewrite (total_same n s s'); [lia | intros; apply H; lia].
  - rewrite (H n) by lia. specialize (IHn s s' i ltac:(lia) W H). lia.
Qed.
Lemma step_less : forall n jobs s i e s' tr, ok (jobs i) i tr (s i) -> step n jobs s i e s' -> weight (s' i) < weight (s i).
Proof.
  intros n jobs s i e s' tr O T. destruct T; rewrite set_same; rewrite H in *; destruct O as [A B C D E F G I J M N]; unf; facts;
    unfold weight, place_weight, stage_weight, failed; facts; try (destruct (script (jobs i))); try lia.
  all: try (destruct G as [-> _]); try lia.
  all: destruct (at_stage c) eqn:Q; try contradiction; try lia; break; ors; discriminate.
Qed.
Lemma total_init : forall n jobs, total n (init jobs) <= 18 * n.
Proof.
  induction n; intro jobs; cbn [total]; [lia |]. specialize (IHn jobs).
  assert (weight (init jobs n) <= 18) by (unfold init, begin, weight; destruct (jobs n) as [? [|] [|]]; cbn; lia). lia.
Qed.
Lemma exec_short : forall n jobs tr s, exec n jobs tr s -> length tr + total n s <= 18 * n.
Proof.
  intros n jobs tr s H. induction H as [| tr s i e s' H IH L T]; [cbn; apply total_init |].
  rewrite app_length. cbn [length].
  pose proof (total_less n s s' i L (step_less _ _ _ _ _ _ tr (exec_ok _ _ _ _ H i) T) (step_others _ _ _ _ _ _ T)). lia.
Qed.

(** if nothing but ends of programs can happen *)
Definition quiet (n : nat) (jobs : nat -> job) (s : state) : Prop :=
  forall i e s', i < n -> step n jobs s i e s' -> an_end e.
Lemma quiet_done : forall n jobs s i p s', quiet n jobs s -> i < n -> step n jobs s i (done i p) s' -> False.
Proof. intros n jobs s i p s' Q L T. apply Q in T; [destruct p; exact T | exact L]. Qed.
Lemma quiet_held : forall n jobs tr s i, exec n jobs tr s -> quiet n jobs s -> i < n ->
  held (rc (s i)) = [] /\ (held (sc (s i)) = [] \/ at_stage (sc (s i)) = Running).
Proof.
  intros n jobs tr s i H Q L. pose proof (exec_ok _ _ _ _ H i) as O.
  destruct (s i) as [p [r h] [c g] b] eqn:S0. destruct O as [A B C D E F G I J M N]. unf; facts. split.
  - destruct r; try exact F; exfalso.
    + exact (Q _ _ _ L (st_ready n jobs s i _ _ _ _ S0)).
    + exact (Q _ _ _ L (st_exec n jobs s i _ _ _ _ S0)).
    + exact (Q _ _ _ L (st_write n jobs s i _ _ _ _ S0)).
    + exact (Q _ _ _ L (st_exit n jobs s i _ _ _ _ S0)).
  - destruct c; try contradiction; try (left; apply I); auto.
    exfalso. exact (Q _ _ _ L (st_sexec n jobs s i _ _ _ _ S0)).
Qed.
Lemma writer_dec : forall n s i, writer n s i \/ ~ writer n s i.
Proof.
  intros n s i. unfold writer. destruct (opened (pc (s i))) eqn:O; [auto |].
  assert (D : (exists j, j < n /\ (In i (held (rc (s j))) \/ In i (held (sc (s j))))) \/ ~ (exists j, j < n /\ (In i (held (rc (s j))) \/ In i (held (sc (s j)))))).
  { induction n as [| n IH]; [right; intros [j [L _]]; lia |].
    destruct IH as [[j [L X]] | IH]; [left; exists j; split; [lia | exact X] |].
    destruct (in_dec Nat.eq_dec i (held (rc (s n)))) as [X | X]; [left; exists n; split; [lia | auto] |].
    destruct (in_dec Nat.eq_dec i (held (sc (s n)))) as [Y | Y]; [left; exists n; split; [lia | auto] |].
    right. intros [j [L Z]]. destruct (Nat.eq_dec j n) as [-> | K]; [tauto |]. apply IH. exists j. split; [lia | exact Z]. }
  destruct D as [D | D]; [auto |]. right. intros [X | X]; [discriminate | contradiction].
Qed.
Lemma quiet_all : forall n jobs tr s i, exec n jobs tr s -> quiet n jobs s -> i < n ->
  returned i tr \/ (wait (jobs i) = true /\ (running i tr \/ script_running i tr)) \/
  (exists j, j < n /\ j <> i /\ script (jobs j) = true /\ script_running j tr).
Proof.
  intros n jobs tr s i H Q L. pose proof (exec_ok _ _ _ _ H i) as O.
  destruct (s i) as [p [r h] [c g] b] eqn:S0. destruct O as [A B C D E F G I J M N]. unf; facts.
  destruct p as [| | [|] | | | | | z].
  - exfalso. exact (Q _ _ _ L (st_pipe n jobs s i _ _ _ S0)).
  - exfalso. exact (Q _ _ _ L (st_fork n jobs s i _ _ _ S0)).
  - exfalso. exact (Q _ _ _ L (st_close n jobs s i _ _ _ S0)).
  - exfalso. eapply quiet_done; [exact Q | exact L |]. exact (st_closef n jobs s i _ _ _ S0).
  - destruct b.
    + exfalso. eapply quiet_done; [exact Q | exact L |]. exact (st_read n jobs s i _ _ S0).
    + destruct (writer_dec n s i) as [W | W].
      * destruct W as [W | [j [Lj W]]]; [rewrite S0 in W; discriminate |].
        destruct (quiet_held _ _ _ _ j H Q Lj) as [H1 H2].
        destruct W as [W | W]; [rewrite H1 in W; contradiction |].
        destruct H2 as [H2 | H2]; [rewrite H2 in W; contradiction |].
        pose proof (exec_ok _ _ _ _ H j) as [_ _ _ _ _ _ _ I' J' _ _]. unf. rewrite H2 in *.
        right; right. exists j. repeat split; auto; try apply I'; try apply J'; auto.
        intros ->. rewrite S0 in *. facts. destruct I' as [_ [_ [I' | [? I']]]]; discriminate.
      * exfalso. destruct (wait (jobs i)) eqn:Wt.
        -- exact (Q _ _ _ L (st_eof n jobs s i _ _ S0 W Wt)).
        -- exact (Q _ _ _ L (st_eofn n jobs s i _ _ S0 W Wt)).
  - destruct G as [G1 [G2 G3]]. destruct r; try contradiction.
    + right; left. split; [exact G2 |]. left. split; [apply B; exact Logic.I |]. intros ws X. apply C in X. exact X.
    + exfalso. exact (Q _ _ _ L (st_wait n jobs s i _ _ _ _ S0)).
    + exfalso. eapply G3; reflexivity.
  - exfalso. exact (Q _ _ _ L (st_nosfork n jobs s i _ _ _ S0)).
  - destruct G as [G1 [G2 [G3 G4]]]. destruct c; try contradiction.
    + destruct I as [I _]. contradiction.
    + exfalso. exact (Q _ _ _ L (st_sexec n jobs s i _ _ _ _ S0)).
    + right; left. split; [exact G3 |]. right. apply J. exact Logic.I.
    + exfalso. exact (Q _ _ _ L (st_swait n jobs s i _ _ _ _ S0)).
    + destruct I as [_ [z I]]. discriminate.
  - left. exists z. apply A. reflexivity.
Qed.

(** what has been seen before *)
Lemma step_fresh : forall n jobs tr s i e s', exec n jobs tr s -> i < n -> step n jobs s i e s' ->
  e <> Tau -> (forall k, e <> Refused k) -> (forall k, e <> ScriptRefused k) -> ~ In e tr.
Proof.
  intros n jobs tr s i e s' H L T NT NR NS X. pose proof (exec_ok _ _ _ _ H i) as O.
  destruct T; try (apply NT; reflexivity); try (eapply NR; reflexivity); try (eapply NS; reflexivity);
    rewrite H0 in O; destruct O as [A B C D E F G I J M N]; unf; facts.
  all: try (apply A in X; discriminate).
  all: try (unfold failed in *; destruct (script (jobs i)); [apply NT; reflexivity | apply A in X; discriminate]).
  - apply B in X. exact X.
  - apply C in X. exact X.
  - apply M in X. destruct X as [X | [[? X] | [? X]]]; discriminate.
  - apply (proj2 (J Logic.I)) in X. exact X.
Qed.
Lemma seen_once : forall n jobs tr s e, exec n jobs tr s ->
  e <> Tau -> (forall k, e <> Refused k) -> (forall k, e <> ScriptRefused k) -> once e tr.
Proof.
  intros n jobs tr s e H NT NR NS a b ->. destruct (exec_split _ _ _ _ _ _ H) as [s1 [i [s2 [H1 [L [T H2]]]]]].
  split; [eapply step_fresh; eauto |]. intro X. apply in_split in X as [b1 [b2 ->]].
  replace (a ++ e :: b1 ++ e :: b2) with ((a ++ e :: b1) ++ e :: b2) in H by (rewrite <- app_assoc; reflexivity).
  destruct (exec_split _ _ _ _ _ _ H) as [s3 [k [s4 [H3 [L' [T' _]]]]]].
  eapply (step_fresh _ _ _ _ _ _ _ H3 L' T'); auto. apply in_app_iff. right. left. reflexivity.
Qed.
