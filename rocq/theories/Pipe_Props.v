(** Pipe_Props.v -- C88: commands that are joined by pipes *)

From Verif Require Import Base Pipe_Model Pipe_Spec Pipe_Proofs.

(** Once the last command has stopped, and its line is done, what was written is what the chain
    of commands gives (Pipe_Spec.v), whatever the threads did when, how much a pipe can hold, and
    which descriptors were free. *)
Theorem C88_output : forall Q act q0 m cap input f0 f1 f2 s, f0 <> f1 /\ f0 <> f2 /\ f1 <> f2 ->
  exec Q act q0 m cap (begins Q q0 m input f0 f1 f2) s -> pc Q (th Q s m) = End ->
  gives Q act q0 m input (outp Q s).
Proof.
  intros Q act q0 m cap input f0 f1 f2 s D E P. destruct (reach Q act q0 m cap input f0 f1 f2 D s E) as (_ & DI).
  eapply gives_of; [exact DI|]. rewrite P. exact I.
Qed.
Print Assumptions C88_output.

(** A chain gives one thing only; so the output does not depend on what the threads did when, and
    how much a pipe can hold. *)
Theorem C88_same : forall Q act q0 m cap cap' input f0 f1 f2 g0 g1 g2 s s',
  f0 <> f1 /\ f0 <> f2 /\ f1 <> f2 -> g0 <> g1 /\ g0 <> g2 /\ g1 <> g2 ->
  exec Q act q0 m cap (begins Q q0 m input f0 f1 f2) s -> pc Q (th Q s m) = End ->
  exec Q act q0 m cap' (begins Q q0 m input g0 g1 g2) s' -> pc Q (th Q s' m) = End ->
  outp Q s = outp Q s'.
Proof.
  intros Q act q0 m cap cap' input f0 f1 f2 g0 g1 g2 s s' D D' E P E' P'. eapply gives_one.
  - eapply C88_output; [exact D|exact E|exact P].
  - eapply C88_output; [exact D'|exact E'|exact P'].
Qed.
Print Assumptions C88_same.

(** At every moment, what was written is the beginning of what the chain gives. *)
Theorem C88_prefix : forall Q act q0 m cap input f0 f1 f2 s o, f0 <> f1 /\ f0 <> f2 /\ f1 <> f2 ->
  exec Q act q0 m cap (begins Q q0 m input f0 f1 f2) s -> gives Q act q0 m input o ->
  prefix (outp Q s) o.
Proof.
  intros Q act q0 m cap input f0 f1 f2 s o D E G. destruct (reach Q act q0 m cap input f0 f1 f2 D s E) as (_ & DI).
  rewrite (d_o _ _ _ _ _ _ DI). exact (chain_prefix Q act q0 m input _ o (chain_of _ _ _ _ _ s DI) G).
Qed.
Print Assumptions C88_prefix.

(** At every moment, each command has read the beginning of what the one before it wrote. *)
Theorem C88_order : forall Q act q0 m cap input f0 f1 f2 s k, f0 <> f1 /\ f0 <> f2 /\ f1 <> f2 ->
  exec Q act q0 m cap (begins Q q0 m input f0 f1 f2) s -> k < m ->
  prefix (rgot Q (th Q s (S k))) (sent Q (th Q s k)).
Proof.
  intros Q act q0 m cap input f0 f1 f2 s k D E L. destruct (reach Q act q0 m cap input f0 f1 f2 D s E) as (_ & DI).
  exists (cont Q s k). symmetry. now apply DI.
Qed.
Print Assumptions C88_order.

(** The threads never wait for each other in vain, and no call of the system fails: unless all is
    done, one of them can go on. *)
Theorem C88_no_deadlock : forall Q act q0 m cap input f0 f1 f2 s, f0 <> f1 /\ f0 <> f2 /\ f1 <> f2 -> 0 < cap ->
  exec Q act q0 m cap (begins Q q0 m input f0 f1 f2) s ->
  (forall k, k <= m -> pc Q (th Q s k) = End) \/ exists k s', k <= m /\ step Q act q0 m cap s k s'.
Proof.
  intros Q act q0 m cap input f0 f1 f2 s D C E. destruct (reach Q act q0 m cap input f0 f1 f2 D s E) as (A & _).
  eapply no_deadlock; [exact C|exact A].
Qed.
Print Assumptions C88_no_deadlock.

(** Once all is done, the same descriptors are open as before, for the same things. *)
Theorem C88_restored : forall Q act q0 m cap input f0 f1 f2 s, f0 <> f1 /\ f0 <> f2 /\ f1 <> f2 ->
  exec Q act q0 m cap (begins Q q0 m input f0 f1 f2) s -> (forall k, k <= m -> pc Q (th Q s k) = End) ->
  forall f, tab Q s f = tab Q (begins Q q0 m input f0 f1 f2) f.
Proof.
  intros Q act q0 m cap input f0 f1 f2 s D E P. destruct (reach Q act q0 m cap input f0 f1 f2 D s E) as (A & _).
  exact (restored Q act q0 m input f0 f1 f2 D s A P).
Qed.
Print Assumptions C88_restored.

(** As soon as the line is done, the interpreter has its three streams back. *)
Theorem C88_back : forall Q act q0 m cap input f0 f1 f2 s, f0 <> f1 /\ f0 <> f2 /\ f1 <> f2 ->
  exec Q act q0 m cap (begins Q q0 m input f0 f1 f2) s -> pc Q (th Q s m) = End ->
  tab Q s f0 = Some (Std 0) /\ tab Q s f1 = Some (Std 1) /\ tab Q s f2 = Some (Std 2).
Proof.
  intros Q act q0 m cap input f0 f1 f2 s D E P. destruct (reach Q act q0 m cap input f0 f1 f2 D s E) as (A & _).
  exact (main_back Q act q0 m f0 f1 f2 s A P).
Qed.
Print Assumptions C88_back.

(** * Two chains: the first command writes [ab]; the second copies what it reads, or stops at once *)
Definition wr_ab (x : nat) : action nat :=
  match x with 0 => AWrite "a"%char (fun _ => 1) | 1 => AWrite "b"%char (fun _ => 2) | _ => AStop end.
Definition copies (x : nat) : action nat :=
  match x with 0 => ARead (fun c => match c with Some c => S (S (nat_of_ascii c)) | None => 1 end) | 1 => AStop | S (S n) => AWrite (ascii_of_nat n) (fun _ => 0) end.
Definition ab_copied (k : nat) : nat -> action nat := if k =? 0 then wr_ab else copies.
Definition ab_lost (k : nat) : nat -> action nat := if k =? 0 then wr_ab else fun _ => AStop.

Ltac go i T := match goal with E : exec ?Q ?a ?q ?m ?c ?s0 ?s |- _ =>
  let n := fresh "s" in
  eapply ex_more with (k := i) in E; [|lia|eapply T; try reflexivity; try discriminate; try lia];
  match type of E with exec _ _ _ _ _ _ ?s' => set (n := s') in E end end.

(** "Once a line is done, all commands of its pipes are": not so.  The interpreter does not
    wait: the next line can run before the first command of this one even started. *)
Theorem C88_unfinished_refuted : ~ (forall Q act q0 m cap input f0 f1 f2 s, f0 <> f1 /\ f0 <> f2 /\ f1 <> f2 -> 0 < cap ->
  exec Q act q0 m cap (begins Q q0 m input f0 f1 f2) s -> pc Q (th Q s m) = End ->
  forall k, k < m -> pc Q (th Q s k) = End \/ sent Q (th Q s k) <> []).
Proof.
  intro H.
  assert (E : exec nat ab_lost (fun _ => 0) 1 1 (begins nat (fun _ => 0) 1 [] 0 1 2) (begins nat (fun _ => 0) 1 [] 0 1 2)) by constructor.
  go 1 (s_pipe nat ab_lost (fun _ => 0) 1 1 (begins nat (fun _ => 0) 1 [] 0 1 2) 1 0 3 4).
  go 1 (s_clone nat ab_lost (fun _ => 0) 1 1 s 1 0 3 4 5 6 7).
  go 1 (s_last nat ab_lost (fun _ => 0) 1 1 s0 1).
  go 1 (s_i1 nat ab_lost (fun _ => 0) 1 1 s1 1 8).
  go 1 (s_i2 nat ab_lost (fun _ => 0) 1 1 s2 1).
  go 1 (s_i3 nat ab_lost (fun _ => 0) 1 1 s3 1).
  go 1 (s_stop nat ab_lost (fun _ => 0) 1 1 s4 1).
  go 1 (s_p1 nat ab_lost (fun _ => 0) 1 1 s5 1).
  go 1 (s_p2 nat ab_lost (fun _ => 0) 1 1 s6 1).
  destruct (H _ _ _ _ _ _ _ _ _ _ (conj (n_Sn 0) (conj (O_S 1) (n_Sn 1))) (Nat.lt_0_succ 0) E eq_refl 0 (Nat.lt_0_succ 0)) as [X|X];
    [discriminate X|apply X; reflexivity].
Qed.
Print Assumptions C88_unfinished_refuted.

Ltac go_w i T := match goal with E : exec ?Q ?a ?q ?m ?c ?s0 ?s |- _ =>
  let n := fresh "s" in
  eapply ex_more with (k := i) in E; [|lia|eapply T; try reflexivity; [first [exists 1; reflexivity | exists 0; reflexivity | exists 5; reflexivity | exists 3; reflexivity]|apply Nat.lt_succ_diag_r]];
  match type of E with exec _ _ _ _ _ _ ?s' => set (n := s') in E end end.
Ltac go_e i T := match goal with E : exec ?Q ?a ?q ?m ?c ?s0 ?s |- _ =>
  let n := fresh "s" in
  eapply ex_more with (k := i) in E; [|lia|eapply T; try reflexivity; intros (f & F); do 10 (destruct f as [|f]; [discriminate F|]); discriminate F];
  match type of E with exec _ _ _ _ _ _ ?s' => set (n := s') in E end end.
(** [ab] goes through a pipe that holds one byte; all ends. *)
Example C88_ex : exists s, exec nat ab_copied (fun _ => 0) 1 1 (begins nat (fun _ => 0) 1 [] 0 1 2) s /\
  (forall k, k <= 1 -> pc nat (th nat s k) = End) /\ outp nat s = ["a"; "b"]%char /\ (forall f, f > 2 -> tab nat s f = None).
Proof.
  assert (E : exec nat ab_copied (fun _ => 0) 1 1 (begins nat (fun _ => 0) 1 [] 0 1 2) (begins nat (fun _ => 0) 1 [] 0 1 2)) by constructor.
  go 1 (s_pipe nat ab_copied (fun _ => 0) 1 1 (begins nat (fun _ => 0) 1 [] 0 1 2) 1 0 3 4).
  go 1 (s_clone nat ab_copied (fun _ => 0) 1 1 s 1 0 3 4 5 6 7).
  go 1 (s_last nat ab_copied (fun _ => 0) 1 1 s0 1).
  go 1 (s_i1 nat ab_copied (fun _ => 0) 1 1 s1 1 8).
  go 1 (s_i2 nat ab_copied (fun _ => 0) 1 1 s2 1).
  go 1 (s_i3 nat ab_copied (fun _ => 0) 1 1 s3 1).
  go 0 (s_o1 nat ab_copied (fun _ => 0) 1 1 s4 0 9).
  go 0 (s_o2 nat ab_copied (fun _ => 0) 1 1 s5 0).
  go 0 (s_o3 nat ab_copied (fun _ => 0) 1 1 s6 0).
  go_w 0 (s_write nat ab_copied (fun _ => 0) 1 1 s7 0).
  go 1 (s_read nat ab_copied (fun _ => 0) 1 1 s8 1).
  go_w 0 (s_write nat ab_copied (fun _ => 0) 1 1 s9 0).
  go 1 (s_put nat ab_copied (fun _ => 0) 1 1 s10 1).
  go 1 (s_read nat ab_copied (fun _ => 0) 1 1 s11 1).
  go 0 (s_stop nat ab_copied (fun _ => 0) 1 1 s12 0).
  go 1 (s_put nat ab_copied (fun _ => 0) 1 1 s13 1).
  go 0 (s_p3 nat ab_copied (fun _ => 0) 1 1 s14 0).
  go 0 (s_p4 nat ab_copied (fun _ => 0) 1 1 s15 0).
  go_e 1 (s_eof nat ab_copied (fun _ => 0) 1 1 s16 1).
  go 1 (s_stop nat ab_copied (fun _ => 0) 1 1 s17 1).
  go 1 (s_p1 nat ab_copied (fun _ => 0) 1 1 s18 1).
  go 1 (s_p2 nat ab_copied (fun _ => 0) 1 1 s19 1).
  go 0 (s_c1 nat ab_copied (fun _ => 0) 1 1 s20 0).
  go 0 (s_c2 nat ab_copied (fun _ => 0) 1 1 s21 0).
  go 0 (s_c3 nat ab_copied (fun _ => 0) 1 1 s22 0).
  exists s23. split; [exact E|]. split; [|split].
  - intros [|[|k]] L; [reflexivity|reflexivity|lia].
  - reflexivity.
  - intros f F. do 3 (destruct f as [|f]; [lia|]). do 10 (destruct f as [|f]; [reflexivity|]). reflexivity.
Qed.
