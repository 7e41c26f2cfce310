(** CopyFail_Props.v -- C74 again: COPY and MOVE into a directory when some calls fail. *)

From Verif Require Import Base Lex StrLib_Model StrLib_Spec Path_Model Path_Spec Var_Model Expand_Model Args_Props Params_Spec Params_Proofs
  Attr_Model Find_Props Fs_Model Fs_Spec Fs_Proofs Copy_Model Copy_Spec Copy_Proofs Prompt_Proofs Copy_Props.

Section Fail.
Variables (fails : nat -> bool) (chunk : nat -> nat).

Lemma cmd_try s file dest fuel fl up base t : (c_move fl = false -> for_good fails) -> c_multiple fl = true -> c_cat fl = false -> path_of file up base ->
  get (s_fs s) (place_of file) = Some (File t) -> place_of file <> base :: place_of dest ->
  c_silent fl = true \/ get (s_fs s) (base :: place_of dest) = None -> 2 * length t + 2 <= fuel ->
  exists z s', pBat_CmdCopyFile fails chunk fuel s file dest fl = Ret (z, fl, s') /\ s_in s' = s_in s /\
    (z = 0%Z /\ done (c_move fl) (place_of file) (base :: place_of dest) t (s_fs s) (s_fs s') \/ z <> 0%Z /\ same_but [base :: place_of dest] (s_fs s) (s_fs s')).
Proof.
  intros P M C Pa G Ne A L. destruct (own_name _ _ _ Pa) as (disk & dir & name & ext & Sp & Ow). destruct Pa as (Fe & Lf & _ & _ & Nc & _).
  assert (Lb : length name + length ext < FILENAME_MAX).
  { rewrite <- app_length, Ow. rewrite Fe, app_length in Lf. cbn [length] in Lf. lia. }
  unfold pBat_CmdCopyFile. rewrite M, C, Sp. cbn [andb negb bind]. apply Nat.ltb_lt in Lb. rewrite Lb, Ow. cbn [bind]. clear Lb Lf Fe Sp Ow.
  set (real := pBat_MakePath dest base). assert (Pl : place_of real = base :: place_of dest) by (apply place_join; auto). rewrite <- Pl in *.
  assert (Q : pBat_FileExists (s_fs s) real && negb (c_silent fl) = false).
  { unfold pBat_FileExists. destruct A as [-> | ->]; [apply andb_false_r|reflexivity]. }
  rewrite Q. cbn [bind negb]. destruct (c_move fl) eqn:Mv.
  - destruct (move_cases fails s file real t G Ne) as (z & s' & E & In & _ & Z0 & Z1). rewrite E. exists z, s'. split; [auto|]. split; [auto|].
    destruct (Z.eq_dec z 0) as [X|X]; [left; auto|right]. split; [auto|]. apply Z1. auto.
  - rewrite C. destruct (file_ok fails chunk (P eq_refl) PBAT_UNABLE_COPY s file real false t ltac:(discriminate) G Ne fuel L) as (z & s' & E & Sm & In & Z0 & _).
    exists z, s'. unfold pBat_CopyFile. cbn [negb] in E. rewrite E. cbn [bind]. split; [auto|]. split; [auto|].
    destruct (Z.eq_dec z 0) as [X|X]; [left|right; auto]. split; [auto|]. split; [|split; [discriminate|auto]]. rewrite Z0 by auto.
    destruct (get (s_fs s) (place_of real)) as [[]|]; auto.
Qed.

Definition arrived (move : bool) (f : fsys) (t : trip) : Prop := holds_text f (t_to t) (t_text t) /\ (move = true -> get f (t_from t) = None).
Lemma all_try dest fl : (c_move fl = false -> for_good fails) -> c_multiple fl = true -> c_cat fl = false -> forall l ts s fuel status,
  trips (s_fs s) dest l ts -> NoDup (map t_to ts) -> (forall t u, In t ts -> In u ts -> t_from t <> t_to u) -> unasked (c_silent fl) (s_fs s) ts ->
  (forall t, In t ts -> 2 * length (t_text t) + 2 <= fuel) ->
  exists z s', copy_files fails chunk fuel s l dest fl status = Ret (z, s') /\ s_in s' = s_in s /\
    (z = 0%Z -> status = 0%Z /\ forall t, In t ts -> arrived (c_move fl) (s_fs s') t) /\
    (status = 0%Z -> z <> 0%Z -> c_move fl = true -> exists t, In t ts /\ holds_text (s_fs s') (t_from t) (t_text t)) /\
    (forall t, In t ts -> arrived (c_move fl) (s_fs s') t \/ holds_text (s_fs s') (t_from t) (t_text t)) /\
    same_but (map t_to ts ++ if c_move fl then map t_from ts else []) (s_fs s) (s_fs s').
Proof.
  intros P M C. induction l as [|file l IH]; intros ts s fuel status T F1 F2 U L.
  { inversion T; subst. exists status, s. split; [reflexivity|]. split; [auto|]. split; [intros ->; split; [auto|intros t []]|]. split; [congruence|]. split; [intros t []|apply same_refl]. }
  inversion T as [|? up base text ? ts1 Pa H T1]; subst. cbn [copy_files]. cbn [map t_to] in F1. inversion F1 as [|? ? F4 F5]; subst.
  set (t0 := mkT (place_of file) text (base :: place_of dest)) in *.
  assert (I0 : In t0 (t0 :: ts1)) by (left; auto).
  destruct (cmd_try s file dest fuel fl up base text) as (z & s1 & E & In1 & Cs); auto.
  { apply (F2 t0 t0); auto. }
  { destruct U as [U|U]; [auto|right; apply (U _ I0)]. }
  { apply (L t0); auto. }
  rewrite E. cbn [bind].
  assert (D3 : same_but (if c_move fl then [place_of file; base :: place_of dest] else [base :: place_of dest]) (s_fs s) (s_fs s1)).
  { destruct Cs as [(_ & _ & _ & X)|(_ & X)]; [exact X|]. intros p Hp. apply X. intros [<-|[]]. apply Hp. destruct (c_move fl); cbn [In]; auto. }
  assert (Fr : forall t, In t ts1 -> c_move fl = true -> t_from t <> place_of file).
  { intros t I _ X. destruct (trips_in _ _ _ _ T t (or_intror I)) as (_ & b & u & X1 & X2). destruct Pa as (-> & _ & _ & _ & N & _). rewrite place_app in X by auto.
    rewrite X in X1. injection X1 as X3 _. apply F4. rewrite X3, <- X2. apply in_map. auto. }
  assert (Kf : forall t, In t ts1 -> get (s_fs s1) (t_from t) = get (s_fs s) (t_from t)).
  { intros t I. apply D3. intros X. assert (Y : t_from t <> base :: place_of dest) by (apply (F2 t t0); auto; right; auto).
    destruct (c_move fl) eqn:Mv; cbn [In] in X; [destruct X as [X|[X|[]]]|destruct X as [X|[]]]; try congruence. apply (Fr t I eq_refl). auto. }
  assert (Kt : forall t, In t ts1 -> get (s_fs s1) (t_to t) = get (s_fs s) (t_to t)).
  { intros t I. apply D3. intros X. assert (Y : t_to t <> base :: place_of dest) by (intros Y; apply F4; rewrite <- Y; apply in_map; auto).
    assert (Z : place_of file <> t_to t) by (apply (F2 t0 t); auto; right; auto).
    destruct (c_move fl) eqn:Mv; cbn [In] in X; [destruct X as [X|[X|[]]]|destruct X as [X|[]]]; congruence. }
  destruct (IH ts1 s1 fuel (Z.lor status z)) as (z' & s' & E' & In' & R0 & R3 & R1 & R2); auto.
  { eapply trips_same; eauto. }
  { intros; apply F2; right; auto. }
  { destruct U as [U|U]; [left; auto|right]. intros t I. rewrite Kt by auto. apply U. right. auto. }
  { intros; apply L; right; auto. }
  exists z', s'. split; [exact E'|]. split; [congruence|].
  assert (O1 : ~ In (base :: place_of dest) (map t_to ts1 ++ (if c_move fl then map t_from ts1 else []))).
  { intros X. apply in_app_or in X. destruct X as [X|X]; [auto|]. destruct (c_move fl); [|destruct X]. apply in_map_iff in X. destruct X as (t & X & I).
    apply (F2 t t0); auto; right; auto. }
  assert (O2 : ~ In (place_of file) (map t_to ts1 ++ (if c_move fl then map t_from ts1 else []))).
  { intros X. apply in_app_or in X. destruct X as [X|X].
    - apply in_map_iff in X. destruct X as (t & X & I). apply (F2 t0 t); auto; right; auto.
    - destruct (c_move fl) eqn:Mv; [|destruct X]. apply in_map_iff in X. destruct X as (t & X & I). apply (Fr t I eq_refl). auto. }
  assert (A0 : z = 0%Z -> arrived (c_move fl) (s_fs s') t0).
  { intros Z0. destruct Cs as [(_ & D1 & D2 & _)|(X & _)]; [|congruence]. unfold arrived, holds_text. cbn [t0 t_to t_from t_text]. rewrite !R2 by auto. auto. }
  assert (A1 : z <> 0%Z -> holds_text (s_fs s') (t_from t0) (t_text t0)).
  { intros Z0. destruct Cs as [(X & _)|(_ & X)]; [congruence|]. red. cbn [t0 t_to t_from t_text]. rewrite R2 by auto. rewrite X; [exact H|]. intros [Y|[]]. apply (F2 t0 t0); auto. }
  split; [|split; [|split]].
  - intros Z0. destruct (R0 Z0) as [X Y]. apply Z.lor_eq_0_iff in X. destruct X as [X1 X2]. split; [auto|]. intros t [<-|I]; auto.
  - intros S0 Z0 Mv. destruct (Z.eq_dec z 0) as [X|X]; [|exists t0; auto]. subst. destruct (R3 eq_refl Z0 Mv) as (t & I & Y). exists t. split; [right; auto|auto].
  - intros t [<-|I]; [|auto]. destruct (Z.eq_dec z 0); auto.
  - intros p N. rewrite R2.
    + apply D3. intros X. apply N. apply in_or_app. destruct (c_move fl); cbn [In map] in *; [destruct X as [X|[X|[]]]|destruct X as [X|[]]]; subst p; auto.
    + intros X. apply N. apply in_app_or in X. apply in_or_app. destruct X as [X|X]; [left; right; auto|right]. destruct (c_move fl); [right; auto|auto].
Qed.
End Fail.

(** Whatever fails (for COPY, for good), every file is at its new place or still at its old one, with its text; if the
    error level is 0, all of them have arrived, and if it is not, MOVE has left one behind.  A
    file that fails does not keep the others from being tried. *)
Theorem C74_failures : forall fails chunk search recursive move w s line ps q from dest ts,
  (move = false -> for_good fails) ->
  written w line ps -> asked no_request ps q -> r_cat q = false -> r_rec q = false -> map (full w) (r_names q) = from ++ [dest] -> from <> [] ->
  (forall n, In n from -> search (s_fs s) n <> []) -> get (s_fs s) (place_of dest) = Some Dir ->
  trips (s_fs s) dest (chosen search (s_fs s) (r_attr q) from) ts -> NoDup (map t_to ts) -> (forall t u, In t ts -> In u ts -> t_from t <> t_to u) -> unasked (r_silent q) (s_fs s) ts ->
  exists n, forall fuel, n <= fuel -> exists z s', pBat_CmdCopy fails chunk search recursive fuel move w s line = Ret (z, w, s') /\ s_in s' = s_in s /\
    (z = 0%Z -> forall t, In t ts -> arrived move (s_fs s') t) /\
    (z <> 0%Z -> move = true -> exists t, In t ts /\ holds_text (s_fs s') (t_from t) (t_text t)) /\
    (forall t, In t ts -> arrived move (s_fs s') t \/ holds_text (s_fs s') (t_from t) (t_text t)) /\
    same_but (map t_to ts ++ if move then map t_from ts else []) (s_fs s) (s_fs s').
Proof.
  intros fails chunk search recursive move w s line ps q from dest ts P W A C R E F H D Tr N1 N2 U. exists (list_sum (map (fun t => 2 * length (t_text t) + 2) ts)). intros fuel L.
  rewrite (command_ok fails chunk search recursive fuel move w s line ps q from dest W A (fun _ => C) R E F H). cbv zeta. unfold pBat_DirExists. rewrite D, C. cbn [orb negb]. rewrite andb_false_r. cbn [andb].
  destruct (all_try fails chunk dest (mkC (r_silent q) true move false false) P eq_refl eq_refl (chosen search (s_fs s) (r_attr q) from) ts s fuel 0 Tr N1 N2 U) as (z & s' & X & In & Z0 & Z1 & Y & Sm).
  - intros t I. clear - L I. induction ts as [|u ts IH]; [destruct I|]. cbn [map list_sum fold_right] in L. change (fold_right Nat.add 0) with list_sum in L. destruct I as [->|I]; [lia|]. apply IH; auto. lia.
  - rewrite X. cbn [bind c_move] in *. exists z, s'. split; [auto|]. split; [auto|]. split; [intros; apply Z0; auto|]. split; [auto|]. auto.
Qed.
Print Assumptions C74_failures.

(** The first of two files cannot be moved: the second one is, and the error level is 47. *)
Example C74_failures_ex :
  ex_after (pBat_CmdCopy (fun n => n =? 0) (fun _ => 1) ex_glob no_rec 40 true ex_w (mkS tmp_fs 0 []) (s2l " /-y x* d"))
    ["/tmp/d/x1"; "/tmp/d/x2"; "/tmp/x1"; "/tmp/x2"]%string = Some (47%Z, [txt "old"; txt "two"; txt "one"; None]) /\
  written ex_w (s2l " /-y x* d") [s2l "/-y"; s2l "x*"; s2l "d"] /\
  asked no_request [s2l "/-y"; s2l "x*"; s2l "d"] (mkR true false false [] [s2l "x*"; s2l "d"]) /\
  map (full ex_w) [s2l "x*"; s2l "d"] = [s2l "/tmp/x*"] ++ [s2l "/tmp/d"] /\ for_good (fun n => 3 <=? n).
Proof.
  split; [vm_compute; reflexivity|]. split; [do 3 lw; constructor; constructor|]. split; [|split; [reflexivity|intros n H; apply Nat.leb_le in H; apply Nat.leb_le; lia]].
  eapply ca_silent; [split; [apply nonul_b; reflexivity|reflexivity]|]. eapply ca_name; [pn|]. eapply ca_name; [pn|]. constructor.
Qed.
