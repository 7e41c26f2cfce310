(** Copy_Proofs.v *)

From Verif Require Import Base Lex StrLib_Spec StrLib_Model Path_Model Path_Spec Path_Proofs Path_Props Prompt_Proofs Attr_Model Var_Model Expand_Model Params_Spec Params_Proofs Find_Proofs Fs_Model Fs_Spec Fs_Proofs Copy_Model Copy_Spec.

Lemma skipn_skipn' {A} n m (l : list A) : skipn n (skipn m l) = skipn (m + n) l.
Proof. revert l. induction m as [|m IH]; intros l; cbn [Nat.add]; [auto|]. destruct l; [rewrite !skipn_nil; auto|]. cbn [skipn]. apply IH. Qed.
Lemma firstn_more {A} n m (l : list A) : firstn n l ++ firstn m (skipn n l) = firstn (n + m) l.
Proof. revert l. induction n as [|n IH]; intros l; cbn [Nat.add]; [auto|]. destruct l; [rewrite skipn_nil, !firstn_nil; auto|]. cbn [skipn firstn app]. f_equal. apply IH. Qed.

Section CopyProofs.
Variables (fails : nat -> bool) (chunk : nat -> nat).
Hypothesis P : for_good fails.
Notation write_loop := (write_loop fails chunk). Notation copy_loop := (copy_loop fails chunk).

Lemma write_step s q append pos t data : get (s_fs s) q = Some (File t) -> fails (s_tick s) = false -> append = true \/ pos = length t ->
  sys_write fails chunk s q append pos data =
    (Some (length (firstn (S (chunk (s_tick s))) data)), with_fs s (put (s_fs s) q (File (t ++ firstn (S (chunk (s_tick s))) data)))).
Proof.
  intros G F A. unfold sys_write. rewrite G, F.
  assert (E : (if append then length t else pos) = length t) by (destruct append; [auto|destruct A; congruence]). rewrite E.
  rewrite firstn_all, (skipn_all2 t) by lia. rewrite app_nil_r. reflexivity.
Qed.
Lemma write_fail fuel : forall s q append pos t w buf, get (s_fs s) q = Some (File t) -> fails (s_tick s) = true -> w < fuel ->
  exists s', write_loop fuel s q append pos w buf = Ret (None, s') /\ s_fs s' = s_fs s /\ s_in s' = s_in s.
Proof.
  induction fuel as [|fuel IH]; intros s q append pos t w buf G F L; [lia|]. cbn [Copy_Model.write_loop]. unfold sys_write. rewrite G, F.
  destruct w as [|w]; [eexists; split; [reflexivity|split; reflexivity]|].
  destruct (IH (with_fs s (s_fs s)) q append pos t w buf) as (s' & E & E1 & E2); [exact G|apply P; exact F|lia|]. exists s'. rewrite E. split; auto.
Qed.
Lemma write_ok : forall fuel s q append pos t w buf, get (s_fs s) q = Some (File t) -> append = true \/ pos = length t ->
  w < length buf -> 2 * length buf < fuel + w ->
  exists r s', write_loop fuel s q append pos w buf = Ret (r, s') /\ same_but [q] (s_fs s) (s_fs s') /\ s_in s' = s_in s /\
    match r with
    | Some pos' => get (s_fs s') q = Some (File (t ++ skipn w buf)) /\ (append = true \/ pos' = length (t ++ skipn w buf))
    | None => (exists k, fails k = true) /\ exists d e, skipn w buf = d ++ e /\ get (s_fs s') q = Some (File (t ++ d))
    end.
Proof.
  induction fuel as [|fuel IH]; intros s q append pos t w buf G A L B; [lia|].
  destruct (fails (s_tick s)) eqn:F.
  - destruct (write_fail (S fuel) s q append pos t w buf G F) as (s' & E & E1 & E2); [lia|]. exists None, s'. split; auto. rewrite E1. split; [apply same_refl|]. split; auto.
    split; [eauto|]. exists [], (skipn w buf). rewrite app_nil_r. auto.
  - cbn [Copy_Model.write_loop]. rewrite (write_step _ _ _ _ t) by auto. set (n := S (chunk (s_tick s))).
    assert (Ln : length (firstn n (skipn w buf)) = Nat.min n (length buf - w)) by (rewrite firstn_length, skipn_length; lia). rewrite Ln.
    destruct (Nat.eqb_spec (w + Nat.min n (length buf - w)) (length buf)) as [Q|Q].
    + assert (Al : firstn n (skipn w buf) = skipn w buf) by (apply firstn_all2; rewrite skipn_length; lia).
      eexists _, _. split; [reflexivity|]. cbn [with_fs s_fs s_in]. split; [apply same_put|]. split; [reflexivity|]. rewrite Al. split; [apply get_put_same|].
      destruct A as [A|A]; [left; auto|right; rewrite app_length, skipn_length; lia].
    + assert (Mn : Nat.min n (length buf - w) = n) by lia. rewrite Mn in *.
      destruct (IH (with_fs s (put (s_fs s) q (File (t ++ firstn n (skipn w buf))))) q append (pos + n) (t ++ firstn n (skipn w buf)) (w + n) buf) as (r & s' & E & Sm & In' & R).
      * cbn [with_fs s_fs]. apply get_put_same.
      * destruct A as [A|A]; [left; auto|right; rewrite app_length, Ln; lia].
      * lia.
      * unfold n in *. lia.
      * exists r, s'. split; [exact E|]. cbn [with_fs s_fs s_in] in Sm, In'. split; [eapply same_trans; [apply same_put|exact Sm]|]. split; [exact In'|].
        assert (X : firstn n (skipn w buf) ++ skipn (w + n) buf = skipn w buf) by (rewrite <- (skipn_skipn' n w buf); apply firstn_skipn).
        rewrite <- app_assoc in R. rewrite X in R. destruct r as [pos'|]; [exact R|]. destruct R as (K & d & e & Y & R). split; [exact K|].
        exists (firstn n (skipn w buf) ++ d), e. rewrite <- app_assoc, <- Y, X. split; auto. rewrite app_assoc. auto.
Qed.
Lemma copy_ok err : err <> 0%Z -> forall fuel s old new append rpos wpos text base,
  get (s_fs s) old = Some (File text) -> old <> new -> get (s_fs s) new = Some (File (base ++ firstn rpos text)) ->
  rpos <= length text -> append = true \/ wpos = length base + rpos -> 2 * length text + 2 <= fuel + rpos ->
  exists z s', copy_loop fuel s old new append rpos wpos err = Ret (z, s') /\ same_but [new] (s_fs s) (s_fs s') /\ s_in s' = s_in s /\
    (z = 0%Z -> get (s_fs s') new = Some (File (base ++ text))) /\
    (z <> 0%Z -> z = err /\ (exists k, fails k = true) /\ exists a b, text = a ++ b /\ get (s_fs s') new = Some (File (base ++ a))).
Proof.
  intros Er. induction fuel as [|fuel IH]; intros s old new append rpos wpos text base Go Ne Gn R A B; [lia|].
  cbn [Copy_Model.copy_loop]. unfold sys_read. rewrite Go.
  assert (Sp : text = firstn rpos text ++ skipn rpos text) by (symmetry; apply firstn_skipn).
  destruct (fails (s_tick s)) eqn:F.
  { eexists _, _. split; [reflexivity|]. cbn [with_fs s_fs s_in]. split; [apply same_refl|]. split; [reflexivity|]. split; [intros; congruence|].
    intros _. split; [reflexivity|]. split; [eauto|]. eexists _, _. split; [exact Sp|exact Gn]. }
  set (n := Nat.min 2048 (S (chunk (s_tick s)))). assert (Pn : 0 < n) by (unfold n; lia). destruct (firstn n (skipn rpos text)) as [|c buf'] eqn:Bf.
  { assert (X : skipn rpos text = []) by (destruct (skipn rpos text) eqn:X; auto; destruct n; [lia|discriminate]).
    eexists _, _. split; [reflexivity|]. cbn [with_fs s_fs s_in]. split; [apply same_refl|]. split; [reflexivity|]. split; [|intros H; congruence].
    intros _. rewrite Gn. rewrite X, app_nil_r in Sp. rewrite <- Sp. reflexivity. }
  set (buf := c :: buf') in *. assert (Lb : length buf <= length text - rpos) by (rewrite <- Bf, firstn_length, skipn_length; lia).
  assert (Lp : 0 < length buf) by (cbn; lia).
  destruct (write_ok (S fuel) (with_fs s (s_fs s)) new append wpos (base ++ firstn rpos text) 0 buf) as (r & s1 & E & Sm & In1 & Rr).
  - exact Gn.
  - destruct A as [A|A]; [left; auto|right; rewrite app_length, firstn_length; lia].
  - exact Lp.
  - lia.
  - fold buf. rewrite E. cbn [bind]. cbn [with_fs s_fs s_in] in Sm, In1.
    assert (Go1 : get (s_fs s1) old = Some (File text)) by (rewrite Sm; [exact Go|intros [X|[]]; auto]).
    assert (Fb : firstn rpos text ++ buf = firstn (rpos + length buf) text).
    { rewrite <- Bf. rewrite firstn_length. rewrite <- (firstn_firstn (skipn rpos text) n) at 1 || idtac. rewrite <- firstn_more. f_equal.
      destruct (Nat.min_spec n (length (skipn rpos text))) as [[_ ->]|[H ->]]; auto. rewrite firstn_all. apply firstn_all2. auto. }
    cbn [skipn] in Rr. destruct r as [pos'|].
    + destruct Rr as [G1 A1].
      destruct (IH s1 old new append (rpos + length buf) pos' text base) as (z & s' & E' & Sm' & In' & R0 & R1).
      * exact Go1.
      * exact Ne.
      * rewrite <- Fb, app_assoc. exact G1.
      * lia.
      * destruct A1 as [A1|A1]; [left; auto|right]. rewrite A1, !app_length, firstn_length. lia.
      * lia.
      * exists z, s'. split; [exact E'|]. split; [eapply same_trans; eauto|]. split; [congruence|]. split; auto.
    + destruct Rr as (K & d & e & Y & G1). eexists _, _. split; [reflexivity|]. split; [exact Sm|]. split; [exact In1|]. split; [intros; congruence|].
      intros _. split; [reflexivity|]. split; [exact K|]. exists (firstn rpos text ++ d), (e ++ skipn (rpos + length buf) text). split; [|rewrite app_assoc; exact G1].
      rewrite Sp at 1. rewrite <- !app_assoc. f_equal. rewrite (app_assoc d), <- Y. rewrite <- (firstn_skipn n (skipn rpos text)) at 1. rewrite Bf. f_equal.
      rewrite skipn_skipn'. destruct (Nat.le_gt_cases n (length (skipn rpos text))) as [H|H].
      * assert (length buf = n) as -> by (rewrite <- Bf; rewrite firstn_length; lia). auto.
      * assert (length buf = length (skipn rpos text)) by (rewrite <- Bf, firstn_length; lia). rewrite skipn_length in *. rewrite !skipn_all2 by lia. auto.
Qed.
(** Opening the destination *)
Lemma create_ok s p trunc q s' : sys_create fails s p trunc = (Some q, s') -> q = place_of p /\ same_but [q] (s_fs s) (s_fs s') /\ s_in s' = s_in s /\
  get (s_fs s') q = Some (File (match get (s_fs s) q with Some (File t) => if trunc then [] else t | _ => [] end)).
Proof.
  unfold sys_create. destruct (fails (s_tick s)); [discriminate|]. destruct (get (s_fs s) (place_of p)) as [[t|]|] eqn:G; [|discriminate|].
  - intros [= <- <-]. rewrite G. destruct trunc; cbn [with_fs s_fs s_in]; (split; [auto|]); (split; [apply same_put || apply same_refl|]); (split; [auto|]); [apply get_put_same|exact G].
  - destruct (room (s_fs s) (place_of p)); [|discriminate]. intros [= <- <-]. rewrite G. cbn [with_fs s_fs s_in]. split; [auto|]. split; [apply same_put|]. split; [auto|]. apply get_put_same.
Qed.
Lemma create_none s p trunc s' : sys_create fails s p trunc = (None, s') -> s_fs s' = s_fs s /\ s_in s' = s_in s.
Proof.
  unfold sys_create. destruct (fails (s_tick s)); [intros [= <-]; auto|]. destruct (get (s_fs s) (place_of p)) as [[t|]|]; [discriminate|intros [= <-]; auto|].
  destruct (room (s_fs s) (place_of p)); [discriminate|intros [= <-]; auto].
Qed.
Lemma create_never s p trunc : never fails -> writable (s_fs s) (place_of p) -> exists s', sys_create fails s p trunc = (Some (place_of p), s').
Proof.
  intros N W. unfold sys_create. rewrite N. destruct W as [[t ->]|[-> R]]; [eauto|]. apply room_iff in R. rewrite R. eauto.
Qed.
(** One file, copied ([app = false]) or appended *)
Lemma file_ok err s file dest (app_ : bool) text : err <> 0%Z ->
  get (s_fs s) (place_of file) = Some (File text) -> place_of file <> place_of dest ->
  let old := match get (s_fs s) (place_of dest) with Some (File t) => if app_ then t else [] | _ => [] end in
  forall fuel, 2 * length text + 2 <= fuel ->
  exists z s',
    match sys_open fails s file with
    | (None, s) => Ret ((-1)%Z, s)
    | (Some q, s) =>
        match sys_create fails s dest (negb app_) with
        | (None, s) => Ret (err, s)
        | (Some new, s) => copy_loop fuel s q new app_ 0 0 err
        end
    end = Ret (z, s') /\ same_but [place_of dest] (s_fs s) (s_fs s') /\ s_in s' = s_in s /\
    (z = 0%Z -> get (s_fs s') (place_of dest) = Some (File (old ++ text))) /\
    (z <> 0%Z -> get (s_fs s') (place_of dest) = get (s_fs s) (place_of dest) \/ exists a b, text = a ++ b /\ get (s_fs s') (place_of dest) = Some (File (old ++ a))) /\
    (never fails -> writable (s_fs s) (place_of dest) -> z = 0%Z) /\ (z <> 0%Z -> z = (-1)%Z \/ z = err).
Proof.
  intros Er G N old fuel B. unfold sys_open. rewrite G. destruct (fails (s_tick s)) eqn:F.
  { eexists _, _. split; [reflexivity|]. cbn [with_fs s_fs s_in]. split; [apply same_refl|]. split; [auto|]. split; [discriminate|]. split; [auto|]. split; [|auto].
    intros Nv. rewrite Nv in F. discriminate. }
  destruct (sys_create fails (with_fs s (s_fs s)) dest (negb app_)) as [[new|] s1] eqn:C.
  - apply create_ok in C. destruct C as (-> & Sm & In1 & G1). cbn [with_fs s_fs s_in] in *.
    assert (Old : match get (s_fs s) (place_of dest) with Some (File t) => if negb app_ then [] else t | _ => [] end = old) by (unfold old; destruct (get (s_fs s) (place_of dest)) as [[t|]|], app_; auto).
    assert (G2 : get (s_fs s1) (place_of dest) = Some (File old)) by (rewrite G1; f_equal; f_equal; exact Old). clear G1. rename G2 into G1.
    destruct (copy_ok err Er fuel s1 (place_of file) (place_of dest) app_ 0 0 text old) as (z & s' & E & Sm' & In' & R0 & R1).
    + rewrite Sm; [exact G|intros [X|[]]; auto].
    + exact N.
    + cbn [firstn]. rewrite app_nil_r. exact G1.
    + lia.
    + destruct app_; [left; auto|right]. cbn [negb] in Old. unfold old. destruct (get (s_fs s) (place_of dest)) as [[t|]|]; auto.
    + lia.
    + exists z, s'. split; [exact E|]. split; [eapply same_trans; eauto|]. split; [congruence|]. split; [exact R0|]. split; [intros Z0; right; destruct (R1 Z0) as (_ & _ & R); exact R|].
      split; [|intros Z0; right; apply R1; auto]. intros Nv _. destruct (Z.eq_dec z 0); auto. destruct (R1 n) as (_ & [k K] & _). rewrite Nv in K. discriminate.
  - pose proof C as C'. apply create_none in C. cbn [with_fs s_fs s_in] in C. destruct C as [E1 E2]. eexists _, _. split; [reflexivity|]. rewrite E1. split; [apply same_refl|]. split; [auto|].
    split; [congruence|]. split; [auto|]. split; [|auto]. intros Nv W. destruct (create_never (with_fs s (s_fs s)) dest (negb app_) Nv W) as [s2 X]. congruence.
Qed.
End CopyProofs.

(** MORE1: answers *)
Lemma nonul_filter f l : nonul l -> nonul (filter f l).
Proof. intros N H. apply N. apply filter_In in H. tauto. Qed.
Lemma nonul_firstn n l : nonul l -> nonul (firstn n l).
Proof. intros N H. apply N. rewrite <- (firstn_skipn n l). apply in_or_app. auto. Qed.
Lemma read_says l w : nonul l -> nonul w -> length w < 29 -> (stricmp (ask_read l) w =? 0)%Z = true <-> says l w.
Proof.
  intros N W L. unfold ask_read, says. set (t := filter _ l). rewrite stricmp_name by (auto; apply nonul_firstn, nonul_filter; auto).
  unfold same_name. split; intros H.
  - assert (X : length (firstn 29 t) = length w) by (pose proof (f_equal (@length ascii) H) as Y; rewrite !map_length in Y; exact Y).
    rewrite firstn_length in X. rewrite firstn_all2 in H by lia. auto.
  - assert (X : length t = length w) by (pose proof (f_equal (@length ascii) H) as Y; rewrite !map_length in Y; exact Y). rewrite firstn_all2 by lia. auto.
Qed.
Lemma read_empty l : ask_read l = [] <-> says l [].
Proof.
  unfold ask_read, says, same_name. set (t := filter _ l). destruct t; cbn; split; intros; congruence.
Qed.
Lemma says_unique l v w : says l v -> says l w -> map tolower v = map tolower w.
Proof. unfold says, same_name. congruence. Qed.
Lemma ask_ok all default l input : nonul l ->
  (forall a, answers all default l a -> pBat_AskConfirmation all default (l :: input) = Ret (a, input)) /\
  ((forall a, ~ answers all default l a) -> pBat_AskConfirmation all default (l :: input) = Undef).
Proof.
  intros N. assert (B : forall w v, says l (s2l w) -> map tolower (s2l w) <> map tolower (s2l v) -> nonul (s2l v) -> length (s2l v) < 29 -> (stricmp (ask_read l) (s2l v) =? 0)%Z = false).
  { intros w v S D Nv Lv. apply not_true_iff_false. rewrite read_says by auto. intros X. apply D. eapply says_unique; eauto. }
  assert (T : forall w, says l (s2l w) -> nonul (s2l w) -> length (s2l w) < 29 -> (stricmp (ask_read l) (s2l w) =? 0)%Z = true) by (intros; apply read_says; auto).
  assert (NS : forall v, ~ says l (s2l v) -> nonul (s2l v) -> length (s2l v) < 29 -> (stricmp (ask_read l) (s2l v) =? 0)%Z = false).
  { intros v S Nv Lv. apply not_true_iff_false. rewrite read_says by auto. auto. }
  assert (UP : forall u v, says l (s2l u) -> map tolower (s2l u) = map tolower (s2l v) -> says l (s2l v)) by (unfold says, same_name; congruence).
  unfold pBat_AskConfirmation.
  Ltac nn := try (apply nonul_b; reflexivity); try (cbn; lia); try discriminate.
  split.
  - intros a [[S|S]|[S|S]|Al [S|S]|D S]; try subst all.
    + rewrite (T "YES"%string) by (nn; eapply UP; eauto; reflexivity). reflexivity.
    + rewrite (T "Y"%string) by (nn; eapply UP; eauto; reflexivity). rewrite orb_true_r. reflexivity.
    + rewrite (B "no"%string "YES"%string), (B "no"%string "Y"%string) by (nn; auto). rewrite (T "NO"%string) by (nn; eapply UP; eauto; reflexivity). reflexivity.
    + rewrite (B "n"%string "YES"%string), (B "n"%string "Y"%string) by (nn; auto). rewrite (T "N"%string) by (nn; eapply UP; eauto; reflexivity). rewrite orb_true_r. reflexivity.
    + rewrite (B "all"%string "YES"%string), (B "all"%string "Y"%string), (B "all"%string "NO"%string), (B "all"%string "N"%string) by (nn; auto).
      rewrite (T "ALL"%string) by (nn; eapply UP; eauto; reflexivity). reflexivity.
    + rewrite (B "a"%string "YES"%string), (B "a"%string "Y"%string), (B "a"%string "NO"%string), (B "a"%string "N"%string) by (nn; auto).
      rewrite (T "A"%string) by (nn; eapply UP; eauto; reflexivity). rewrite orb_true_r. reflexivity.
    + pose proof (proj2 (read_empty l) S) as E. rewrite E. cbn [s2l]. destruct all; vm_compute (stricmp _ _ =? 0)%Z; cbn [orb andb negb]; rewrite (proj2 (Z.eqb_neq default 0) D); reflexivity.
  - intros H.
    assert (H1 : ~ says l (s2l "YES")) by (intros X; eapply H; apply an_yes; left; eapply UP; eauto; reflexivity).
    assert (H2 : ~ says l (s2l "Y")) by (intros X; eapply H; apply an_yes; right; eapply UP; eauto; reflexivity).
    assert (H3 : ~ says l (s2l "NO")) by (intros X; eapply H; apply an_no; left; eapply UP; eauto; reflexivity).
    assert (H4 : ~ says l (s2l "N")) by (intros X; eapply H; apply an_no; right; eapply UP; eauto; reflexivity).
    rewrite (NS "YES"%string), (NS "Y"%string), (NS "NO"%string), (NS "N"%string) by (nn; auto).
    cbn [orb]. destruct all; cbn [andb].
    + assert (H5 : ~ says l (s2l "ALL")) by (intros X; eapply H; apply an_all; [auto|left; eapply UP; eauto; reflexivity]).
      assert (H6 : ~ says l (s2l "A")) by (intros X; eapply H; apply an_all; [auto|right; eapply UP; eauto; reflexivity]).
      rewrite (NS "ALL"%string), (NS "A"%string) by (nn; auto).
      cbn [orb]. destruct (Z.eqb_spec default 0) as [->|D]; [reflexivity|]. cbn [negb andb].
      destruct (ask_read l) eqn:E; [exfalso; eapply H; apply an_empty; [auto|apply read_empty; auto]|reflexivity].
    + destruct (Z.eqb_spec default 0) as [->|D]; [reflexivity|]. cbn [negb andb].
      destruct (ask_read l) eqn:E; [exfalso; eapply H; apply an_empty; [auto|apply read_empty; auto]|reflexivity].
Qed.

(** The own name of a file *)
Lemma no_caret_prot s : ~ In "^"%char s -> forall i, i < length s -> nth_error (protected_from false s) i = Some false.
Proof.
  induction s as [|c s IH]; intros H i L; cbn [length] in L; [lia|]. cbn [protected_from negb andb].
  assert (E : Ascii.eqb c "^"%char = false) by (apply Ascii.eqb_neq; intros ->; apply H; left; auto). rewrite E.
  destruct i; [reflexivity|]. cbn [nth_error]. apply IH; [intros X; apply H; right; auto|lia].
Qed.
Lemma no_caret_live p s i c : ~ In "^"%char s -> nth_error s i = Some c -> p c = true -> live p s i.
Proof. intros H E P. split; [|eauto]. apply no_caret_prot; auto. apply nth_error_Some. congruence. Qed.
Lemma app_same_length {A} (a b c d : list A) : a ++ b = c ++ d -> length c = length a -> b = d.
Proof. revert c. induction a as [|x a IH]; intros [|y c] E L; try discriminate; [auto|]. injection E as _ E. eapply IH; eauto. Qed.
Lemma own_name file up base : path_of file up base -> exists disk dir name ext, pBat_SplitPath file = Ret (disk, dir, name, ext) /\ name ++ ext = base.
Proof.
  intros (E & L & D & C & N & B). destruct (C34_split file D L) as (dir & name & ext & S & (P1 & P2 & P3 & _)).
  exists [], dir, name, ext. split; auto. set (t := name ++ ext) in *.
  assert (Ct : ~ In "^"%char t) by (intros X; apply C; rewrite P1; apply in_or_app; auto).
  assert (Nt : forall c, In c t -> seps c = false).
  { intros c I. apply not_true_iff_false. intros X. apply In_nth_error in I. destruct I as [i I]. apply (P3 i). eapply no_caret_live; eauto. }
  assert (Nb : forall c, In c base -> seps c = false).
  { intros c I. unfold seps. apply orb_false_iff. split; apply not_true_iff_false; intros X; apply ceq_true in X; subst c; [apply N; auto|auto]. }
  destruct P2 as [->|(i & Li & Ld)].
  - exfalso. cbn [app] in P1. assert (X : seps "/"%char = false) by (apply Nt; rewrite <- P1, E; apply in_or_app; right; left; auto). discriminate.
  - destruct Li as (_ & c & Hc & Sc). rewrite E in P1.
    assert (X : length dir = length (up ++ ["/"%char])).
    { rewrite app_length. cbn [length]. destruct (Nat.lt_trichotomy (length dir) (length up + 1)) as [H|[H|H]]; auto; exfalso.
      - assert (Y : In "/"%char t).
        { assert (Z : nth_error (dir ++ t) (length up) = Some "/"%char) by (rewrite <- P1, nth_error_app2, Nat.sub_diag by lia; auto).
          rewrite nth_error_app2 in Z by lia. eapply nth_error_In; eauto. }
        apply Nt in Y. discriminate.
      - rewrite E in Hc. rewrite nth_error_app2 in Hc by lia. destruct (i - length up) as [|k] eqn:K; [lia|]. cbn [nth_error] in Hc.
        apply nth_error_In in Hc. apply Nb in Hc. congruence. }
    change ("/"%char :: base) with (["/"%char] ++ base) in P1. rewrite app_assoc in P1.
    symmetry. eapply app_same_length; eauto.
Qed.

(** MORE2: one file *)
Section One.
Variables (fails : nat -> bool) (chunk : nat -> nat).
Hypothesis Nv : never fails.
Lemma never_good : for_good fails. Proof. intros n H. rewrite Nv in H. discriminate. Qed.

Lemma moved_ok f a b t : a <> b -> done true a b t f (put (del f a) b (File t)).
Proof.
  intros N. split; [apply get_put_same|]. split; [intros _; rewrite get_put_other, get_del_same by auto; auto|].
  intros p H. rewrite get_put_other, get_del_other; auto; intros ->; apply H; cbn; auto.
Qed.
Lemma moved_ok2 f a b t : a <> b -> done true a b t f (put (del (del f b) a) b (File t)).
Proof.
  intros N. split; [apply get_put_same|]. split; [intros _; rewrite get_put_other, get_del_same by auto; auto|].
  intros p H. rewrite get_put_other, !get_del_other; auto; intros ->; apply H; cbn; auto.
Qed.
Lemma room_del f b : room f b = true -> room (del f b) b = true.
Proof.
  intros R. apply room_iff in R. destruct R as (n & up & -> & G). cbn [room]. rewrite get_del_other, G; auto. intros H. apply (f_equal (@length _)) in H. cbn in H. lia.
Qed.
Lemma move_one s file dest t : get (s_fs s) (place_of file) = Some (File t) -> place_of file <> place_of dest -> room (s_fs s) (place_of dest) = true ->
  below (place_of file) (place_of dest) = None -> get (s_fs s) (place_of dest) <> Some Dir ->
  exists s', pBat_MoveFile fails s file dest = (0%Z, s') /\ s_in s' = s_in s /\ done true (place_of file) (place_of dest) t (s_fs s) (s_fs s').
Proof.
  intros G N R B D. unfold pBat_MoveFile, pBat_FileExists. destruct (get (s_fs s) (place_of dest)) as [[u|]|] eqn:E; [|congruence|].
  - unfold sys_remove. rewrite E, Nv. rewrite (rename_file fails _ file dest t); cbn [with_fs s_fs s_tick s_in]; auto.
    + eexists. split; [reflexivity|]. split; [reflexivity|]. apply moved_ok2. auto.
    + rewrite get_del_other; auto.
    + apply room_del. auto.
    + rewrite get_del_same. discriminate.
  - rewrite (rename_file fails s file dest t); auto; [|congruence]. eexists. split; [reflexivity|]. split; [reflexivity|]. apply moved_ok. auto.
Qed.
Lemma copy_one s file dest t fuel : get (s_fs s) (place_of file) = Some (File t) -> place_of file <> place_of dest -> writable (s_fs s) (place_of dest) ->
  2 * length t + 2 <= fuel ->
  exists s', pBat_CopyFile fails chunk fuel s file dest = Ret (0%Z, s') /\ s_in s' = s_in s /\ done false (place_of file) (place_of dest) t (s_fs s) (s_fs s').
Proof.
  intros G N W L. destruct (file_ok fails chunk never_good PBAT_UNABLE_COPY s file dest false t ltac:(discriminate) G N fuel L) as (z & s' & E & Sm & In & Z0 & _ & Zn & _).
  specialize (Zn Nv W). subst z. exists s'. unfold pBat_CopyFile. cbn [negb] in E. rewrite E. split; auto. split; auto. split; [|split; [discriminate|auto]].
  rewrite Z0 by auto. destruct (get (s_fs s) (place_of dest)) as [[]|]; auto.
Qed.
Lemma cat_one s file dest t fuel second old : get (s_fs s) (place_of file) = Some (File t) -> place_of file <> place_of dest -> writable (s_fs s) (place_of dest) ->
  2 * length t + 2 <= fuel -> (second = true -> get (s_fs s) (place_of dest) = Some (File old)) -> (second = false -> old = []) ->
  exists s', pBat_CatFile fails chunk fuel s file dest second = Ret (0%Z, true, s') /\ s_in s' = s_in s /\
    get (s_fs s') (place_of dest) = Some (File (old ++ t)) /\ same_but [place_of dest] (s_fs s) (s_fs s').
Proof.
  intros G N W L O1 O2. destruct (file_ok fails chunk never_good PBAT_UNABLE_CAT s file dest second t ltac:(discriminate) G N fuel L) as (z & s' & E & Sm & In & Z0 & _ & Zn & _).
  specialize (Zn Nv W). subst z. exists s'. unfold pBat_CatFile.
  destruct (sys_open fails s file) as [[a|] s1] eqn:Op; [|exfalso; injection E; discriminate].
  destruct (sys_create fails s1 dest (negb second)) as [[b|] s2] eqn:Cr; [|exfalso; injection E; discriminate].
  rewrite E. cbn [bind]. split; auto. split; auto. split; auto. rewrite Z0 by auto.
  destruct second; [rewrite O1 by auto; auto|]. rewrite O2 by auto. destruct (get (s_fs s) (place_of dest)) as [[]|]; auto.
Qed.

(** The files of a list, into a directory *)
Lemma cmd_one s file dest fuel fl up base t : c_multiple fl = true -> c_cat fl = false -> path_of file up base ->
  get (s_fs s) (place_of file) = Some (File t) -> get (s_fs s) (place_of dest) = Some Dir -> get (s_fs s) (base :: place_of dest) <> Some Dir ->
  place_of file <> base :: place_of dest -> (c_move fl = true -> below (place_of file) (base :: place_of dest) = None) ->
  c_silent fl = true \/ get (s_fs s) (base :: place_of dest) = None -> 2 * length t + 2 <= fuel ->
  exists s', pBat_CmdCopyFile fails chunk fuel s file dest fl = Ret (0%Z, fl, s') /\ s_in s' = s_in s /\ done (c_move fl) (place_of file) (base :: place_of dest) t (s_fs s) (s_fs s').
Proof.
  intros M C P G D Nd Ne B A L. destruct (own_name _ _ _ P) as (disk & dir & name & ext & Sp & Ow). destruct P as (Fe & Lf & _ & _ & Nc & _).
  assert (Lb : length name + length ext < FILENAME_MAX).
  { rewrite <- app_length, Ow. rewrite Fe, app_length in Lf. cbn [length] in Lf. lia. }
  unfold pBat_CmdCopyFile. rewrite M, C, Sp. cbn [andb negb bind]. apply Nat.ltb_lt in Lb. rewrite Lb, Ow. cbn [bind]. clear Lb Lf Fe Sp Ow.
  set (real := pBat_MakePath dest base). assert (Pl : place_of real = base :: place_of dest) by (apply place_join; auto). rewrite <- Pl in *.
  assert (Q : pBat_FileExists (s_fs s) real && negb (c_silent fl) = false).
  { unfold pBat_FileExists. destruct A as [-> | ->]; [apply andb_false_r|reflexivity]. }
  rewrite Q. cbn [bind negb]. destruct (c_move fl) eqn:Mv.
  - destruct (move_one s file real t) as (s' & E & In & H); auto.
    + rewrite Pl. cbn [room]. rewrite D. auto.
    + rewrite E. exists s'. auto.
  - destruct (copy_one s file real t fuel) as (s' & E & In & H); auto.
    + destruct (get (s_fs s) (place_of real)) as [[u|]|] eqn:X; [left; eauto|congruence|right; split; auto; rewrite Pl; eauto].
    + rewrite C, E. cbn [bind]. exists s'. auto.
Qed.
Lemma trips_in f dest l ts : trips f dest l ts -> forall t, In t ts -> get f (t_from t) = Some (File (t_text t)) /\ exists b up, t_from t = b :: up /\ t_to t = b :: place_of dest.
Proof.
  induction 1 as [|file up base text l ts P H T IH]; intros t I; [destruct I|]. destruct I as [<-|I]; [|auto]. cbn [t_from t_to t_text].
  split; [exact H|]. destruct P as (-> & _ & _ & _ & N & _). exists base, (place_of up). rewrite place_app; auto.
Qed.
Lemma trips_same f f' dest l ts : trips f dest l ts -> (forall t, In t ts -> get f' (t_from t) = get f (t_from t)) -> trips f' dest l ts.
Proof.
  induction 1 as [|file up base text l ts P H T IH]; intros S; [constructor|]. econstructor; eauto.
  - pose proof (S _ (or_introl eq_refl)) as X. cbn [t_from] in X. red. rewrite X. exact H.
  - apply IH. intros; apply S; right; auto.
Qed.
Lemma all_files dest fl : c_multiple fl = true -> c_cat fl = false -> forall l ts s fuel,
  trips (s_fs s) dest l ts -> free_way (s_fs s) ts -> unasked (c_silent fl) (s_fs s) ts ->
  get (s_fs s) (place_of dest) = Some Dir -> (forall t, In t ts -> c_move fl = true -> below (t_from t) (t_to t) = None) ->
  (forall t, In t ts -> 2 * length (t_text t) + 2 <= fuel) ->
  exists s', copy_files fails chunk fuel s l dest fl 0 = Ret (0%Z, s') /\ s_in s' = s_in s /\
    (forall t, In t ts -> get (s_fs s') (t_to t) = Some (File (t_text t)) /\ (c_move fl = true -> get (s_fs s') (t_from t) = None)) /\
    same_but (map t_to ts ++ if c_move fl then map t_from ts else []) (s_fs s) (s_fs s').
Proof.
  intros M C. induction l as [|file l IH]; intros ts s fuel T F U D B L.
  { inversion T; subst. exists s. split; [reflexivity|]. split; [auto|]. split; [intros t []|apply same_refl]. }
  inversion T as [|? up base text ? ts1 P H T1]; subst. cbn [copy_files]. destruct F as (F1 & F2 & F3). cbn [map t_to] in F1. inversion F1 as [|? ? F4 F5]; subst.
  set (t0 := mkT (place_of file) text (base :: place_of dest)) in *.
  assert (I0 : In t0 (t0 :: ts1)) by (left; auto).
  assert (W0 : get (s_fs s) (base :: place_of dest) <> Some Dir) by (destruct (F3 _ I0) as [[u X]|[X _]]; cbn [t_to t0] in X; rewrite X; discriminate).
  destruct (cmd_one s file dest fuel fl up base text) as (s1 & E & In1 & (D1 & D2 & D3)); auto.
  { apply (F2 t0 t0); auto. }
  { apply (B t0); auto. }
  { destruct U as [U|U]; [auto|right; apply (U _ I0)]. }
  { apply (L t0); auto. }
  rewrite E. cbn [bind Z.lor].
  assert (Fr : forall t, In t ts1 -> c_move fl = true -> t_from t <> place_of file).
  { intros t I _ X. destruct (trips_in _ _ _ _ T t (or_intror I)) as (_ & b & u & X1 & X2). destruct P as (-> & _ & _ & _ & N & _). rewrite place_app in X by auto.
    rewrite X in X1. injection X1 as X3 _. apply F4. rewrite X3, <- X2. apply in_map. auto. }
  assert (Kf : forall t, In t ts1 -> get (s_fs s1) (t_from t) = get (s_fs s) (t_from t)).
  { intros t I. apply D3. intros X. assert (Y : t_from t <> base :: place_of dest) by (apply (F2 t t0); auto; right; auto).
    destruct (c_move fl) eqn:Mv; cbn [In] in X; [destruct X as [X|[X|[]]]|destruct X as [X|[]]]; try congruence. apply (Fr t I eq_refl). auto. }
  assert (Kt : forall t, In t ts1 -> get (s_fs s1) (t_to t) = get (s_fs s) (t_to t)).
  { intros t I. apply D3. intros X. assert (Y : t_to t <> base :: place_of dest) by (intros Y; apply F4; rewrite <- Y; apply in_map; auto).
    assert (Z : place_of file <> t_to t) by (apply (F2 t0 t); auto; right; auto).
    destruct (c_move fl) eqn:Mv; cbn [In] in X; [destruct X as [X|[X|[]]]|destruct X as [X|[]]]; congruence. }
  assert (Dd : get (s_fs s1) (place_of dest) = Some Dir).
  { rewrite D3; auto. intros X. assert (base :: place_of dest <> place_of dest) by (intros Y; apply (f_equal (@length _)) in Y; cbn in Y; lia).
    assert (place_of file <> place_of dest) by (red in H; congruence).
    destruct (c_move fl); cbn [In] in X; [destruct X as [X|[X|[]]]|destruct X as [X|[]]]; congruence. }
  destruct (IH ts1 s1 fuel) as (s' & E' & In' & R1 & R2); auto.
  { eapply trips_same; eauto. }
  { split; [auto|]. split; [intros; apply F2; right; auto|]. intros t I. destruct (trips_in _ _ _ _ T t (or_intror I)) as (_ & b & u & _ & X).
    destruct (F3 t (or_intror I)) as [[v Y]|[Y _]]; [left; exists v; rewrite Kt; auto|right; split; [rewrite Kt; auto|rewrite X; eauto]]. }
  { destruct U as [U|U]; [left; auto|right]. intros t I. rewrite Kt by auto. apply U. right. auto. }
  { intros; apply B; auto; right; auto. }
  { intros; apply L; right; auto. }
  exists s'. split; [exact E'|]. split; [congruence|].
  assert (O1 : ~ In (base :: place_of dest) (map t_to ts1 ++ (if c_move fl then map t_from ts1 else []))).
  { intros X. apply in_app_or in X. destruct X as [X|X]; [auto|]. destruct (c_move fl); [|destruct X]. apply in_map_iff in X. destruct X as (t & X & I).
    apply (F2 t t0); auto; right; auto. }
  assert (O2 : c_move fl = true -> ~ In (place_of file) (map t_to ts1 ++ (if c_move fl then map t_from ts1 else []))).
  { intros Mv X. rewrite Mv in X. apply in_app_or in X. destruct X as [X|X]; apply in_map_iff in X; destruct X as (t & X & I).
    - apply (F2 t0 t); auto; right; auto.
    - apply (Fr t I Mv). auto. }
  split.
  - intros t [<-|I]; [|auto]. cbn [t_to t_from t_text t0]. rewrite R2 by auto. split; [auto|]. intros Mv. rewrite R2 by auto. auto.
  - intros p N. rewrite R2.
    + apply D3. intros X. apply N. apply in_or_app. destruct (c_move fl); cbn [In map] in *; [destruct X as [X|[X|[]]]|destruct X as [X|[]]]; subst p; auto.
    + intros X. apply N. apply in_app_or in X. apply in_or_app. destruct X as [X|X]; [left; right; auto|right]. destruct (c_move fl); [right; auto|auto].
Qed.

(** The files of a list, one after the other in a file *)
Lemma all_cat dest : forall l ts s fuel second fl old, texts (s_fs s) l ts -> (forall file, In file l -> place_of file <> place_of dest) ->
  writable (s_fs s) (place_of dest) -> (forall t, In t ts -> 2 * length t + 2 <= fuel) ->
  c_silent fl = true -> c_cat fl = true -> c_move fl = false -> c_second fl = second ->
  (second = true -> get (s_fs s) (place_of dest) = Some (File old)) -> (second = false -> old = []) ->
  exists s', copy_files fails chunk fuel s l dest fl 0 = Ret (0%Z, s') /\ s_in s' = s_in s /\ same_but [place_of dest] (s_fs s) (s_fs s') /\
    (l <> [] -> get (s_fs s') (place_of dest) = Some (File (old ++ concat ts))) /\ (l = [] -> s' = s).
Proof.
  induction l as [|file l IH]; intros ts s fuel second fl old T N W L Si Ca Mo Se O1 O2.
  { exists s. split; [reflexivity|]. split; auto. split; [apply same_refl|]. split; [congruence|auto]. }
  inversion T as [|? t ? ts1 H T1]; subst. cbn [copy_files]. unfold pBat_CmdCopyFile. rewrite Ca, Si. cbn [negb]. rewrite !andb_false_r. cbn [bind negb]. rewrite andb_false_r. cbn [bind negb]. rewrite Mo, Ca.
  destruct (cat_one s file dest t fuel (c_second fl) old) as (s1 & E & In1 & G1 & Sm); auto; [apply N; left; auto|apply L; left; auto|].
  rewrite E. cbn [bind Z.lor].
  destruct (IH ts1 s1 fuel true (mkC (c_silent fl) (c_multiple fl) (c_move fl) true true) (old ++ t)) as (s' & E' & In' & Sm' & R & R0); auto; try discriminate.
  { clear - T1 Sm N. assert (N' : forall file, In file l -> place_of file <> place_of dest) by (intros; apply N; right; auto). clear N.
    induction T1; constructor; [rewrite Sm; [auto|intros [X|[]]; eapply N'; [left; eauto|auto]]|apply IHT1; intros; apply N'; right; auto]. }
  { intros; apply N; right; auto. }
  { left. eauto. }
  { intros; apply L; right; auto. }
  exists s'. rewrite Mo in *. split; [exact E'|]. split; [congruence|]. split; [eapply same_trans; eauto|]. split; [intros _|discriminate].
  cbn [concat]. destruct l as [|x l]; [rewrite R0 by auto; inversion T1; subst; cbn [concat]; rewrite app_nil_r; auto|]. rewrite R by discriminate. rewrite <- app_assoc. auto.
Qed.
End One.

(** The parameters *)
Lemma kw_b k t : nonul t -> length k = 2 -> nonul k -> (strnicmp k t 2 =? 0)%Z = true <-> exists a r, t = a ++ r /\ same_name a k.
Proof.
  intros N L Nk. destruct k as [|x [|y [|z k]]]; try discriminate. cbn [strnicmp].
  assert (P : forall c, c <> "000"%char -> (code (tolower c) =? 0)%Z = false).
  { intros c Hc. apply Z.eqb_neq. intros X. apply Hc. revert X. clear. destruct c as [[] [] [] [] [] [] [] []]; vm_compute; intros; congruence. }
  assert (Q : forall a b, ceq a b = false -> (code a - code b =? 0)%Z = false).
  { intros a b H. apply Z.eqb_neq. intros X. assert (E : code a = code b) by lia. clear X.
    assert (a = b) by (rewrite <- (ascii_N_embedding a), <- (ascii_N_embedding b); f_equal; unfold code in E; lia). subst. rewrite ceq_refl in H. discriminate. }
  destruct t as [|a [|b t]].
  - rewrite P by (intros ->; apply Nk; left; auto). split; [discriminate|]. intros (u & r & E & S). symmetry in E. apply app_eq_nil in E. destruct E as [-> _]. discriminate.
  - destruct (ceq (tolower x) (tolower a)) eqn:E1.
    + rewrite P by (intros ->; apply Nk; right; left; auto). split; [discriminate|]. intros (u & r & E & S). destruct u as [|u1 [|u2 u]]; [discriminate|discriminate|]. cbn [app] in E. discriminate.
    + rewrite Q by auto. split; [discriminate|]. intros (u & r & E & S). destruct u as [|u1 [|u2 u]]; [discriminate|discriminate|]. cbn [app] in E. discriminate.
  - destruct (ceq (tolower x) (tolower a)) eqn:E1; [destruct (ceq (tolower y) (tolower b)) eqn:E2|].
    + apply ceq_true in E1, E2. split; [intros _|reflexivity]. exists [a; b], t. split; [auto|]. unfold same_name. cbn [map]. congruence.
    + rewrite Q by auto. split; [discriminate|]. intros (u & r & E & S). destruct u as [|u1 [|u2 [|u3 u]]]; try discriminate. cbn [app] in E. injection E as <- <- <-.
      unfold same_name in S. cbn [map] in S. injection S as S1 S2. rewrite S2, ceq_refl in E2. discriminate.
    + rewrite Q by auto. split; [discriminate|]. intros (u & r & E & S). destruct u as [|u1 [|u2 [|u3 u]]]; try discriminate. cbn [app] in E. injection E as <- <- <-.
      unfold same_name in S. cbn [map] in S. injection S as S1 S2. rewrite S1, ceq_refl in E1. discriminate.
Qed.
Lemma stricmp_sym_b a b : nonul a -> nonul b -> (stricmp a b =? 0)%Z = (stricmp b a =? 0)%Z.
Proof.
  intros A B. apply eq_true_iff_eq. rewrite !stricmp_name by auto. unfold same_name. split; congruence.
Qed.

Section Par.
Variable w : xworld.
Notation full := (full w).
Lemma cat_stays q ps q' : asked q ps q' -> r_cat q = true -> r_cat q' = true.
Proof. induction 1; auto. Qed.
Lemma attr_not p t o : attr_option p t -> same_name p (s2l o) -> match s2l o with x :: y :: _ => [tolower x; tolower y] <> s2l "/a" | _ => True end -> False.
Proof.
  intros (N & a & A & E) S D. unfold same_name in *.
  assert (X : exists r, p = a ++ r) by (destruct E as [E|[E _]]; eauto). destruct X as (r & ->). rewrite map_app, A in S.
  destruct (s2l o) as [|x [|y o']]; try discriminate. cbn in S. injection S as S1 S2 _. apply D. rewrite <- S1, <- S2. reflexivity.
Qed.
Lemma same_head a p b r : same_name a b -> p = a ++ r -> exists r', map tolower p = map tolower b ++ r'.
Proof. intros S ->. rewrite map_app, S. eauto. Qed.
Notation params := copy_params.
Lemma par_asked move q ps q' : asked q ps q' -> (move = true -> r_cat q' = false) -> forall tail fuel old line, written w line (ps ++ tail) -> length line < fuel ->
  exists fuel' old' line', written w line' tail /\ length line' < fuel' /\
  params fuel w move old line (r_silent q) (r_rec q) (r_cat q) (pBat_MakeFileAttributes (r_attr q)) (map full (r_names q)) =
  params fuel' w move old' line' (r_silent q') (r_rec q') (r_cat q') (pBat_MakeFileAttributes (r_attr q')) (map full (r_names q')).
Proof.
  induction 1 as [q|q p ps q' O A IH|q p ps q' O A IH|q p t ps q' O A IH|q p ps q' O A IH|q ps q' A IH|q p ps q' O A IH]; intros M tail fuel old line W L.
  { exists fuel, old, line. auto. }
  all: destruct fuel as [|fuel]; [lia|]; cbn [app] in W; destruct (written_next (fun _ => []) w _ _ _ W) as (rest & E & R & Lr); cbn [copy_params]; rewrite E; cbn [bind].
  all: try destruct O as (N & O).
  Ltac nu := try assumption; try (apply nonul_b; reflexivity).
  - assert (X : (stricmp (s2l "/Y") p =? 0)%Z = true) by (apply stricmp_name; nu; symmetry; exact O). rewrite X. cbn [orb].
    assert (Y : match skipn 1 p with c :: _ => ceq c "-"%char | [] => false end = false).
    { destruct p as [|a [|b p]]; auto. cbn [skipn]. unfold same_name in O. cbn in O. injection O as _ O _. apply not_true_iff_false. intros Z. apply ceq_true in Z. subst b. discriminate. }
    rewrite Y, orb_false_r. apply IH; auto. lia.
  - assert (X : (stricmp (s2l "/-Y") p =? 0)%Z = true) by (apply stricmp_name; nu; symmetry; exact O). rewrite X. rewrite orb_true_r.
    assert (Y : match skipn 1 p with c :: _ => ceq c "-"%char | [] => false end = true).
    { unfold same_name in O. destruct p as [|a [|b p]]; try discriminate. cbn [skipn]. cbn in O. injection O as _ O _. apply ceq_true.
      revert O. clear. destruct b as [[] [] [] [] [] [] [] []]; vm_compute; intros; congruence. }
    rewrite Y, orb_true_r. apply (IH M tail fuel p rest R). lia.
  - pose proof (conj N O) as O'. fold (attr_option p t) in O'.
    assert (X : (stricmp (s2l "/Y") p =? 0)%Z = false) by (apply not_true_iff_false; rewrite stricmp_name by nu; intros Z; symmetry in Z; eapply (attr_not p t "/Y"); eauto; discriminate).
    assert (X2 : (stricmp (s2l "/-Y") p =? 0)%Z = false) by (apply not_true_iff_false; rewrite stricmp_name by nu; intros Z; symmetry in Z; eapply (attr_not p t "/-Y"); eauto; discriminate).
    rewrite X, X2. cbn [orb]. destruct O as (a & Sa & Pa).
    assert (X3 : (strnicmp (s2l "/A") p 2 =? 0)%Z = true) by (apply kw_b; nu; auto; exists a; destruct Pa as [->|[-> _]]; eauto).
    rewrite X3. assert (La : length a = 2) by (apply (f_equal (@length _)) in Sa; rewrite !map_length in Sa; auto).
    assert (Y : @eq cstr (match skipn 2 p with c :: r => if ceq c ":"%char then r else c :: r | [] => [] end) t).
    { destruct a as [|a1 [|a2 [|a3 a]]]; try discriminate. destruct Pa as [->|[-> Pt]]; cbn [app skipn]; [reflexivity|].
      destruct t as [|c t]; auto. destruct (ceq c ":"%char) eqn:Z; auto. apply ceq_true in Z. subst c. exfalso. eapply Pt; eauto. }
    rewrite Y. apply (IH M tail fuel p rest R). lia.
  - assert (NN : forall o, map tolower (s2l o) <> map tolower (s2l "/r") -> nonul (s2l o) -> (stricmp (s2l o) p =? 0)%Z = false).
    { intros o D No. apply not_true_iff_false. rewrite stricmp_name by nu. intros Z. apply D. unfold same_name in *. congruence. }
    rewrite (NN "/Y"%string), (NN "/-Y"%string) by (nu; discriminate). cbn [orb].
    assert (X3 : (strnicmp (s2l "/A") p 2 =? 0)%Z = false).
    { apply not_true_iff_false. rewrite kw_b by (nu; auto). intros (a & r & -> & Sa). unfold same_name in *. rewrite map_app, Sa in O. discriminate. }
    rewrite X3. assert (X : (stricmp (s2l "/R") p =? 0)%Z = true) by (apply stricmp_name; nu; symmetry; exact O). rewrite X. apply (IH M tail fuel p rest R). lia.
  - change ((stricmp (s2l "/Y") (s2l "+") =? 0)%Z) with false. change ((stricmp (s2l "/-Y") (s2l "+") =? 0)%Z) with false.
    change ((strnicmp (s2l "/A") (s2l "+") 2 =? 0)%Z) with false. change ((stricmp (s2l "/R") (s2l "+") =? 0)%Z) with false.
    change (streqb (s2l "+") (s2l "/?")) with false. change (streqb (s2l "+") (s2l "+")) with true. cbn [orb].
    destruct move.
    + exfalso. specialize (M eq_refl). rewrite (cat_stays _ _ _ A) in M by reflexivity. discriminate.
    + apply (IH M tail fuel (s2l "+") rest R). lia.
  - destruct O as (H1 & H2 & H3 & H4).
    assert (NN : forall o, In (map tolower (s2l o)) [s2l "/y"; s2l "/-y"; s2l "/r"] -> nonul (s2l o) -> (stricmp (s2l o) p =? 0)%Z = false).
    { intros o D No. apply not_true_iff_false. rewrite stricmp_name by nu. intros Z. apply (H3 _ D). unfold same_name in *. rewrite <- Z.
      rewrite map_map. apply map_ext. intros c. clear. destruct c as [[] [] [] [] [] [] [] []]; reflexivity. }
    rewrite (NN "/Y"%string), (NN "/-Y"%string), (NN "/R"%string) by (nu; cbn; tauto). cbn [orb].
    assert (X3 : (strnicmp (s2l "/A") p 2 =? 0)%Z = false).
    { apply not_true_iff_false. rewrite kw_b by (nu; auto). intros (a & r & X & Sa). apply (H4 a r); auto. }
    rewrite X3. apply streqb_false in H1, H2. rewrite H1, H2.
    change (map full (r_names q) ++ [full p]) with (map full (r_names q) ++ map full [p]).
    specialize (IH M tail fuel p rest R ltac:(lia)). cbn [r_silent r_rec r_cat r_attr r_names] in IH. rewrite map_app in IH. exact IH.
Qed.
Lemma par_done move fuel old line si re ca at_ fi : written w line [] -> 0 < fuel -> params fuel w move old line si re ca at_ fi = Ret (CGo si re ca at_ fi, w).
Proof. intros W F. inversion W; subst. destruct fuel; [lia|]. cbn [copy_params]. rewrite Params_Proofs.next_end; auto. Qed.
Lemma params_ok move line ps q : written w line ps -> asked no_request ps q -> (move = true -> r_cat q = false) ->
  params (S (length line)) w move [] line false false false 0 [] = Ret (CGo (r_silent q) (r_rec q) (r_cat q) (pBat_MakeFileAttributes (r_attr q)) (map full (r_names q)), w).
Proof.
  intros W A M. rewrite <- (app_nil_r ps) in W. destruct (par_asked move _ _ _ A M [] (S (length line)) [] line W ltac:(lia)) as (fuel & old & line' & W' & L & E).
  cbn [no_request r_silent r_rec r_cat r_attr r_names map] in E. change (pBat_MakeFileAttributes []) with 0%N in E. rewrite E. apply par_done; auto. lia.
Qed.
End Par.
Lemma attr_dir s : N.lor (pBat_MakeFileAttributes s) PBAT_ATTR_NO_DIR = pBat_MakeFileAttributes (s ++ s2l "-d").
Proof.
  unfold pBat_MakeFileAttributes. assert (X : forall s b n, make_attr (s ++ s2l "-d") b n = N.lor (make_attr s b n) PBAT_ATTR_NO_DIR); [|symmetry; apply X].
  clear s. induction s as [|c s IH]; intros b n; cbn [app make_attr].
  - change (letter_flag "-"%char) with 0%N. change (letter_flag "d"%char) with 1024%N. cbn. rewrite N.lor_0_r. reflexivity.
  - destruct (_ && _); apply IH.
Qed.
Lemma sources_ok search f : forall l, (forall n, In n l -> search f n <> []) -> sources search f l = Some (flat_map (search f) l).
Proof.
  induction l as [|n l IH]; intros H; [reflexivity|]. cbn [sources flat_map]. rewrite IH by (intros; apply H; right; auto).
  pose proof (H n (or_introl eq_refl)). destruct (search f n); [congruence|]. reflexivity.
Qed.
Lemma sources_none search f : forall l n, In n l -> search f n = [] -> sources search f l = None.
Proof.
  induction l as [|m l IH]; intros n I H; [destruct I|]; cbn [sources]; destruct I as [->|I].
  - rewrite H. auto.
  - rewrite (IH n) by auto. destruct (search f m); auto.
Qed.

(** Moving when anything may fail *)
Lemma rename_cases fails s old new t : get (s_fs s) (place_of old) = Some (File t) -> place_of old <> place_of new ->
  sys_rename fails s old new = (true, with_fs s (put (del (s_fs s) (place_of old)) (place_of new) (File t))) \/ exists s', sys_rename fails s old new = (false, s') /\ s_fs s' = s_fs s /\ s_in s' = s_in s.
Proof.
  intros G N. unfold sys_rename. rewrite G. destruct (fails (s_tick s)); [right; eexists; split; [reflexivity|split; reflexivity]|].
  apply place_eqb_false in N. rewrite N. destruct (room (s_fs s) (place_of new)); cbn [negb]; [|right; eexists; split; [reflexivity|split; reflexivity]].
  destruct (below (place_of old) (place_of new)); [right; eexists; split; [reflexivity|split; reflexivity]|].
  destruct (get (s_fs s) (place_of new)) as [[u|]|]; [left; reflexivity|right; eexists; split; [reflexivity|split; reflexivity]|left; reflexivity].
Qed.
Lemma move_cases fails s file dest t : get (s_fs s) (place_of file) = Some (File t) -> place_of file <> place_of dest ->
  exists z s', pBat_MoveFile fails s file dest = (z, s') /\ s_in s' = s_in s /\ (z = 0%Z \/ z = PBAT_UNABLE_MOVE) /\
    (z = 0%Z -> done true (place_of file) (place_of dest) t (s_fs s) (s_fs s')) /\
    (z <> 0%Z -> same_but [place_of dest] (s_fs s) (s_fs s') /\
       (get (s_fs s') (place_of dest) = get (s_fs s) (place_of dest) \/ exists u, get (s_fs s) (place_of dest) = Some (File u) /\ get (s_fs s') (place_of dest) = None)).
Proof.
  intros G N. unfold pBat_MoveFile, pBat_FileExists. destruct (get (s_fs s) (place_of dest)) as [[u|]|] eqn:E.
  - unfold sys_remove. rewrite E. destruct (fails (s_tick s)).
    { eexists _, _. split; [reflexivity|]. split; [reflexivity|]. split; [auto|]. split; [discriminate|]. intros _. split; [apply same_refl|left; auto]. }
    destruct (rename_cases fails (with_fs s (del (s_fs s) (place_of dest))) file dest t) as [X|(s' & X & F & I)].
    + cbn [with_fs s_fs]. rewrite get_del_other; auto.
    + auto.
    + rewrite X. eexists _, _. split; [reflexivity|]. split; [reflexivity|]. split; [auto|]. split; [intros _; cbn [with_fs s_fs]; apply moved_ok2; auto|congruence].
    + rewrite X. eexists _, _. split; [reflexivity|]. split; [rewrite I; reflexivity|]. split; [auto|]. split; [discriminate|]. intros _. rewrite F. cbn [with_fs s_fs].
      split; [apply same_del|]. right. exists u. rewrite get_del_same. auto.
  - destruct (rename_cases fails s file dest t G N) as [X|(s' & X & F & I)]; rewrite X.
    + eexists _, _. split; [reflexivity|]. split; [reflexivity|]. split; [auto|]. split; [intros _; cbn [with_fs s_fs]; apply moved_ok; auto|congruence].
    + eexists _, _. split; [reflexivity|]. split; [auto|]. split; [auto|]. split; [discriminate|]. intros _. rewrite F. split; [apply same_refl|auto].
  - destruct (rename_cases fails s file dest t G N) as [X|(s' & X & F & I)]; rewrite X.
    + eexists _, _. split; [reflexivity|]. split; [reflexivity|]. split; [auto|]. split; [intros _; cbn [with_fs s_fs]; apply moved_ok; auto|congruence].
    + eexists _, _. split; [reflexivity|]. split; [auto|]. split; [auto|]. split; [discriminate|]. intros _. rewrite F. split; [apply same_refl|auto].
Qed.
(** Appending a file to itself *)
Lemma append_more fails chunk : never fails -> forall fuel s q pos t w buf, get (s_fs s) q = Some (File t) -> w < length buf ->
  write_loop fails chunk fuel s q true pos w buf = OutOfFuel \/
  exists pos' s', write_loop fails chunk fuel s q true pos w buf = Ret (Some pos', s') /\ get (s_fs s') q = Some (File (t ++ skipn w buf)).
Proof.
  intros Nv. induction fuel as [|fuel IH]; intros s q pos t w buf G L; [left; reflexivity|]. cbn [write_loop].
  rewrite (write_step fails chunk s q true pos t) by auto. set (n := S (chunk (s_tick s))).
  assert (Ln : length (firstn n (skipn w buf)) = Nat.min n (length buf - w)) by (rewrite firstn_length, skipn_length; lia). rewrite Ln.
  destruct (Nat.eqb_spec (w + Nat.min n (length buf - w)) (length buf)) as [Q|Q].
  - right. eexists _, _. split; [reflexivity|]. cbn [with_fs s_fs]. rewrite get_put_same. f_equal. f_equal. f_equal. apply firstn_all2. rewrite skipn_length. lia.
  - assert (Mn : Nat.min n (length buf - w) = n) by lia. rewrite Mn.
    destruct (IH (with_fs s (put (s_fs s) q (File (t ++ firstn n (skipn w buf))))) q (pos + n) (t ++ firstn n (skipn w buf)) (w + n) buf) as [X|(pos' & s' & X & Y)].
    + cbn [with_fs s_fs]. apply get_put_same.
    + unfold n in *; lia.
    + left. exact X.
    + right. exists pos', s'. split; [exact X|]. rewrite Y, <- app_assoc. f_equal. f_equal. f_equal. rewrite <- (skipn_skipn' n w buf). apply firstn_skipn.
Qed.
Lemma append_self fails chunk err : never fails -> forall fuel s q rpos wpos t, get (s_fs s) q = Some (File t) -> rpos < length t ->
  copy_loop fails chunk fuel s q q true rpos wpos err = OutOfFuel.
Proof.
  intros Nv. induction fuel as [|fuel IH]; intros s q rpos wpos t G L; [reflexivity|]. cbn [copy_loop]. unfold sys_read. rewrite G, Nv.
  set (n := Nat.min 2048 (S (chunk (s_tick s)))). assert (Pn : 0 < n) by (unfold n; lia). destruct (firstn n (skipn rpos t)) as [|c buf'] eqn:Bf.
  { exfalso. apply (f_equal (@length _)) in Bf. rewrite firstn_length, skipn_length in Bf. cbn [length] in Bf. lia. }
  set (buf := c :: buf') in *.
  destruct (append_more fails chunk Nv (S fuel) (with_fs s (s_fs s)) q wpos t 0 buf G ltac:(cbn; lia)) as [X|(pos' & s' & X & Y)].
  - fold buf. rewrite X. reflexivity.
  - fold buf. rewrite X. cbn [bind]. eapply IH; [exact Y|]. cbn [skipn]. rewrite app_length. lia.
Qed.
