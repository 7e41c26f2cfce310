(** Fs_Proofs.v *)

From Verif Require Import Base Lex Path_Model Path_Spec Path_Proofs Fs_Model Fs_Spec.

Lemma place_eqb_true a b : place_eqb a b = true <-> a = b.
Proof.
  revert b. induction a as [|x a IH]; intros [|y b]; cbn [place_eqb]; split; try discriminate; auto.
  - intros H. apply andb_true_iff in H. destruct H as [H1 H2]. apply streqb_true in H1. apply IH in H2. subst. auto.
  - intros [= -> ->]. apply andb_true_iff. split; [apply streqb_true; auto|apply IH; auto].
Qed.
Lemma place_eqb_false a b : place_eqb a b = false <-> a <> b.
Proof. rewrite <- not_true_iff_false, place_eqb_true. tauto. Qed.
Lemma place_eqb_refl a : place_eqb a a = true. Proof. apply place_eqb_true. auto. Qed.
Lemma place_dec (a b : place) : {a = b} + {a <> b}.
Proof. destruct (place_eqb a b) eqn:E; [left; apply place_eqb_true; auto|right; apply place_eqb_false; auto]. Qed.

Lemma get_del f p q : get (del f p) q = if place_eqb p q then None else get f q.
Proof.
  induction f as [|[r n] f IH]; cbn [del filter fst get].
  - destruct (place_eqb p q); auto.
  - destruct (place_eqb r p) eqn:E; cbn [negb get].
    + fold (del f p). rewrite IH. apply place_eqb_true in E. subst r. destruct (place_eqb p q); auto.
    + fold (del f p). cbn [get]. rewrite IH. destruct (place_eqb r q) eqn:E1; auto. apply place_eqb_true in E1. subst r.
      destruct (place_eqb p q) eqn:E2; auto. apply place_eqb_true in E2. subst p. rewrite place_eqb_refl in E. discriminate.
Qed.
Lemma get_put f p n q : get (put f p n) q = if place_eqb p q then Some n else get f q.
Proof. unfold put. cbn [get]. destruct (place_eqb p q) eqn:E; auto. rewrite get_del, E. auto. Qed.
Lemma get_put_same f p n : get (put f p n) p = Some n.
Proof. rewrite get_put, place_eqb_refl. auto. Qed.
Lemma get_put_other f p n q : p <> q -> get (put f p n) q = get f q.
Proof. intros H. rewrite get_put. apply place_eqb_false in H. rewrite H. auto. Qed.
Lemma get_del_same f p : get (del f p) p = None.
Proof. rewrite get_del, place_eqb_refl. auto. Qed.
Lemma get_del_other f p q : p <> q -> get (del f p) q = get f q.
Proof. intros H. rewrite get_del. apply place_eqb_false in H. rewrite H. auto. Qed.
Lemma room_iff f p : room f p = true <-> exists n up, p = n :: up /\ get f up = Some Dir.
Proof.
  unfold room. destruct p as [|n up]; [split; [discriminate|intros (? & ? & ? & _); discriminate]|].
  split; [destruct (get f up) as [[t|]|] eqn:E; try discriminate; intros _; eauto|].
  intros (m & u & [= <- <-] & ->). auto.
Qed.

Lemma same_refl ps f : same_but ps f f. Proof. intros p _. auto. Qed.
Lemma same_trans ps f g h : same_but ps f g -> same_but ps g h -> same_but ps f h.
Proof. intros A B p H. rewrite B, A; auto. Qed.
Lemma same_le ps qs f g : (forall p, In p ps -> In p qs) -> same_but ps f g -> same_but qs f g.
Proof. intros I A p H. apply A. auto. Qed.
Lemma same_put p n f : same_but [p] f (put f p n).
Proof. intros q H. apply get_put_other. intros ->. apply H. left. auto. Qed.
Lemma same_del p f : same_but [p] f (del f p).
Proof. intros q H. apply get_del_other. intros ->. apply H. left. auto. Qed.

(** rename of a file *)
Lemma below_self a : below a a = Some [].
Proof. destruct a; cbn [below]; rewrite place_eqb_refl; auto. Qed.
Lemma below_ok a p r : below a p = Some r -> p = r ++ a.
Proof.
  revert r. induction p as [|x p IH]; intros r; cbn [below].
  - destruct (place_eqb a []) eqn:E; [|discriminate]. intros [= <-]. apply place_eqb_true in E. auto.
  - destruct (place_eqb a (x :: p)) eqn:E; [intros [= <-]; apply place_eqb_true in E; auto|].
    destruct (below a p) as [q|] eqn:B; [|discriminate]. intros [= <-]. cbn [app]. f_equal. apply IH. auto.
Qed.
Lemma below_iff a p : (exists r, below a p = Some r) <-> exists r, p = r ++ a.
Proof.
  split; [intros [r H]; exists r; apply below_ok; auto|]. intros [r ->]. induction r as [|x r [q IH]]; cbn [app].
  - exists []. apply below_self.
  - cbn [below]. destruct (place_eqb a (x :: r ++ a)); [eauto|]. rewrite IH. cbn [option_map]. eauto.
Qed.
Lemma tree_file f p t r x : tree f -> get f p = Some (File t) -> get f (x :: r ++ p) = None.
Proof.
  intros T G. destruct (get f (x :: r ++ p)) eqn:E; auto. exfalso. assert (H : get f (x :: r ++ p) <> None) by congruence. clear E. revert x H.
  induction r as [|y r IH]; intros x H; apply T in H; cbn [app] in *; [congruence|]. apply (IH y). congruence.
Qed.
Lemma below_file f p t q : tree f -> get f p = Some (File t) -> p <> q -> room f q = true -> below p q = None.
Proof.
  intros T G N R. destruct (below p q) as [r|] eqn:B; auto. exfalso. apply below_ok in B. destruct r as [|x r]; [cbn in B; congruence|].
  cbn [app] in B. subst q. cbn [room] in R. destruct r as [|y r]; cbn [app] in R; [rewrite G in R; discriminate|].
  rewrite (tree_file _ _ t r y T G) in R. discriminate.
Qed.
(** Paths *)
Lemma names_app a b : forall cur, names (a ++ "/"%char :: b) cur = names a cur ++ names b [].
Proof.
  induction a as [|c a IH]; intros cur; cbn [app names]; [auto|]. destruct (ceq c "/"%char); cbn [app]; rewrite IH; auto.
Qed.
Lemma names_one b : forall cur, ~ In "/"%char b -> names b cur = [cur ++ b].
Proof.
  induction b as [|c b IH]; intros cur H; cbn [names]; [rewrite app_nil_r; auto|].
  destruct (ceq c "/"%char) eqn:E; [exfalso; apply ceq_true in E; subst; apply H; left; auto|].
  rewrite IH by (intros X; apply H; right; auto). rewrite <- app_assoc. auto.
Qed.
Lemma step_normal p b : normal_comp b -> step p b = b :: p.
Proof.
  intros (A & B & C & _). unfold step. destruct b; [congruence|]. apply streqb_false in B, C. rewrite B, C. auto.
Qed.
Lemma place_app a b : normal_comp b -> place_of (a ++ "/"%char :: b) = b :: place_of a.
Proof.
  intros N. unfold place_of. rewrite names_app, fold_left_app, (names_one b) by apply N. cbn [app fold_left]. apply step_normal. auto.
Qed.
Lemma place_one b : normal_comp b -> place_of b = [b].
Proof. intros N. unfold place_of. rewrite (names_one b) by apply N. cbn [app fold_left]. apply step_normal. auto. Qed.
Lemma place_join d b : normal_comp b -> place_of (pBat_MakePath d b) = b :: place_of d.
Proof.
  intros N. unfold pBat_MakePath. destruct d as [|x d] using rev_ind; [cbn; apply place_one; auto|]. clear IHd.
  rewrite rev_app_distr. cbn [rev app]. unfold is_sep. destruct (ceq x "/"%char) eqn:E.
  - apply ceq_true in E. subst x. cbn [app]. rewrite <- app_assoc. cbn [app]. rewrite place_app by auto. f_equal.
    unfold place_of. rewrite names_app, fold_left_app. reflexivity.
  - cbn [app]. apply place_app. auto.
Qed.
Section Rename.
Variable fails : nat -> bool.
Lemma rename_file s old new t : get (s_fs s) (place_of old) = Some (File t) -> place_of old <> place_of new ->
  fails (s_tick s) = false -> room (s_fs s) (place_of new) = true -> below (place_of old) (place_of new) = None -> get (s_fs s) (place_of new) <> Some Dir ->
  sys_rename fails s old new = (true, with_fs s (put (del (s_fs s) (place_of old)) (place_of new) (File t))).
Proof.
  intros G N F R B D. unfold sys_rename. rewrite G, F. apply place_eqb_false in N. rewrite N, R, B. cbn [negb].
  destruct (get (s_fs s) (place_of new)) as [[u|]|]; auto. congruence.
Qed.
Lemma rename_fails s old new : (exists s', sys_rename fails s old new = (false, s') /\ s_fs s' = s_fs s /\ s_in s' = s_in s) \/ exists s', sys_rename fails s old new = (true, s') /\ fails (s_tick s) = false.
Proof.
  unfold sys_rename. destruct (get (s_fs s) (place_of old)) as [n|]; [|left; eexists; split; [reflexivity|split; reflexivity]].
  destruct (fails (s_tick s)) eqn:F; [left; eexists; split; [reflexivity|split; reflexivity]|].
  assert (X : forall b s1, b = true \/ (b = false /\ s_fs s1 = s_fs s /\ s_in s1 = s_in s) ->
     (exists s', (b, s1) = (false, s') /\ s_fs s' = s_fs s /\ s_in s' = s_in s) \/ exists s', (b, s1) = (true, s') /\ false = false).
  { intros b s1 [->|(-> & A)]; eauto 6. }
  destruct (place_eqb (place_of old) (place_of new)); [apply X; auto|]. destruct (room (s_fs s) (place_of new)); cbn [negb]; [|apply X; auto].
  destruct (below (place_of old) (place_of new)); [apply X; auto|]. destruct n as [t|]; destruct (get (s_fs s) (place_of new)) as [[u|]|]; try (apply X; auto; fail).
  destruct (empty_dir (s_fs s) (place_of new)); apply X; auto.
Qed.
End Rename.
