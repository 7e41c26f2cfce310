(** Mkdir_Proofs.v -- MD and REN. *)

From Verif Require Import Base Lex StrLib_Model StrLib_Spec Path_Model Path_Spec Var_Model Expand_Model Args_Model Params_Model Params_Spec Params_Proofs Find_Proofs Prompt_Proofs Attr_Model For_Model Wc_Model Fs_Model Fs_Spec Fs_Proofs Search_Model Search_Proofs Copy_Spec Del_Proofs Mkdir_Model Mkdir_Spec.

Section Mk.
Variable fails : nat -> bool.
Definition mk (s : sys) (dir : cstr) : sys := if pBat_DirExists (s_fs s) dir then s else snd (sys_mkdir fails s dir).

Lemma loop_plain s pre c r : ~ In "/"%char c -> mkdirs_loop fails s pre (c ++ r) = mkdirs_loop fails s (pre ++ c) r.
Proof.
  revert pre. induction c as [|x c IH]; intros pre N; cbn [app mkdirs_loop]; [rewrite app_nil_r; auto|].
  destruct (ceq x "/"%char) eqn:E; [exfalso; apply ceq_true in E; subst; apply N; left; auto|]. cbn [andb]. rewrite IH by (intros H; apply N; right; auto). rewrite <- app_assoc. auto.
Qed.
Lemma loop_slash s pre r : pre <> [] -> mkdirs_loop fails s pre ("/"%char :: r) = mkdirs_loop fails (mk s pre) (pre ++ s2l "/") r.
Proof. intros N. cbn [mkdirs_loop]. rewrite ceq_refl. destruct pre; [congruence|]. reflexivity. Qed.
Lemma loop_first s r : mkdirs_loop fails s [] ("/"%char :: r) = mkdirs_loop fails s (s2l "/") r.
Proof. reflexivity. Qed.

(** One mkdir *)
Lemma dir_iff f p : pBat_DirExists f p = true <-> get f (place_of p) = Some Dir.
Proof. unfold pBat_DirExists. destruct (get f (place_of p)) as [[t|]|]; split; congruence. Qed.
Lemma mkdir_cases s p b s' : sys_mkdir fails s p = (b, s') -> s_in s' = s_in s /\
  (b = true /\ get (s_fs s) (place_of p) = None /\ room (s_fs s) (place_of p) = true /\ s_fs s' = put (s_fs s) (place_of p) Dir \/
   b = false /\ s_fs s' = s_fs s /\ (get (s_fs s) (place_of p) <> None \/ room (s_fs s) (place_of p) = false \/ fails (s_tick s) = true)).
Proof.
  unfold sys_mkdir. destruct (get (s_fs s) (place_of p)) as [n|] eqn:G.
  - intros E. injection E as <- <-. split; [auto|]. right. split; [auto|]. split; [auto|]. left. discriminate.
  - destruct (room (s_fs s) (place_of p)) eqn:R, (fails (s_tick s)) eqn:F; cbn [andb negb]; intros E; injection E as <- <-; (split; [reflexivity|]); cbn [with_fs s_fs]; auto 7.
Qed.
Lemma grown_refl ps f : grown ps f f. Proof. intros q. auto. Qed.
Lemma grown_trans ps f g h : grown ps f g -> grown ps g h -> grown ps f h.
Proof. intros A B q. destruct (A q) as [X|(X & Y & Z)], (B q) as [X'|(X' & Y' & Z')]; [left; congruence|right; split; [congruence|auto]|right; split; [auto|split; [congruence|auto]]|congruence]. Qed.
Lemma grown_le ps qs f g : (forall p, In p ps -> In p qs) -> grown ps f g -> grown qs f g.
Proof. intros H A q. destruct (A q) as [X|(X & Y & p & I & Z)]; [auto|]. right. split; [auto|]. split; [auto|]. exists p. auto. Qed.
Lemma grown_put f p x : get f p = None -> above x p -> grown [x] f (put f p Dir).
Proof.
  intros G A q. rewrite get_put. destruct (place_eqb p q) eqn:E; [|auto]. apply place_eqb_true in E. subst q. right. split; [auto|]. split; [auto|]. exists x. split; [left; auto|auto].
Qed.
Lemma mk_ok s p x : above x (place_of p) -> grown [x] (s_fs s) (s_fs (mk s p)) /\ s_in (mk s p) = s_in s /\
  (never fails -> get (s_fs s) (place_of p) = Some Dir \/ get (s_fs s) (place_of p) = None /\ room (s_fs s) (place_of p) = true -> get (s_fs (mk s p)) (place_of p) = Some Dir) /\
  (get (s_fs s) (place_of p) <> None \/ room (s_fs s) (place_of p) = false -> s_fs (mk s p) = s_fs s).
Proof.
  intros A. unfold mk. destruct (pBat_DirExists (s_fs s) p) eqn:D.
  - apply dir_iff in D. split; [apply grown_refl|]. auto.
  - destruct (sys_mkdir fails s p) as [b s'] eqn:E. destruct (mkdir_cases _ _ _ _ E) as (I & [(-> & G & R & F)|(-> & F & C)]); cbn [snd].
    + rewrite F. split; [apply grown_put; auto|]. split; [auto|]. split; [intros _ _; apply get_put_same|]. intros [X|X]; congruence.
    + rewrite F. split; [apply grown_refl|]. split; [auto|]. split; [|auto]. intros N [X|[X Y]]; [auto|]. destruct C as [C|[C|C]]; [congruence|congruence|]. rewrite N in C. discriminate.
Qed.

(** The whole path, name by name; [pre] is what was passed and has the place [pl]. *)
Lemma split_names s : forall cur, names s cur = match split_at "/"%char s with x :: l => (cur ++ x) :: l | [] => [] end.
Proof.
  induction s as [|c s IH]; intros cur; cbn [names split_at]; [rewrite app_nil_r; auto|]. destruct (ceq c "/"%char) eqn:E.
  - rewrite app_nil_r. f_equal. rewrite (IH []). destruct (split_at "/"%char s); auto.
  - rewrite (IH (cur ++ [c])). destruct (split_at "/"%char s) eqn:X; [destruct s as [|d s]; cbn [split_at] in X; [discriminate|]; destruct (ceq d "/"%char); [discriminate|]; destruct (split_at "/"%char s); discriminate|].
    rewrite <- app_assoc. auto.
Qed.
Lemma split_first c r : ~ In "/"%char c -> split_at "/"%char (c ++ "/"%char :: r) = c :: split_at "/"%char r.
Proof.
  induction c as [|x c IH]; intros N; cbn [app split_at]; [reflexivity|]. destruct (ceq x "/"%char) eqn:E; [exfalso; apply ceq_true in E; subst; apply N; left; auto|].
  rewrite IH by (intros H; apply N; right; auto). auto.
Qed.
Lemma split_only c : ~ In "/"%char c -> split_at "/"%char c = [c].
Proof.
  induction c as [|x c IH]; intros N; cbn [split_at]; [reflexivity|]. destruct (ceq x "/"%char) eqn:E; [exfalso; apply ceq_true in E; subst; apply N; left; auto|].
  rewrite IH by (intros H; apply N; right; auto). auto.
Qed.
Lemma cut_slash s : (exists c r, s = c ++ "/"%char :: r /\ ~ In "/"%char c) \/ ~ In "/"%char s.
Proof.
  induction s as [|x s IH]; [right; intros []|]. destruct (ceq x "/"%char) eqn:E.
  - apply ceq_true in E. subst. left. exists [], s. split; [auto|intros []].
  - assert (x <> "/"%char) by (intros ->; rewrite ceq_refl in E; discriminate). destruct IH as [(c & r & -> & N)|N].
    + left. exists (x :: c), r. split; [auto|]. intros [X|X]; [congruence|auto].
    + right. intros [X|X]; [congruence|auto].
Qed.
Lemma step_above pl c : c = [] \/ normal_comp c -> above (step pl c) pl.
Proof. intros [->|N]; [exists []; auto|]. rewrite step_normal by auto. exists [c]. auto. Qed.
Lemma fold_above l : Forall (fun c => c = [] \/ normal_comp c) l -> forall pl, above (fold_left step l pl) pl.
Proof.
  induction 1 as [|c l C F IH]; intros pl; cbn [fold_left]; [exists []; auto|]. destruct (IH (step pl c)) as (r & E). destruct (step_above pl c C) as (r' & E'). rewrite E, E'. exists (r ++ r'). apply app_assoc.
Qed.
Lemma above_trans a b c : above a b -> above b c -> above a c.
Proof. intros (r & ->) (r' & ->). exists (r ++ r'). apply app_assoc. Qed.


Lemma tree_up f : tree f -> forall r q, get f (r ++ q) <> None -> get f q <> None.
Proof. intros T. induction r as [|x r IH]; intros q G; [auto|]. apply IH. cbn [app] in G. apply T in G. congruence. Qed.
Lemma tree_put f p : tree f -> get f p = None -> room f p = true -> tree (put f p Dir).
Proof.
  intros T G R n q H. rewrite get_put in *. destruct (place_eqb p q) eqn:E; [auto|]. destruct (place_eqb p (n :: q)) eqn:E'.
  - apply place_eqb_true in E'. subst p. cbn [room] in R. destruct (get f q) as [[t|]|]; congruence.
  - apply T in H. auto.
Qed.
Lemma mk_tree s p : tree (s_fs s) -> tree (s_fs (mk s p)).
Proof.
  intros T. unfold mk. destruct (pBat_DirExists (s_fs s) p); [auto|]. destruct (sys_mkdir fails s p) as [b s'] eqn:E. destruct (mkdir_cases _ _ _ _ E) as (_ & [(_ & G & R & F)|(_ & F & _)]); cbn [snd]; rewrite F; [apply tree_put; auto|auto].
Qed.
Lemma above_two x y q : above x y -> above x q -> above y q \/ above q y.
Proof.
  intros (r & E) (r' & E'). assert (L : length q <= length y \/ length y < length q) by lia. subst x.
  revert r' E'. induction r as [|a r IH]; intros r' E'; cbn [app] in E'.
  - left. exists r'. auto.
  - destruct r' as [|b r']; cbn [app] in E'; [right; exists (a :: r); auto|]. injection E' as _ E'. eauto.
Qed.
Lemma blocked s p x q t : tree (s_fs s) -> above x (place_of p) -> above x q -> get (s_fs s) q = Some (File t) -> s_fs (mk s p) = s_fs s.
Proof.
  intros T A B G. destruct (mk_ok s p x A) as (_ & _ & _ & H). apply H. destruct (above_two _ _ _ A B) as [(r & E)|(r & E)].
  - rewrite E. destruct r as [|a r]; [left; cbn; congruence|]. right. cbn [app room]. destruct r as [|b r]; [cbn; rewrite G; auto|]. cbn [app]. rewrite (tree_file _ _ _ r b T G). auto.
  - left. apply (tree_up _ T r). rewrite <- E. congruence.
Qed.

Definition closed (pre : cstr) : Prop := pre = [] \/ exists b, pre = b ++ s2l "/".
Lemma place_step pre c : closed pre -> ~ In "/"%char c -> place_of (pre ++ c) = step (place_of pre) c.
Proof.
  intros [->|(b & ->)] N.
  - cbn [app]. unfold place_of. rewrite names_one by auto. reflexivity.
  - rewrite <- app_assoc. change (s2l "/" ++ c) with ("/"%char :: c). change (b ++ s2l "/") with (b ++ "/"%char :: []). unfold place_of. rewrite !names_app, !fold_left_app, (names_one c) by auto. reflexivity.
Qed.
Lemma place_slash pre : place_of (pre ++ s2l "/") = place_of pre.
Proof. change (pre ++ s2l "/") with (pre ++ "/"%char :: []). unfold place_of. rewrite names_app, fold_left_app. reflexivity. Qed.
Definition plainc (c : cstr) : Prop := c = [] \/ normal_comp c.
Lemma plainc_no c : plainc c -> ~ In "/"%char c.
Proof. intros [->|N]; [intros []|apply N]. Qed.

Fixpoint run (s : sys) (pre : cstr) (cs : list cstr) : sys :=
  match cs with
  | [] => s
  | [c] => mk s (pre ++ c)
  | c :: cs => run (match pre ++ c with [] => s | _ => mk s (pre ++ c) end) ((pre ++ c) ++ s2l "/") cs
  end.
Lemma loop_run : forall n str pre s, length str <= n -> mk (mkdirs_loop fails s pre str) (pre ++ str) = run s pre (split_at "/"%char str).
Proof.
  induction n as [|n IH]; intros str pre s L.
  - destruct str; [|cbn in L; lia]. reflexivity.
  - destruct (cut_slash str) as [(c & r & -> & N)|N].
    + rewrite split_first by auto. rewrite loop_plain by auto. rewrite app_length in L. cbn [length] in L.
      assert (X : split_at "/"%char r <> []) by (destruct r as [|d r]; cbn [split_at]; [discriminate|]; destruct (ceq d "/"%char); [discriminate|]; destruct (split_at "/"%char r); discriminate).
      destruct (split_at "/"%char r) as [|c' cs] eqn:Er; [congruence|].
      change (run s pre (c :: c' :: cs)) with (run (match pre ++ c with [] => s | _ => mk s (pre ++ c) end) ((pre ++ c) ++ s2l "/") (c' :: cs)). rewrite <- Er. rewrite <- IH by lia.
      replace (pre ++ c ++ "/"%char :: r) with (((pre ++ c) ++ s2l "/") ++ r) by (rewrite <- !app_assoc; auto).
      destruct (pre ++ c) as [|d e] eqn:Ep; [rewrite loop_first; reflexivity|]. rewrite loop_slash by discriminate. reflexivity.
    + rewrite split_only by auto. cbn [run]. rewrite <- (app_nil_r str) at 1. rewrite loop_plain by auto. reflexivity.
Qed.
Lemma run_ok : forall cs pre s x, closed pre -> Forall plainc cs -> cs <> [] -> fold_left step cs (place_of pre) = x ->
  grown [x] (s_fs s) (s_fs (run s pre cs)) /\ s_in (run s pre cs) = s_in s /\ (tree (s_fs s) -> tree (s_fs (run s pre cs))) /\
  (never fails -> get (s_fs s) (place_of pre) = Some Dir -> clear_way (s_fs s) x -> get (s_fs (run s pre cs)) x = Some Dir) /\
  (tree (s_fs s) -> ~ clear_way (s_fs s) x -> (forall q t, above x q -> get (s_fs s) q = Some (File t) -> s_fs (run s pre cs) = s_fs s)).
Proof.
  induction cs as [|c cs IH]; intros pre s x C F N E; [congruence|]. inversion F as [|? ? Pc Fc]; subst. cbn [fold_left].
  pose proof (place_step pre c C (plainc_no c Pc)) as Ep.
  assert (Ax : above (fold_left step cs (step (place_of pre) c)) (place_of (pre ++ c))) by (rewrite Ep; apply fold_above; auto).
  assert (Rm : forall f, get f (place_of pre) = Some Dir -> clear_way f (fold_left step cs (step (place_of pre) c)) -> get f (place_of (pre ++ c)) = Some Dir \/ get f (place_of (pre ++ c)) = None /\ room f (place_of (pre ++ c)) = true).
  { intros f G W. destruct (get f (place_of (pre ++ c))) as [[t|]|] eqn:G'; [exfalso; eapply W; eauto|auto|]. right. split; [auto|].
    rewrite Ep in *. destruct Pc as [->|Pc]; [cbn [step] in *; congruence|]. rewrite step_normal in * by auto. cbn [room]. rewrite G. auto. }
  destruct cs as [|c' cs].
  - cbn [run fold_left] in *. rewrite <- Ep in *. destruct (mk_ok s (pre ++ c) (place_of (pre ++ c)) Ax) as (A1 & A2 & A3 & A4). split; [auto|]. split; [auto|]. split; [apply mk_tree|]. split; [intros Nv G W; apply A3; auto|].
    intros T _ q t Aq G. eapply blocked; eauto.
  - set (cs' := c' :: cs) in *. set (s1 := match pre ++ c with [] => s | _ => mk s (pre ++ c) end).
    assert (H1 : grown [fold_left step cs' (step (place_of pre) c)] (s_fs s) (s_fs s1) /\ s_in s1 = s_in s /\ (tree (s_fs s) -> tree (s_fs s1)) /\
      (never fails -> get (s_fs s) (place_of pre) = Some Dir -> clear_way (s_fs s) (fold_left step cs' (step (place_of pre) c)) -> get (s_fs s1) (place_of (pre ++ c)) = Some Dir) /\
      (tree (s_fs s) -> forall q t, above (fold_left step cs' (step (place_of pre) c)) q -> get (s_fs s) q = Some (File t) -> s_fs s1 = s_fs s)).
    { destruct (mk_ok s (pre ++ c) _ Ax) as (A1 & A2 & A3 & A4). unfold s1. destruct (pre ++ c) as [|d e] eqn:Ec.
      - split; [apply grown_refl|]. split; [auto|]. split; [auto|]. split; [|auto]. intros _ G _. apply app_eq_nil in Ec. destruct Ec as [-> ->]. exact G.
      - rewrite <- Ec in *. split; [auto|]. split; [auto|]. split; [apply mk_tree|]. split; [intros Nv G W; apply A3; auto|]. intros T q t Aq G. eapply blocked; eauto. }
    destruct H1 as (B1 & B2 & B3 & B4 & B5).
    assert (Ep' : place_of ((pre ++ c) ++ s2l "/") = step (place_of pre) c) by (rewrite place_slash; auto).
    destruct (IH ((pre ++ c) ++ s2l "/") s1 (fold_left step cs' (step (place_of pre) c))) as (D1 & D2 & D3 & D4 & D5); [right; eauto|auto|discriminate|rewrite Ep'; auto|].
    change (run s pre (c :: cs')) with (run s1 ((pre ++ c) ++ s2l "/") cs'). split; [eapply grown_trans; eauto|]. split; [congruence|]. split; [auto|]. split.
    + intros Nv G W. apply D4; [auto|rewrite place_slash; auto|]. intros q t Aq Gq. destruct (B1 q) as [X|(_ & X & _)]; [apply (W q t Aq); congruence|congruence].
    + intros T Nc q t Aq Gq. specialize (B5 T q t Aq Gq). rewrite <- B5. apply (D5 (B3 T)) with (q := q) (t := t); rewrite ?B5; auto.
Qed.
Lemma makedirs_ok s p : straight p -> exists z s', pBat_CmdMakeDirs fails s p = (z, s') /\ s_in s' = s_in s /\ grown [place_of p] (s_fs s) (s_fs s') /\
  (z = 0%Z /\ get (s_fs s') (place_of p) = Some Dir \/ z = PBAT_MKDIR_ERROR /\ get (s_fs s') (place_of p) <> Some Dir) /\
  (tree (s_fs s) -> tree (s_fs s')) /\
  (never fails -> get (s_fs s) [] = Some Dir -> clear_way (s_fs s) (place_of p) -> z = 0%Z) /\
  (tree (s_fs s) -> forall q t, above (place_of p) q -> get (s_fs s) q = Some (File t) -> s_fs s' = s_fs s).
Proof.
  intros St. assert (X : split_at "/"%char p <> []) by (destruct p as [|d r]; cbn [split_at]; [discriminate|]; destruct (ceq d "/"%char); [discriminate|]; destruct (split_at "/"%char r); discriminate).
  assert (Pl : fold_left step (split_at "/"%char p) (place_of []) = place_of p).
  { change (place_of []) with (@nil cstr). unfold place_of. rewrite split_names. destruct (split_at "/"%char p); auto. }
  destruct (run_ok (split_at "/"%char p) [] s (place_of p) (or_introl eq_refl) St X Pl) as (A1 & A2 & A3 & A4 & A5).
  rewrite <- (loop_run (length p) p [] s (Nat.le_refl _)) in *. cbn [app] in *. unfold pBat_CmdMakeDirs. set (s1 := mkdirs_loop fails s [] p) in *.
  assert (Fz : exists z s', (if pBat_DirExists (s_fs s1) p then (0%Z, s1) else match sys_mkdir fails s1 p with (true, s0) => (0%Z, s0) | (false, s0) => (PBAT_MKDIR_ERROR, s0) end) = (z, s') /\ s' = mk s1 p /\
     (z = 0%Z /\ get (s_fs s') (place_of p) = Some Dir \/ z = PBAT_MKDIR_ERROR /\ get (s_fs s') (place_of p) <> Some Dir)).
  { unfold mk. destruct (pBat_DirExists (s_fs s1) p) eqn:D.
    - exists 0%Z, s1. apply dir_iff in D. auto.
    - destruct (sys_mkdir fails s1 p) as [b s'] eqn:E. destruct (mkdir_cases _ _ _ _ E) as (_ & [(-> & G & R & F)|(-> & F & _)]); cbn [snd].
      + exists 0%Z, s'. split; [auto|]. split; [auto|]. left. rewrite F. split; [auto|apply get_put_same].
      + exists PBAT_MKDIR_ERROR, s'. split; [auto|]. split; [auto|]. right. split; [auto|]. rewrite F. intros H. apply dir_iff in H. congruence. }
  destruct Fz as (z & s' & Ez & -> & Fz). exists z, (mk s1 p). split; [exact Ez|]. split; [auto|]. split; [auto|]. split; [exact Fz|]. split; [auto|]. split.
  - intros Nv R W. destruct Fz as [[-> _]|[_ H]]; [auto|]. exfalso. apply H. apply A4; auto.
  - intros T q t Aq G. eapply A5; eauto. intros W. eapply W; eauto.
Qed.
End Mk.

(** Renaming *)
Lemma none_below f b : tree f -> (forall u, get f (u :: b) = None) -> forall r u, get f (u :: r ++ b) = None.
Proof.
  intros T H. induction r as [|v r IH]; intros u; [apply H|]. destruct (get f (u :: (v :: r) ++ b)) eqn:E; auto. assert (X : get f ((v :: r) ++ b) = Some Dir) by (apply (T u); congruence). cbn [app] in X. rewrite IH in X. discriminate.
Qed.
Lemma none_in f b : tree f -> get f b <> Some Dir -> forall u, get f (u :: b) = None.
Proof. intros T H u. destruct (get f (u :: b)) eqn:E; auto. exfalso. apply H. apply (T u). congruence. Qed.
Section Ren.
Variables (x y : cstr) (up : place).
Hypothesis D : x <> y.
Let a := x :: up.
Let b := y :: up.
Lemma apart r r' : r ++ a <> r' ++ b.
Proof.
  intros E. assert (L : length r = length r') by (apply (f_equal (@length _)) in E; unfold a, b in E; rewrite !app_length in E; cbn in E; lia).
  revert r' E L. induction r as [|u r IH]; intros [|v r'] E L; try discriminate; cbn [app] in E; [unfold a, b in E; congruence|]. injection E as _ E. eapply IH; eauto.
Qed.
Lemma below_other : below a b = None.
Proof.
  destruct (below a b) as [r|] eqn:E; auto. apply below_ok in E. exfalso. apply (apart r []). symmetry. exact E.
Qed.
Lemma moved_ok f : (forall r, get f (r ++ b) = None) -> renamed a b f (moved a b f).
Proof.
  intros N. assert (N' : forall q n, In (q, n) f -> ~ above q b).
  { intros q n I (r & ->). assert (X : In (r ++ b) (map fst f)) by (change (r ++ b) with (fst (r ++ b, n)); apply in_map; auto). apply Search_Proofs.get_in in X. auto. }
  clear N. unfold renamed. induction f as [|[q n] f IH]; cbn [moved map get fst snd]; [auto|].
  destruct IH as (H1 & H2 & H3); [intros; eapply N'; right; eauto|]. specialize (N' q n (or_introl eq_refl)). fold (moved a b f).
  destruct (below a q) as [r0|] eqn:B.
  - apply below_ok in B. subst q. cbn [get fst]. split; [|split].
    + intros r. destruct (place_eqb (r0 ++ a) (r ++ a)) eqn:E.
      * apply place_eqb_true in E. apply app_inv_tail in E. subst. rewrite place_eqb_refl. auto.
      * assert (X : place_eqb (r0 ++ b) (r ++ b) = false); [|rewrite X; auto]. apply place_eqb_false. apply place_eqb_false in E. intros X. apply app_inv_tail in X. congruence.
    + intros Dab r. assert (X : place_eqb (r0 ++ b) (r ++ a) = false); [|rewrite X; auto]. apply place_eqb_false. intros X. symmetry in X. apply apart in X. auto.
    + intros p A B. assert (X : place_eqb (r0 ++ b) p = false) by (apply place_eqb_false; intros <-; apply B; exists r0; auto). assert (X' : place_eqb (r0 ++ a) p = false) by (apply place_eqb_false; intros <-; apply A; exists r0; auto).
      rewrite X, X'. auto.
  - assert (Nq : forall r, q <> r ++ a) by (intros r E; assert (X : exists r, below a q = Some r) by (apply below_iff; eauto); destruct X; congruence). cbn [get fst]. split; [|split].
    + intros r. assert (X : place_eqb q (r ++ b) = false) by (apply place_eqb_false; intros ->; apply N'; exists r; auto). assert (X' : place_eqb q (r ++ a) = false) by (apply place_eqb_false; auto). rewrite X, X'. auto.
    + intros Dab r. assert (X' : place_eqb q (r ++ a) = false) by (apply place_eqb_false; auto). rewrite X'. auto.
    + intros p A B'. destruct (place_eqb q p); auto.
Qed.
Lemma ren_ok fails s old new : place_of old = a -> place_of new = b -> tree (s_fs s) ->
  (exists s', sys_rename fails s old new = (false, s') /\ s_fs s' = s_fs s /\ s_in s' = s_in s) \/
  (exists s', sys_rename fails s old new = (true, s') /\ s_in s' = s_in s /\ get (s_fs s) a <> None /\ renamed a b (s_fs s) (s_fs s')).
Proof.
  intros Ea Eb T. unfold sys_rename. rewrite Ea, Eb. destruct (get (s_fs s) a) as [n|] eqn:G; [|left; eexists; repeat split].
  destruct (fails (s_tick s)); [left; eexists; repeat split|]. assert (X : place_eqb a b = false) by (apply place_eqb_false; unfold a, b; congruence). rewrite X.
  destruct (room (s_fs s) b); cbn [negb]; [|left; eexists; repeat split]. rewrite below_other.
  assert (Fl : forall t, n = File t -> get (s_fs s) b <> Some Dir -> renamed a b (s_fs s) (put (del (s_fs s) a) b (File t))).
  { intros t -> Nb. assert (Na : forall u r, get (s_fs s) (u :: r ++ a) = None) by (intros; apply none_below; auto; apply none_in; auto; congruence).
    assert (Nb' : forall u r, get (s_fs s) (u :: r ++ b) = None) by (intros; apply none_below; auto; apply none_in; auto). split; [|split].
    - intros [|u r]; cbn [app]; [rewrite get_put_same; congruence|]. rewrite get_put, get_del, Na, Nb'. destruct (place_eqb b (u :: r ++ b)) eqn:E; [|match goal with |- (if ?x then _ else _) = _ => destruct x end; auto].
      apply place_eqb_true in E. apply (f_equal (@length _)) in E. cbn [length] in E. rewrite app_length in E. lia.
    - intros _ r. rewrite get_put, get_del. assert (E : place_eqb b (r ++ a) = false) by (apply place_eqb_false; intros E; symmetry in E; apply (apart r []) in E; auto). rewrite E.
      destruct r as [|u r]; cbn [app]; [rewrite place_eqb_refl; auto|]. rewrite Na. match goal with |- (if ?x then _ else _) = _ => destruct x end; auto.
    - intros p A B. rewrite get_put_other, get_del_other; [auto| |]; intros <-; [apply A|apply B]; exists []; auto. }
  destruct n as [t|]; destruct (get (s_fs s) b) as [[u|]|] eqn:Gb; try (left; eexists; repeat split; fail).
  - right. eexists. split; [reflexivity|]. split; [auto|]. split; [discriminate|]. apply Fl; [auto|discriminate].
  - right. eexists. split; [reflexivity|]. split; [auto|]. split; [discriminate|]. apply Fl; [auto|discriminate].
  - destruct (empty_dir (s_fs s) b) eqn:Em; [|left; eexists; repeat split]. right. eexists. split; [reflexivity|]. split; [auto|]. split; [discriminate|]. cbn [with_fs s_fs].
    rewrite empty_iff in Em. destruct (moved_ok (del (s_fs s) b)) as (H1 & H2 & H3).
    { intros [|u r]; [apply get_del_same|]. cbn [app]. rewrite get_del, (none_below _ _ T Em). match goal with |- (if ?x then _ else _) = _ => destruct x end; auto. }
    split; [|split]; [|auto|].
    + intros r. rewrite H1. apply get_del_other. intros E. symmetry in E. apply (apart r []) in E. auto.
    + intros p A B. rewrite H3 by auto. apply get_del_other. intros <-. apply B. exists []. auto.
  - right. eexists. split; [reflexivity|]. split; [auto|]. split; [discriminate|]. cbn [with_fs s_fs]. apply moved_ok. intros [|u r]; [exact Gb|]. cbn [app]. apply none_below; auto. apply none_in; auto. congruence.
Qed.
Lemma ren_can fails s old new : place_of old = a -> place_of new = b -> tree (s_fs s) -> never fails -> get (s_fs s) a <> None ->
  get (s_fs s) b = None \/ (exists t u, get (s_fs s) a = Some (File t) /\ get (s_fs s) b = Some (File u)) \/ (get (s_fs s) a = Some Dir /\ get (s_fs s) b = Some Dir /\ forall u, get (s_fs s) (u :: b) = None) ->
  exists s', sys_rename fails s old new = (true, s').
Proof.
  intros Ea Eb T Nv G C. unfold sys_rename. rewrite Ea, Eb, Nv. assert (X : place_eqb a b = false) by (apply place_eqb_false; unfold a, b; congruence). rewrite X, below_other.
  assert (R : room (s_fs s) b = true) by (unfold b, a in *; cbn [room]; rewrite (T x) by auto; auto). rewrite R. cbn [negb].
  destruct C as [C|[(t & u & C1 & C2)|(C1 & C2 & C3)]].
  - rewrite C. destruct (get (s_fs s) a) as [[t|]|]; [eauto|eauto|congruence].
  - rewrite C1, C2. eauto.
  - rewrite C1, C2. apply empty_iff in C3. rewrite C3. eauto.
Qed.
End Ren.
Lemma dir_part_ok d base : ~ In "/"%char base -> ~ In "\"%char base -> without_name (d ++ "/"%char :: base) = d ++ s2l "/".
Proof.
  intros N1 N2. assert (B : existsb (fun x => ceq x "\"%char || ceq x "/"%char)%bool base = false).
  { apply not_true_iff_false. intros H. apply existsb_exists in H. destruct H as (c & I & H). apply orb_true_iff in H. destruct H as [H|H]; apply ceq_true in H; subst; contradiction. }
  assert (E : forall d, existsb (fun x => ceq x "\"%char || ceq x "/"%char)%bool (d ++ "/"%char :: base) = true).
  { intros d0. rewrite existsb_app. cbn [existsb]. rewrite ceq_refl. rewrite !orb_true_r. auto. }
  unfold without_name. rewrite E. induction d as [|c d IH]; cbn [app dir_part]; [rewrite B; reflexivity|]. rewrite E. f_equal. exact IH.
Qed.

Section Cmd.
Variable fails : nat -> bool.
Variable w : xworld.
Lemma md_ok : forall ns tail fuel old line s, written w line (ns ++ tail) -> length line < fuel -> (tail = [] \/ exists r, tail = s2l "/?" :: r) -> (forall n, In n ns -> n <> s2l "/?" /\ straight (full w n)) ->
  exists z s', md_loop fails fuel w s old line = Ret (z, w, s') /\ s_in s' = s_in s /\ grown (map (fun n => place_of (full w n)) ns) (s_fs s) (s_fs s') /\
    (z = 0%Z /\ (forall n, In n ns -> get (s_fs s') (place_of (full w n)) = Some Dir) \/ z = PBAT_MKDIR_ERROR /\ exists n, In n ns /\ get (s_fs s') (place_of (full w n)) <> Some Dir) /\
    (tree (s_fs s) -> tree (s_fs s')) /\
    (never fails -> get (s_fs s) [] = Some Dir -> (forall n, In n ns -> clear_way (s_fs s) (place_of (full w n))) -> z = 0%Z).
Proof.
  induction ns as [|n ns IH]; intros tail fuel old line s W L Ht H; destruct fuel as [|fuel]; try lia; cbn [app] in W.
  - exists 0%Z, s. assert (E : md_loop fails (S fuel) w s old line = Ret (0%Z, w, s)).
    { cbn [md_loop]. destruct Ht as [->|(r & ->)]; [inversion W; subst; rewrite Params_Proofs.next_end; auto|].
      destruct (Find_Proofs.written_next (fun _ => []) w _ _ _ W) as (rest & E & _ & _). rewrite E. reflexivity. }
    split; [exact E|]. split; [auto|]. split; [apply grown_refl|]. split; [left; split; [auto|intros n []]|]. auto.
  - destruct (Find_Proofs.written_next (fun _ => []) w _ _ _ W) as (rest & E & R & Lr). cbn [md_loop]. rewrite E. cbn [bind].
    destruct (H n) as [Hn St]; [left; auto|]. apply streqb_false in Hn. rewrite Hn. fold (full w n).
    destruct (makedirs_ok fails s (full w n) St) as (z & s1 & -> & I1 & G1 & Z1 & T1 & N1 & _). destruct Z1 as [[-> D1]|[-> D1]].
    + destruct (IH tail fuel n rest s1 R) as (z & s' & E' & I' & G' & Z' & T' & N'); [lia|auto|intros; apply H; right; auto|].
      exists z, s'. split; [exact E'|]. split; [congruence|]. cbn [map]. split; [eapply grown_trans; (eapply grown_le; [|eassumption]); cbn; intuition|]. split; [|split].
      * destruct Z' as [[-> Z']|(-> & m & Im & Z')]; [left; split; [auto|]|right; split; [auto|]; exists m; split; [right; auto|auto]].
        intros m [<-|Im]; [|auto]. destruct (G' (place_of (full w n))) as [X|(X & _)]; congruence.
      * auto.
      * intros Nv Rt C. apply N'; [auto| |].
        -- destruct (G1 []) as [X|(X & _)]; congruence.
        -- intros m Im q t Aq Gq. destruct (G1 q) as [X|(_ & X & _)]; [|congruence]. eapply (C m (or_intror Im) q t); [auto|congruence].
    + exists PBAT_MKDIR_ERROR, s1. split; [reflexivity|]. split; [auto|]. cbn [map]. split; [eapply grown_le; [|exact G1]; cbn; intuition|]. split; [right; split; [auto|]; exists n; split; [left; auto|auto]|]. split; [auto|].
      intros Nv Rt C. apply N1; auto. apply C. left. auto.
Qed.
End Cmd.
