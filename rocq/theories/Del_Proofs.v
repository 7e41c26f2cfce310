(** Del_Proofs.v -- DEL and RD. *)

From Verif Require Import Base Lex StrLib_Model StrLib_Spec Path_Model Path_Spec Var_Model Expand_Model Args_Model Params_Model Params_Spec Params_Proofs Find_Proofs Prompt_Proofs Glob_Model Attr_Model Attr_Spec For_Model Wc_Model Fs_Model Fs_Spec Fs_Proofs Search_Model Search_Spec Search_Proofs Copy_Model Copy_Spec Copy_Proofs Del_Model Del_Spec.

(** Deleting a list of files *)
Fixpoint acts (act : sys -> cstr -> Z * sys) (s : sys) (l : list cstr) : Z * sys :=
  match l with
  | [] => (0%Z, s)
  | x :: l => let '(z, s) := act s x in let '(z', s) := acts act s l in (Z.lor z z', s)
  end.
Definition set_in (s : sys) (i : list cstr) : sys := mkS (s_fs s) (s_tick s) i.
Definition gentle (act : sys -> cstr -> Z * sys) : Prop := forall s x z s', act s x = (z, s') ->
  (z <> 0%Z /\ s_fs s' = s_fs s \/ z = 0%Z /\ s_fs s' = del (s_fs s) (place_of x)) /\ s_in s' = s_in s /\ forall i, act (set_in s i) x = (z, set_in s' i).

Section Acts.
Variable fails : nat -> bool.
Lemma gentle_rmdir : gentle (pBat_Rmdir fails).
Proof.
  intros s x z s'. unfold pBat_Rmdir, sys_rmdir, set_in. cbn [s_fs s_tick]. destruct (get (s_fs s) (place_of x)) as [[t|]|].
  2: destruct (empty_dir _ _ && _). all: intros E; injection E as <- <-; cbn [s_fs s_in with_fs s_tick]; auto 7; split; auto; left; split; auto; discriminate.
Qed.
Lemma gentle_del : gentle (pBat_DelFile fails).
Proof.
  intros s x z s'. unfold pBat_DelFile, sys_remove, sys_rmdir, set_in. cbn [s_fs s_tick]. destruct (get (s_fs s) (place_of x)) as [[t|]|].
  1: destruct (fails _). 3: destruct (empty_dir _ _ && _). all: intros E; injection E as <- <-; cbn [s_fs s_in with_fs s_tick]; auto 7; split; auto; left; split; auto; discriminate.
Qed.
Lemma erased_refl ps f : erased ps f f. Proof. split; [apply same_refl|auto]. Qed.
Lemma erased_trans ps f g h : erased ps f g -> erased ps g h -> erased ps f h.
Proof. intros [A B] [C D]. split; [eapply same_trans; eauto|]. intros p. destruct (B p) as [X|X], (D p) as [Y|Y]; rewrite ?Y; auto. Qed.
Lemma erased_le ps qs f g : (forall p, In p ps -> In p qs) -> erased ps f g -> erased qs f g.
Proof. intros H [A B]. split; [eapply same_le; eauto|auto]. Qed.
Lemma erased_del f p : erased [p] f (del f p).
Proof. split; [apply same_del|]. intros q. rewrite get_del. destruct (place_eqb p q); auto. Qed.

Lemma acts_safe act : gentle act -> forall l s z s', acts act s l = (z, s') ->
  erased (map place_of l) (s_fs s) (s_fs s') /\ s_in s' = s_in s /\ (z = 0%Z -> forall x, In x l -> get (s_fs s') (place_of x) = None).
Proof.
  intros G. induction l as [|x l IH]; intros s z s' E; cbn [acts] in E.
  - injection E as <- <-. split; [apply erased_refl|]. split; [auto|]. intros _ x [].
  - destruct (act s x) as [z1 s1] eqn:E1. destruct (acts act s1 l) as [z2 s2] eqn:E2. injection E as <- <-. destruct (G _ _ _ _ E1) as (F & I & _). destruct (IH _ _ _ E2) as (A & B & C).
    assert (F' : erased [place_of x] (s_fs s) (s_fs s1)) by (destruct F as [[_ ->]|[_ ->]]; [apply erased_refl|apply erased_del]).
    split; [|split; [congruence|]].
    + eapply erased_trans; [eapply erased_le; [|exact F']|eapply erased_le; [|exact A]]; cbn; intuition.
    + intros Z y [<-|Iy]; apply Z.lor_eq_0_iff in Z; destruct Z as [Z1 Z2]; [|auto]. destruct F as [[F _]|[_ F]]; [congruence|].
      destruct A as [_ A]. destruct (A (place_of x)) as [X|X]; rewrite X; auto. rewrite F. apply get_del_same.
Qed.
Lemma acts_files : never fails -> forall l s, NoDup (map place_of l) -> (forall x, In x l -> exists t, get (s_fs s) (place_of x) = Some (File t)) ->
  exists s', acts (pBat_DelFile fails) s l = (0%Z, s').
Proof.
  intros Nv. induction l as [|x l IH]; intros s N F; cbn [acts]; [eauto|]. cbn [map] in N. inversion N as [|? ? N1 N2]; subst.
  destruct (F x) as (t & E); [left; auto|]. unfold pBat_DelFile at 1, sys_remove. rewrite E, Nv.
  destruct (IH (with_fs s (del (s_fs s) (place_of x))) N2) as (s' & E').
  { intros y Iy. cbn [s_fs with_fs]. rewrite get_del_other; [apply F; right; auto|]. intros X. apply N1. rewrite X. apply in_map. auto. }
  rewrite E'. eauto.
Qed.
Lemma empty_iff f q : empty_dir f q = true <-> forall n, get f (n :: q) = None.
Proof.
  unfold empty_dir. rewrite forallb_forall. split.
  - intros H n. destruct (get f (n :: q)) eqn:E; auto. exfalso. assert (X : get f (n :: q) <> None) by congruence. apply get_in in X. apply in_map_iff in X. destruct X as ([y nd] & Ey & Iy). cbn [fst] in Ey. subst y.
    specialize (H _ Iy). cbn [fst] in H. rewrite place_eqb_refl in H. discriminate.
  - intros H [y nd] Iy. cbn [fst]. destruct y as [|n up]; auto. destruct (place_eqb up q) eqn:P; auto. apply place_eqb_true in P. subst up. exfalso.
    assert (X : In (n :: q) (map fst f)) by (change (n :: q) with (fst (n :: q, nd)); apply in_map; auto). apply get_in in X. apply X. auto.
Qed.
Lemma acts_dirs : never fails -> forall l s, inner_first (map place_of l) -> (forall x, In x l -> get (s_fs s) (place_of x) = Some Dir) ->
  (forall x n, In x l -> get (s_fs s) (n :: place_of x) <> None -> In (n :: place_of x) (map place_of l)) ->
  exists s', acts (pBat_Rmdir fails) s l = (0%Z, s').
Proof.
  intros Nv. induction l as [|x l IH]; intros s O F C; cbn [acts]; [eauto|]. cbn [map] in O. inversion O as [|? ? O1 O2]; subst. rewrite Forall_forall in O1.
  unfold pBat_Rmdir at 1, sys_rmdir. rewrite F by (left; auto). rewrite Nv.
  assert (X : empty_dir (s_fs s) (place_of x) = true).
  { apply empty_iff. intros n. destruct (get (s_fs s) (n :: place_of x)) eqn:E; auto. exfalso. destruct (C x n) as [H|H]; [left; auto|congruence| |].
    - apply (f_equal (@length _)) in H. cbn in H. lia.
    - destruct (O1 _ H) as [_ U]. apply U. exists n, []. auto. }
  rewrite X. cbn [andb negb].
  destruct (IH (with_fs s (del (s_fs s) (place_of x))) O2) as (s' & E').
  - intros y Iy. cbn [s_fs with_fs]. rewrite get_del_other; [apply F; right; auto|]. apply (O1 (place_of y)). apply in_map. auto.
  - cbn [s_fs with_fs]. intros y n Iy G. rewrite get_del in G. destruct (place_eqb (place_of x) (n :: place_of y)) eqn:P; [congruence|].
    destruct (C y n) as [H|H]; auto; [right; auto|]. rewrite H in P. rewrite place_eqb_refl in P. discriminate.
  - rewrite E'. eauto.
Qed.

Lemma acts_in act : gentle act -> forall l s z s' i, acts act s l = (z, s') -> acts act (set_in s i) l = (z, set_in s' i).
Proof.
  intros G. induction l as [|y l IH]; intros s z s' i E; cbn [acts] in *; [injection E as <- <-; auto|]. destruct (act s y) as [z1 s1] eqn:E1. destruct (G _ _ _ _ E1) as (_ & _ & W). rewrite W.
  destruct (acts act s1 l) as [z2 s2] eqn:E2. rewrite (IH _ _ _ i E2). injection E as <- <-. auto.
Qed.
Lemma confirm_ok act ask : gentle act -> forall a l input ag a' input', decided a l input ag a' input' -> (a = true -> ask = true) -> forall s st, s_in s = input ->
  exists z s', acts act s ag = (z, s') /\ confirm_all act s l ask (if a then 0%Z else PBAT_ASK_ALL) st = Ret (Z.lor st z, if a' then 0%Z else PBAT_ASK_ALL, set_in s' input').
Proof.
  intros G. induction 1 as [a input|x l input ag a' input' D IH|x l line input ag a' input' N A D IH|x l line input ag a' input' N A D IH|x l line input ag a' input' N A D IH]; intros K s st I; cbn [confirm_all acts].
  - exists 0%Z, s. rewrite Z.lor_0_r. split; [auto|]. subst input. destruct s, a; auto.
  - unfold confirmed. change ((PBAT_ASK_ALL =? 0)%Z && ask) with false. cbn [bind]. change ((PBAT_ASK_ALL =? PBAT_ASK_ALL)%Z) with true. cbn [orb]. destruct (act s x) as [z1 s1] eqn:E1. cbn [bind].
    destruct (G _ _ _ _ E1) as (_ & Is & _). destruct (IH ltac:(discriminate) s1 (Z.lor st z1)) as (z & s' & E & C); [congruence|]. rewrite E. exists (Z.lor z1 z), s'. split; [auto|].
    rewrite C. rewrite Z.lor_assoc. auto.
  - unfold confirmed. assert (ask = true) by auto; subst ask. cbn [Z.eqb andb]. rewrite I. destruct (ask_ok true PBAT_ASK_NO line input N) as [Q _]. rewrite (Q _ A). cbn [bind].
    change ((PBAT_ASK_NO =? PBAT_ASK_ALL)%Z) with false. change ((PBAT_ASK_NO =? PBAT_ASK_YES)%Z) with false. cbn [bind orb].
    destruct (IH (fun _ => K eq_refl) (set_in s input) (Z.lor st 0)) as (z & s' & E & C); [auto|]. fold (set_in s input). rewrite C.
    destruct (acts act s ag) as [z2 s2] eqn:E2. rewrite (acts_in act G _ _ _ _ input E2) in E. injection E as <- <-. exists z2, s2. rewrite Z.lor_0_r. split; auto.
  - unfold confirmed. assert (ask = true) by auto; subst ask. cbn [Z.eqb andb]. rewrite I. destruct (ask_ok true PBAT_ASK_NO line input N) as [Q _]. rewrite (Q _ A). cbn [bind].
    change ((PBAT_ASK_YES =? PBAT_ASK_ALL)%Z) with false. change ((PBAT_ASK_YES =? PBAT_ASK_YES)%Z) with true. cbn [bind orb]. fold (set_in s input).
    destruct (act s x) as [z1 s1] eqn:E1. destruct (G _ _ _ _ E1) as (_ & _ & W). rewrite W. cbn [bind].
    destruct (IH (fun _ => K eq_refl) (set_in s1 input) (Z.lor st z1)) as (z & s' & E & C); [auto|]. rewrite C.
    destruct (acts act s1 ag) as [z2 s2] eqn:E2. rewrite (acts_in act G _ _ _ _ input E2) in E. injection E as <- <-. exists (Z.lor z1 z2), s2. rewrite Z.lor_assoc. split; auto.
  - unfold confirmed. assert (ask = true) by auto; subst ask. cbn [Z.eqb andb]. rewrite I. destruct (ask_ok true PBAT_ASK_NO line input N) as [Q _]. rewrite (Q _ A). cbn [bind].
    change ((PBAT_ASK_ALL =? PBAT_ASK_ALL)%Z) with true. cbn [bind orb]. fold (set_in s input).
    destruct (act s x) as [z1 s1] eqn:E1. destruct (G _ _ _ _ E1) as (_ & _ & W). rewrite W. cbn [bind].
    destruct (IH ltac:(discriminate) (set_in s1 input) (Z.lor st z1)) as (z & s' & E & C); [auto|]. rewrite C.
    destruct (acts act s1 ag) as [z2 s2] eqn:E2. rewrite (acts_in act G _ _ _ _ input E2) in E. injection E as <- <-. exists (Z.lor z1 z2), s2. rewrite Z.lor_assoc. split; auto.
Qed.
Lemma decided_split a l1 l2 input ag a' input' : decided a (l1 ++ l2) input ag a' input' ->
  exists ag1 ag2 a1 i1, ag = ag1 ++ ag2 /\ decided a l1 input ag1 a1 i1 /\ decided a1 l2 i1 ag2 a' input'.
Proof.
  revert a input ag. induction l1 as [|x l1 IH]; intros a input ag D; [exists [], ag, a, input; repeat split; auto; constructor|].
  cbn [app] in D. inversion D; subst; match goal with D : decided _ (l1 ++ l2) _ _ _ _ |- _ => destruct (IH _ _ _ D) as (g1 & g2 & b & i & -> & A & B) end.
  - exists (x :: g1), g2, b, i. split; [auto|]. split; [constructor; auto|auto].
  - exists g1, g2, b, i. split; [auto|]. split; [eapply de_no; eauto|auto].
  - exists (x :: g1), g2, b, i. split; [auto|]. split; [eapply de_yes; eauto|auto].
  - exists (x :: g1), g2, b, i. split; [auto|]. split; [eapply de_all; eauto|auto].
Qed.
Lemma decided_mono a l input ag a' input' : decided a l input ag a' input' -> a' = true -> a = true.
Proof. induction 1; auto. Qed.
Lemma decided_in a l input ag a' input' : decided a l input ag a' input' -> forall x, In x ag -> In x l.
Proof. induction 1; cbn; intros y; intuition. Qed.
Lemma decided_quiet l input : decided false l input l false input.
Proof. induction l; constructor; auto. Qed.
End Acts.

Lemma gather_ok f rec dirmode : forall names ls, Forall2 (fun n l => pBat_GetMatchFileList f rec true dirmode n = Ret l /\ l <> []) names ls -> gather f rec dirmode names = Ret (Some (concat ls)).
Proof.
  induction 1 as [|n l names ls [E N] F IH]; [reflexivity|]. cbn [gather]. rewrite E. cbn [bind]. destruct l as [|x l]; [congruence|]. rewrite IH. reflexivity.
Qed.
Lemma gather_none f rec dirmode n : forall a b ls, Forall2 (fun n l => pBat_GetMatchFileList f rec true dirmode n = Ret l /\ l <> []) a ls -> pBat_GetMatchFileList f rec true dirmode n = Ret [] -> gather f rec dirmode (a ++ n :: b) = Ret None.
Proof.
  induction 1 as [|m l names ls [E N] F IH]; intros H; cbn [app gather]; [rewrite H; reflexivity|]. rewrite E. cbn [bind]. destruct l as [|x l]; [congruence|]. rewrite IH by auto. reflexivity.
Qed.

Lemma filter_filter {A} (f g : A -> bool) l : filter g (filter f l) = filter (fun x => f x && g x) l.
Proof. induction l as [|x l IH]; [auto|]. cbn [filter]. destruct (f x) eqn:E; cbn [andb filter]; [|auto]. destruct (g x); rewrite IH; auto. Qed.
Lemma letter_attr c : (letter_flag c =? 0)%N = match attr_of c with None => true | Some _ => false end.
Proof. destruct c as [[] [] [] [] [] [] [] []]; vm_compute; reflexivity. Qed.
Lemma make_zero t : (pBat_MakeFileAttributes t =? 0)%N = match requests t false with [] => true | _ => false end.
Proof.
  unfold pBat_MakeFileAttributes.
  assert (M : forall t b n, n <> 0%N -> make_attr t b n <> 0%N).
  { clear. induction t as [|c t IH]; intros b n Z; cbn [make_attr]; [auto|]. destruct (_ && _); apply IH; intros X; apply N.lor_eq_0_iff in X; destruct X; contradiction. }
  assert (X : forall b, (make_attr t b 0 =? 0)%N = match requests t b with [] => true | _ => false end); [|apply X].
  induction t as [|c t IH]; intros b; [reflexivity|]. cbn [make_attr requests]. pose proof (letter_attr c) as L. destruct (attr_of c) as [a|] eqn:E.
  - apply N.eqb_neq. apply N.eqb_neq in L. destruct (_ && _); apply M; rewrite N.lor_0_l; auto. intros X. apply N.lor_eq_0_iff in X. destruct X. contradiction.
  - rewrite L. cbn [negb]. rewrite andb_false_r. apply N.eqb_eq in L. rewrite L. cbn [N.lor].
    replace (if ceq c "-"%char then true else b) with (b || Ascii.eqb c "-"%char)%bool; [apply IH|]. change (Ascii.eqb c "-"%char) with (ceq c "-"%char). destruct (ceq c "-"%char), b; auto.
Qed.
Lemma wanted_ok q i :
  let attr := pBat_MakeFileAttributes (d_attr q) in
  (pBat_CheckFileAttributes (if (attr =? 0)%N then N.lor (if d_force q then 0 else PBAT_ATTR_NO_READONLY) (if d_rec q then 0 else PBAT_ATTR_NO_DIR) else attr) i && pBat_CheckFileAttributes PBAT_ATTR_NO_DIR i)%bool = wanted q i.
Proof.
  cbn zeta. unfold wanted. rewrite make_zero. assert (D : pBat_CheckFileAttributes PBAT_ATTR_NO_DIR i = negb (f_dir i)) by (destruct i as [[] [] [] z]; reflexivity).
  destruct (requests (d_attr q) false) eqn:R; [|rewrite D; apply andb_comm].
  destruct (d_force q), (d_rec q), i as [[] [] [] z]; reflexivity.
Qed.

Lemma strnicmp_sym n : forall a b, (strnicmp a b n =? 0)%Z = (strnicmp b a n =? 0)%Z.
Proof.
  intros a b. assert (X : strnicmp a b n = (- strnicmp b a n)%Z); [|rewrite X; destruct (strnicmp b a n); reflexivity].
  revert a b. induction n as [|n IH]; intros a b; destruct a as [|x a], b as [|y b]; cbn [strnicmp]; try lia.
  destruct (ceq (tolower x) (tolower y)) eqn:E.
  - apply ceq_true in E. rewrite E, ceq_refl. auto.
  - apply ceq_false in E. destruct (ceq (tolower y) (tolower x)) eqn:E'; [apply ceq_true in E'; congruence|lia].
Qed.
Section Par.
Variable w : xworld.
Notation full := (full w).
Lemma opt_b t o : nonul t -> nonul (s2l o) -> (stricmp t (s2l o) =? 0)%Z = true <-> same_name t (s2l o).
Proof. intros. apply stricmp_name; auto. Qed.
Lemma lower_low o : map tolower (map tolower (s2l o)) = map tolower (s2l o).
Proof. rewrite map_map. apply map_ext. intros c. clear. destruct c as [[] [] [] [] [] [] [] []]; reflexivity. Qed.
Lemma del_par q ps q' : del_asked q ps q' -> forall tail fuel old line, written w line (ps ++ tail) -> length line < fuel ->
  exists fuel' old' line', written w line' tail /\ length line' < fuel' /\
  del_params fuel w old line (d_force q) (d_rec q) (d_quiet q) (pBat_MakeFileAttributes (d_attr q)) (map full (d_names q)) =
  del_params fuel' w old' line' (d_force q') (d_rec q') (d_quiet q') (pBat_MakeFileAttributes (d_attr q')) (map full (d_names q')).
Proof.
  induction 1 as [q|q p ps q' O A IH|q p ps q' O A IH|q p ps q' O A IH|q p ps q' O A IH|q p t ps q' O A IH|q p ps q' O A IH]; intros tail fuel old line W L.
  { exists fuel, old, line. auto. }
  all: destruct fuel as [|fuel]; [lia|]; cbn [app] in W; destruct (Find_Proofs.written_next (fun _ => []) w _ _ _ W) as (rest & E & R & Lr); cbn [del_params]; rewrite E; cbn [bind].
  all: try destruct O as (N & O).
  Ltac yes o p O := let X := fresh "X" in assert (X : (stricmp p (s2l o) =? 0)%Z = true) by (apply opt_b; [assumption|apply nonul_b; reflexivity|exact O]); rewrite X.
  Ltac no o p O := let X := fresh "X" in let Z := fresh "Z" in assert (X : (stricmp p (s2l o) =? 0)%Z = false) by (apply not_true_iff_false; rewrite opt_b by (solve [assumption|apply nonul_b; reflexivity]); intros Z; unfold same_name in *; rewrite O in Z; discriminate); rewrite X.
  - yes "/P"%string p O. apply IH; auto. lia.
  - no "/P"%string p O. yes "/F"%string p O. apply (IH tail fuel p rest R). lia.
  - no "/P"%string p O. no "/F"%string p O. yes "/S"%string p O. apply (IH tail fuel p rest R). lia.
  - no "/P"%string p O. no "/F"%string p O. no "/S"%string p O. yes "/Q"%string p O. apply (IH tail fuel p rest R). lia.
  - pose proof (conj N O) as O'. fold (attr_option p t) in O'.
    assert (X : forall o, match s2l o with x :: y :: _ => [tolower x; tolower y] <> s2l "/a" | _ => True end -> nonul (s2l o) -> (stricmp p (s2l o) =? 0)%Z = false).
    { intros o D No. apply not_true_iff_false. rewrite opt_b by auto. intros Z. eapply (attr_not p t o); eauto. }
    rewrite (X "/P"%string), (X "/F"%string), (X "/S"%string), (X "/Q"%string) by (try discriminate; apply nonul_b; reflexivity).
    destruct O as (a & Sa & Pa).
    assert (X3 : (strnicmp p (s2l "/A") 2 =? 0)%Z = true) by (rewrite strnicmp_sym; apply kw_b; auto; [apply nonul_b; reflexivity|]; exists a; destruct Pa as [->|[-> _]]; eauto).
    rewrite X3. assert (La : length a = 2) by (apply (f_equal (@length _)) in Sa; rewrite !map_length in Sa; auto).
    assert (Y : @eq cstr (match skipn 2 p with c :: r => if ceq c ":"%char then r else c :: r | [] => [] end) t).
    { destruct a as [|a1 [|a2 [|a3 a]]]; try discriminate. destruct Pa as [->|[-> Pt]]; cbn [app skipn]; [reflexivity|].
      destruct t as [|c t]; auto. destruct (ceq c ":"%char) eqn:Z; auto. apply ceq_true in Z. subst c. exfalso. eapply Pt; eauto. }
    rewrite Y. apply (IH tail fuel p rest R). lia.
  - destruct O as (H1 & H2 & H3).
    assert (NN : forall o, In (map tolower (s2l o)) [s2l "/p"; s2l "/f"; s2l "/s"; s2l "/q"] -> nonul (s2l o) -> (stricmp p (s2l o) =? 0)%Z = false).
    { intros o D No. apply not_true_iff_false. rewrite opt_b by auto. intros Z. apply (H2 _ D). unfold same_name in *. rewrite Z. symmetry. apply lower_low. }
    rewrite (NN "/P"%string), (NN "/F"%string), (NN "/S"%string), (NN "/Q"%string) by (try (apply nonul_b; reflexivity); cbn; tauto).
    assert (X3 : (strnicmp p (s2l "/A") 2 =? 0)%Z = false).
    { apply not_true_iff_false. rewrite strnicmp_sym, kw_b by (auto; apply nonul_b; reflexivity). intros (a & r & X & Sa). apply (H3 a r); auto. }
    rewrite X3. assert (X4 : streqb (s2l "/?") p = false) by (apply streqb_false; congruence). rewrite X4.
    change (map full (d_names q) ++ [full p]) with (map full (d_names q) ++ map full [p]).
    specialize (IH tail fuel p rest R ltac:(lia)). cbn [d_force d_rec d_quiet d_attr d_names] in IH. rewrite map_app in IH. exact IH.
Qed.
Lemma del_done fuel old line fo re qu at_ ns : written w line [] -> 0 < fuel -> del_params fuel w old line fo re qu at_ ns = Ret (DGo fo re qu at_ ns, w).
Proof. intros W F. inversion W; subst. destruct fuel; [lia|]. cbn [del_params]. rewrite Params_Proofs.next_end; auto. Qed.
Lemma del_params_ok line ps q : written w line ps -> del_asked no_drequest ps q ->
  del_params (S (length line)) w [] line false false false 0 [] = Ret (DGo (d_force q) (d_rec q) (d_quiet q) (pBat_MakeFileAttributes (d_attr q)) (map full (d_names q)), w).
Proof.
  intros W A. rewrite <- (app_nil_r ps) in W. destruct (del_par _ _ _ A [] (S (length line)) [] line W ltac:(lia)) as (fuel & old & line' & W' & L & E).
  cbn [no_drequest d_force d_rec d_quiet d_attr d_names map] in E. change (pBat_MakeFileAttributes []) with 0%N in E. rewrite E. apply del_done; auto. lia.
Qed.
Lemma del_help line ps q rest : written w line (ps ++ s2l "/?" :: rest) -> del_asked no_drequest ps q -> del_params (S (length line)) w [] line false false false 0 [] = Ret (DHelp, w).
Proof.
  intros W A. destruct (del_par _ _ _ A (s2l "/?" :: rest) (S (length line)) [] line W ltac:(lia)) as (fuel & old & line' & W' & L & E).
  cbn [no_drequest d_force d_rec d_quiet d_attr d_names map] in E. change (pBat_MakeFileAttributes []) with 0%N in E. rewrite E. destruct fuel; [lia|].
  destruct (Find_Proofs.written_next (fun _ => []) w _ _ _ W') as (r & E' & _ & _). cbn [del_params]. rewrite E'. reflexivity.
Qed.
Lemma rd_par q ps q' : rd_asked q ps q' -> forall tail fuel old line, written w line (ps ++ tail) -> length line < fuel ->
  exists fuel' old' line', written w line' tail /\ length line' < fuel' /\
  rd_params fuel w old line (rd_rec q) (rd_quiet q) (map full (rd_names q)) = rd_params fuel' w old' line' (rd_rec q') (rd_quiet q') (map full (rd_names q')).
Proof.
  induction 1 as [q|q p ps q' O A IH|q p ps q' O A IH|q p ps q' N H2 H3 H4 A IH]; intros tail fuel old line W L.
  { exists fuel, old, line. auto. }
  all: destruct fuel as [|fuel]; [lia|]; cbn [app] in W; destruct (Find_Proofs.written_next (fun _ => []) w _ _ _ W) as (rest & E & R & Lr); cbn [rd_params]; rewrite E; cbn [bind].
  all: try destruct O as (N & O).
  - assert (X0 : streqb p (s2l "/?") = false) by (apply streqb_false; intros ->; discriminate). rewrite X0. yes "/S"%string p O. apply (IH tail fuel p rest R). lia.
  - assert (X0 : streqb p (s2l "/?") = false) by (apply streqb_false; intros ->; discriminate). rewrite X0. no "/S"%string p O. yes "/Q"%string p O. apply (IH tail fuel p rest R). lia.
  - apply streqb_false in H2. rewrite H2. assert (X : (stricmp p (s2l "/S") =? 0)%Z = false) by (apply not_true_iff_false; rewrite opt_b by (auto; apply nonul_b; reflexivity); intros Z; apply H3; exact Z). rewrite X.
    assert (X' : (stricmp p (s2l "/Q") =? 0)%Z = false) by (apply not_true_iff_false; rewrite opt_b by (auto; apply nonul_b; reflexivity); intros Z; apply H4; exact Z). rewrite X'.
    change (map full (rd_names q) ++ [full p]) with (map full (rd_names q) ++ map full [p]).
    specialize (IH tail fuel p rest R ltac:(lia)). cbn [rd_rec rd_quiet rd_names] in IH. rewrite map_app in IH. exact IH.
Qed.
Lemma rd_params_ok line ps q : written w line ps -> rd_asked no_rrequest ps q ->
  rd_params (S (length line)) w [] line false false [] = Ret (DGo false (rd_rec q) (rd_quiet q) 0 (map full (rd_names q)), w).
Proof.
  intros W A. rewrite <- (app_nil_r ps) in W. destruct (rd_par _ _ _ A [] (S (length line)) [] line W ltac:(lia)) as (fuel & old & line' & W' & L & E).
  cbn [no_rrequest rd_rec rd_quiet rd_names map] in E. rewrite E. inversion W'; subst. destruct fuel; [lia|]. cbn [rd_params]. rewrite Params_Proofs.next_end; auto.
Qed.
Lemma rd_help line ps q rest : written w line (ps ++ s2l "/?" :: rest) -> rd_asked no_rrequest ps q -> rd_params (S (length line)) w [] line false false [] = Ret (DHelp, w).
Proof.
  intros W A. destruct (rd_par _ _ _ A (s2l "/?" :: rest) (S (length line)) [] line W ltac:(lia)) as (fuel & old & line' & W' & L & E).
  cbn [no_rrequest rd_rec rd_quiet rd_names map] in E. rewrite E. destruct fuel; [lia|].
  destruct (Find_Proofs.written_next (fun _ => []) w _ _ _ W') as (r & E' & _ & _). cbn [rd_params]. rewrite E'. reflexivity.
Qed.
End Par.
