(** Del_Props.v -- C76, C77: DEL and RD. *)

From Verif Require Import Base Lex StrLib_Model StrLib_Spec Path_Model Path_Spec Var_Model Expand_Model Args_Model Args_Props Params_Model Params_Spec Params_Proofs Find_Proofs Prompt_Proofs Glob_Model Attr_Model Attr_Spec For_Model Wc_Model Fs_Model Fs_Spec Fs_Proofs Search_Model Search_Spec Search_Proofs Search_Props Copy_Model Copy_Spec Copy_Proofs Del_Model Del_Spec Del_Proofs Find_Props.

Lemma joker_wild l : existsb (existsb is_joker) l = true <-> exists n, In n l /\ wild n.
Proof.
  rewrite existsb_exists. split; intros (n & I & H); exists n; (split; [auto|]).
  - apply existsb_exists in H. destruct H as (c & Ic & J). unfold is_joker in J. apply orb_true_iff in J. destruct J as [J|J]; apply ceq_true in J; subst; [left|right]; auto.
  - apply existsb_exists. destruct H as [H|H]; eexists; (split; [exact H|reflexivity]).
Qed.
Lemma info_dir perm dsize f x : f_dir (info perm dsize f x) = match get f (place_of x) with Some (File _) => false | _ => true end.
Proof. unfold info. destruct (get f (place_of x)) as [[t|]|]; auto. Qed.
Lemma Forall2_map {A B} (g : A -> A) (P : A -> B -> Prop) l ls : Forall2 (fun n m => P (g n) m) l ls -> Forall2 P (map g l) ls.
Proof. induction 1; cbn [map]; constructor; auto. Qed.

(** C76: DEL deletes the files that its names stand for (C75), are wanted, and that the user
    agrees to, if there is a wildcard and no /Q; and nothing else, whatever fails.  Status 0
    means that they are gone. *)
Theorem C76_delete : forall fails perm dsize w s line ps q ls a agreed a' input',
  written w line ps -> del_asked no_drequest ps q -> d_names q <> [] ->
  Forall2 (fun n l => pBat_GetMatchFileList (s_fs s) (d_rec q) true true (full w n) = Ret l /\ l <> []) (d_names q) ls ->
  (a = true <-> (exists n, In n (d_names q) /\ wild (full w n)) /\ d_quiet q = false) ->
  decided a (filter (fun x => wanted q (info perm dsize (s_fs s) x)) (concat ls)) (s_in s) agreed a' input' ->
  exists z s', pBat_CmdDel fails perm dsize w s line = Ret (z, w, s') /\ s_in s' = input' /\
    erased (map place_of agreed) (s_fs s) (s_fs s') /\
    (z = 0%Z -> forall x, In x agreed -> get (s_fs s') (place_of x) = None) /\
    (never fails -> NoDup (map place_of agreed) -> z = 0%Z).
Proof.
  intros fails perm dsize w s line ps q ls a agreed a' input' W A N F Aa D. unfold pBat_CmdDel. rewrite (del_params_ok w line ps q W A). cbn [bind].
  destruct (map (full w) (d_names q)) as [|n0 ns] eqn:En; [destruct (d_names q); [congruence|discriminate]|]. rewrite <- En.
  rewrite (gather_ok _ _ _ _ ls) by (apply Forall2_map; auto). cbn [bind]. rewrite filter_filter.
  rewrite (filter_ext _ (fun x => wanted q (info perm dsize (s_fs s) x))) by (intros x; apply wanted_ok).
  assert (Ea : (if existsb (existsb is_joker) (map (full w) (d_names q)) && negb (d_quiet q) then 0%Z else PBAT_ASK_ALL) = if a then 0%Z else PBAT_ASK_ALL).
  { assert (X : (existsb (existsb is_joker) (map (full w) (d_names q)) && negb (d_quiet q))%bool = a); [|rewrite X; auto].
    apply eq_true_iff_eq. rewrite Aa, andb_true_iff, negb_true_iff, joker_wild. split; intros [(n & I & H) Q]; (split; [|auto]).
    - apply in_map_iff in I. destruct I as (m & <- & I). eauto.
    - exists (full w n). split; [apply in_map; auto|auto]. }
  rewrite Ea. destruct (confirm_ok (pBat_DelFile fails) true (gentle_del fails) _ _ _ _ _ _ D (fun _ => eq_refl) s 0 eq_refl) as (z & s' & E & C). rewrite C. cbn [bind].
  destruct (acts_safe _ (gentle_del fails) _ _ _ _ E) as (S1 & S2 & S3).
  exists z, (set_in s' input'). rewrite Z.lor_0_l. split; [auto|]. split; [auto|]. split; [exact S1|]. split; [exact S3|]. intros Nv Nd.
  destruct (acts_files fails Nv agreed s Nd) as (s2 & E2); [|congruence].
  intros x Ix. apply (decided_in _ _ _ _ _ _ D) in Ix. apply filter_In in Ix. destruct Ix as [_ Ix]. unfold wanted in Ix. apply andb_true_iff in Ix. destruct Ix as [Ix _]. rewrite info_dir in Ix.
  destruct (get (s_fs s) (place_of x)) as [[t|]|]; try discriminate. eauto.
Qed.
Print Assumptions C76_delete.

Lemma firsts_nodup l : inner_first l -> NoDup l.
Proof. induction 1 as [|x l F O IH]; constructor; auto. intros I. rewrite Forall_forall in F. destruct (F x I) as [X _]. congruence. Qed.
Lemma filter_places (g : cstr -> bool) l : NoDup (map place_of l) -> NoDup (map place_of (filter g l)).
Proof.
  induction l as [|x l IH]; cbn [map filter]; intros N; [constructor|]. inversion N; subst. destruct (g x); [|auto]. cbn [map]. constructor; auto.
  intros I. apply in_map_iff in I. destruct I as (y & E & I). apply filter_In in I. destruct I as [I _]. match goal with H : ~ In _ _ |- _ => apply H end. rewrite <- E. apply in_map. auto.
Qed.
(** C76: DEL /Q with one pattern: the files that match it are gone, those in the directories
    below too with /S, and everything else is as before. *)
Theorem C76_pattern : forall perm dsize fails w s line ps q n comps,
  never fails -> written w line ps -> del_asked no_drequest ps q -> d_names q = [n] -> d_quiet q = true -> full w n = "/"%char :: slashed comps ->
  proper (s_fs s) -> tree (s_fs s) -> once (s_fs s) ->
  Forall component comps -> Forall normal_comp comps -> Forall (fun c => wild c -> understood c) comps -> (exists c, In c comps /\ wild c) ->
  (d_rec q = true -> wild (last comps [])) -> get (s_fs s) (place_of ("/"%char :: slashed comps)) = None ->
  (forall ns p, reach (s_fs s) (d_rec q) false [] comps ns p -> length ("/"%char :: slashed ns) < FILENAME_MAX) ->
  (exists ns p, reach (s_fs s) (d_rec q) false [] comps ns p) ->
  exists s', pBat_CmdDel fails perm dsize w s line = Ret (0%Z, w, s') /\ s_in s' = s_in s /\
    forall p, (exists ns, reach (s_fs s) (d_rec q) false [] comps ns p /\ wanted q (info perm dsize (s_fs s) ("/"%char :: slashed ns)) = true) /\ get (s_fs s') p = None \/
              ~ (exists ns, reach (s_fs s) (d_rec q) false [] comps ns p /\ wanted q (info perm dsize (s_fs s) ("/"%char :: slashed ns)) = true) /\ get (s_fs s') p = get (s_fs s) p.
Proof.
  intros perm dsize fails w s line ps q n comps Nv W A En Q Ef Pr Tr On Fc Fn Fu Ew Rw G Sh (ns0 & p0 & R0).
  destruct (C75_pattern (s_fs s) (d_rec q) true true comps Pr Tr Fc Fu Ew Rw G Sh) as (l & El & Il & Ol). specialize (Ol eq_refl On Fn). cbn [negb] in Il.
  assert (Ne : l <> []) by (intros ->; apply (proj2 (Il ("/"%char :: slashed ns0))); eauto).
  set (m := filter (fun x => wanted q (info perm dsize (s_fs s) x)) l).
  destruct (C76_delete fails perm dsize w s line ps q [l] false m false (s_in s) W A) as (z & s' & E & I & Er & Gn & Z).
  - rewrite En. discriminate.
  - rewrite En. constructor; [|constructor]. rewrite Ef. auto.
  - rewrite Q. split; [discriminate|intros [_ X]; discriminate].
  - cbn [concat]. rewrite app_nil_r. apply decided_quiet.
  - assert (Z0 : z = 0%Z) by (apply Z; auto; apply filter_places; apply firsts_nodup; exact Ol). subst z. exists s'. split; [exact E|]. split; [exact I|].
    assert (Pl : forall ns p, reach (s_fs s) (d_rec q) false [] comps ns p -> place_of ("/"%char :: slashed ns) = p).
    { intros ns p R. pose proof (reach_place _ _ _ _ _ _ _ R) as X. assert (Nn : ns <> []) by (intros ->; inversion R; subst; destruct Ew as (? & [] & _)).
      rewrite <- (root_along ns) by (auto; eapply reach_comps; eauto). rewrite place_along by (eapply reach_comps; eauto). change (place_of (s2l "/")) with (@nil cstr). auto. }
    intros p. destruct (in_dec place_dec p (map place_of m)) as [Ip|Np].
    + left. apply in_map_iff in Ip. destruct Ip as (x & <- & Ix). split; [|auto]. unfold m in Ix. apply filter_In in Ix. destruct Ix as [Ix Wx]. apply Il in Ix. destruct Ix as (ns & p & R & ->).
      exists ns. rewrite (Pl _ _ R). split; auto.
    + right. split; [|destruct Er as [Er _]; apply Er; auto]. intros (ns & R & Wn). apply Np. rewrite <- (Pl _ _ R). apply in_map. unfold m. apply filter_In. split; [|auto]. apply Il. eauto.
Qed.
Print Assumptions C76_pattern.

(** C76: no name, a name that stands for nothing, and /?: nothing is deleted. *)
Theorem C76_nothing : forall fails perm dsize w s line ps q,
  del_asked no_drequest ps q ->
  (written w line ps -> d_names q = [] -> pBat_CmdDel fails perm dsize w s line = Ret ((-1)%Z, w, s)) /\
  (forall a n b ls, written w line ps -> d_names q = a ++ n :: b ->
     Forall2 (fun n l => pBat_GetMatchFileList (s_fs s) (d_rec q) true true (full w n) = Ret l /\ l <> []) a ls ->
     pBat_GetMatchFileList (s_fs s) (d_rec q) true true (full w n) = Ret [] -> pBat_CmdDel fails perm dsize w s line = Ret (PBAT_NO_MATCH, w, s)) /\
  (forall rest, written w line (ps ++ s2l "/?" :: rest) -> pBat_CmdDel fails perm dsize w s line = Ret (0%Z, w, s)).
Proof.
  intros fails perm dsize w s line ps q A. unfold pBat_CmdDel. split; [|split].
  - intros W N. rewrite (del_params_ok w line ps q W A), N. reflexivity.
  - intros a n b ls W N F E. rewrite (del_params_ok w line ps q W A), N. cbn [bind]. rewrite map_app. cbn [map].
    destruct (map (full w) a ++ full w n :: map (full w) b) as [|n0 ns] eqn:X; [destruct (map (full w) a); discriminate|]. rewrite <- X.
    rewrite (gather_none _ _ _ (full w n) _ _ ls) by (try apply Forall2_map; auto). reflexivity.
  - intros rest W. rewrite (del_help w line ps q rest W A). reflexivity.
Qed.
Print Assumptions C76_nothing.

(** C77: RD with one name and without /S removes that directory if it is empty, and changes
    nothing otherwise; it never asks.  The status is 0 in any case. *)
Theorem C77_one : forall fails perm dsize w s line ps q n,
  written w line ps -> rd_asked no_rrequest ps q -> rd_names q = [n] -> rd_rec q = false ->
  exists s', pBat_CmdRmdir fails perm dsize w s line = Ret (0%Z, w, s') /\ s_in s' = s_in s /\
    let p := place_of (full w n) in
    (get (s_fs s) p = Some Dir -> (forall x, get (s_fs s) (x :: p) = None) -> never fails -> get (s_fs s') p = None) /\
    (get (s_fs s) p = Some Dir -> (forall x, get (s_fs s) (x :: p) = None) -> erased [p] (s_fs s) (s_fs s')) /\
    (get (s_fs s) p <> Some Dir \/ (exists x, get (s_fs s) (x :: p) <> None) -> s_fs s' = s_fs s).
Proof.
  intros fails perm dsize w s line ps q n W A En R. unfold pBat_CmdRmdir. rewrite (rd_params_ok w line ps q W A), En, R. cbn [bind map]. unfold confirmed.
  change ((PBAT_ASK_ALL =? 0)%Z) with false. change ((PBAT_ASK_ALL =? PBAT_ASK_ALL)%Z) with true. cbn [andb bind orb]. fold (full w n).
  unfold pBat_Rmdir, sys_rmdir. destruct (get (s_fs s) (place_of (full w n))) as [[t|]|] eqn:G.
  2: destruct (empty_dir (s_fs s) (place_of (full w n))) eqn:Em; [destruct (fails (s_tick s)) eqn:Fa|].
  all: cbn [andb negb bind]; eexists; (split; [reflexivity|]); (split; [reflexivity|]); cbn [with_fs s_fs]; cbn zeta.
  - split; [congruence|]. split; [congruence|auto].
  - split; [intros _ _ N; rewrite N in Fa; discriminate|]. split; [intros; apply erased_refl|auto].
  - split; [intros; apply get_del_same|]. split; [intros; apply erased_del|]. intros [X|(x & X)]; [congruence|]. exfalso. apply X. eapply empty_iff; eauto.
  - assert (X : ~ forall x, get (s_fs s) (x :: place_of (full w n)) = None) by (intros X; apply empty_iff in X; congruence). split; [intros; contradiction|]. split; [intros; contradiction|auto].
  - split; [congruence|]. split; [congruence|auto].
Qed.
Print Assumptions C77_one.

Definition is_dir (f : fsys) (x : cstr) : bool := match get f (place_of x) with Some Dir => true | _ => false end.

(** C77: RD with /S or several names takes everything that the names stand for (C75): first the
    files, then the directories.  It asks for each unless /Q is given, and deletes those agreed
    to; nothing else changes, whatever fails.  Status 0 means that they are gone. *)
Theorem C77_several : forall fails perm dsize w s line ps q ls agreed a' input',
  written w line ps -> rd_asked no_rrequest ps q -> rd_names q <> [] -> rd_rec q = true \/ length (rd_names q) <> 1 ->
  Forall2 (fun n l => pBat_GetMatchFileList (s_fs s) (rd_rec q) true false (full w n) = Ret l /\ l <> []) (rd_names q) ls ->
  let l := concat ls in
  (forall x, In x l -> get (s_fs s) (place_of x) <> None) ->
  decided (negb (rd_quiet q)) (filter (fun x => negb (is_dir (s_fs s) x)) l ++ filter (is_dir (s_fs s)) l) (s_in s) agreed a' input' ->
  exists z s', pBat_CmdRmdir fails perm dsize w s line = Ret (z, w, s') /\ s_in s' = input' /\
    erased (map place_of agreed) (s_fs s) (s_fs s') /\
    (z = 0%Z -> forall x, In x agreed -> get (s_fs s') (place_of x) = None) /\
    (never fails -> inner_first (map place_of l) ->
     (forall x n, In x agreed -> get (s_fs s) (place_of x) = Some Dir -> get (s_fs s) (n :: place_of x) <> None -> In (n :: place_of x) (map place_of agreed)) -> z = 0%Z).
Proof.
  intros fails perm dsize w s line ps q ls agreed a' input' W A N Rn F l Th D. unfold pBat_CmdRmdir. rewrite (rd_params_ok w line ps q W A). cbn [bind].
  destruct (decided_split _ _ _ _ _ _ _ D) as (g1 & g2 & a1 & i1 & -> & D1 & D2).
  assert (Dx : forall x, pBat_CheckFileAttributes PBAT_CMD_ATTR_DIR (info perm dsize (s_fs s) x) = f_dir (info perm dsize (s_fs s) x)) by (intros x; destruct (info perm dsize (s_fs s) x) as [[] [] [] z]; reflexivity).
  assert (Ed : forall x, In x l -> pBat_CheckFileAttributes PBAT_CMD_ATTR_DIR (info perm dsize (s_fs s) x) = is_dir (s_fs s) x).
  { intros x Ix. rewrite Dx, info_dir. unfold is_dir. specialize (Th x Ix). destruct (get (s_fs s) (place_of x)) as [[t|]|]; auto. congruence. }
  assert (Goal1 : exists z s', (do l0 <- gather (s_fs s) (rd_rec q) false (map (full w) (rd_names q));
    match l0 with
    | Some l1 =>
        do (z, choice, s0) <- confirm_all (pBat_DelFile fails) s (filter (fun x => negb (pBat_CheckFileAttributes PBAT_CMD_ATTR_DIR (info perm dsize (s_fs s) x))) l1) (negb (rd_quiet q)) (if rd_quiet q then PBAT_ASK_ALL else 0%Z) 0;
        do (z0, _, s1) <- confirm_all (pBat_Rmdir fails) s0 (filter (fun x => pBat_CheckFileAttributes PBAT_CMD_ATTR_DIR (info perm dsize (s_fs s) x)) l1) (negb (rd_quiet q)) choice z; Ret (z0, w, s1)
    | None => Ret (PBAT_NO_MATCH, w, s)
    end) = Ret (z, w, s') /\ s_in s' = input' /\ erased (map place_of (g1 ++ g2)) (s_fs s) (s_fs s') /\
    (z = 0%Z -> forall x, In x (g1 ++ g2) -> get (s_fs s') (place_of x) = None) /\
    (never fails -> inner_first (map place_of l) ->
     (forall x n, In x (g1 ++ g2) -> get (s_fs s) (place_of x) = Some Dir -> get (s_fs s) (n :: place_of x) <> None -> In (n :: place_of x) (map place_of (g1 ++ g2))) -> z = 0%Z)).
  - rewrite (gather_ok _ _ _ _ ls) by (apply Forall2_map; auto). cbn [bind]. fold l.
    rewrite (filter_ext_in _ (is_dir (s_fs s)) l Ed). rewrite (filter_ext_in _ (fun x => negb (is_dir (s_fs s) x)) l) by (intros x Ix; rewrite (Ed x Ix); auto).
    replace (if rd_quiet q then PBAT_ASK_ALL else 0%Z) with (if negb (rd_quiet q) then 0%Z else PBAT_ASK_ALL) by (destruct (rd_quiet q); auto).
    destruct (confirm_ok (pBat_DelFile fails) (negb (rd_quiet q)) (gentle_del fails) _ _ _ _ _ _ D1 (fun x => x) s 0 eq_refl) as (z1 & s1 & E1 & C1). rewrite C1. cbn [bind].
    destruct (confirm_ok (pBat_Rmdir fails) (negb (rd_quiet q)) (gentle_rmdir fails) _ _ _ _ _ _ D2 (decided_mono _ _ _ _ _ _ D1) (set_in s1 i1) (Z.lor 0 z1) eq_refl) as (z2 & s2 & E2 & C2). rewrite C2. cbn [bind].
    destruct (acts_safe _ (gentle_del fails) _ _ _ _ E1) as (S1 & S2 & S3). destruct (acts_safe _ (gentle_rmdir fails) _ _ _ _ E2) as (T1 & T2 & T3). cbn [s_fs set_in] in T1.
    eexists. exists (set_in s2 input'). split; [reflexivity|]. split; [reflexivity|]. cbn [s_fs set_in]. rewrite Z.lor_0_l. split; [|split].
    + rewrite map_app. eapply erased_trans; (eapply erased_le; [|eassumption]); intros p Ip; apply in_or_app; auto.
    + intros Z x Ix. apply Z.lor_eq_0_iff in Z. destruct Z as [Z1 Z2]. apply in_app_or in Ix. destruct Ix as [Ix|Ix]; [|auto]. destruct T1 as [_ T1]. destruct (T1 (place_of x)) as [X|X]; rewrite X; auto.
    + intros Nv O Cl. pose proof (firsts_nodup _ O) as Nd.
      assert (G1 : forall x, In x g1 -> exists t, get (s_fs s) (place_of x) = Some (File t)).
      { intros x Ix. apply (decided_in _ _ _ _ _ _ D1) in Ix. apply filter_In in Ix. destruct Ix as [Ix X]. unfold is_dir in X. specialize (Th x Ix). destruct (get (s_fs s) (place_of x)) as [[t|]|]; [eauto|discriminate|congruence]. }
      assert (G2 : forall x, In x g2 -> get (s_fs s) (place_of x) = Some Dir).
      { intros x Ix. apply (decided_in _ _ _ _ _ _ D2) in Ix. apply filter_In in Ix. destruct Ix as [Ix X]. unfold is_dir in X. destruct (get (s_fs s) (place_of x)) as [[t|]|]; [discriminate|auto|discriminate]. }
      assert (Sub : forall b l i g b' i', decided b l i g b' i' -> forall P : place -> place -> Prop, ForallOrdPairs P (map place_of l) -> ForallOrdPairs P (map place_of g)).
      { clear. induction 1; intros P O; auto; cbn [map] in *; inversion O; subst; auto; constructor; auto.
        all: apply Forall_forall; intros p Ip; match goal with H : Forall _ _ |- _ => rewrite Forall_forall in H; apply H end; apply in_map_iff in Ip; destruct Ip as (y & <- & Iy); apply in_map; eapply decided_in; eauto. }
      assert (Fl : forall (g : cstr -> bool) (P : place -> place -> Prop) l, ForallOrdPairs P (map place_of l) -> ForallOrdPairs P (map place_of (filter g l))).
      { clear. induction l as [|x l IH]; intros O; cbn [filter map] in *; [auto|]. inversion O; subst. destruct (g x); [|auto]. cbn [map]. constructor; [|auto].
        apply Forall_forall. intros p Ip. match goal with H : Forall _ _ |- _ => rewrite Forall_forall in H; apply H end. apply in_map_iff in Ip. destruct Ip as (y & <- & Iy). apply in_map. apply filter_In in Iy. apply Iy. }
      assert (O1 : inner_first (map place_of g1)) by (eapply Sub; [exact D1|]; apply Fl; exact O).
      assert (O2 : inner_first (map place_of g2)) by (eapply Sub; [exact D2|]; apply Fl; exact O).
      destruct (acts_files fails Nv g1 s (firsts_nodup _ O1) G1) as (s1' & E1'). rewrite E1 in E1'. injection E1' as -> ->.
      destruct (acts_dirs fails Nv g2 (set_in s1' i1) O2) as (s2' & E2').
      * intros x Ix. cbn [s_fs set_in]. destruct S1 as [S1 _]. rewrite S1; [auto|]. intros X. apply in_map_iff in X. destruct X as (y & Ey & Iy). destruct (G1 y Iy) as (t & Et). rewrite Ey, G2 in Et by auto. discriminate.
      * intros x n Ix G. cbn [s_fs set_in] in G. assert (G' : get (s_fs s) (n :: place_of x) <> None) by (destruct S1 as [_ S1]; destruct (S1 (n :: place_of x)) as [X|X]; rewrite X in G; congruence).
        specialize (Cl x n (in_or_app _ _ _ (or_intror Ix)) (G2 x Ix) G'). rewrite map_app in Cl. apply in_app_or in Cl. destruct Cl as [Cl|Cl]; [|auto].
        exfalso. apply in_map_iff in Cl. destruct Cl as (y & Ey & Iy). apply G. rewrite <- Ey. apply S3; auto.
      * rewrite E2 in E2'. injection E2' as -> _. reflexivity.
  - destruct (rd_names q) as [|n1 [|n2 ns]] eqn:En; [congruence| |].
    + destruct Rn as [Rn|Rn]; [rewrite Rn in *; exact Goal1|cbn in Rn; lia].
    + destruct (rd_rec q); exact Goal1.
Qed.
Print Assumptions C77_several.

(** C77: RD /S /Q with a directory: the directory and everything below it is gone, and
    everything else is as before. *)
Theorem C77_tree : forall fails perm dsize w s line ps q n,
  never fails -> written w line ps -> rd_asked no_rrequest ps q -> rd_names q = [n] -> rd_rec q = true -> rd_quiet q = true ->
  proper (s_fs s) -> tree (s_fs s) -> once (s_fs s) -> get (s_fs s) (place_of (full w n)) = Some Dir ->
  (forall ns, get (s_fs s) (rev ns ++ place_of (full w n)) <> None -> length (along (full w n) ns) < FILENAME_MAX) ->
  exists s', pBat_CmdRmdir fails perm dsize w s line = Ret (0%Z, w, s') /\ s_in s' = s_in s /\
    let d := place_of (full w n) in
    get (s_fs s') d = None /\ (forall p, under d p -> get (s_fs s') p = None) /\ forall p, p <> d -> ~ under d p -> get (s_fs s') p = get (s_fs s) p.
Proof.
  intros fails perm dsize w s line ps q n Nv W A En R Q Pr Tr On G Sh. set (d := full w n) in *. set (f := s_fs s) in *.
  destruct (C75_directory f true false d Pr Tr On G (or_introl eq_refl) Sh) as (l & El & Ol & Il).
  assert (Id : In d l) by (apply Il; auto).
  assert (Pa : forall ns, get f (rev ns ++ place_of d) <> None -> place_of (along d ns) = rev ns ++ place_of d).
  { intros ns H. assert (Fn : Forall normal_comp ns) by (apply Forall_forall; intros y Iy; apply (Pr _ y H); apply in_or_app; left; apply in_rev in Iy; auto).
    rewrite place_along by (eapply Forall_impl; [|exact Fn]; apply normal_component). clear - Fn. generalize (place_of d). induction Fn as [|y ns Hy Fn IH]; intros pl; [auto|].
    cbn [fold_left rev]. rewrite IH, step_normal by auto. rewrite <- app_assoc. auto. }
  assert (Th : forall x, In x l -> get f (place_of x) <> None /\ (place_of x = place_of d \/ under (place_of d) (place_of x))).
  { intros x Ix. apply Il in Ix. destruct Ix as [(ns & -> & H & N & _)|[_ ->]]; [|split; [congruence|auto]]. rewrite Pa by auto. split; [auto|]. right.
    destruct (rev ns) as [|y r] eqn:Er; [apply (f_equal (@rev _)) in Er; rewrite rev_involutive in Er; cbn in Er; congruence|]. exists y, r. auto. }
  assert (Al : forall p, get f p <> None -> p = place_of d \/ under (place_of d) p -> In p (map place_of l)).
  { intros p H [->|(y & r & ->)]; [apply in_map; auto|]. assert (X : rev (rev (y :: r)) ++ place_of d = y :: r ++ place_of d) by (rewrite rev_involutive; auto).
    rewrite <- X. rewrite <- Pa by (rewrite X; auto). apply in_map. apply Il. left. exists (rev (y :: r)). split; [auto|]. split; [rewrite X; auto|]. split; [cbn [rev]; intros Y; apply app_eq_nil in Y; destruct Y; discriminate|discriminate]. }
  set (files := filter (fun x => negb (is_dir f x)) l). set (dirs := filter (is_dir f) l).
  destruct (C77_several fails perm dsize w s line ps q [l] (files ++ dirs) false (s_in s) W A) as (z & s' & E & I & Er & Gn & Z).
  - rewrite En. discriminate.
  - auto.
  - rewrite En, R. constructor; [|constructor]. split; [exact El|]. intros ->. destruct Id.
  - cbn [concat]. rewrite app_nil_r. intros x Ix. apply Th. auto.
  - cbn [concat]. rewrite app_nil_r, Q. apply decided_quiet.
  - cbn [concat] in *. rewrite app_nil_r in *.
    assert (Im : forall x, In x l -> In x (files ++ dirs)).
    { intros x Ix. apply in_or_app. unfold files, dirs. rewrite !filter_In. destruct (is_dir f x); auto. }
    assert (Im2 : forall x, In x (files ++ dirs) -> In x l) by (intros x Ix; apply in_app_or in Ix; unfold files, dirs in Ix; rewrite !filter_In in Ix; tauto).
    assert (Z0 : z = 0%Z).
    { apply Z; [exact Nv|exact Ol|]. intros x m Ix Gx Gm. specialize (Al (m :: place_of x) Gm).
      assert (X : In (m :: place_of x) (map place_of l)).
      { apply Al. right. destruct (Th x (Im2 x Ix)) as [_ [->|(y & r & ->)]]; [exists m, []; auto|exists m, (y :: r); auto]. }
      apply in_map_iff in X. destruct X as (y & <- & Iy). apply in_map. auto. }
    subst z. exists s'. split; [exact E|]. split; [exact I|]. cbn zeta. specialize (Gn eq_refl). destruct Er as [Er Eg].
    assert (K : forall p, p = place_of d \/ under (place_of d) p -> get (s_fs s') p = None).
    { intros p H. destruct (get f p) eqn:Ep; [|destruct (Eg p) as [X|X]; [unfold f in Ep; congruence|auto]].
      assert (X : In p (map place_of l)) by (apply Al; [congruence|auto]). apply in_map_iff in X. destruct X as (x & <- & Ix). auto. }
    split; [auto|]. split; [auto|]. intros p P1 P2. apply Er. intros Ip. apply in_map_iff in Ip. destruct Ip as (x & <- & Ix). destruct (Th x (Im2 x Ix)) as [_ [H|H]]; contradiction.
Qed.
Print Assumptions C77_tree.

(** C77: no name, a name that stands for nothing (with /S or several names), and /?: nothing
    is removed. *)
Theorem C77_nothing : forall fails perm dsize w s line ps q,
  rd_asked no_rrequest ps q ->
  (written w line ps -> rd_names q = [] -> pBat_CmdRmdir fails perm dsize w s line = Ret (PBAT_EXPECTED_MORE, w, s)) /\
  (forall a n b ls, written w line ps -> rd_names q = a ++ n :: b -> rd_rec q = true \/ length (rd_names q) <> 1 ->
     Forall2 (fun n l => pBat_GetMatchFileList (s_fs s) (rd_rec q) true false (full w n) = Ret l /\ l <> []) a ls ->
     pBat_GetMatchFileList (s_fs s) (rd_rec q) true false (full w n) = Ret [] -> pBat_CmdRmdir fails perm dsize w s line = Ret (PBAT_NO_MATCH, w, s)) /\
  (forall rest, written w line (ps ++ s2l "/?" :: rest) -> pBat_CmdRmdir fails perm dsize w s line = Ret (0%Z, w, s)).
Proof.
  intros fails perm dsize w s line ps q A. unfold pBat_CmdRmdir. split; [|split].
  - intros W N. rewrite (rd_params_ok w line ps q W A), N. cbn [bind map]. destruct (rd_rec q); reflexivity.
  - intros a n b ls W N Rn F E. rewrite (rd_params_ok w line ps q W A). cbn [bind].
    assert (X : gather (s_fs s) (rd_rec q) false (map (full w) (rd_names q)) = Ret None).
    { rewrite N, map_app. cbn [map]. apply (gather_none _ _ _ (full w n) _ _ ls); [apply Forall2_map; auto|auto]. }
    clear N. destruct (rd_names q) as [|n1 [|n2 ns]] eqn:En; [discriminate| |].
    + destruct Rn as [Rn|Rn]; [rewrite Rn in *; cbn [map] in *; rewrite X; reflexivity|cbn in Rn; lia].
    + cbn [map] in *. destruct (rd_rec q); rewrite X; reflexivity.
  - intros rest W. rewrite (rd_help w line ps q rest W A). reflexivity.
Qed.
Print Assumptions C77_nothing.

Definition ro (p : place) : bool * bool := (true, negb (place_eqb p (place_of (s2l "/x")))).
Definition ex_run (del : bool) (fails : nat -> bool) (input : list string) (line : string) : option (Z * list string * nat) :=
  let s := mkS zoo 0 (map s2l input) in
  match (if del then pBat_CmdDel fails ro (fun _ => 0%N) ex_w s (s2l line) else pBat_CmdRmdir fails ro (fun _ => 0%N) ex_w s (s2l line)) with
  | Ret (z, _, s) => Some (z, map (fun x => string_of_list_ascii (concat (map (cons "/"%char) (rev (fst x))))) (filter (fun x => match get (s_fs s) (fst x) with None => true | _ => false end) zoo), length (s_in s))
  | _ => None
  end.
Definition fine (n : nat) : bool := false.
(** /P does not make DEL ask when there is no wildcard. *)
Theorem C76_prompt_refuted : ex_run true fine ["n"]%string " /P /b/y/z" = Some (0%Z, ["/b/y/z"]%string, 1).
Proof. vm_compute. reflexivity. Qed.
Print Assumptions C76_prompt_refuted.
(** A directory: all its files are deleted, without a question (with a star the question is
    asked). *)
Theorem C76_directory_refuted : ex_run true fine ["n"]%string " /b/y" = Some (0%Z, ["/b/y/z"]%string, 1) /\ ex_run true fine ["n"]%string " /b/y/*" = Some (0%Z, [], 0).
Proof. split; vm_compute; reflexivity. Qed.
Print Assumptions C76_directory_refuted.
(** With /A, read-only files are deleted although /F is not given; without it, DEL leaves
    them there with status 0. *)
Theorem C76_readonly_refuted : ex_run true fine [] " /a:-d /x" = Some (0%Z, ["/x"]%string, 0) /\ ex_run true fine [] " /x" = Some (0%Z, [], 0) /\ ex_run true fine [] " /f /x" = Some (0%Z, ["/x"]%string, 0).
Proof. repeat split; vm_compute; reflexivity. Qed.
Print Assumptions C76_readonly_refuted.
(** A path that starts with /a is taken for an option. *)
Theorem C76_path_refuted : ex_run true fine [] " /q /a/x1" = Some ((-1)%Z, [], 0).
Proof. vm_compute. reflexivity. Qed.
Print Assumptions C76_path_refuted.
(** RD of a directory that is not empty, or is not there: status 0, and with /S 51 when the user
    does not agree to all. *)
Theorem C77_status_refuted : ex_run false fine [] " /b" = Some (0%Z, [], 0) /\ ex_run false fine [] " /none" = Some (0%Z, [], 0) /\ ex_run false fine ["n"; "y"; "a"]%string " /s /b" = Some (PBAT_UNABLE_RMDIR, [], 0).
Proof. repeat split; vm_compute; reflexivity. Qed.
Print Assumptions C77_status_refuted.
(** RD with several names deletes files. *)
Theorem C77_files_refuted : ex_run false fine [] " /q /x /b/y/z" = Some (0%Z, ["/b/y/z"; "/x"]%string, 0).
Proof. vm_compute. reflexivity. Qed.
Print Assumptions C77_files_refuted.

Ltac dn := split; [apply nonul_b; reflexivity|split; [discriminate|split; [let o := fresh in let X := fresh in intros o X; repeat (destruct X as [<-|X]; [discriminate|]); destruct X|
  let a := fresh in let r := fresh in let X := fresh in let Y := fresh in intros a r X Y; apply (f_equal (map tolower)) in Y; rewrite map_app, X in Y; discriminate]]].
Ltac op := split; [apply nonul_b; reflexivity|reflexivity].
Example C76_ex :
  ex_run true fine ["Y"; "n"; "all"]%string " /s /*" = Some (0%Z, ["/a/x1"; "/a/y/x3"; "/b/y/z"]%string, 0) /\
  ex_run true (fun n => n =? 0) [] " /q /b/../a/x*" = Some ((-1)%Z, ["/a/X2.c"]%string, 0) /\
  ex_run true fine [] " " = Some ((-1)%Z, [], 0) /\ ex_run true fine [] " /x /none" = Some (42%Z, [], 0) /\ ex_run true fine [] " /x /?" = Some (0%Z, [], 0) /\
  exists s', pBat_CmdDel fine ro (fun _ => 0%N) ex_w (mkS zoo 0 []) (s2l " /q /?/y/*") = Ret (0%Z, ex_w, s') /\ get (s_fs s') (place_of (s2l "/a/y/x3")) = None /\ get (s_fs s') (place_of (s2l "/a/x1")) = Some (File (s2l "1")).
Proof.
  do 5 (split; [vm_compute; reflexivity|]). destruct zoo_ok as (Pr & Tr & On).
  destruct C75_ex as (_ & _ & _ & _ & _ & _ & _ & _ & _ & _ & _ & _ & Sh).
  assert (Fc : Forall component [s2l "?"; s2l "y"; s2l "*"]) by (repeat constructor; try discriminate; intros X; cbn in X; intuition discriminate).
  assert (Fn : Forall normal_comp [s2l "?"; s2l "y"; s2l "*"]) by (repeat constructor; try discriminate; intros X; cbn in X; intuition discriminate).
  assert (Fu : Forall (fun c => wild c -> understood c) [s2l "?"; s2l "y"; s2l "*"]).
  { assert (U : forall c, In c [s2l "?"; s2l "*"] -> understood c).
    { intros c I. split; [destruct I as [<-|[<-|[]]]; apply nonul_b; reflexivity|]. split; [destruct I as [<-|[<-|[]]]; repeat constructor|].
      intros x y z X. apply (f_equal (@length _)) in X. rewrite app_length in X. cbn [length] in X. rewrite app_length in X. cbn [length] in X. destruct I as [<-|[<-|[]]]; cbn in X; lia. }
    constructor; [intros _; apply U; left; auto|]. constructor; [intros [X|X]; cbn in X; intuition discriminate|]. constructor; [intros _; apply U; right; left; auto|]. constructor. }
  assert (Ew : exists c, In c [s2l "?"; s2l "y"; s2l "*"] /\ wild c) by (exists (s2l "?"); split; [left; auto|right; left; auto]).
  assert (Gn : get zoo (place_of ("/"%char :: slashed [s2l "?"; s2l "y"; s2l "*"])) = None) by (vm_compute; reflexivity).
  destruct (C75_pattern zoo false true true [s2l "?"; s2l "y"; s2l "*"] Pr Tr Fc Fu Ew ltac:(discriminate) Gn Sh) as (l & El & Il & _).
  assert (El' : pBat_GetMatchFileList zoo false true true ("/"%char :: slashed [s2l "?"; s2l "y"; s2l "*"]) = Ret [s2l "/a/y/x3"; s2l "/b/y/z"]) by (vm_compute; reflexivity).
  rewrite El' in El. injection El as <-. destruct (proj1 (Il (s2l "/a/y/x3")) (or_introl eq_refl)) as (ns & p & R & En).
  destruct (C76_pattern ro (fun _ => 0%N) fine ex_w (mkS zoo 0 []) (s2l " /q /?/y/*") [s2l "/q"; s2l "/?/y/*"] (mkD false false true [] [s2l "/?/y/*"]) (s2l "/?/y/*") [s2l "?"; s2l "y"; s2l "*"]) as (s' & E & _ & H); try assumption; try reflexivity.
  - intros n. reflexivity.
  - do 2 lw; constructor; constructor.
  - eapply da_quiet; [op|]. eapply da_name; [dn|]. constructor.
  - discriminate.
  - eauto.
  - exists s'. split; [exact E|].
    assert (X : pBat_CmdDel fine ro (fun _ => 0%N) ex_w (mkS zoo 0 []) (s2l " /q /?/y/*") = Ret (0%Z, ex_w, s')) by exact E. vm_compute in X. injection X as <-. split; vm_compute; reflexivity.
Qed.
Example C77_ex :
  ex_run false fine ["y"; "a"]%string " /s /b" = Some (0%Z, ["/b"; "/b/y"; "/b/y/z"]%string, 0) /\
  ex_run false (fun n => n =? 0) [] " /q /s /b" = Some (Z.lor (Z.lor (-1) 51) 51, [], 0) /\
  ex_run false fine [] " /b/y/../../c" = Some (0%Z, [], 0) /\
  ex_run false fine [] " /S" = Some (8%Z, [], 0) /\ ex_run false fine [] " /s /x /none" = Some (42%Z, [], 0) /\ ex_run false fine [] " /b /?" = Some (0%Z, [], 0) /\
  exists s', pBat_CmdRmdir fine ro (fun _ => 0%N) ex_w (mkS zoo 0 []) (s2l " /S /Q /b") = Ret (0%Z, ex_w, s') /\
    (forall p, under [s2l "b"] p -> get (s_fs s') p = None) /\ get (s_fs s') (place_of (s2l "/a/x1")) = Some (File (s2l "1")).
Proof.
  do 6 (split; [vm_compute; reflexivity|]). destruct zoo_ok as (Pr & Tr & On).
  destruct (C77_tree fine ro (fun _ => 0%N) ex_w (mkS zoo 0 []) (s2l " /S /Q /b") [s2l "/S"; s2l "/Q"; s2l "/b"] (mkRR true true [s2l "/b"]) (s2l "/b")) as (s' & E & _ & _ & H1 & H2); try assumption; try reflexivity.
  - intros n. reflexivity.
  - do 3 lw; constructor; constructor.
  - eapply ra_rec; [op|]. eapply ra_quiet; [op|]. eapply ra_name; [apply nonul_b; reflexivity|discriminate|discriminate|discriminate|]. constructor.
  - intros ns G. apply get_in in G. change (place_of (full ex_w (s2l "/b"))) with [s2l "b"] in G. change (full ex_w (s2l "/b")) with (s2l "/b").
    assert (X : exists m, In (m ++ [s2l "b"]) (map fst zoo) /\ m = rev ns) by eauto. destruct X as (m & I & Em). apply (f_equal (@rev _)) in Em. rewrite rev_involutive in Em. subst ns. clear G.
    vm_compute in I. repeat (destruct I as [I|I]; [first [apply (app_inj_tail []) in I|apply (app_inj_tail [_]) in I|apply (app_inj_tail [_; _]) in I|idtac]; idtac|]).
    all: try (destruct I as [I X]; try discriminate X; rewrite <- I; apply Nat.ltb_lt; vm_compute; reflexivity).
    all: try (exfalso; apply (f_equal (@length _)) in I; rewrite app_length in I; cbn in I; lia). destruct I.
  - exists s'. split; [exact E|]. split; [exact H1|]. rewrite H2; [reflexivity|discriminate|]. intros (x & r & X). change (place_of (full ex_w (s2l "/b"))) with [s2l "b"] in X.
    apply (f_equal (@rev _)) in X. cbn [rev] in X. rewrite rev_app_distr in X. vm_compute in X. discriminate.
Qed.
