(** Mkdir_Props.v -- C78, C79: MD and REN. *)

From Verif Require Import Base Lex StrLib_Model StrLib_Spec Path_Model Path_Spec Var_Model Expand_Model Args_Model Args_Props Params_Model Params_Spec Params_Proofs Find_Proofs Prompt_Proofs Attr_Model For_Model Wc_Model Fs_Model Fs_Spec Fs_Proofs Search_Model Search_Spec Search_Proofs Search_Props Copy_Model Copy_Spec Copy_Proofs Mkdir_Model Mkdir_Spec Mkdir_Proofs Find_Props.

(** C78: making a directory.  Whatever fails, nothing is lost or changed, and what is new are
    directories on the way.  The status is 0 exactly if the directory is there at the end; it
    is without failures, if no file is in the way; and then so are those above it.  If a file
    is in the way nothing is made. *)
Theorem C78_one : forall fails s p, straight p ->
  exists z s', pBat_CmdMakeDirs fails s p = (z, s') /\ s_in s' = s_in s /\ grown [place_of p] (s_fs s) (s_fs s') /\
    (z = 0%Z /\ get (s_fs s') (place_of p) = Some Dir \/ z = PBAT_MKDIR_ERROR /\ get (s_fs s') (place_of p) <> Some Dir) /\
    (tree (s_fs s) -> z = 0%Z -> forall q, above (place_of p) q -> get (s_fs s') q = Some Dir) /\
    (never fails -> get (s_fs s) [] = Some Dir -> clear_way (s_fs s) (place_of p) -> z = 0%Z) /\
    (tree (s_fs s) -> forall q t, above (place_of p) q -> get (s_fs s) q = Some (File t) -> z = PBAT_MKDIR_ERROR /\ s_fs s' = s_fs s).
Proof.
  intros fails s p St. destruct (makedirs_ok fails s p St) as (z & s' & E & I & G & Z & T & N & B). exists z, s'. split; [exact E|]. split; [exact I|]. split; [exact G|]. split; [exact Z|].
  assert (Up : tree (s_fs s) -> z = 0%Z -> forall q, above (place_of p) q -> get (s_fs s') q = Some Dir).
  { intros Tr Z0. destruct Z as [[_ D]|[X _]]; [|rewrite X in Z0; discriminate]. intros q (r & E'). specialize (T Tr). rewrite E' in D. clear - T D. revert q D. induction r as [|x r IH]; intros q D; [auto|].
    apply IH. apply (T x). cbn [app] in D. congruence. }
  split; [exact Up|]. split; [exact N|]. intros Tr q t Aq Gq. pose proof (B Tr q t Aq Gq) as X. split; [|exact X].
  destruct Z as [[Z0 _]|[Z0 _]]; [|exact Z0]. specialize (Up Tr Z0 q Aq). congruence.
Qed.
Print Assumptions C78_one.

(** C78: MD makes each of the directories named, one after the other, until one fails or /? is
    met. *)
Theorem C78_command : forall fails w s line cmd ns tail,
  written w line (cmd :: ns ++ tail) -> tail = [] \/ (exists r, tail = s2l "/?" :: r) -> (forall n, In n ns -> n <> s2l "/?" /\ straight (full w n)) ->
  exists z s', pBat_CmdMkdir fails w s line = Ret (z, w, s') /\ s_in s' = s_in s /\
    grown (map (fun n => place_of (full w n)) ns) (s_fs s) (s_fs s') /\
    (z = 0%Z /\ (forall n, In n ns -> get (s_fs s') (place_of (full w n)) = Some Dir) \/
     z = PBAT_MKDIR_ERROR /\ exists n, In n ns /\ get (s_fs s') (place_of (full w n)) <> Some Dir) /\
    (never fails -> get (s_fs s) [] = Some Dir -> (forall n, In n ns -> clear_way (s_fs s) (place_of (full w n))) -> z = 0%Z).
Proof.
  intros fails w s line cmd ns tail W Ht H. unfold pBat_CmdMkdir. destruct (Find_Proofs.written_next (fun _ => []) w _ _ _ W) as (rest & E & R & Lr). rewrite E. cbn [bind].
  destruct (md_ok fails w ns tail (S (length rest)) cmd rest s R) as (z & s' & E' & I & G & Z & _ & N); auto. exists z, s'. auto.
Qed.
Print Assumptions C78_command.

(** C79: REN gives a file or a directory another name in its directory: status 0 means that what
    was there, and below, is there under the new name, and status 10 that nothing changed.
    Without failures it succeeds if the new name is free. *)
Theorem C79_rename : forall fails w s line old new more dir base,
  written w line (old :: new :: more) -> full w old = dir ++ "/"%char :: base -> normal_comp base -> ~ In "\"%char base ->
  normal_comp new -> ~ In "\"%char new -> length (full w old) < FILENAME_MAX -> length (dir ++ "/"%char :: new) < FILENAME_MAX -> tree (s_fs s) ->
  let a := base :: place_of dir in
  let b := new :: place_of dir in
  exists z s', pBat_CmdRen fails w s line = Ret (z, w, s') /\ s_in s' = s_in s /\
    (z = 0%Z /\ get (s_fs s) a <> None /\ renamed a b (s_fs s) (s_fs s') \/ z = PBAT_UNABLE_RENAME /\ s_fs s' = s_fs s) /\
    (never fails -> get (s_fs s) a <> None ->
     get (s_fs s) b = None \/ (exists t u, get (s_fs s) a = Some (File t) /\ get (s_fs s) b = Some (File u)) \/
       (get (s_fs s) a = Some Dir /\ get (s_fs s) b = Some Dir /\ forall x, get (s_fs s) (x :: b) = None) -> z = 0%Z).
Proof.
  intros fails w s line old new more dir base W Ef Nb Sb Nn Sn Lo Ln T a b. unfold pBat_CmdRen.
  destruct (Find_Proofs.written_next (fun _ => []) w _ _ _ W) as (r1 & E1 & R1 & _). rewrite E1. cbn [bind].
  destruct (Find_Proofs.written_next (fun _ => []) w _ _ _ R1) as (r2 & E2 & _ & _). rewrite E2. cbn [bind]. fold (full w old).
  rewrite (firstn_all2 (full w old)) by lia.
  assert (X : existsb (fun x => ceq x "/"%char || ceq x "\"%char)%bool new = false).
  { apply not_true_iff_false. intros X. apply existsb_exists in X. destruct X as (c & I & X). apply orb_true_iff in X. destruct Nn as (_ & _ & _ & Nn). destruct X as [X|X]; apply ceq_true in X; subst; contradiction. }
  rewrite X. rewrite Ef. rewrite dir_part_ok by (auto; apply Nb).
  assert (L : FILENAME_MAX <=? length (dir ++ s2l "/") + length new = false) by (apply Nat.leb_gt; rewrite app_length in *; cbn [length s2l list_ascii_of_string] in *; lia). rewrite L.
  replace ((dir ++ s2l "/") ++ new) with (dir ++ "/"%char :: new) by (rewrite <- app_assoc; auto).
  pose proof (place_app dir base Nb) as Pa. pose proof (place_app dir new Nn) as Pb. fold a in Pa. fold b in Pb.
  destruct (list_eq_dec ascii_dec base new) as [->|D].
  - assert (Eab : a = b) by reflexivity. unfold sys_rename. rewrite Pb. destruct (get (s_fs s) b) as [n|] eqn:G.
    + rewrite place_eqb_refl. destruct (fails (s_tick s)) eqn:F.
      * eexists _, _. split; [reflexivity|]. split; [reflexivity|]. split; [right; auto|]. intros Nv. rewrite Nv in F. discriminate.
      * eexists _, _. split; [reflexivity|]. split; [reflexivity|]. split; [|auto]. left. split; [auto|]. split; [rewrite Eab, G; discriminate|]. cbn [with_fs s_fs]. rewrite Eab. split; [auto|]. split; [congruence|auto].
    + eexists _, _. split; [reflexivity|]. split; [reflexivity|]. split; [right; auto|]. intros _ H. rewrite Eab in H. congruence.
  - destruct (ren_ok base new (place_of dir) D fails s _ _ Pa Pb T) as [(s' & E & F & I)|(s' & E & I & G & R)]; rewrite E.
    + eexists _, s'. split; [reflexivity|]. split; [auto|]. split; [right; auto|]. intros Nv Ga C. exfalso.
      destruct (ren_can base new (place_of dir) D fails s _ _ Pa Pb T Nv Ga C) as (s2 & E'). congruence.
    + eexists _, s'. split; [reflexivity|]. split; [auto|]. split; [left; auto|]. auto.
Qed.
Print Assumptions C79_rename.

(** C79: too few names, and a new name that is a path: nothing changes. *)
Theorem C79_errors : forall fails w s line,
  (forall old, written w line [] \/ written w line [old] -> pBat_CmdRen fails w s line = Ret (PBAT_EXPECTED_MORE, w, s)) /\
  (forall old new more, written w line (old :: new :: more) -> In "/"%char new \/ In "\"%char new -> pBat_CmdRen fails w s line = Ret (PBAT_MOVE_NOT_RENAME, w, s)).
Proof.
  intros fails w s line. unfold pBat_CmdRen. split.
  - intros old [W|W]; [inversion W; subst; rewrite Params_Proofs.next_end; auto|].
    destruct (Find_Proofs.written_next (fun _ => []) w _ _ _ W) as (r1 & E1 & R1 & _). rewrite E1. cbn [bind]. inversion R1; subst. rewrite Params_Proofs.next_end; auto.
  - intros old new more W H. destruct (Find_Proofs.written_next (fun _ => []) w _ _ _ W) as (r1 & E1 & R1 & _). rewrite E1. cbn [bind].
    destruct (Find_Proofs.written_next (fun _ => []) w _ _ _ R1) as (r2 & E2 & _ & _). rewrite E2. cbn [bind].
    assert (X : existsb (fun x => ceq x "/"%char || ceq x "\"%char)%bool new = true); [|rewrite X; auto]. apply existsb_exists. destruct H as [H|H]; eexists; (split; [exact H|reflexivity]).
Qed.
Print Assumptions C79_errors.

Definition ex_fs_run (fails : nat -> bool) (ren : bool) (line : string) (ps : list string) : option (Z * list (option node)) :=
  match (if ren then pBat_CmdRen fails ex_w (mkS zoo 0 []) (s2l line) else pBat_CmdMkdir fails ex_w (mkS zoo 0 []) (s2l line)) with
  | Ret (z, _, s) => Some (z, map (fun p => get (s_fs s) (place_of (s2l p))) ps)
  | _ => None
  end.
(** MD without a name gives status 0. *)
Theorem C78_no_name_refuted : ex_fs_run (fun _ => false) false "md" [] = Some (0%Z, []).
Proof. vm_compute. reflexivity. Qed.
Print Assumptions C78_no_name_refuted.
(** REN replaces a file that has the new name, and its text is lost. *)
Theorem C79_replaces_refuted : get zoo (place_of (s2l "/a/x1")) = Some (File (s2l "1")) /\ ex_fs_run (fun _ => false) true " /a/X2.c x1" ["/a/x1"; "/a/X2.c"]%string = Some (0%Z, [Some (File []); None]).
Proof. split; vm_compute; reflexivity. Qed.
Print Assumptions C79_replaces_refuted.
(** A new name that does not fit makes REN write past the end of its buffer. *)
Definition long_name : cstr := repeat "n"%char FILENAME_MAX.
Theorem C79_overflow_refuted : pBat_CmdRen (fun _ => false) ex_w (mkS zoo 0 []) (s2l " /a/x1 " ++ long_name) = Undef.
Proof. vm_compute. reflexivity. Qed.
Print Assumptions C79_overflow_refuted.

Example C78_ex :
  ex_fs_run (fun _ => false) false "md /b/c/d /a/z e//f /? /n" ["/b/c"; "/b/c/d"; "/a/z"; "/tmp/e/f"; "/n"]%string = Some (0%Z, [Some Dir; Some Dir; Some Dir; Some Dir; None]) /\
  ex_fs_run (fun _ => false) false "md /x/y /n" ["/x"; "/n"]%string = Some (13%Z, [Some (File []); None]) /\
  ex_fs_run (fun n => n =? 1) false "md /n /b/c/d" ["/b/c"; "/b/c/d"; "/n"]%string = Some (13%Z, [None; None; Some Dir]) /\
  written ex_w (s2l "md /b/c/d /n") [s2l "md"; s2l "/b/c/d"; s2l "/n"] /\ straight (full ex_w (s2l "/b/c/d")) /\ clear_way zoo (place_of (s2l "/b/c/d")) /\ ~ clear_way zoo (place_of (s2l "/x/y")).
Proof.
  repeat (split; [vm_compute; reflexivity|]). split; [do 3 lw; constructor; constructor|]. split.
  - unfold straight. vm_compute. constructor; [auto|]. repeat (constructor; [right; repeat split; try discriminate; intros X; cbn in X; intuition discriminate|]). constructor.
  - split; [|intros H; apply (H [s2l "x"] []); [exists [s2l "y"]; reflexivity|reflexivity]].
    intros q t (r & E) G. change (place_of (s2l "/b/c/d")) with [s2l "d"; s2l "c"; s2l "b"] in E.
    destruct r as [|a [|b [|c [|d r]]]]; cbn [app] in E; [subst q; vm_compute in G; discriminate|injection E as _ <-; vm_compute in G; discriminate|injection E as _ _ <-; vm_compute in G; discriminate|injection E as _ _ _ <-; vm_compute in G; discriminate|].
    apply (f_equal (@length _)) in E. cbn in E. lia.
Qed.
Example C79_ex :
  ex_fs_run (fun _ => false) true " /a c" ["/a"; "/a/y/x3"; "/c"; "/c/y/x3"; "/b/y"]%string = Some (0%Z, [None; None; Some Dir; Some (File []); Some Dir]) /\
  ex_fs_run (fun _ => false) true " /a/x1 x9 more" ["/a/x1"; "/a/x9"]%string = Some (0%Z, [None; Some (File (s2l "1"))]) /\
  ex_fs_run (fun _ => false) true " /a b" ["/a/x1"]%string = Some (10%Z, [Some (File (s2l "1"))]) /\
  ex_fs_run (fun _ => false) true " /a/x1" [] = Some (8%Z, []) /\ ex_fs_run (fun _ => false) true " /a/x1 ../x" [] = Some (52%Z, []) /\ ex_fs_run (fun n => n =? 0) true " /a c" ["/a"]%string = Some (10%Z, [Some Dir]) /\
  written ex_w (s2l " /a/x1 x9 more") [s2l "/a/x1"; s2l "x9"; s2l "more"] /\ full ex_w (s2l "/a/x1") = s2l "/a" ++ "/"%char :: s2l "x1" /\ tree zoo.
Proof. repeat (split; [vm_compute; reflexivity|]). split; [do 3 lw; constructor; constructor|]. split; [reflexivity|apply zoo_ok]. Qed.
