(** Copy_Props.v -- C71: questions, C72: copying the content of a file, C73: moving a file,
    C74: COPY and MOVE.  [fails] and [chunk] say which system calls fail, and how much is
    read or written at once; [search] is what a name or a pattern stands for (C10);
    [recursive] is COPY /R. *)

From Verif Require Import Base Lex StrLib_Model StrLib_Spec Path_Model Path_Spec Var_Model Expand_Model Args_Model Args_Spec Args_Props Params_Model Params_Spec Params_Proofs
  Attr_Model Wc_Model Prompt_Proofs Set_Spec Set_Proofs Set_Props Script_Props Find_Proofs Find_Props Fs_Model Fs_Spec Fs_Proofs Copy_Model Copy_Spec Copy_Proofs.

(** An answer to a question is yes, no, all (when it is possible) in full or by the first
    letter, in any case, or an empty line for the default; it takes one line of the input.
    After any other line, a variable that was not set is read. *)
Theorem C71_answer : forall all default l input, nonul l ->
  (forall a, answers all default l a -> pBat_AskConfirmation all default (l :: input) = Ret (a, input)) /\
  ((forall a, ~ answers all default l a) -> pBat_AskConfirmation all default (l :: input) = Undef).
Proof. intros. apply ask_ok. auto. Qed.
Print Assumptions C71_answer.
Theorem C71_end_refuted : forall all default, pBat_AskConfirmation all default [] = Undef.
Proof. reflexivity. Qed.
Print Assumptions C71_end_refuted.
Example C71_ex :
  pBat_AskConfirmation true PBAT_ASK_NO [s2l "aLl" ++ ["013"%char]; s2l "x"] = Ret (PBAT_ASK_ALL, [s2l "x"]) /\
  pBat_AskConfirmation true PBAT_ASK_NO [[]; s2l "x"] = Ret (PBAT_ASK_NO, [s2l "x"]) /\
  pBat_AskConfirmation false PBAT_ASK_YES [s2l "all"] = Undef /\ (forall a, ~ answers false PBAT_ASK_YES (s2l "all") a) /\
  answers true PBAT_ASK_NO (s2l "aLl" ++ ["013"%char]) PBAT_ASK_ALL.
Proof.
  split; [reflexivity|]. split; [reflexivity|]. split; [reflexivity|]. split; [|apply an_all; [auto|left; reflexivity]].
  intros a H. inversion H as [[X|X]|[X|X]|X|_ X]; discriminate.
Qed.

(** A file is copied: all its text, or an error and a part of it (from its beginning),
    however much is read or written at once.  Nothing else changes.  The disk may break
    down or be full, if it stays so. *)
Theorem C72_copy : forall fails chunk s file dest text,
  for_good fails -> holds_text (s_fs s) (place_of file) text -> place_of file <> place_of dest ->
  exists n, forall fuel, n <= fuel -> exists z s',
    pBat_CopyFile fails chunk fuel s file dest = Ret (z, s') /\ same_but [place_of dest] (s_fs s) (s_fs s') /\ s_in s' = s_in s /\
    (z = 0%Z -> holds_text (s_fs s') (place_of dest) text) /\
    (z <> 0%Z -> get (s_fs s') (place_of dest) = get (s_fs s) (place_of dest) \/ exists a b, text = a ++ b /\ holds_text (s_fs s') (place_of dest) a) /\
    (never fails -> writable (s_fs s) (place_of dest) -> z = 0%Z).
Proof.
  intros fails chunk s file dest text P G N. exists (2 * length text + 2). intros fuel L.
  destruct (file_ok fails chunk P PBAT_UNABLE_COPY s file dest false text ltac:(discriminate) G N fuel L) as (z & s' & E & Sm & In & Z0 & Z1 & Zn & _).
  exists z, s'. unfold pBat_CopyFile. cbn [negb] in E. rewrite E. split; [auto|]. split; [auto|]. split; [auto|].
  split; [intros Z; red; rewrite Z0 by auto|split; [intros Z; destruct (Z1 Z) as [Y|(a & b & Y & Y')]; [left; auto|right; exists a, b; split; [auto|red; rewrite Y']]|auto]];
    destruct (get (s_fs s) (place_of dest)) as [[]|]; auto.
Qed.
Print Assumptions C72_copy.
(** Concatenation: the first file as above, the next ones after what is there. *)
Theorem C72_append : forall fails chunk s file dest second text,
  for_good fails -> holds_text (s_fs s) (place_of file) text -> place_of file <> place_of dest ->
  exists n, forall fuel, n <= fuel -> exists z b s',
    pBat_CatFile fails chunk fuel s file dest second = Ret (z, b, s') /\ same_but [place_of dest] (s_fs s) (s_fs s') /\ s_in s' = s_in s /\
    forall old, match get (s_fs s) (place_of dest) with Some (File t) => old = if second then t else [] | _ => old = [] end ->
    (z = 0%Z -> holds_text (s_fs s') (place_of dest) (old ++ text) /\ b = true) /\
    (z <> 0%Z -> get (s_fs s') (place_of dest) = get (s_fs s) (place_of dest) \/ exists a b, text = a ++ b /\ holds_text (s_fs s') (place_of dest) (old ++ a)) /\
    (never fails -> writable (s_fs s) (place_of dest) -> z = 0%Z).
Proof.
  intros fails chunk s file dest second text P G N. exists (2 * length text + 2). intros fuel L.
  destruct (file_ok fails chunk P PBAT_UNABLE_CAT s file dest second text ltac:(discriminate) G N fuel L) as (z & s' & E & Sm & In & Z0 & Z1 & Zn & Ze).
  assert (K : forall old, match get (s_fs s) (place_of dest) with Some (File t) => old = if second then t else [] | _ => old = [] end ->
    (z = 0%Z -> holds_text (s_fs s') (place_of dest) (old ++ text)) /\
    (z <> 0%Z -> get (s_fs s') (place_of dest) = get (s_fs s) (place_of dest) \/ exists a b, text = a ++ b /\ holds_text (s_fs s') (place_of dest) (old ++ a))).
  { intros old O. split; [intros Z; red; rewrite Z0 by auto|intros Z; destruct (Z1 Z) as [Y|(a & b & Y & Y')]; [left; auto|right; exists a, b; split; [auto|red; rewrite Y']]];
      destruct (get (s_fs s) (place_of dest)) as [[]|]; subst old; auto. }
  clear Z0 Z1. unfold pBat_CatFile. destruct (sys_open fails s file) as [[a|] s1] eqn:Op.
  - destruct (sys_create fails s1 dest (negb second)) as [[b|] s2] eqn:Cr.
    + exists z, true, s'. rewrite E. cbn [bind]. split; [auto|]. split; [auto|]. split; [auto|]. intros old Ho. destruct (K old Ho) as [K0 K1]. split; [auto|]. split; auto.
    + injection E as <- <-. exists PBAT_UNABLE_CAT, true, s2. split; [auto|]. split; [auto|]. split; [auto|]. intros old Ho. destruct (K old Ho) as [K0 K1]. split; [discriminate|]. split; auto.
  - injection E as <- <-. exists PBAT_UNABLE_CAT, second, s1. split; [auto|]. split; [auto|]. split; [auto|]. intros old Ho. destruct (K old Ho) as [K0 K1]. split; [discriminate|]. split.
    + intros _. apply K1. discriminate.
    + intros A B. specialize (Zn A B). discriminate.
Qed.
Print Assumptions C72_append.
(** A file that is copied to itself is emptied, and nothing is said. *)
Theorem C72_self_refuted : forall fails chunk s file dest text,
  never fails -> holds_text (s_fs s) (place_of file) text -> place_of file = place_of dest ->
  forall fuel, 0 < fuel -> exists s', pBat_CopyFile fails chunk fuel s file dest = Ret (0%Z, s') /\ holds_text (s_fs s') (place_of file) [].
Proof.
  intros fails chunk s file dest text Nv G E fuel L. destruct fuel as [|fuel]; [lia|]. unfold holds_text in *.
  unfold pBat_CopyFile, sys_open, sys_create. rewrite G, !Nv. cbn [with_fs s_fs]. rewrite <- E, G. cbn [copy_loop]. unfold sys_read. cbn [with_fs s_fs].
  rewrite get_put_same, !Nv, skipn_nil, firstn_nil. eexists. split; [reflexivity|]. cbn [with_fs s_fs]. apply get_put_same.
Qed.
Print Assumptions C72_self_refuted.
(** A file that is appended to itself grows without end. *)
Theorem C72_endless_refuted : forall fails chunk s file dest text,
  never fails -> holds_text (s_fs s) (place_of file) text -> text <> [] -> place_of file = place_of dest ->
  forall fuel, pBat_CatFile fails chunk fuel s file dest true = OutOfFuel.
Proof.
  intros fails chunk s file dest text Nv G T E fuel. unfold holds_text in *. unfold pBat_CatFile, sys_open, sys_create. rewrite G, !Nv. cbn [with_fs s_fs negb]. rewrite <- E, G.
  rewrite (append_self fails chunk PBAT_UNABLE_CAT Nv fuel _ _ _ _ text); [reflexivity|exact G|]. destruct text; [congruence|cbn; lia].
Qed.
Print Assumptions C72_endless_refuted.
(** A write that fails once, between two that do not, is not seen: a byte is written twice.
    And a copy that fails has already emptied the destination. *)
Definition ex_fs : fsys := [([], Dir); ([s2l "a"], File (s2l "hello")); ([s2l "b"], File (s2l "old")); ([s2l "d"], Dir); ([s2l "a"; s2l "d"], File (s2l "x"))].
Definition ex_s (input : list cstr) : sys := mkS ex_fs 0 input.
Theorem C72_transient_refuted :
  exists fails chunk fuel s', pBat_CopyFile fails chunk fuel (ex_s []) (s2l "/a") (s2l "/c") = Ret (0%Z, s') /\
    holds_text ex_fs [s2l "a"] (s2l "hello") /\ holds_text (s_fs s') [s2l "c"] (s2l "helllo") /\ fails 4 = true /\ forall n, n <> 4 -> fails n = false.
Proof.
  exists (fun n => n =? 4), (fun n => if n =? 3 then 3 else 9), 20. eexists. split; [vm_compute; reflexivity|]. split; [reflexivity|]. split; [vm_compute; reflexivity|].
  split; [reflexivity|]. intros n H. apply Nat.eqb_neq. auto.
Qed.
Print Assumptions C72_transient_refuted.
Theorem C72_destroyed_refuted :
  exists fails chunk fuel s', for_good fails /\ pBat_CopyFile fails chunk fuel (ex_s []) (s2l "/a") (s2l "/b") = Ret (48%Z, s') /\
    holds_text ex_fs [s2l "b"] (s2l "old") /\ holds_text (s_fs s') [s2l "b"] [].
Proof.
  exists (fun n => 2 <=? n), (fun _ => 9), 20. eexists. split; [intros n H; apply Nat.leb_le in H; apply Nat.leb_le; lia|]. split; [vm_compute; reflexivity|]. split; reflexivity.
Qed.
Print Assumptions C72_destroyed_refuted.
(** One byte at a time; then to a file that exists; the disk full after two bytes. *)
Example C72_ex :
  (exists s', pBat_CopyFile (fun _ => false) (fun _ => 0) 99 (ex_s []) (s2l "/a") (s2l "/d/c") = Ret (0%Z, s') /\ holds_text (s_fs s') [s2l "c"; s2l "d"] (s2l "hello")) /\
  (exists s', pBat_CatFile (fun _ => false) (fun n => n) 99 (ex_s []) (s2l "/a") (s2l "/d/../b") true = Ret (0%Z, true, s') /\ holds_text (s_fs s') [s2l "b"] (s2l "oldhello")) /\
  (exists s', pBat_CopyFile (fun n => 5 <=? n) (fun _ => 0) 99 (ex_s []) (s2l "/a") (s2l "/b") = Ret (48%Z, s') /\ holds_text (s_fs s') [s2l "b"] (s2l "h")) /\
  for_good (fun n => 5 <=? n) /\ never (fun _ => false) /\ writable ex_fs [s2l "c"; s2l "d"] /\ place_of (s2l "/d/../b") = [s2l "b"].
Proof.
  split; [|split; [|split]].
  - destruct (C72_copy (fun _ => false) (fun _ => 0) (ex_s []) (s2l "/a") (s2l "/d/c") (s2l "hello")) as (n & H); [intros ? X; discriminate|reflexivity|discriminate|].
    eexists. split; [vm_compute; reflexivity|reflexivity].
  - eexists. split; [vm_compute; reflexivity|reflexivity].
  - eexists. split; [vm_compute; reflexivity|reflexivity].
  - split; [intros n H; apply Nat.leb_le in H; apply Nat.leb_le; lia|]. split; [intros n; reflexivity|]. split; [|reflexivity].
    right. split; [reflexivity|]. exists (s2l "c"), [s2l "d"]. split; reflexivity.
Qed.

(** Moving a file: afterwards its text is at the new place and nothing is at the old one;
    or there is an error, the file is where it was, and the destination is as it was or, if
    there was a file, gone.  Nothing else changes. *)
Theorem C73_move : forall fails s file dest text,
  holds_text (s_fs s) (place_of file) text -> place_of file <> place_of dest ->
  exists z s', pBat_MoveFile fails s file dest = (z, s') /\ s_in s' = s_in s /\ (z = 0%Z \/ z = PBAT_UNABLE_MOVE) /\
    (z = 0%Z -> done true (place_of file) (place_of dest) text (s_fs s) (s_fs s')) /\
    (z <> 0%Z -> same_but [place_of dest] (s_fs s) (s_fs s') /\
       (get (s_fs s') (place_of dest) = get (s_fs s) (place_of dest) \/ exists u, holds_text (s_fs s) (place_of dest) u /\ get (s_fs s') (place_of dest) = None)) /\
    (never fails -> tree (s_fs s) -> (exists n up, place_of dest = n :: up /\ get (s_fs s) up = Some Dir) -> get (s_fs s) (place_of dest) <> Some Dir -> z = 0%Z).
Proof.
  intros fails s file dest text G N. destruct (move_cases fails s file dest text G N) as (z & s' & E & In & Z & Z0 & Z1). exists z, s'.
  split; [auto|]. split; [auto|]. split; [auto|]. split; [auto|]. split; [auto|]. intros Nv T R D. apply room_iff in R.
  destruct (move_one fails Nv s file dest text G N R) as (s1 & E1 & _); auto; [eapply below_file; eauto|]. rewrite E in E1. injection E1 as ->. auto.
Qed.
Print Assumptions C73_move.
(** The destination can be lost: it is removed first.  A file that is moved to itself is. *)
Theorem C73_lost_refuted :
  exists fails s', pBat_MoveFile fails (ex_s []) (s2l "/a") (s2l "/b") = (47%Z, s') /\ holds_text ex_fs [s2l "b"] (s2l "old") /\ get (s_fs s') [s2l "b"] = None.
Proof. exists (fun n => n =? 1). eexists. split; [vm_compute; reflexivity|]. split; reflexivity. Qed.
Print Assumptions C73_lost_refuted.
Theorem C73_self_refuted : forall fails s file dest text,
  holds_text (s_fs s) (place_of file) text -> place_of file = place_of dest -> fails (s_tick s) = false ->
  exists s', pBat_MoveFile fails s file dest = (PBAT_UNABLE_MOVE, s') /\ get (s_fs s') (place_of file) = None.
Proof.
  intros fails s file dest text G E F. unfold pBat_MoveFile, pBat_FileExists, sys_remove. red in G. rewrite <- E, G, F. unfold sys_rename. cbn [with_fs s_fs]. rewrite get_del_same.
  eexists. split; [reflexivity|]. cbn [with_fs s_fs]. apply get_del_same.
Qed.
Print Assumptions C73_self_refuted.
Example C73_ex :
  (exists s', pBat_MoveFile (fun _ => false) (ex_s []) (s2l "/d/a") (s2l "/b") = (0%Z, s') /\ holds_text (s_fs s') [s2l "b"] (s2l "x") /\ get (s_fs s') [s2l "a"; s2l "d"] = None /\
     holds_text (s_fs s') [s2l "a"] (s2l "hello")) /\ tree ex_fs.
Proof.
  split; [eexists; split; [vm_compute; reflexivity|split; [|split]; reflexivity]|].
  intros n p H. unfold ex_fs in *. cbn [get] in *. destruct (place_eqb [] (n :: p)) eqn:E; [discriminate|].
  repeat match type of H with (if place_eqb ?a (n :: p) then _ else _) <> _ => let X := fresh in destruct (place_eqb a (n :: p)) eqn:X; [apply place_eqb_true in X; injection X as <- <-; reflexivity|] end.
  congruence.
Qed.

(** ** COPY and MOVE *)
Section Commands.
Variables (fails : nat -> bool) (chunk : nat -> nat) (search : fsys -> cstr -> list item) (recursive : sys -> list cstr -> cstr -> N -> cflags -> outcome (Z * sys)).
Notation command := (pBat_CmdCopy fails chunk search recursive).
(** The files that the sources stand for. *)
Definition chosen (f : fsys) (attr : cstr) (from : list cstr) : list cstr := map fst (filter (fun x => eligible attr (snd x)) (flat_map (search f) from)).

Lemma command_ok fuel move w s line ps q from dest :
  written w line ps -> asked no_request ps q -> (move = true -> r_cat q = false) -> r_rec q = false -> map (full w) (r_names q) = from ++ [dest] -> from <> [] ->
  (forall n, In n from -> search (s_fs s) n <> []) ->
  command fuel move w s line =
    let l := chosen (s_fs s) (r_attr q) from in
    let multiple := pBat_DirExists (s_fs s) dest || pBat__EndWithDirectoryMark dest in
    let several := count (length from) (tl l) =? 3 in
    let cat := r_cat q || several && negb multiple && negb move in
    let multiple := multiple || several && (multiple || move) in
    do (z, s) <- copy_files fails chunk fuel s l dest (mkC (r_silent q) multiple move cat false) 0; Ret (z, w, s).
Proof.
  intros W A M R E F H. unfold pBat_CmdCopy. rewrite (params_ok w move line ps q W A M). cbn [bind]. rewrite E, R. cbn [andb].
  rewrite app_length. cbn [length]. assert (X : length from <> 0) by (destruct from; [congruence|discriminate]).
  destruct (Nat.ltb_spec (length from + 1) 2); [lia|]. rewrite removelast_last, last_last. rewrite sources_ok by auto.
  cbv zeta. rewrite attr_dir. reflexivity.
Qed.

(** Into a directory: every file gets there under its own name. *)
Theorem C74_into : forall move w s line ps q from dest ts,
  never fails -> tree (s_fs s) ->
  written w line ps -> asked no_request ps q -> r_cat q = false -> r_rec q = false -> map (full w) (r_names q) = from ++ [dest] -> from <> [] ->
  (forall n, In n from -> search (s_fs s) n <> []) -> get (s_fs s) (place_of dest) = Some Dir ->
  trips (s_fs s) dest (chosen (s_fs s) (r_attr q) from) ts -> free_way (s_fs s) ts -> unasked (r_silent q) (s_fs s) ts ->
  exists n, forall fuel, n <= fuel -> exists s', command fuel move w s line = Ret (0%Z, w, s') /\ s_in s' = s_in s /\
    (forall t, In t ts -> holds_text (s_fs s') (t_to t) (t_text t) /\ (move = true -> get (s_fs s') (t_from t) = None)) /\
    same_but (map t_to ts ++ if move then map t_from ts else []) (s_fs s) (s_fs s').
Proof.
  intros move w s line ps q from dest ts Nv T W A C R E F H D Tr Fw U. exists (list_sum (map (fun t => 2 * length (t_text t) + 2) ts)). intros fuel L.
  rewrite (command_ok fuel move w s line ps q from dest W A (fun _ => C) R E F H). cbv zeta. unfold pBat_DirExists. rewrite D, C. cbn [orb negb]. rewrite andb_false_r. cbn [andb].
  destruct (all_files fails chunk Nv dest (mkC (r_silent q) true move false false) eq_refl eq_refl (chosen (s_fs s) (r_attr q) from) ts s fuel) as (s' & X & In & Y & Z); auto.
  - intros t I _. destruct (trips_in _ _ _ _ Tr t I) as (G & b & up & X1 & X2). eapply below_file; eauto; [apply Fw; auto|rewrite X2; cbn [room]; rewrite D; auto].
  - intros t I. clear - L I. induction ts as [|u ts IH]; [destruct I|]. cbn [map list_sum fold_right] in L. change (fold_right Nat.add 0) with list_sum in L. destruct I as [->|I]; [lia|]. apply IH; auto. lia.
  - rewrite X. cbn [bind]. exists s'. auto.
Qed.

(** One file, to a file. *)
Theorem C74_file : forall move w s line ps q src file dest text,
  never fails -> tree (s_fs s) ->
  written w line ps -> asked no_request ps q -> r_cat q = false -> r_rec q = false -> map (full w) (r_names q) = [src; dest] ->
  chosen (s_fs s) (r_attr q) [src] = [file] -> get (s_fs s) (place_of dest) <> Some Dir -> (forall d, dest <> d ++ ["/"%char]) ->
  holds_text (s_fs s) (place_of file) text -> place_of file <> place_of dest -> (exists n up, place_of dest = n :: up /\ get (s_fs s) up = Some Dir) ->
  exists n, forall fuel, n <= fuel ->
    (r_silent q = true \/ get (s_fs s) (place_of dest) = None ->
       exists s', command fuel move w s line = Ret (0%Z, w, s') /\ s_in s' = s_in s /\ done move (place_of file) (place_of dest) text (s_fs s) (s_fs s')) /\
    (forall u l input a, r_silent q = false -> holds_text (s_fs s) (place_of dest) u -> s_in s = l :: input -> nonul l -> answers true PBAT_ASK_NO l a ->
       (a = PBAT_ASK_NO -> command fuel move w s line = Ret (0%Z, w, mkS (s_fs s) (s_tick s) input)) /\
       (a <> PBAT_ASK_NO -> exists s', command fuel move w s line = Ret (0%Z, w, s') /\ s_in s' = input /\ done move (place_of file) (place_of dest) text (s_fs s) (s_fs s'))).
Proof.
  intros move w s line ps q src file dest text Nv T W A C R E Ch Nd Nm G N Rm. exists (2 * length text + 2). intros fuel L.
  assert (H : forall n, In n [src] -> search (s_fs s) n <> []).
  { intros n [<-|[]] X. unfold chosen in Ch. cbn [flat_map] in Ch. rewrite X in Ch. discriminate. }
  assert (Wr : writable (s_fs s) (place_of dest)) by (destruct (get (s_fs s) (place_of dest)) as [[u|]|] eqn:X; [left; eauto|congruence|right; auto]).
  apply room_iff in Rm.
  assert (Dm : pBat_DirExists (s_fs s) dest || pBat__EndWithDirectoryMark dest = false).
  { unfold pBat_DirExists, pBat__EndWithDirectoryMark. apply orb_false_iff. split; [destruct (get (s_fs s) (place_of dest)) as [[]|]; congruence|].
    destruct (rev dest) as [|c r] eqn:X; auto. unfold is_sep. apply not_true_iff_false. intros Y. apply ceq_true in Y. subst c. apply (Nm (rev r)).
    rewrite <- (rev_involutive dest), X. reflexivity. }
  assert (Run : forall s1, s_fs s1 = s_fs s -> exists s', (if move then let '(z, s2) := pBat_MoveFile fails s1 file dest in Ret (z, mkC (r_silent q) false move false false, s2)
                      else do (z, s2) <- pBat_CopyFile fails chunk fuel s1 file dest; Ret (z, mkC (r_silent q) false move false false, s2)) = Ret (0%Z, mkC (r_silent q) false move false false, s') /\
             s_in s' = s_in s1 /\ done move (place_of file) (place_of dest) text (s_fs s) (s_fs s')).
  { intros s1 F1. destruct move.
    - destruct (move_one fails Nv s1 file dest text) as (s' & X & Y & Z); try (rewrite F1); auto; [eapply below_file; eauto|]. rewrite X. rewrite F1 in Z. eauto.
    - destruct (copy_one fails chunk Nv s1 file dest text fuel) as (s' & X & Y & Z); try (rewrite F1); auto. rewrite X. rewrite F1 in Z. cbn [bind]. eauto. }
  assert (Eq : command fuel move w s line = do (z, _, s) <- pBat_CmdCopyFile fails chunk fuel s file dest (mkC (r_silent q) false move false false); Ret (z, w, s)).
  { rewrite (command_ok fuel move w s line ps q [src] dest W A (fun _ => C) R E ltac:(discriminate) H). cbv zeta. rewrite Ch, Dm, C. cbn [tl count length Nat.eqb andb orb copy_files].
    destruct (pBat_CmdCopyFile _ _ _ _ _ _ _) as [[[z fl] s1]| |]; [cbn [bind]; f_equal; f_equal; f_equal|reflexivity|reflexivity]. }
  rewrite Eq. unfold pBat_CmdCopyFile. cbn [c_multiple c_cat c_silent c_move andb negb bind]. split.
  - intros U. assert (Q : pBat_FileExists (s_fs s) dest && negb (r_silent q) = false) by (unfold pBat_FileExists; destruct U as [-> | ->]; [apply andb_false_r|reflexivity]).
    rewrite Q. cbn [bind negb c_move c_cat]. destruct (Run s eq_refl) as (s' & X & Y & Z). rewrite X. cbn [bind]. eauto.
  - intros u l input a Si Hu In Nl An. assert (Q : pBat_FileExists (s_fs s) dest && negb (r_silent q) = true) by (unfold pBat_FileExists; red in Hu; rewrite Hu, Si; reflexivity).
    rewrite Q, In. destruct (ask_ok true PBAT_ASK_NO l input Nl) as [K _]. rewrite (K a An). cbn [bind]. split.
    + intros ->. reflexivity.
    + intros Na. apply Z.eqb_neq in Na. rewrite Na. cbn [negb].
      destruct (Run (mkS (s_fs s) (s_tick s) input) eq_refl) as (s' & X & Y & Z).
      destruct (a =? PBAT_ASK_ALL)%Z; cbn [bind c_move c_cat].
      * exists s'. split; [|auto]. destruct move; [destruct (pBat_MoveFile _ _ _ _) as [z s2]; injection X as -> ->; reflexivity|].
        destruct (pBat_CopyFile _ _ _ _ _ _) as [[z s2]| |]; [cbn [bind] in X; injection X as -> ->; reflexivity|discriminate|discriminate].
      * exists s'. rewrite X. auto.
Qed.
(** Several files, to a file: it holds their texts one after the other, if it is said by +,
    or if there are a source with three files or two sources with two. *)
Theorem C74_concat : forall w s line ps q from dest ts,
  never fails -> written w line ps -> asked no_request ps q -> r_silent q = true -> r_rec q = false -> map (full w) (r_names q) = from ++ [dest] -> from <> [] ->
  (forall n, In n from -> search (s_fs s) n <> []) ->
  let l := chosen (s_fs s) (r_attr q) from in
  r_cat q = true \/ (length from = 1 /\ 3 <= length l \/ length from = 2 /\ 2 <= length l) /\ get (s_fs s) (place_of dest) <> Some Dir /\ (forall d, dest <> d ++ ["/"%char]) ->
  l <> [] -> texts (s_fs s) l ts -> (forall file, In file l -> place_of file <> place_of dest) -> writable (s_fs s) (place_of dest) ->
  exists n, forall fuel, n <= fuel -> exists s', command fuel false w s line = Ret (0%Z, w, s') /\ s_in s' = s_in s /\
    same_but [place_of dest] (s_fs s) (s_fs s') /\ holds_text (s_fs s') (place_of dest) (concat ts).
Proof.
  intros w s line ps q from dest ts Nv W A Si R E F H l Ca Ne Tx Nd Wr. exists (list_sum (map (fun t => 2 * length t + 2) ts)). intros fuel L.
  rewrite (command_ok fuel false w s line ps q from dest W A ltac:(discriminate) R E F H). cbv zeta. fold l.
  assert (C : r_cat q || (count (length from) (tl l) =? 3) && negb (pBat_DirExists (s_fs s) dest || pBat__EndWithDirectoryMark dest) && negb false = true).
  { destruct Ca as [-> |(N & D1 & D2)]; [reflexivity|].
    assert (Dm : pBat_DirExists (s_fs s) dest || pBat__EndWithDirectoryMark dest = false).
    { unfold pBat_DirExists, pBat__EndWithDirectoryMark. apply orb_false_iff. split; [destruct (get (s_fs s) (place_of dest)) as [[]|]; congruence|].
      destruct (rev dest) as [|c r] eqn:X; auto. unfold is_sep. apply not_true_iff_false. intros Y. apply ceq_true in Y. subst c. apply (D2 (rev r)).
      rewrite <- (rev_involutive dest), X. reflexivity. }
    rewrite Dm. assert (K : count (length from) (tl l) = 3).
    { destruct N as [[-> N]|[-> N]]; destruct l as [|x [|y l']]; cbn [length] in N; try lia; [destruct l' as [|z l']; [cbn [length] in N; lia|]|]; reflexivity. }
    rewrite K. apply orb_true_r. }
  rewrite C. destruct (all_cat fails chunk Nv dest l ts s fuel false (mkC (r_silent q)
    (pBat_DirExists (s_fs s) dest || pBat__EndWithDirectoryMark dest || (count (length from) (tl l) =? 3) && (pBat_DirExists (s_fs s) dest || pBat__EndWithDirectoryMark dest || false))
    false true false) []) as (s' & X & In & Sm & G & _); auto; try discriminate.
  - intros t I. clear - L I. induction ts as [|u ts IH]; [destruct I|]. cbn [map list_sum fold_right] in L. change (fold_right Nat.add 0) with list_sum in L. destruct I as [->|I]; [lia|]. apply IH; auto. lia.
  - rewrite X. cbn [bind]. exists s'. split; [auto|]. split; [auto|]. split; [auto|]. apply G. auto.
Qed.
(** Errors: nothing is changed. *)
Theorem C74_errors : forall fuel move w s line ps q,
  written w line ps -> asked no_request ps q ->
  ((move = true -> r_cat q = false) -> length (r_names q) < 2 -> command fuel move w s line = Ret (PBAT_EXPECTED_MORE, w, s)) /\
  (move = false -> r_cat q = true -> r_rec q = true -> 2 <= length (r_names q) -> command fuel move w s line = Ret (PBAT_INCOMPATIBLE_ARGS, w, s)) /\
  (forall from dest n, (move = true -> r_cat q = false) -> r_rec q = false -> map (full w) (r_names q) = from ++ [dest] -> In n from -> search (s_fs s) n = [] ->
     command fuel move w s line = Ret (PBAT_NO_MATCH, w, s)).
Proof.
  intros fuel move w s line ps q W A. unfold pBat_CmdCopy. split; [|split].
  - intros M L. rewrite (params_ok w move line ps q W A M). cbn [bind]. rewrite map_length. apply Nat.ltb_lt in L. rewrite L. reflexivity.
  - intros -> C R L. rewrite (params_ok w false line ps q W A) by discriminate. cbn [bind]. rewrite map_length. destruct (Nat.ltb_spec (length (r_names q)) 2); [lia|]. rewrite R, C. reflexivity.
  - intros from dest n M R E I S. rewrite (params_ok w move line ps q W A M). cbn [bind]. rewrite E, R. cbn [andb]. rewrite app_length. cbn [length].
    destruct (Nat.ltb_spec (length from + 1) 2) as [X|_]; [destruct from; [destruct I|cbn in X; lia]|]. rewrite removelast_last, last_last, (sources_none _ _ _ n) by auto. reflexivity.
Qed.
(** /? anywhere shows the help; + cannot be used with MOVE. *)
Theorem C74_help : forall fuel move w s line ps q ps',
  written w line (ps ++ s2l "/?" :: ps') -> asked no_request ps q -> (move = true -> r_cat q = false) -> command fuel move w s line = Ret (0%Z, w, s).
Proof.
  intros fuel move w s line ps q ps' W A M. unfold pBat_CmdCopy.
  destruct (par_asked w move _ _ _ A M _ (S (length line)) [] line W ltac:(lia)) as (fuel' & old & line' & W' & L & E).
  cbn [no_request r_silent r_rec r_cat r_attr r_names map] in E. change (pBat_MakeFileAttributes []) with 0%N in E. rewrite E.
  destruct fuel' as [|fuel']; [lia|]. destruct (written_next (fun _ => []) w _ _ _ W') as (rest & X & _). cbn [copy_params]. rewrite X. reflexivity.
Qed.
Theorem C74_move_plus : forall fuel w s line ps q ps',
  written w line (ps ++ s2l "+" :: ps') -> asked no_request ps q -> r_cat q = false -> command fuel true w s line = Ret (4%Z, w, s).
Proof.
  intros fuel w s line ps q ps' W A C. unfold pBat_CmdCopy.
  destruct (par_asked w true _ _ _ A (fun _ => C) _ (S (length line)) [] line W ltac:(lia)) as (fuel' & old & line' & W' & L & E).
  cbn [no_request r_silent r_rec r_cat r_attr r_names map] in E. change (pBat_MakeFileAttributes []) with 0%N in E. rewrite E.
  destruct fuel' as [|fuel']; [lia|]. destruct (written_next (fun _ => []) w _ _ _ W') as (rest & X & _). cbn [copy_params]. rewrite X. reflexivity.
Qed.
(** The answer "all" holds for the files that follow, the others do not. *)
Theorem C74_answer : forall fuel s file dest fl l input a u,
  c_multiple fl = false -> c_silent fl = false -> holds_text (s_fs s) (place_of dest) u -> s_in s = l :: input -> nonul l -> answers true PBAT_ASK_NO l a ->
  let s1 := mkS (s_fs s) (s_tick s) input in
  let quiet b := mkC b false (c_move fl) (c_cat fl) (c_second fl) in
  (a = PBAT_ASK_NO -> pBat_CmdCopyFile fails chunk fuel s file dest fl = Ret (0%Z, fl, s1)) /\
  (a <> PBAT_ASK_NO -> forall z fl' s', pBat_CmdCopyFile fails chunk fuel s1 file dest (quiet true) = Ret (z, fl', s') ->
     exists fl1, pBat_CmdCopyFile fails chunk fuel s file dest fl = Ret (z, fl1, s') /\
       c_silent fl1 = (a =? PBAT_ASK_ALL)%Z /\ c_move fl1 = c_move fl' /\ c_cat fl1 = c_cat fl' /\ c_second fl1 = c_second fl').
Proof.
  intros fuel s file dest fl l input a u Mu Si Hu In Nl An s1 quiet. destruct (ask_ok true PBAT_ASK_NO l input Nl) as [K _].
  unfold pBat_CmdCopyFile. rewrite Mu, Si. cbn [andb negb bind quiet c_multiple c_silent]. rewrite In, (K a An).
  unfold pBat_FileExists. red in Hu. cbn [s1 s_fs]. rewrite Hu. cbn [andb bind]. split.
  - intros ->. reflexivity.
  - intros Na z fl' s' X. apply Z.eqb_neq in Na. rewrite Na. cbn [negb bind c_move c_cat c_second] in *. fold s1. fold s1 in X.
    destruct (a =? PBAT_ASK_ALL)%Z eqn:Al; cbn [c_move c_cat c_second]; rewrite ?Mu in *.
    + exists fl'. split; [exact X|]. split; [|auto]. destruct (c_move fl); [destruct (pBat_MoveFile _ _ _ _) as [z2 s2]; injection X as _ <- _; reflexivity|].
      destruct (c_cat fl).
      * destruct (pBat_CatFile _ _ _ _ _ _ _) as [[[z2 b2] s2]| |]; cbn [bind] in X; try discriminate. injection X as _ <- _. reflexivity.
      * destruct (pBat_CopyFile _ _ _ _ _ _) as [[z2 s2]| |]; cbn [bind] in X; try discriminate. injection X as _ <- _. reflexivity.
    + destruct (c_move fl) eqn:Mv; [destruct (pBat_MoveFile _ _ _ _) as [z2 s2]; injection X as -> <- ->; exists fl; auto|].
      destruct (c_cat fl) eqn:Ca.
      * destruct (pBat_CatFile _ _ _ _ _ _ _) as [[[z2 b2] s2]| |]; cbn [bind] in *; try discriminate. injection X as -> <- ->. eexists. split; [reflexivity|]. cbn. auto.
      * destruct (pBat_CopyFile _ _ _ _ _ _) as [[z2 s2]| |]; cbn [bind] in *; try discriminate. injection X as -> <- ->. exists fl. auto.
Qed.
End Commands.
Print Assumptions C74_into.
Print Assumptions C74_file.
Print Assumptions C74_concat.
Print Assumptions C74_errors.
Print Assumptions C74_help.
Print Assumptions C74_move_plus.
Print Assumptions C74_answer.

(** A small world: the current directory is /tmp; a name stands for itself, NAME* for what
    starts with NAME. *)
Definition tmp_fs : fsys :=
  [([], Dir); ([s2l "tmp"], Dir); ([s2l "x1"; s2l "tmp"], File (s2l "one")); ([s2l "x2"; s2l "tmp"], File (s2l "two")); ([s2l "y"; s2l "tmp"], File (s2l "three"));
   ([s2l "d"; s2l "tmp"], Dir); ([s2l "x1"; s2l "d"; s2l "tmp"], File (s2l "old"))].
Definition path_text (p : place) : cstr := concat (map (cons "/"%char) (rev p)).
Definition ex_item (x : place * node) : item :=
  (path_text (fst x), match snd x with Dir => mkFile true true true 0 | File t => mkFile false true true (N.of_nat (length t)) end).
Definition ex_glob (f : fsys) (n : cstr) : list item :=
  map ex_item (filter (fun x => match rev n with
                                | "*"%char :: r => prefixb (rev r) (path_text (fst x)) && (length (fst x) =? 2)
                                | _ => streqb n (path_text (fst x))
                                end) f).
Definition no_rec (s : sys) (l : list cstr) (d : cstr) (a : N) (fl : cflags) : outcome (Z * sys) := Undef.
Definition ex_cmd (move : bool) (input : list string) (line : string) : outcome (Z * xworld * sys) :=
  pBat_CmdCopy (fun _ => false) (fun _ => 1) ex_glob no_rec 40 move ex_w (mkS tmp_fs 0 (map s2l input)) (s2l line).
(** The error level, and the texts of some files after the command. *)
Definition ex_after (r : outcome (Z * xworld * sys)) (l : list string) : option (Z * list (option node)) :=
  match r with Ret (z, _, s) => Some (z, map (fun n => get (s_fs s) (place_of (s2l n))) l) | _ => None end.
Definition txt (t : string) : option node := Some (File (s2l t)).

(** /Y does not keep the question away, /-Y does. *)
Theorem C74_yes_refuted :
  ex_cmd false [] " /Y x1 y" = Undef /\
  ex_after (ex_cmd false ["no"%string] " /Y x1 y") ["/tmp/y"%string] = Some (0%Z, [txt "three"]) /\
  ex_after (ex_cmd false [] " /-Y x1 y") ["/tmp/y"%string] = Some (0%Z, [txt "one"]).
Proof. split; [|split]; vm_compute; reflexivity. Qed.
Print Assumptions C74_yes_refuted.
(** A pattern for exactly two files, or three sources: the last file only is in the
    destination; MOVE loses the others. *)
Theorem C74_two_refuted :
  ex_after (ex_cmd false [] " /-Y x* all") ["/tmp/all"; "/tmp/x1"; "/tmp/x2"]%string = Some (0%Z, [txt "two"; txt "one"; txt "two"]) /\
  ex_after (ex_cmd true [] " /-Y x* all") ["/tmp/all"; "/tmp/x1"; "/tmp/x2"]%string = Some (0%Z, [txt "two"; None; None]) /\
  ex_after (ex_cmd false [] " /-Y x1 x2 y all") ["/tmp/all"]%string = Some (0%Z, [txt "three"]).
Proof. split; [|split]; vm_compute; reflexivity. Qed.
Print Assumptions C74_two_refuted.
(** Even when the destination is new, a question is asked for each file that is appended, and
    the default answer is no. *)
Theorem C74_plus_asks_refuted :
  ex_after (ex_cmd false [""%string] " x1 + x2 all") ["/tmp/all"]%string = Some (0%Z, [txt "one"]) /\
  ex_after (ex_cmd false ["all"%string] " x1 + x2 all") ["/tmp/all"]%string = Some (0%Z, [txt "onetwo"]).
Proof. split; vm_compute; reflexivity. Qed.
Print Assumptions C74_plus_asks_refuted.
(** A path that starts with /a is taken for the option /A; a concatenation to a directory
    is not possible. *)
Theorem C74_path_refuted :
  (forall fails chunk search recursive fuel s, pBat_CmdCopy fails chunk search recursive fuel false ex_w s (s2l " /Apps/x y") = Ret (8%Z, ex_w, s)) /\
  ex_after (ex_cmd false [] " /-y x1 + x2 d") ["/tmp/d/x1"]%string = Some (58%Z, [txt "old"]).
Proof. split; [intros; vm_compute; reflexivity|vm_compute; reflexivity]. Qed.
Print Assumptions C74_path_refuted.

Ltac pn := split; [apply nonul_b; reflexivity|split; [discriminate|split; [discriminate|split; [let o := fresh in let X := fresh in intros o X; repeat (destruct X as [<-|X]; [discriminate|]); destruct X|
  let a := fresh in let r := fresh in let X := fresh in let Y := fresh in intros a r X Y; apply (f_equal (map tolower)) in Y; rewrite map_app, X in Y; discriminate]]]].
Lemma tmp_tree : tree tmp_fs.
Proof.
  intros n p H. unfold tmp_fs in *. cbn [get] in *. destruct (place_eqb [] (n :: p)) eqn:E; [discriminate|].
  repeat match type of H with (if place_eqb ?a (n :: p) then _ else _) <> _ => let X := fresh in destruct (place_eqb a (n :: p)) eqn:X; [apply place_eqb_true in X; injection X as <- <-; reflexivity|] end.
  congruence.
Qed.
(** move /-y x* d *)
Example C74_ex :
  ex_after (ex_cmd true [] " /-y x* d") ["/tmp/d/x1"; "/tmp/d/x2"; "/tmp/x1"; "/tmp/x2"]%string = Some (0%Z, [txt "one"; txt "two"; None; None]) /\
  exists n, forall fuel, n <= fuel -> exists s', pBat_CmdCopy (fun _ => false) (fun _ => 1) ex_glob no_rec fuel true ex_w (mkS tmp_fs 0 []) (s2l " /-y x* d") = Ret (0%Z, ex_w, s') /\
    holds_text (s_fs s') [s2l "x1"; s2l "d"; s2l "tmp"] (s2l "one") /\ holds_text (s_fs s') [s2l "x2"; s2l "d"; s2l "tmp"] (s2l "two") /\ get (s_fs s') [s2l "x1"; s2l "tmp"] = None.
Proof.
  split; [vm_compute; reflexivity|].
  assert (A : asked no_request [s2l "/-y"; s2l "x*"; s2l "d"] (mkR true false false [] [s2l "x*"; s2l "d"])).
  { eapply ca_silent; [split; [apply nonul_b; reflexivity|reflexivity]|]. eapply ca_name; [pn|]. eapply ca_name; [pn|]. constructor. }
  set (ts := [mkT [s2l "x1"; s2l "tmp"] (s2l "one") [s2l "x1"; s2l "d"; s2l "tmp"]; mkT [s2l "x2"; s2l "tmp"] (s2l "two") [s2l "x2"; s2l "d"; s2l "tmp"]]).
  destruct (C74_into (fun _ => false) (fun _ => 1) ex_glob no_rec true ex_w (mkS tmp_fs 0 []) (s2l " /-y x* d") [s2l "/-y"; s2l "x*"; s2l "d"]
    (mkR true false false [] [s2l "x*"; s2l "d"]) [s2l "/tmp/x*"] (s2l "/tmp/d") ts) as (n & H); try exact A; try reflexivity.
  - intros ?. reflexivity.
  - exact tmp_tree.
  - do 3 lw; constructor; constructor.
  - discriminate.
  - intros m [<-|[]]. discriminate.
  - assert (P : forall b, In b [s2l "x1"; s2l "x2"] -> path_of (s2l "/tmp/" ++ b) (s2l "/tmp") b).
    { intros b I. split; [reflexivity|]. split; [destruct I as [<-|[<-|[]]]; apply Nat.ltb_lt; vm_compute; reflexivity|]. split; [intros (c & d & r & X & _); destruct I as [<-|[<-|[]]]; discriminate|].
      split; [destruct I as [<-|[<-|[]]]; intros X; cbn in X; repeat (destruct X as [X|X]; [discriminate|]); destruct X|].
      split; [destruct I as [<-|[<-|[]]]; (split; [discriminate|split; [discriminate|split; [discriminate|]]]); intros X; cbn in X; repeat (destruct X as [X|X]; [discriminate|]); destruct X|].
      destruct I as [<-|[<-|[]]]; intros X; cbn in X; repeat (destruct X as [X|X]; [discriminate|]); destruct X. }
    apply (tr_next tmp_fs (s2l "/tmp/d") (s2l "/tmp/x1") (s2l "/tmp") (s2l "x1") (s2l "one")); [apply (P (s2l "x1")); left; auto|reflexivity|].
    apply (tr_next tmp_fs (s2l "/tmp/d") (s2l "/tmp/x2") (s2l "/tmp") (s2l "x2") (s2l "two")); [apply (P (s2l "x2")); right; left; auto|reflexivity|]. constructor.
  - split; [|split].
    + cbn [ts map t_to]. constructor; [intros [X|[]]; discriminate|]. constructor; [intros []|constructor].
    + intros t u [<-|[<-|[]]] [<-|[<-|[]]]; discriminate.
    + intros t [<-|[<-|[]]]; [left; exists (s2l "old"); reflexivity|right; split; [reflexivity|]]. exists (s2l "x2"), [s2l "d"; s2l "tmp"]. split; reflexivity.
  - left. reflexivity.
  - exists n. intros fuel L. destruct (H fuel L) as (s' & E & _ & K & _). exists s'. split; [exact E|].
    destruct (K _ (or_introl eq_refl)) as (K1 & K2). destruct (K _ (or_intror (or_introl eq_refl))) as (K3 & _). split; [exact K1|]. split; [exact K3|]. apply K2. reflexivity.
Qed.
(** copy x1 y, with an answer; copy x* + y all; copy * all *)
Example C74_ex_more :
  ex_after (ex_cmd false ["Yes"; "rest"]%string " x1 y") ["/tmp/y"; "/tmp/x1"]%string = Some (0%Z, [txt "one"; txt "one"]) /\
  ex_after (ex_cmd false [] " /-Y x* + y all") ["/tmp/all"]%string = Some (0%Z, [txt "onetwothree"]) /\
  ex_after (ex_cmd false [] " /-Y /a:-d * all") ["/tmp/all"]%string = Some (0%Z, [txt "onetwothree"]) /\
  ex_after (ex_cmd true [] " x1 new") ["/tmp/new"; "/tmp/x1"]%string = Some (0%Z, [txt "one"; None]) /\
  ex_after (ex_cmd true [] " x1 + x2 new") []%string = Some (4%Z, []) /\ ex_after (ex_cmd false [] " x1 /r + x2 new") []%string = Some (9%Z, []) /\
  ex_after (ex_cmd false [] " none new") []%string = Some (42%Z, []) /\ ex_after (ex_cmd false [] " /? none new") []%string = Some (0%Z, []).
Proof. repeat split; vm_compute; reflexivity. Qed.
(** The hypotheses of [C74_file] and [C74_concat] are met there. *)
Example C74_ex_hypotheses :
  (exists q, asked no_request [s2l "x1"; s2l "y"] q /\ r_silent q = false /\ chosen ex_glob tmp_fs (r_attr q) [s2l "/tmp/x1"] = [s2l "/tmp/x1"] /\
     map (full ex_w) (r_names q) = [s2l "/tmp/x1"; s2l "/tmp/y"] /\ answers true PBAT_ASK_NO (s2l "Yes") PBAT_ASK_YES) /\
  (exists q, asked no_request [s2l "/-Y"; s2l "/a:-d"; s2l "*"; s2l "all"] q /\ chosen ex_glob tmp_fs (r_attr q) [s2l "/tmp/*"] = [s2l "/tmp/x1"; s2l "/tmp/x2"; s2l "/tmp/y"] /\
     r_silent q = true /\ r_cat q = false /\ texts tmp_fs [s2l "/tmp/x1"; s2l "/tmp/x2"; s2l "/tmp/y"] [s2l "one"; s2l "two"; s2l "three"] /\ writable tmp_fs (place_of (s2l "/tmp/all"))).
Proof.
  split.
  - eexists. split; [eapply ca_name; [pn|]; eapply ca_name; [pn|]; constructor|]. split; [reflexivity|]. split; [vm_compute; reflexivity|]. split; [vm_compute; reflexivity|].
    apply an_yes. left. reflexivity.
  - eexists. split; [eapply ca_silent; [split; [apply nonul_b; reflexivity|reflexivity]|]; eapply ca_attr;
      [split; [apply nonul_b; reflexivity|exists (s2l "/a"); split; [reflexivity|left; reflexivity]]|]; eapply ca_name; [pn|]; eapply ca_name; [pn|]; constructor|].
    split; [vm_compute; reflexivity|]. split; [reflexivity|]. split; [reflexivity|]. split; [repeat constructor|]. right. split; [reflexivity|]. exists (s2l "all"), [s2l "tmp"]. split; reflexivity.
Qed.
