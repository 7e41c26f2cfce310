(** Type_Props.v -- C80: TYPE. *)

From Verif Require Import Base Lex StrLib_Model StrLib_Spec Path_Model Path_Spec Var_Model Expand_Model Args_Model Args_Props Params_Model Params_Spec Params_Proofs Find_Model Find_Proofs Prompt_Proofs Attr_Model For_Model Wc_Model Fs_Model Fs_Spec Fs_Proofs Search_Model Search_Spec Search_Proofs Search_Props Copy_Model Copy_Spec Copy_Proofs Mkdir_Proofs Find_Props Type_Model Type_Spec.

Lemma loop_ok fails : forall fuel tick rest, length rest < fuel ->
  exists out more tick', type_loop fails fuel tick rest = Ret (out, tick') /\ rest = out ++ more /\ (never fails -> more = []).
Proof.
  induction fuel as [|k IH]; intros tick rest L; [lia|]. cbn [type_loop]. destruct (fails tick) eqn:F.
  - exists [], rest, (S tick). repeat split. intros Nv. specialize (Nv tick). congruence.
  - destruct rest as [|c rest]; [exists [], [], (S tick); destruct BUF; repeat split|].
    assert (B : exists b, BUF = S b) by (exists (pred BUF); unfold BUF; lia). destruct B as [b ->]. cbn [firstn].
    destruct (IH (S tick) (skipn (length (c :: firstn b rest)) (c :: rest))) as (out & more & tick' & E & R & Nv).
    { cbn [length skipn] in *. rewrite skipn_length. lia. }
    rewrite E. cbn [bind]. eexists _, more, tick'. split; [reflexivity|]. split; [|exact Nv].
    rewrite <- app_assoc, <- R. cbn [length skipn app]. f_equal. rewrite firstn_length. rewrite <- (firstn_skipn b rest) at 1. f_equal.
    destruct (Nat.le_ge_cases b (length rest)); [rewrite Nat.min_l by auto; auto|]. rewrite Nat.min_r by auto. rewrite !skipn_all2 by auto. auto.
Qed.

Section Props.
Variable fails : nat -> bool.

Lemma file_typed f tick x : is_file f x = true ->
  exists r tick', pBat_TypeFile fails f tick x = Ret (level [r], part r, tick') /\ (comes f false x r) /\ (never fails -> comes f true x r).
Proof.
  unfold is_file, pBat_TypeFile, comes. destruct (get f (place_of x)) as [[t|]|] eqn:G; try discriminate. intros _. destruct (fails tick) eqn:F.
  - exists None, (S tick). repeat split. intros Nv. specialize (Nv tick). congruence.
  - destruct (loop_ok fails (S (length t)) (S tick) t) as (out & more & tick' & E & R & Nv); [lia|]. unfold type_text. rewrite E. cbn [bind].
    exists (Some out), tick'. split; [reflexivity|]. split; [exists more; rewrite <- R; split; [auto|discriminate]|]. intros N. exists more. rewrite <- R. auto.
Qed.
Lemma files_typed f : forall l tick status, (forall x, In x l -> is_file f x = true) ->
  exists rs, type_files fails f tick l status = Ret (Z.lor status (level rs), flat_map (fun x => s2l "---------- " ++ fst x ++ [nl] ++ part (snd x)) (combine l rs)) /\
    Forall2 (comes f false) l rs /\ (never fails -> Forall2 (comes f true) l rs).
Proof.
  induction l as [|x l IH]; intros tick status H.
  - exists []. cbn. rewrite Z.lor_0_r. repeat split; constructor.
  - destruct (file_typed f tick x) as (r & tick' & E & C & N); [apply H; left; auto|]. cbn [type_files]. rewrite E. cbn [bind].
    destruct (IH tick' (Z.lor status (level [r]))) as (rs & E2 & C2 & N2); [intros; apply H; right; auto|]. rewrite E2. cbn [bind]. exists (r :: rs). split.
    + rewrite <- Z.lor_assoc. assert (X : Z.lor (level [r]) (level rs) = level (r :: rs)) by (unfold level; cbn [existsb]; destruct r; cbn [orb]; [reflexivity|destruct (existsb _ rs); reflexivity]).
      rewrite X. cbn [combine flat_map fst snd]. rewrite <- !app_assoc. reflexivity.
    + split; [constructor; auto|]. intros Nv. constructor; auto.
Qed.
End Props.
Lemma attr_file perm dsize f x : pBat_CheckFileAttributes PBAT_ATTR_NO_DIR (info perm dsize f x) = is_file f x.
Proof. unfold info, is_file. destruct (get f (place_of x)) as [[t|]|]; reflexivity. Qed.

Definition stands_for (w : xworld) (f : fsys) (n : cstr) (m : list cstr) : Prop := pBat_GetMatchFileList f false false false (full w n) = Ret m.

(** The list, as names are added: [l] is what there is. *)
Definition added (l : list cstr) (ms : list (list cstr)) : list cstr := match ms with [] => l | _ => match l with [] => chosen ms | x :: _ => x :: last ms [] end end.
Lemma added_step l m ms : m <> [] -> added (match l with [] => m | x :: _ => x :: m end) ms = added l (m :: ms).
Proof.
  intros N. unfold added. destruct l as [|x l].
  - destruct ms as [|m2 ms]; [reflexivity|]. destruct m as [|y m]; [congruence|]. reflexivity.
  - destruct ms as [|m2 ms]; reflexivity.
Qed.
Lemma params_typed w f : forall names tail ms fuel old line l, written w line (names ++ tail) -> Forall (fun n => n <> s2l "/?") names ->
  Forall2 (fun n m => stands_for w f n m /\ m <> []) names ms -> length line < fuel ->
  exists fuel' old' rest, type_params fuel w f old line l = type_params fuel' w f old' rest (added l ms) /\ written w rest tail /\ length rest < fuel'.
Proof.
  induction names as [|n names IH]; intros tail ms fuel old line l W F M L.
  - inversion M; subst. exists fuel, old, line. auto.
  - inversion F as [|? ? Fn F']; subst. inversion M as [|? m ? ms' [Sm Nm] M']; subst. destruct fuel as [|k]; [lia|]. cbn [type_params].
    destruct (Find_Proofs.written_next (fun _ => []) w _ _ _ W) as (rest & E & R & Lr). rewrite E. cbn [bind].
    apply streqb_false in Fn. rewrite Fn. unfold stands_for, full, pBat_FullPathDup in Sm. rewrite Sm. cbn [bind].
    destruct m as [|y m]; [congruence|]. rewrite <- added_step by discriminate. apply IH; auto. lia.
Qed.

(** Each name stands for some paths, [ms].  The files among the ones that are chosen are
    printed: one file as it is, several with a line before each.  If some call fails, a file may
    be left out, which gives error level 1, or what is printed of it may stop early. *)
Theorem C80_files : forall fails perm dsize w s input line names ms,
  written w line names -> names <> [] -> Forall (fun n => n <> s2l "/?") names ->
  Forall2 (fun n m => stands_for w (s_fs s) n m /\ m <> []) names ms ->
  let l := filter (is_file (s_fs s)) (chosen ms) in
  exists z out, pBat_CmdType fails perm dsize w s input line = Ret (z, out, w) /\
    (l = [] /\ z = PBAT_NO_VALID_FILE /\ out = [] \/
     l <> [] /\ exists rs, Forall2 (comes (s_fs s) false) l rs /\ (never fails -> Forall2 (comes (s_fs s) true) l rs) /\ z = level rs /\ out = printed l rs).
Proof.
  intros fails perm dsize w s input line names ms W Nn F M l. unfold pBat_CmdType.
  rewrite <- (app_nil_r names) in W. destruct (params_typed w (s_fs s) names [] ms (S (length line)) [] line [] W F M) as (fuel' & old' & rest & E & R & Lr); [lia|].
  rewrite E. destruct fuel' as [|k]; [lia|]. cbn [type_params].
  assert (Rn : forall old, pBat_GetNextParameterEs w old rest = Ret (old, None, w)) by (intros; inversion R; subst; apply next_end; auto).
  rewrite Rn. cbn [bind]. assert (Ea : added [] ms = chosen ms) by (destruct ms; reflexivity). rewrite Ea.
  assert (Nc : chosen ms <> []).
  { destruct names as [|n names]; [congruence|]. inversion M as [|? m ? ms' [_ Nm] _]; subst. destruct m as [|y m]; [congruence|]. destruct ms'; discriminate. }
  subst l. destruct (chosen ms) as [|c cs]; [congruence|]. set (l := filter (is_file (s_fs s)) (c :: cs)).
  rewrite (filter_ext _ (is_file (s_fs s))) by apply attr_file. fold l.
  assert (Hl : forall x, In x l -> is_file (s_fs s) x = true) by (intros x I; apply filter_In in I; apply I).
  destruct l as [|x l'] eqn:El; [eexists _, _; split; [reflexivity|]; left; auto|]. destruct l' as [|y l''].
  - destruct (file_typed fails (s_fs s) (s_tick s) x) as (r & tick' & E2 & C & N); [apply Hl; left; auto|]. rewrite E2. cbn [bind]. eexists _, _. split; [reflexivity|]. right.
    split; [discriminate|]. exists [r]. split; [repeat constructor; auto|]. split; [intros; repeat constructor; auto|]. split; reflexivity.
  - destruct (files_typed fails (s_fs s) (x :: y :: l'') (s_tick s) 0 Hl) as (rs & E2 & C & N). rewrite E2. cbn [bind]. eexists _, _. split; [reflexivity|]. right.
    split; [discriminate|]. exists rs. split; [auto|]. split; [auto|]. split; [auto|]. destruct rs as [|r1 [|r2 rs]]; [inversion C|inversion C as [|? ? ? ? _ C2]; subst; inversion C2|reflexivity].
Qed.
Print Assumptions C80_files.

(** The usual case: TYPE and the name of a file prints the file, as it is. *)
Theorem C80_file : forall fails perm dsize w s input line n t,
  written w line [n] -> n <> s2l "/?" -> get (s_fs s) (place_of (full w n)) = Some (File t) -> length (full w n) < FILENAME_MAX -> never fails ->
  pBat_CmdType fails perm dsize w s input line = Ret (0%Z, t, w).
Proof.
  intros fails perm dsize w s input line n t W N G L Nv.
  destruct (C80_files fails perm dsize w s input line [n] [[full w n]] W) as (z & out & E & H); [discriminate|repeat constructor; auto| |].
  { constructor; [|constructor]. split; [|discriminate]. apply C75_name; [auto|congruence|congruence]. }
  assert (X : is_file (s_fs s) (full w n) = true) by (unfold is_file; rewrite G; auto). cbn [chosen filter] in H. rewrite X in H.
  destruct H as [[H _]|(_ & rs & _ & C & -> & ->)]; [discriminate|]. specialize (C Nv). inversion C as [|? r ? ? Cr C2]; subst. inversion C2; subst.
  destruct r as [p|]; [|discriminate Cr]. destruct Cr as (more & G2 & M). rewrite (M eq_refl), app_nil_r in G2. rewrite G in G2. injection G2 as <-. exact E.
Qed.
Print Assumptions C80_file.

(** Without a name, the standard input is printed. *)
Theorem C80_input : forall fails perm dsize w s input line, written w line [] ->
  exists out more, pBat_CmdType fails perm dsize w s input line = Ret (0%Z, out, w) /\ input = out ++ more /\ (never fails -> more = []).
Proof.
  intros fails perm dsize w s input line W. inversion W as [? B|]; subst. unfold pBat_CmdType. cbn [type_params]. rewrite next_end by auto. cbn [bind].
  destruct (loop_ok fails (S (length input)) (s_tick s) input) as (out & more & tick' & E & R & Nv); [lia|]. unfold type_text. rewrite E. cbn [bind]. eauto.
Qed.
Print Assumptions C80_input.

(** A name that stands for nothing: nothing is printed, not even what the names before it stand
    for.  And "/?" asks for the help. *)
Theorem C80_errors : forall fails perm dsize w s input line names p more ms,
  written w line (names ++ p :: more) -> Forall (fun n => n <> s2l "/?") names -> Forall2 (fun n m => stands_for w (s_fs s) n m /\ m <> []) names ms ->
  (p <> s2l "/?" -> stands_for w (s_fs s) p [] -> pBat_CmdType fails perm dsize w s input line = Ret (PBAT_NO_MATCH, [], w)) /\
  (p = s2l "/?" -> pBat_CmdType fails perm dsize w s input line = Ret (0%Z, [], w)).
Proof.
  intros fails perm dsize w s input line names p more ms W F M.
  destruct (params_typed w (s_fs s) names (p :: more) ms (S (length line)) [] line [] W F M) as (fuel' & old' & rest & E & R & Lr); [lia|].
  unfold pBat_CmdType. rewrite E. destruct fuel' as [|k]; [lia|]. cbn [type_params]. destruct (Find_Proofs.written_next (fun _ => []) w _ _ _ R) as (r2 & E2 & _). rewrite E2. cbn [bind]. split.
  - intros N St. apply streqb_false in N. rewrite N. unfold stands_for, full, pBat_FullPathDup in St. rewrite St. reflexivity.
  - intros ->. rewrite streqb_refl. reflexivity.
Qed.
Print Assumptions C80_errors.

Definition ty_fs : fsys :=
  [at_ "/" Dir; at_ "/tmp" Dir; at_ "/tmp/a" (File (s2l "1")); at_ "/tmp/b" (File (s2l "2")); at_ "/tmp/c" (File (s2l "3")); at_ "/tmp/d" Dir].
Definition ty (fails : nat -> bool) (line : string) : option (Z * string) :=
  match pBat_CmdType fails (fun _ => (true, true)) (fun _ => 0%N) ex_w (mkS ty_fs 0 []) (s2l "in") (s2l line) with
  | Ret (z, out, _) => Some (z, string_of_list_ascii out)
  | _ => None
  end.
Definition lines_of (l : list string) : string := String.concat (String nl EmptyString) l.
(** Of three files, the second one is not printed; of the paths that a pattern stands for, only
    the first one is looked at if another name follows, which may be "." and no file. *)
Theorem C80_names_refuted :
  ty (fun _ => false) " a b c" = Some (0%Z, lines_of ["---------- /tmp/a"; "1---------- /tmp/c"; "3"]%string) /\
  ty (fun _ => false) " ? a" = Some (0%Z, "1"%string).
Proof. split; vm_compute; reflexivity. Qed.
Print Assumptions C80_names_refuted.
(** A file that cannot be read to its end gives error level 0 all the same. *)
Theorem C80_unread_refuted : ty (fun n => n =? 1) " a" = Some (0%Z, EmptyString) /\ ty (fun _ => false) " a" = Some (0%Z, "1"%string).
Proof. split; vm_compute; reflexivity. Qed.
Print Assumptions C80_unread_refuted.

(** The hypotheses hold: a name and a pattern, of which a directory is left out. *)
Example C80_ex :
  written ex_w (s2l " b ?") [s2l "b"; s2l "?"] /\ (s2l "b" <> s2l "/?") /\
  stands_for ex_w ty_fs (s2l "b") [s2l "/tmp/b"] /\ stands_for ex_w ty_fs (s2l "?") (map s2l ["/tmp/."; "/tmp/a"; "/tmp/b"; "/tmp/c"; "/tmp/d"]%string) /\
  stands_for ex_w ty_fs (s2l "q") [] /\
  ty (fun _ => false) " b ?" = Some (0%Z, lines_of ["---------- /tmp/b"; "2---------- /tmp/a"; "1---------- /tmp/b"; "2---------- /tmp/c"; "3"]%string) /\
  ty (fun n => n =? 0) " b ?" = Some (1%Z, lines_of ["---------- /tmp/b"; "---------- /tmp/a"; "1---------- /tmp/b"; "2---------- /tmp/c"; "3"]%string) /\
  ty (fun _ => false) " d" = Some (43%Z, EmptyString) /\ ty (fun _ => false) " b q" = Some (42%Z, EmptyString) /\ ty (fun _ => false) "" = Some (0%Z, "in"%string).
Proof.
  split; [do 2 lw; constructor; constructor|]. split; [discriminate|]. repeat split; vm_compute; reflexivity.
Qed.
