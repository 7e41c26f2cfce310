(** Wc_Props.v -- property C38: what WC counts and prints. *)

From Verif Require Import Base Num_Model Path_Model Var_Model Expand_Model Args_Model Args_Spec Args_Proofs Args_Props Params_Model
  Params_Spec Params_Proofs For_Model Wc_Model Wc_Spec Wc_Proofs.

(** C38: however the reads cut a text, what is counted is the text: its line feeds, its
    bytes, its UTF-8 characters and its words, modulo 2^64. *)
Theorem C38_counts :
  forall rs s, reads_as rs s ->
    exists n, pBat_FileCounts (Some rs) = Some n /\
      forall k, exists v, measures s k v /\ (forall u, measures s k u -> u = v) /\ field k n = (Z.of_nat v mod 2 ^ 64)%Z.
Proof.
  intros rs s R. exists (count_reads rs false count0). split; auto. intros k. exists (measure s k).
  split; [apply measure_iff; auto|]. split; [intros u; apply measure_iff|].
  rewrite (reads_counts _ _ R). destruct k; reflexivity.
Qed.
Print Assumptions C38_counts.

(** C38: two ways to cut the same text give the same counts. *)
Theorem C38_chunking :
  forall rs rs' s, reads_as rs s -> reads_as rs' s -> pBat_FileCounts (Some rs) = pBat_FileCounts (Some rs').
Proof. intros rs rs' s R R'. cbn [pBat_FileCounts]. rewrite (reads_counts _ _ R), (reads_counts _ _ R'). auto. Qed.
Print Assumptions C38_chunking.

(** C38: WC without file names prints the counts asked for, of the standard input. *)
Theorem C38_stdin :
  forall search w line ps stdin s, written w line ps -> Forall (fun p => exists k, asks p k) ps -> reads_as stdin s ->
    exists out, pBat_CmdWc search w stdin line = Ret (0%Z, out, w) /\ row (asked ps) (measures s) [] out.
Proof.
  intros search w line ps stdin s W O R. unfold pBat_CmdWc.
  assert (N : named search (vw_cd (x_var w)) ps []).
  { clear -O. induction O as [|p ps [k K] O IH]; [constructor|]. econstructor; eauto. }
  destruct (params_ok search w line ps W [] N (Datatypes.S (length line)) [] mode0 []) as (mode & items & -> & M & F); [lia|].
  inversion F; subst. cbn [bind app]. cbn [wc_files]. cbn [Nat.ltb Nat.leb]. cbn [bind]. rewrite app_nil_r.
  eexists. split; [reflexivity|]. rewrite (reads_counts _ _ R).
  eapply row_ok with (mode := mode) (v := measure s); [|intros; apply measure_iff|reflexivity].
  intros k. rewrite M. split; auto. intros [X|X]; auto. discriminate.
Qed.
Print Assumptions C38_stdin.

Lemma mode_files ps mode : (forall k, mode k = true <-> mode0 k = true \/ asked ps k) ->
  forall k, (if mode_none mode then mode_add mode0 WBytes else mode) k = true <-> asked_files ps k.
Proof.
  intros M k. unfold asked_files. assert (M' : forall j, mode j = true <-> asked ps j).
  { intros j. rewrite M. split; auto. intros [X|X]; auto. discriminate. }
  destruct (mode_none mode) eqn:X.
  - unfold mode_none in X. rewrite negb_true_iff, !orb_false_iff in X. destruct X as (((X1 & X2) & X3) & X4).
    assert (A : forall j, ~ asked ps j) by (intros j; rewrite <- M'; destruct j; congruence).
    unfold mode_add, mode0. rewrite orb_false_r. split.
    + intros K. right. split; auto. destruct k; auto; discriminate.
    + intros [K|[_ ->]]; auto. exfalso. eapply A; eauto.
  - rewrite M'. split; auto. intros [K|[K _]]; auto. exfalso.
    unfold mode_none in X. rewrite negb_false_iff, !orb_true_iff, !M' in X. destruct X as [[[X|X]|X]|X]; eapply K; eauto.
Qed.

(** C38: WC prints one row for each file, in order, and a row of totals if there are
    several; a file that cannot be read is left out, and this is an error. *)
Theorem C38_files :
  forall search w line ps stdin l contents k, written w line ps -> named search (vw_cd (x_var w)) ps l -> l <> [] ->
    asked ps k -> k <> WBytes -> Forall2 gives l contents ->
    exists rows total, pBat_CmdWc search w stdin line = Ret (if existsb (fun c => match c with None => true | _ => false end) contents then 1%Z else 0%Z, concat rows ++ total, w) /\
      Forall2 (fun (hc : cstr * wfile * option cstr) r =>
        match snd hc with Some s => row (asked ps) (measures s) (fst (fst hc)) r | None => r = [] end) (combine l contents) rows /\
      (if 1 <? length l then row (asked ps) (sums (texts contents)) (s2l "Total") total else total = []).
Proof.
  intros search w line ps stdin l contents k W N NE A K G. unfold pBat_CmdWc.
  destruct (params_ok search w line ps W l N (Datatypes.S (length line)) [] mode0 []) as (mode & items & -> & M & F); [lia|].
  cbn [bind app].
  assert (M' : forall j, mode j = true <-> asked ps j).
  { intros j. rewrite M. split; auto. intros [X|X]; auto. discriminate. }
  assert (K' : mode k = true) by (apply M'; auto).
  replace (mode_none mode) with false by (unfold mode_none; symmetry; apply negb_false_iff; rewrite !orb_true_iff; destruct k; tauto).
  destruct items as [|it its]; [inversion F; subst; congruence|]. set (items := it :: its) in *.
  assert (B : mode_bytes mode = false).
  { unfold mode_bytes. destruct k; try congruence; rewrite K'; cbn; rewrite ?orb_true_r; apply andb_false_r. }
  pose proof (files_ok mode l B items contents F G 0 (fun _ => 0) false 0 []) as Q. cbv iota in Q.
  change (cs_of (fun _ => 0)) with count0 in Q. rewrite Q. cbn [bind app orb].
  exists (rows_of mode l contents). eexists. split; [reflexivity|]. split.
  - clear -G M'. induction G as [|h c l cts H G IH]; cbn [combine rows_of]; constructor; auto. cbn [fst snd].
    destruct c as [s|]; auto. eapply row_ok; [apply M'|intros; apply measure_iff|reflexivity].
  - cbn [Nat.add]. destruct (1 <? length l); auto.
    eapply row_ok; [apply M'| |reflexivity]. intros j n. unfold sums, total_of. cbn [Nat.add].
    generalize (texts contents). intros ts. split.
    + intros (ns & H & ->). f_equal. induction H as [|s m ts ms H _ IH]; cbn [map]; auto. f_equal; auto. apply measure_iff. auto.
    + intros ->. exists (map (fun s => measure s j) ts). split; auto. induction ts; cbn [map]; constructor; auto. apply measure_iff. auto.
Qed.
Print Assumptions C38_files.

(** C38: when only the bytes are wanted, the sizes of the files are printed, without
    reading them. *)
Theorem C38_sizes :
  forall search w line ps stdin l, written w line ps -> named search (vw_cd (x_var w)) ps l -> l <> [] ->
    (forall k, asked ps k -> k = WBytes) -> Forall (fun h => (0 <= wf_size (snd h))%Z) l ->
    pBat_CmdWc search w stdin line =
    Ret (0%Z, concat (map (fun h => printed (Z.to_nat (wf_size (snd h))) ++ fst h ++ [nl]) l) ++
              (if 1 <? length l then printed (list_sum (map (fun h => Z.to_nat (wf_size (snd h))) l)) ++ s2l "Total" ++ [nl] else []), w).
Proof.
  intros search w line ps stdin l W N NE A P. unfold pBat_CmdWc.
  destruct (params_ok search w line ps W l N (Datatypes.S (length line)) [] mode0 []) as (mode & items & -> & M & F); [lia|].
  cbn [bind app].
  pose proof (mode_files ps mode M) as MF. set (mode' := if mode_none mode then mode_add mode0 WBytes else mode) in *.
  destruct items as [|it its]; [inversion F; subst; congruence|]. set (items := it :: its) in *.
  assert (B : mode_bytes mode' = true).
  { assert (X : forall j, j <> WBytes -> mode' j = false).
    { intros j J. destruct (mode' j) eqn:Y; auto. apply MF in Y. destruct Y as [Y|[_ Y]]; [apply A in Y|]; congruence. }
    unfold mode_bytes. rewrite (X WLines), (X WChars), (X WWords) by congruence. cbn. rewrite andb_true_r. apply MF.
    assert (Y : mode WBytes = true \/ mode WBytes = false) by (destruct (mode WBytes); auto).
    destruct Y as [Y|Y]; [left; apply M in Y; destruct Y; auto; discriminate|right; split; auto].
    intros j Z. pose proof (A j Z). subst j. rewrite (proj2 (M WBytes)) in Y by auto. discriminate. }
  pose proof (sizes_ok mode' l B items F P 0 0 []) as Q.
  change (cs_of (fun k => if kind_eqb k WBytes then 0 else 0)) with count0 in Q. rewrite Q. reflexivity.
Qed.
Print Assumptions C38_sizes.

(** C38: WC prints no counts at all when it does not understand an option or finds no
    file; "/?" shows the help. *)
Theorem C38_refused :
  forall search w line good l p bad stdin, written w line (good ++ p :: bad) -> named search (vw_cd (x_var w)) good l ->
    (p = s2l "/?" -> pBat_CmdWc search w stdin line = Ret (0%Z, [], w)) /\
    (optional p -> p <> s2l "/?" -> (forall k, ~ asks p k) -> pBat_CmdWc search w stdin line = Ret (4%Z, [], w)) /\
    (~ optional p -> search p = [] -> pBat_CmdWc search w stdin line = Ret (42%Z, [], w)).
Proof.
  intros search w line good l p bad stdin W N. unfold pBat_CmdWc.
  pose proof (fun o O => params_bad search w line _ W good l p bad eq_refl N o O (Datatypes.S (length line)) [] mode0 []) as X.
  split; [|split].
  - intros ->. rewrite (X WHelp) by (try reflexivity; lia). reflexivity.
  - intros [c ->] H A. rewrite (X (WFail PBAT_UNEXPECTED_ELEMENT)); [reflexivity| |lia].
    destruct (wc_arg ["/"%char; c]) eqn:Y; auto.
    + apply asks_iff in Y. eapply A; eauto.
    + exfalso. revert Y. unfold wc_arg. rewrite ceq_refl. destruct (ceq c "?"%char) eqn:Z.
      * apply ceq_true in Z. subst c. exfalso. apply H. reflexivity.
      * destruct (ceq c "L"%char || ceq c "l"%char); [discriminate|]. destruct (ceq c "C"%char || ceq c "c"%char); [discriminate|].
        destruct (ceq c "M"%char || ceq c "m"%char); [discriminate|]. destruct (ceq c "W"%char || ceq c "w"%char); discriminate.
    + apply optional_iff in Y. exfalso. apply Y. red. eauto.
  - intros O S. rewrite (X (WFail PBAT_NO_MATCH)); [reflexivity| |lia]. rewrite (proj2 (optional_iff p)) by auto. auto.
Qed.
Print Assumptions C38_refused.

Definition ex_a : wfile := mkWF (vw_cd (x_var ex_w) ++ s2l "/a") 6 (Some [Some (s2l "x y"); Some (s2l " z,"); Some []]).
Definition ex_b : wfile := mkWF (vw_cd (x_var ex_w) ++ s2l "/b") 4 None.
Definition ex_c : wfile :=
  mkWF (vw_cd (x_var ex_w) ++ s2l "/c") 9 (Some [Some ["195"%char]; Some ["169"%char; nl; nl]; Some (s2l "; u"); Some (s2l " v"); None]).
Definition ex_search (p : cstr) : list wfile := if streqb p (s2l "*") then [ex_a; ex_b; ex_c] else [].

Example C38_ex :
  (exists l, named ex_search (vw_cd (x_var ex_w)) (map s2l (["/l"; "*"; "/M"; "/W"]%string)) l /\ map fst l = map s2l (["a"; "b"; "c"]%string) /\
     Forall2 gives l [Some (s2l "x y z,"); None; Some (["195"%char; "169"%char; nl; nl] ++ s2l "; u v")]) /\
  written ex_w (s2l " /l * /M /W") (map s2l (["/l"; "*"; "/M"; "/W"]%string)) /\
  match pBat_CmdWc ex_search ex_w [] (s2l " /l * /M /W") with
  | Ret (e, out, _) => e = 1%Z /\ out = s2l "0 3 6 a" ++ nl :: s2l "2 2 8 c" ++ nl :: s2l "2 5 14 Total" ++ [nl]
  | _ => False
  end /\
  match pBat_CmdWc ex_search ex_w [] (s2l " *") with
  | Ret (e, out, _) => e = 0%Z /\ out = s2l "6 a" ++ nl :: s2l "4 b" ++ nl :: s2l "9 c" ++ nl :: s2l "19 Total" ++ [nl]
  | _ => False
  end.
Proof.
  split; [|split; [|split; vm_compute; auto]].
  - eexists. split; [|split].
    + eapply nm_option; [apply ask_lines; cbn; auto|].
      apply nm_files with (here := [(s2l "a", ex_a); (s2l "b", ex_b); (s2l "c", ex_c)]); [intros [c H]; discriminate|discriminate| |].
      * change (ex_search (s2l "*")) with [ex_a; ex_b; ex_c].
        repeat (constructor; [split; [reflexivity|right; split; [intros (r & H & _); discriminate|reflexivity]]|]). constructor.
      * eapply nm_option; [apply ask_chars; cbn; auto|]. eapply nm_option; [apply ask_words; cbn; auto|]. constructor.
    + reflexivity.
    + constructor; [|constructor; [|constructor; [|constructor]]]; cbn [gives snd wf_reads]; auto.
      * eexists. split; [reflexivity|]. exists [s2l "x y"; s2l " z,"], [Some []]. repeat split; auto. repeat constructor; discriminate.
      * eexists. split; [reflexivity|]. exists [["195"%char]; ["169"%char; nl; nl]; s2l "; u"; s2l " v"], [None]. repeat split; auto. repeat constructor; discriminate.
  - assert (P : forall v rest l, v <> [] -> forallb (fun c => negb (inset (dquote :: blanks ++ s2l "^%!") c)) v = true ->
        written ex_w rest l -> ends rest -> written ex_w (" "%char :: v ++ rest) (v :: l)).
    { intros v rest l N F H E. apply written_blank; [apply space_blank|]. apply written_plain; auto. intros c Hc Hb.
      rewrite forallb_forall in F. specialize (F c Hc). rewrite negb_true_iff in F. apply inset_in in Hb. congruence. }
    apply (P (s2l "/l") (s2l " * /M /W") (map s2l (["*"; "/M"; "/W"]%string))); [discriminate|reflexivity| |apply ends_space].
    apply (P (s2l "*") (s2l " /M /W") (map s2l (["/M"; "/W"]%string))); [discriminate|reflexivity| |apply ends_space].
    apply (P (s2l "/M") (s2l " /W") (map s2l (["/W"]%string))); [discriminate|reflexivity| |apply ends_space].
    apply (P (s2l "/W") [] []); [discriminate|reflexivity|constructor; constructor|]. intros c r H. discriminate.
Qed.

(** A last word that no separator follows is not counted. *)
Theorem C38_last_refuted :
  forall u, u <> [] -> Forall (fun c => ~ separator c) u -> measures u WWords 0 /\
    forall search w, exists out, pBat_CmdWc search w [Some u; Some []] (s2l " /w") = Ret (0%Z, out, w) /\ out = s2l "0 " ++ [nl].
Proof.
  intros u N U. assert (M : measures u WWords 0) by (econstructor; apply (wo_last [] u); auto). split; auto.
  intros search w.
  destruct (C38_stdin search w (s2l " /w") [s2l "/w"] [Some u; Some []] u) as (out & E & c & R & ->).
  - apply written_blank; [apply space_blank|]. apply (written_plain w (s2l "/w") [] []); try discriminate.
    + intros c Hc Hb; revert Hc Hb; cbv; intuition (subst; discriminate).
    + constructor. constructor.
  - constructor; auto. exists WWords. constructor. cbn. auto.
  - exists [u], [Some []]. repeat split; auto. cbn. apply app_nil_r.
  - exists (c ++ [nl]). split; auto. f_equal.
    assert (NA : forall k, k <> WWords -> ~ asked [s2l "/w"] k).
    { intros k K (p & [<-|[]] & A). apply asks_iff in A. injection A as <-. congruence. }
    inversion R as [|? ? ? ? X Y|? ? ? X R1]; subst; [exfalso; eapply NA; eauto; discriminate|].
    clear X. inversion R1 as [|? ? n s X Y R2|? ? ? X _]; subst.
    + apply measure_iff in Y, M. rewrite <- M in Y. subst n.
      inversion R2 as [|? ? ? ? X1 Y1|? ? ? X1 R3]; subst; [exfalso; eapply NA; eauto; discriminate|].
      inversion R3 as [|? ? ? ? X2 Y2|? ? ? X2 R4]; subst; [exfalso; eapply NA; eauto; discriminate|].
      inversion R4; subst. reflexivity.
    + exfalso. apply X. exists (s2l "/w"). split; [left; auto|]. constructor. cbn. auto.
Qed.
Print Assumptions C38_last_refuted.

(** Without options and files, the bytes of the standard input are not printed. *)
Theorem C38_default_refuted :
  forall search w stdin, pBat_CmdWc search w stdin [] = Ret (0%Z, [nl], w).
Proof. reflexivity. Qed.
Print Assumptions C38_default_refuted.
