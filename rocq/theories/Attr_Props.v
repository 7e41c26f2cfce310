(** Attr_Props.v -- properties C13 and C45: attribute tests and list splitting. *)

From Verif Require Import Base Attr_Model Attr_Spec Attr_Proofs.

(** C13: splitting a list of distinct nodes ends, relinks the nodes into the
    matching ones and the others, each in their original order, and touches no
    other node. *)
Theorem C13_split_partition :
  forall check h pIn l fuel,
    chain h pIn l -> NoDup l -> length l < fuel ->
    exists h' sel rem,
      pBat_AttributesSplitFileList fuel check h pIn = Ret (h', sel, rem) /\
      chain h' sel (filter check l) /\
      chain h' rem (filter (fun n => negb (check n)) l) /\
      forall n, ~ In n l -> h' n = h n.
Proof.
  intros check h pIn l fuel Hc Hn Hf.
  destruct (split_ok check l fuel h [] [] pIn) as (h' & H1 & H2 & H3 & H4); simpl; auto.
  exists h', (first (filter check l)), (first (filter (fun n => negb (check n)) l)). auto.
Qed.
Print Assumptions C13_split_partition.

(** C45: when the string names neither I nor S, a file is accepted exactly when
    it meets the string. *)
Theorem C45_check_exact :
  forall s f,
    ~ requested s AVoid -> ~ requested s ASystem ->
    (pBat_CheckFileAttributes (pBat_MakeFileAttributes s) f = true <-> meets s f).
Proof.
  intros s f HV HS. rewrite check_exact. unfold meets. split; intros H a Ha; specialize (H a Ha);
    destruct a; try contradiction; exact H.
Qed.
Print Assumptions C45_check_exact.

(** C45: the same holds with I and S as long as nothing is refused but, possibly,
    attributes other than H, I and S. *)
Theorem C45_check_positive :
  forall s f,
    ~ refused s AHidden -> ~ refused s AVoid -> ~ refused s ASystem ->
    (pBat_CheckFileAttributes (pBat_MakeFileAttributes s) f = true <-> meets s f).
Proof.
  intros s f HH HV HS. rewrite check_exact. unfold meets. split; intros H a Ha; specialize (H a Ha);
    destruct a; cbn [consulted] in *; tauto.
Qed.
Print Assumptions C45_check_positive.

(** C45: refusing I is not honoured: "-I" accepts the empty files and rejects
    the others. *)
Theorem C45_not_void_refuted :
  let empty := mkFile false true true 0 in
  let full := mkFile false true true 7 in
  pBat_CheckFileAttributes (pBat_MakeFileAttributes (s2l "-I")) empty = true /\ ~ meets (s2l "-I") empty /\
  pBat_CheckFileAttributes (pBat_MakeFileAttributes (s2l "-I")) full = false /\ meets (s2l "-I") full.
Proof.
  cbv zeta. split; [vm_compute; reflexivity|]. split; [|split; [vm_compute; reflexivity|]].
  - intros H. assert (R : requested (s2l "-I") AVoid) by (exists true; left; auto).
    apply H in R. apply R; [reflexivity|left; auto].
  - intros a [n [E|[]]]. injection E as <- <-. split; [discriminate|]. intros X. exfalso. apply X. left. auto.
Qed.
Print Assumptions C45_not_void_refuted.

(** C45: and refusing H turns a request for empty files into its contrary. *)
Theorem C45_hidden_void_refuted :
  let empty := mkFile false true true 0 in
  pBat_CheckFileAttributes (pBat_MakeFileAttributes (s2l "I-H")) empty = false /\ meets (s2l "I-H") empty.
Proof.
  cbv zeta. split; [vm_compute; reflexivity|].
  intros a [n [E|[E|[]]]]; injection E as <- <-.
  - split; [|reflexivity]. intros _ [X|[X|[]]]; discriminate.
  - split; [intros []|]. intros X. exfalso. apply X. right. left. auto.
Qed.
Print Assumptions C45_hidden_void_refuted.

(** Non-vacuity. *)
Example C13_ex :
  let h := fun n => match n with 4 => Some 2 | 2 => Some 9 | 9 => Some 1 | _ => None end in
  chain h (Some 4) [4; 2; 9; 1] /\
  match pBat_AttributesSplitFileList 5 Nat.even h (Some 4) with
  | Ret (h', sel, rem) => chain h' sel [4; 2] /\ chain h' rem [9; 1]
  | _ => False
  end.
Proof. vm_compute. intuition. Qed.
Example C45_ex :
  pBat_CheckFileAttributes (pBat_MakeFileAttributes (s2l "d-R")) (mkFile true true true 4) = true /\
  pBat_CheckFileAttributes (pBat_MakeFileAttributes (s2l "d-R")) (mkFile true true false 4) = false /\
  ~ requested (s2l "d-R") AVoid /\ ~ requested (s2l "d-R") ASystem.
Proof.
  split; [vm_compute; reflexivity|]. split; [vm_compute; reflexivity|].
  split; intros [n [X|[X|[]]]]; discriminate.
Qed.
