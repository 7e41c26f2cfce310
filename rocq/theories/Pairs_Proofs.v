(** Pairs_Proofs.v -- the enumeration visits each pair once. *)

From Coq Require Import FinFun.
From Verif Require Import Base Pairs_Model.

(** The columns of row [i], from [a] on. *)
Definition row (n i a : nat) : list pair :=
  map (fun j => mkPair i (Some j)) (filter (fun j => negb (j =? i)) (seq a (n - a))).
Fixpoint rows (n i k : nat) : list pair :=
  match k with O => [] | S k' => row n i 0 ++ rows n (S i) k' end.
Definition heads (n a : nat) : list pair := map (fun i => mkPair i None) (seq a (n - a)).

Lemma seq_from n a : a < n -> seq a (n - a) = a :: seq (S a) (n - S a).
Proof. intros H. replace (n - a) with (S (n - S a)) by lia. reflexivity. Qed.
Lemma seq_done n a : n <= a -> seq a (n - a) = [].
Proof. intros H. replace (n - a) with 0 by lia. reflexivity. Qed.

Lemma row_step n i j :
  i < n -> j < n -> j <> i ->
  let j' := if S j =? i then S (S j) else S j in
  j' <= n /\ row n i (S j) = if j' <? n then mkPair i (Some j') :: row n i (S j') else [].
Proof.
  intros Hi Hj Hne j'. subst j'. unfold row.
  destruct (Nat.eqb_spec (S j) i) as [E|E].
  - split; [lia|]. rewrite (seq_from n (S j)) by lia. cbn [filter].
    destruct (Nat.eqb_spec (S j) i); [|lia]. cbn [negb].
    destruct (Nat.ltb_spec (S (S j)) n).
    + rewrite (seq_from n (S (S j))) by lia. cbn [filter].
      destruct (Nat.eqb_spec (S (S j)) i); [lia|]. reflexivity.
    + rewrite seq_done by lia. reflexivity.
  - split; [lia|]. destruct (Nat.ltb_spec (S j) n).
    + rewrite (seq_from n (S j)) by lia. cbn [filter].
      destruct (Nat.eqb_spec (S j) i); [lia|]. reflexivity.
    + rewrite seq_done by lia. reflexivity.
Qed.

Lemma at_end_ok sw k : k <= length sw -> at_end sw k = Ret (k =? length sw).
Proof.
  intros H. unfold at_end. destruct (Nat.ltb_spec k (length sw)).
  - destruct (Nat.eqb_spec k (length sw)); [lia|reflexivity].
  - destruct (Nat.eqb_spec k (length sw)); [reflexivity|lia].
Qed.

Lemma visit_row sw :
  let n := length sw in
  forall fuel i j,
    i < n -> j < n -> j <> i ->
    let l := row n i (S j) ++ rows n (S i) (n - S i) in
    length l < fuel -> visit fuel sw (mkPair i (Some j)) = Ret (mkPair i (Some j) :: l).
Proof.
  intros n. induction fuel as [|f IH]; intros i j Hi Hj Hne l Hf; [lia|].
  cbn [visit]. unfold pair_next. cbn [p_i p_j].
  pose proof (row_step n i j Hi Hj Hne) as [Hle Hrow]. fold n.
  set (j' := if S j =? i then S (S j) else S j) in *.
  replace (S (if S j =? i then S j else j)) with j' by (unfold j'; destruct (S j =? i); reflexivity).
  rewrite at_end_ok by auto. cbn [bind]. fold n. unfold l in *. clear l. rewrite Hrow in *.
  destruct (Nat.eqb_spec j' n) as [En|En].
  - destruct (Nat.ltb_spec j' n); [lia|]. cbn [app] in *.
    rewrite at_end_ok by lia. cbn [bind]. fold n.
    destruct (Nat.eqb_spec (S i) n) as [Ei|Ei].
    + rewrite Ei, Nat.sub_diag. reflexivity.
    + cbn [bind]. replace (n - S i) with (S (n - S (S i))) in * by lia. cbn [rows] in *.
      assert (Hr0 : row n (S i) 0 = mkPair (S i) (Some 0) :: row n (S i) 1).
      { unfold row. rewrite (seq_from n 0) by lia. reflexivity. }
      rewrite Hr0 in *. cbn [app] in *.
      rewrite IH; [reflexivity|lia..|]. cbn [length] in Hf. lia.
  - destruct (Nat.ltb_spec j' n); [|lia]. cbn [bind app] in *. rewrite IH; [reflexivity|lia..| |].
    + unfold j'. destruct (Nat.eqb_spec (S j) i); lia.
    + cbn [length] in Hf. lia.
Qed.

Lemma visit_head sw :
  let n := length sw in
  forall fuel i, i < n ->
    let l := heads n (S i) ++ (if n =? 1 then [] else rows n 0 n) in
    length l < fuel -> visit fuel sw (mkPair i None) = Ret (mkPair i None :: l).
Proof.
  intros n. induction fuel as [|f IH]; intros i Hi l Hf; [lia|].
  cbn [visit]. unfold pair_next. cbn [p_i p_j]. rewrite at_end_ok by (fold n; lia). cbn [bind]. fold n.
  unfold l in *. clear l. unfold heads in *.
  destruct (Nat.eqb_spec (S i) n) as [En|En].
  - rewrite seq_done by lia. cbn [map app].
    destruct (Nat.eqb_spec (S i) 1) as [E1|E1].
    + destruct (Nat.eqb_spec n 1); [reflexivity|lia].
    + destruct (Nat.eqb_spec n 1); [lia|]. cbn [bind].
      assert (Hr : rows n 0 n = mkPair 0 (Some 1) :: row n 0 2 ++ rows n 1 (n - 1)).
      { replace n with (S (n - 1)) at 2 by lia. cbn [rows].
        unfold row at 1. rewrite (seq_from n 0) by lia. cbn [filter Nat.eqb negb].
        rewrite (seq_from n 1) by lia. cbn [filter Nat.eqb negb map app].
        unfold row. reflexivity. }
      rewrite seq_done in Hf by lia. rewrite Hr in *. cbn [map app] in Hf.
      rewrite visit_row; [reflexivity|fold n; lia..|]. fold n. cbn [length] in Hf. lia.
  - cbn [bind]. rewrite (seq_from n (S i)) in * by lia. cbn [map app] in *.
    rewrite IH; [reflexivity|lia|]. cbn [length] in Hf. lia.
Qed.

Definition all_pairs (n : nat) : list pair := heads n 0 ++ (if n =? 1 then [] else rows n 0 n).

Lemma visit_all sw :
  sw <> [] -> forall fuel, length (all_pairs (length sw)) <= fuel ->
  visit fuel sw pair_start = Ret (all_pairs (length sw)).
Proof.
  intros Hne fuel Hf. assert (0 < length sw) by (destruct sw; [congruence|simpl; lia]).
  unfold pair_start. unfold all_pairs, heads in *. rewrite (seq_from _ 0) in * by lia.
  cbn [map app] in *. apply visit_head; auto.
Qed.

Lemma in_rows n k : forall i p, In p (rows n i k) <->
  exists j, p_j p = Some j /\ i <= p_i p < i + k /\ j < n /\ j <> p_i p.
Proof.
  induction k as [|k IH]; intros i p.
  - simpl. split; [tauto|]. intros (j & _ & H & _). lia.
  - cbn [rows]. rewrite in_app_iff, IH. unfold row.
    rewrite in_map_iff. split.
    + intros [(j & <- & Hj)|(j & H1 & H2 & H3)].
      * apply filter_In in Hj as [Hj1 Hj2]. apply in_seq in Hj1. apply negb_true_iff, Nat.eqb_neq in Hj2.
        exists j. simpl. repeat split; lia.
      * exists j. repeat split; auto; lia.
    + intros (j & H1 & H2 & H3 & H4).
      destruct (Nat.eq_dec (p_i p) i) as [E|E].
      * left. exists j. split; [destruct p; simpl in *; subst; auto|].
        apply filter_In. split; [apply in_seq; lia|]. apply negb_true_iff, Nat.eqb_neq. lia.
      * right. exists j. repeat split; auto; lia.
Qed.

Lemma nodup_rows n k : forall i, NoDup (rows n i k).
Proof.
  induction k as [|k IH]; intros i; [constructor|]. cbn [rows].
  assert (N : NoDup (row n i 0)).
  { unfold row. apply FinFun.Injective_map_NoDup.
    - intros a b H. congruence.
    - apply NoDup_filter, seq_NoDup. }
  assert (D : forall p, In p (row n i 0) -> ~ In p (rows n (S i) k)).
  { intros p Hp Hq. apply in_rows in Hq as (j & _ & Hq & _). unfold row in Hp.
    apply in_map_iff in Hp as (j' & <- & _). simpl in Hq. lia. }
  revert N D. generalize (row n i 0). induction l as [|x l IHl]; intros N D; simpl; auto.
  apply NoDup_cons_iff in N as [N1 N2]. constructor.
  - rewrite in_app_iff. intros [H|H]; auto. apply (D x); simpl; auto.
  - apply IHl; auto. intros p Hp. apply D. simpl; auto.
Qed.

Lemma all_pairs_in n p : n <> 0 ->
  In p (all_pairs n) <->
  p_i p < n /\ match p_j p with None => True | Some j => j < n /\ j <> p_i p end.
Proof.
  intros Hn. unfold all_pairs. rewrite in_app_iff. unfold heads. rewrite in_map_iff.
  assert (R : In p (if n =? 1 then [] else rows n 0 n) <->
              exists j, p_j p = Some j /\ p_i p < n /\ j < n /\ j <> p_i p).
  { destruct (Nat.eqb_spec n 1) as [->|E].
    - simpl. split; [tauto|]. intros (j & _ & H). lia.
    - rewrite in_rows. split; intros (j & H); exists j; intuition lia. }
  rewrite R. split.
  - intros [(i & <- & Hi)|(j & -> & H)]; simpl; [|lia]. apply in_seq in Hi. split; auto. lia.
  - intros [H1 H2]. destruct p as [i [j|]]; simpl in *.
    + right. exists j. auto.
    + left. exists i. split; auto. apply in_seq. lia.
Qed.

Lemma all_pairs_nodup n : NoDup (all_pairs n).
Proof.
  unfold all_pairs.
  assert (N : NoDup (heads n 0)).
  { unfold heads. apply FinFun.Injective_map_NoDup; [intros a b H; congruence|apply seq_NoDup]. }
  assert (D : forall p, In p (heads n 0) -> ~ In p (if n =? 1 then [] else rows n 0 n)).
  { intros p Hp Hq. unfold heads in Hp. apply in_map_iff in Hp as (i & <- & _).
    destruct (n =? 1); [contradiction|]. apply in_rows in Hq as (j & H & _). discriminate. }
  assert (N2 : NoDup (if n =? 1 then [] else rows n 0 n)).
  { destruct (n =? 1); [constructor|apply nodup_rows]. }
  revert N D. generalize (heads n 0). induction l as [|x l IHl]; intros N D; simpl; auto.
  apply NoDup_cons_iff in N as [Na Nb]. constructor.
  - rewrite in_app_iff. intros [H|H]; auto. apply (D x); simpl; auto.
  - apply IHl; auto. intros p Hp. apply D. simpl; auto.
Qed.
