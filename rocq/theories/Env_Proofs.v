(** Env_Proofs.v -- proofs about the environment table. *)

From Coq Require Import Sorted Permutation.
From Verif Require Import Base Lex Env_Model Env_Spec.

(** ** Lists *)

Lemma update_length {A} (l : list A) : forall i x, length (update l i x) = length l.
Proof. induction l as [|y l IH]; intros [|i] x; simpl; auto. Qed.

Lemma update_perm {A} (l : list A) : forall i v, nth_error l i = Some v ->
  exists l', Permutation l (v :: l') /\ forall x, Permutation (update l i x) (x :: l').
Proof.
  induction l as [|y l IH]; intros [|i] v H; try discriminate; simpl in H.
  - injection H as ->. exists l. auto.
  - destruct (IH i v H) as (l' & H1 & H2). exists (y :: l'). split.
    + rewrite H1. apply perm_swap.
    + intros x. simpl. rewrite H2. apply perm_swap.
Qed.

Lemma ss_nth {A} (R : A -> A -> Prop) l : StronglySorted R l ->
  forall i j x y, i < j -> nth_error l i = Some x -> nth_error l j = Some y -> R x y.
Proof.
  induction 1 as [|a l Hs IH Hf]; intros i j x y Hij Hx Hy.
  - destruct i; discriminate.
  - destruct j as [|j]; [lia|]. destruct i as [|i]; simpl in *.
    + injection Hx as <-. rewrite Forall_forall in Hf. apply Hf. eapply nth_error_In; eauto.
    + apply (IH i j); auto. lia.
Qed.

(** ** Bisection *)

Lemma bsearch_loop_spec {A} (k : A -> Z) (buf : list A) :
  (forall i j x y, i < j -> nth_error buf i = Some x -> nth_error buf j = Some y ->
     ((k x < 0)%Z -> (k y < 0)%Z) /\ ((k y > 0)%Z -> (k x > 0)%Z)) ->
  forall fuel l u, u - l < fuel -> u <= length buf ->
  (forall i x, nth_error buf i = Some x -> k x = 0%Z -> l <= i < u) ->
  exists r, bsearch_loop fuel k buf l u = Ret r /\
    match r with
    | Some i => exists x, nth_error buf i = Some x /\ k x = 0%Z
    | None => forall i x, nth_error buf i = Some x -> k x <> 0%Z
    end.
Proof.
  intros Hm. induction fuel as [|f IH]; intros l u Hf Hu Hz; [lia|]. cbn [bsearch_loop].
  destruct (Nat.ltb_spec l u) as [Hlt|Hge].
  - set (idx := (l + u) / 2).
    assert (Hi : l <= idx < u).
    { unfold idx. pose proof (Nat.div_mod_eq (l + u) 2). pose proof (Nat.mod_upper_bound (l + u) 2). lia. }
    destruct (nth_error buf idx) as [x|] eqn:Ex; [|apply nth_error_None in Ex; lia].
    destruct (Z.ltb_spec (k x) 0) as [H0|H0].
    + apply IH; try lia. intros i y Hy Hk. specialize (Hz i y Hy Hk).
      destruct (Nat.lt_trichotomy i idx) as [|[->|Hgt]]; try lia.
      * rewrite Ex in Hy. injection Hy as <-. lia.
      * destruct (Hm idx i x y Hgt Ex Hy) as [H1 _]. lia.
    + rewrite Z.gtb_ltb. destruct (Z.ltb_spec 0 (k x)) as [H1|H1].
      * apply IH; try lia. intros i y Hy Hk. specialize (Hz i y Hy Hk).
        destruct (Nat.lt_trichotomy i idx) as [Hl|[->|Hgt]]; try lia.
        -- destruct (Hm i idx y x Hl Hy Ex) as [_ H2]. lia.
        -- rewrite Ex in Hy. injection Hy as <-. lia.
      * exists (Some idx). split; auto. exists x. split; auto. lia.
  - exists None. split; auto. intros i x Hx Hk. specialize (Hz i x Hx Hk). lia.
Qed.

Lemma bsearch_spec {A} (k : A -> Z) (buf : list A) :
  (forall i j x y, i < j -> nth_error buf i = Some x -> nth_error buf j = Some y ->
     ((k x < 0)%Z -> (k y < 0)%Z) /\ ((k y > 0)%Z -> (k x > 0)%Z)) ->
  exists r, bsearch k buf = Ret r /\
    match r with
    | Some i => exists x, nth_error buf i = Some x /\ k x = 0%Z
    | None => forall x, In x buf -> k x <> 0%Z
    end.
Proof.
  intros Hm. destruct (bsearch_loop_spec k buf Hm (S (length buf)) 0 (length buf)) as (r & Hr & H); try lia.
  - intros i x Hx _. split; [lia|]. apply nth_error_Some. congruence.
  - exists r. split; auto. destruct r; auto. intros x Hx. apply In_nth_error in Hx as [i Hi]. eauto.
Qed.

(** ** Names *)

Lemma same_nameb_iff a b : same_nameb a b = true <-> same_name a b.
Proof. unfold same_nameb, same_name. apply streqb_true. Qed.

Definition named (n : cstr) (v : var) : bool :=
  match v_name v with Some (m, _) => same_nameb m n | None => false end.
Definition lookup (buf : list var) (n : cstr) : option var := find (named n) buf.

Definition differ (v w : var) : Prop :=
  match v_name v, v_name w with
  | Some (a, _), Some (b, _) => key a <> key b
  | _, _ => True
  end.
Lemma differ_sym v w : differ v w -> differ w v.
Proof. unfold differ. destruct (v_name v) as [[a ?]|], (v_name w) as [[b ?]|]; auto. Qed.

Lemma FOP_perm l l' : Permutation l l' -> ForallOrdPairs differ l -> ForallOrdPairs differ l'.
Proof.
  induction 1 as [|x l l' Hp IH|x y l|l1 l2 l3 H1 IH1 H2 IH2]; intros H; auto.
  - inversion H as [|? ? Hf Ho]; subst. constructor; auto.
    rewrite Forall_forall in *. intros z Hz. apply Hf. eapply Permutation_in; [symmetry|]; eauto.
  - inversion H as [|? ? Hf Ho]; subst. inversion Ho as [|? ? Hf2 Ho2]; subst.
    inversion Hf as [|? ? Hxy Hfx]; subst. constructor; [constructor; auto|constructor; auto].
    apply differ_sym; auto.
Qed.

Lemma ahead_differ sg v w : ahead sg v w -> differ v w.
Proof.
  unfold ahead, differ. destruct (v_name v) as [[a ?]|], (v_name w) as [[b ?]|]; auto.
  intros H E. rewrite E, lex_refl in H. discriminate.
Qed.

Lemma sorted_FOP sg l : StronglySorted (ahead sg) l -> ForallOrdPairs differ l.
Proof.
  induction 1 as [|x l Hs IH Hf]; constructor; auto.
  eapply Forall_impl; [|exact Hf]. intros w. apply ahead_differ.
Qed.

Lemma lookup_Some l n v : ForallOrdPairs differ l -> (lookup l n = Some v <-> In v l /\ named n v = true).
Proof.
  intros HF. unfold lookup. split.
  - intros H. apply find_some in H. auto.
  - intros [Hin Hn]. induction HF as [|x l Hf Ho IH]; [contradiction|]. simpl.
    destruct (named n x) eqn:Ex.
    + destruct Hin as [->|Hin]; auto. exfalso. rewrite Forall_forall in Hf. specialize (Hf v Hin).
      unfold differ, named in *. destruct (v_name x) as [[a ?]|]; [|discriminate].
      destruct (v_name v) as [[b ?]|]; [|discriminate]. apply Hf.
      apply same_nameb_iff in Hn, Ex. apply key_lower. unfold same_name in *. congruence.
    + destruct Hin as [->|Hin]; [congruence|]. auto.
Qed.
Lemma lookup_None l n : lookup l n = None <-> forall v, In v l -> named n v = false.
Proof.
  unfold lookup. split.
  - intros H v Hv. apply (find_none _ _ H _ Hv).
  - intros H. destruct (find (named n) l) eqn:E; auto. apply find_some in E as [E1 E2].
    rewrite H in E2; auto. discriminate.
Qed.

Lemma lookup_perm l l' n : Permutation l l' -> ForallOrdPairs differ l -> lookup l n = lookup l' n.
Proof.
  intros Hp HF. assert (HF' := FOP_perm _ _ Hp HF).
  destruct (lookup l' n) as [v|] eqn:E.
  - apply lookup_Some in E as [E1 E2]; auto. apply lookup_Some; auto. split; auto.
    eapply Permutation_in; [symmetry|]; eauto.
  - rewrite lookup_None in *. intros v Hv. apply E. eapply Permutation_in; eauto.
Qed.

(** ** Sorting *)

Lemma comp_lt_ahead sg v w : var_ok sg v -> var_ok sg w -> differ v w ->
  ((pBat_EnvCompName v w <= 0)%Z -> ahead sg v w) /\ ((pBat_EnvCompName v w > 0)%Z -> ahead sg w v).
Proof.
  unfold var_ok, pBat_EnvCompName, comp_nm, ahead, differ, addr_ok.
  destruct (v_name v) as [[a p]|], (v_name w) as [[b q]|]; intros Hv Hw Hd.
  - destruct Hv as (Ha & _), Hw as (Hb & _). split; intros H.
    + destruct (Z.eq_dec (stricmp a b) 0) as [E|E].
      * apply stricmp_0 in E; auto. contradiction.
      * apply stricmp_lt; auto. lia.
    + apply lex_lt_gt. apply stricmp_gt; auto. lia.
  - destruct Hv as (_ & Hp & _). destruct sg; split; intros; auto; lia.
  - destruct Hw as (_ & Hp & _). destruct sg; split; intros; auto; lia.
  - split; auto.
Qed.

Lemma ahead_trans sg u v w : ahead sg u v -> ahead sg v w -> ahead sg u w.
Proof.
  unfold ahead. destruct (v_name u) as [[a ?]|], (v_name v) as [[b ?]|], (v_name w) as [[c ?]|];
    intros; try congruence; auto. eapply lex_trans; eauto.
Qed.

Lemma insert_perm x l : Permutation (x :: l) (sort_insert x l).
Proof.
  induction l as [|y l IH]; simpl; auto. destruct (_ <=? _)%Z; auto.
  rewrite <- IH. apply perm_swap.
Qed.
Lemma qsort_perm l : Permutation l (qsort l).
Proof. induction l as [|x l IH]; simpl; auto. rewrite <- insert_perm. auto. Qed.

Lemma insert_sorted sg x l : var_ok sg x -> Forall (var_ok sg) l -> Forall (differ x) l ->
  StronglySorted (ahead sg) l -> StronglySorted (ahead sg) (sort_insert x l).
Proof.
  intros Hx. induction l as [|y l IH]; intros Hl Hd Hs; simpl.
  - constructor; auto.
  - inversion Hl as [|? ? Hy Hl']; subst. inversion Hd as [|? ? Dy Dl]; subst.
    inversion Hs as [|? ? Ss Sf]; subst. destruct (comp_lt_ahead sg x y Hx Hy Dy) as [C1 C2].
    destruct (Z.leb_spec (pBat_EnvCompName x y) 0) as [H|H].
    + constructor; auto. constructor; auto. eapply Forall_impl; [|exact Sf].
      intros z Hz. eapply ahead_trans; eauto.
    + constructor; auto. rewrite Forall_forall. intros z Hz.
      apply (Permutation_in _ (Permutation_sym (insert_perm x l))) in Hz.
      destruct Hz as [<-|Hz]; [apply C2; lia|]. rewrite Forall_forall in Sf. auto.
Qed.

Lemma qsort_sorted sg l : Forall (var_ok sg) l -> ForallOrdPairs differ l -> StronglySorted (ahead sg) (qsort l).
Proof.
  induction l as [|x l IH]; intros Hl Hd; simpl; [constructor|].
  inversion Hl; subst. inversion Hd; subst. apply insert_sorted; auto.
  - eapply Permutation_Forall; [apply qsort_perm|]; auto.
  - eapply Permutation_Forall; [apply qsort_perm|]; auto.
Qed.

Lemma qsort_lookup sg l n : Forall (var_ok sg) l -> ForallOrdPairs differ l -> lookup (qsort l) n = lookup l n.
Proof. intros Hl Hd. symmetry. apply lookup_perm; auto. apply qsort_perm. Qed.

(** ** Finding *)

Lemma find_name_ok sg e n ka : table_ok sg e -> nonul n -> addr_ok sg ka ->
  exists r, find_name e n ka = Ret r /\
    match r with
    | Some i => exists v, nth_error (e_buf e) i = Some v /\ named n v = true
    | None => lookup (e_buf e) n = None
    end.
Proof.
  intros (Hs & Hv & _) Hn Ha. unfold find_name.
  set (k := fun v => comp_nm (Some (n, ka)) (v_name v)).
  assert (Hk0 : forall v, In v (e_buf e) -> (k v = 0%Z <-> named n v = true)).
  { intros v Hin. rewrite Forall_forall in Hv. specialize (Hv v Hin). unfold k, named, var_ok, comp_nm in *.
    destruct (v_name v) as [[m p]|].
    - destruct Hv as (Hm & _). rewrite stricmp_0, key_lower, same_nameb_iff by auto.
      unfold same_name. split; congruence.
    - unfold addr_ok in Ha. destruct sg; split; intros; try discriminate; lia. }
  destruct (bsearch_spec k (e_buf e)) as (r & Hr & H).
  - intros i j x y Hij Hx Hy. pose proof (ss_nth _ _ Hs i j x y Hij Hx Hy) as Hxy.
    rewrite Forall_forall in Hv.
    pose proof (Hv _ (nth_error_In _ _ Hx)) as Vx. pose proof (Hv _ (nth_error_In _ _ Hy)) as Vy.
    unfold k, comp_nm, ahead, var_ok, addr_ok in *.
    destruct (v_name x) as [[a p]|], (v_name y) as [[b q]|].
    + destruct Vx as (Na & _), Vy as (Nb & _). split; intros H.
      * apply stricmp_lt in H; auto. apply stricmp_lt; auto. eapply lex_trans; eauto.
      * apply Z.gt_lt in H. apply stricmp_gt in H; auto. apply Z.lt_gt, stricmp_gt; auto.
        apply lex_lt_gt. apply lex_lt_gt in H. eapply lex_trans; eauto.
    + subst sg. split; intros H; lia.
    + subst sg. split; intros H; lia.
    + lia.
  - exists r. split; [exact Hr|]. destruct r as [i|].
    + destruct H as (x & Hx & Hkx). exists x. split; auto. apply Hk0; auto. eapply nth_error_In; eauto.
    + apply lookup_None. intros v Hin. destruct (named n v) eqn:E; auto. apply Hk0 in E; auto.
      exfalso. apply (H v); auto.
Qed.

Lemma find_free_ok sg e : table_ok sg e ->
  exists r, find_free e = Ret r /\
    match r with
    | Some i => exists v, nth_error (e_buf e) i = Some v /\ v_name v = None
    | None => True
    end.
Proof.
  intros (Hs & Hv & _). unfold find_free.
  set (k := fun v => comp_nm None (v_name v)).
  destruct (bsearch_spec k (e_buf e)) as (r & Hr & H).
  - intros i j x y Hij Hx Hy. pose proof (ss_nth _ _ Hs i j x y Hij Hx Hy) as Hxy.
    rewrite Forall_forall in Hv.
    pose proof (Hv _ (nth_error_In _ _ Hx)) as Vx. pose proof (Hv _ (nth_error_In _ _ Hy)) as Vy.
    unfold k, comp_nm, ahead, var_ok, addr_ok in *.
    destruct (v_name x) as [[a p]|], (v_name y) as [[b q]|].
    + destruct Vx as (_ & Pa & _), Vy as (_ & Pb & _). destruct sg; lia.
    + subst sg. lia.
    + subst sg. destruct Vy as (_ & Pb & _). lia.
    + lia.
  - exists r. split; [exact Hr|]. destruct r as [i|]; auto.
    destruct H as (x & Hx & Hkx). exists x. split; auto. rewrite Forall_forall in Hv.
    specialize (Hv x (nth_error_In _ _ Hx)). unfold k, comp_nm, var_ok, addr_ok in *.
    destruct (v_name x) as [[a p]|]; auto. destruct Hv as (_ & Hp & _). destruct sg; lia.
Qed.

Lemma found_lookup sg e n i v : table_ok sg e -> nth_error (e_buf e) i = Some v -> named n v = true ->
  lookup (e_buf e) n = Some v.
Proof.
  intros (Hs & _) Hi Hn. apply lookup_Some; [eapply sorted_FOP; eauto|]. split; auto. eapply nth_error_In; eauto.
Qed.

Lemma get_ok sg e n ka : table_ok sg e -> nonul n -> addr_ok sg ka ->
  pBat_GetEnv e n ka = Ret (option_map v_content (lookup (e_buf e) n)).
Proof.
  intros He Hn Ha. unfold pBat_GetEnv. destruct (find_name_ok sg e n ka He Hn Ha) as (r & -> & H). cbn [bind].
  destruct r as [i|].
  - destruct H as (v & Hi & Hv). rewrite Hi, (found_lookup sg e n i v) by auto. unfold named in Hv.
    destruct (v_name v); [reflexivity|discriminate].
  - rewrite H. reflexivity.
Qed.

(** ** Trimming *)

Lemma adjust_prefix s : exists k, pBat_AdjustVarName s = firstn k s.
Proof. unfold pBat_AdjustVarName. destruct (last_nonblank s 0 None) as [n|]; eauto. exists (length s). rewrite firstn_all. auto. Qed.
Lemma adjust_nonul s : nonul s -> nonul (pBat_AdjustVarName s).
Proof.
  intros H. destruct (adjust_prefix s) as [k ->]. intros Hin. apply H.
  rewrite <- (firstn_skipn k s). apply in_or_app. auto.
Qed.

Lemma last_nonblank_spec s : forall pos last,
  last_nonblank s pos last =
    match last_nonblank s 0 None with Some k => Some (pos + k) | None => last end.
Proof.
  induction s as [|c s IH]; intros pos last; simpl; auto.
  rewrite (IH (S pos)), (IH 1). destruct (last_nonblank s 0 None) as [k|].
  - f_equal. lia.
  - destruct (env_blank c); auto.
Qed.

Lemma env_blank_iff c : env_blank c = true <-> c = " "%char \/ c = "009"%char.
Proof. unfold env_blank. rewrite orb_true_iff, !ceq_true. tauto. Qed.

Lemma last_nonblank_None s : last_nonblank s 0 None = None <-> Forall (fun c => env_blank c = true) s.
Proof.
  induction s as [|c s IH]; simpl; [split; auto|].
  rewrite last_nonblank_spec. destruct (last_nonblank s 0 None) as [k|].
  - split; [discriminate|]. intros H. inversion H; subst. apply IH in H3. discriminate.
  - destruct (env_blank c) eqn:E; split; auto; try discriminate.
    + intros _. constructor; auto. apply IH; auto.
    + intros H. inversion H; congruence.
Qed.
Lemma last_nonblank_Some s k : last_nonblank s 0 None = Some k ->
  exists c, nth_error s k = Some c /\ env_blank c = false /\ Forall (fun c => env_blank c = true) (skipn (S k) s).
Proof.
  revert k; induction s as [|c s IH]; simpl; intros k H; [discriminate|].
  rewrite last_nonblank_spec in H. destruct (last_nonblank s 0 None) as [j|] eqn:E.
  - injection H as <-. destruct (IH j eq_refl) as (d & H1 & H2 & H3). exists d. auto.
  - destruct (env_blank c) eqn:Ec; [discriminate|]. injection H as <-. exists c. split; auto. split; auto.
    apply last_nonblank_None. auto.
Qed.

Lemma adjust_trimmed n : is_trimmed n (pBat_AdjustVarName n).
Proof.
  unfold is_trimmed, pBat_AdjustVarName.
  assert (F : forall l, Forall (fun c => env_blank c = true) l -> Forall (fun c => c = " "%char \/ c = "009"%char) l).
  { intros l. apply Forall_impl. intros c. apply env_blank_iff. }
  destruct (last_nonblank n 0 None) as [k|] eqn:E.
  - destruct (last_nonblank_Some n k E) as (c & H1 & H2 & H3). exists (skipn (S k) n).
    split; [symmetry; apply firstn_skipn|]. split; auto. right.
    exists (firstn k n), c. split.
    + revert H1. clear. revert k; induction n as [|d n IH]; intros [|k] H; try discriminate; simpl in *.
      * congruence.
      * rewrite <- IH; auto.
    + split; intros ->; discriminate.
  - exists []. rewrite app_nil_r. split; auto. split; auto. left. split; auto. apply F, last_nonblank_None; auto.
Qed.

(** ** Changing the table *)

Lemma realloc_ge n : n <= pBat_ReAllocEnvBuf n.
Proof. unfold pBat_ReAllocEnvBuf. pose proof (Nat.div_mod_eq n 128). pose proof (Nat.mod_upper_bound n 128). lia. Qed.

Lemma table_qsort sg l nb :
  Forall (var_ok sg) l -> ForallOrdPairs differ l -> length l <= nb -> table_ok sg (mkEnv (qsort l) nb).
Proof.
  intros Hv Hd Hn. split; [|split]; simpl.
  - apply qsort_sorted; auto.
  - eapply Permutation_Forall; [apply qsort_perm|]; auto.
  - unfold e_index. simpl. rewrite <- (Permutation_length (qsort_perm l)). auto.
Qed.

(** Replacing one entry of a table by another with no name or a fresh or equal
    name. *)
Lemma replace_facts sg e i v x :
  table_ok sg e -> nth_error (e_buf e) i = Some v -> var_ok sg x ->
  (forall w, In w (e_buf e) -> differ v w -> differ x w) ->
  (forall w, In w (e_buf e) -> v_name v = None -> differ x w) ->
  let l := update (e_buf e) i x in
  Forall (var_ok sg) l /\ ForallOrdPairs differ l /\ length l <= e_nb e /\
  exists l', Permutation (e_buf e) (v :: l') /\ Permutation l (x :: l').
Proof.
  intros (Hs & Hv & Hn) Hi Hx Hd1 Hd2 l. destruct (update_perm (e_buf e) i v Hi) as (l' & P1 & P2).
  assert (HF : ForallOrdPairs differ (v :: l')) by (eapply FOP_perm; [apply P1|eapply sorted_FOP; eauto]).
  assert (HV : Forall (var_ok sg) (v :: l')) by (eapply Permutation_Forall; eauto).
  split; [|split; [|split]].
  - eapply Permutation_Forall; [symmetry; apply P2|]. inversion HV; subst. constructor; auto.
  - eapply FOP_perm; [symmetry; apply P2|]. inversion HF as [|? ? Hf Ho]; subst. constructor; auto.
    rewrite Forall_forall in *. intros w Hw. apply Hd1; auto.
    eapply Permutation_in; [symmetry; apply P1|]. right. auto.
  - unfold l. rewrite update_length. exact Hn.
  - exists l'. split; [exact P1|apply P2].
Qed.

Lemma lookup_swap l l1 l' v x n :
  ForallOrdPairs differ l -> ForallOrdPairs differ l1 ->
  Permutation l (v :: l') -> Permutation l1 (x :: l') ->
  lookup l1 n = if named n x then Some x else if named n v then None else lookup l n.
Proof.
  intros H0 H1 P P1. rewrite (lookup_perm l1 (x :: l')), (lookup_perm l (v :: l')) by auto.
  unfold lookup. simpl. destruct (named n x) eqn:Ex; auto. destruct (named n v) eqn:Ev; auto.
  apply lookup_None. intros w Hw.
  assert (HF := FOP_perm _ _ P H0). inversion HF as [|? ? Hf Ho]; subst. rewrite Forall_forall in Hf.
  destruct (named n w) eqn:Ew; auto. exfalso. specialize (Hf w Hw). unfold named, differ in *.
  destruct (v_name v) as [[a ?]|]; [|discriminate]. destruct (v_name w) as [[b ?]|]; [|discriminate].
  apply Hf. apply same_nameb_iff in Ev, Ew. apply key_lower. unfold same_name in *. congruence.
Qed.

Lemma unset_ok sg e n ka : table_ok sg e -> nonul n -> addr_ok sg ka ->
  exists e', pBat_UnSetEnv e n ka = Ret e' /\ table_ok sg e' /\
    forall m, lookup (e_buf e') m =
      match lookup (e_buf e) m with
      | Some v => if same_nameb n m then (match v_prev v with [] => None | _ => Some v end) else Some v
      | None => None
      end.
Proof.
  intros He Hn Ha. unfold pBat_UnSetEnv. destruct (find_name_ok sg e n ka He Hn Ha) as (r & -> & H). cbn [bind].
  assert (Hsame : forall m v, lookup (e_buf e) m = Some v -> same_nameb n m = named n v).
  { intros m v Hm. apply find_some in Hm as [_ Hm]. unfold named in *.
    destruct (v_name v) as [[a ?]|]; [|discriminate]. apply same_nameb_iff in Hm.
    unfold same_nameb, same_name in *. rewrite Hm. apply eq_true_iff_eq. rewrite !streqb_true. split; congruence. }
  destruct r as [i|].
  - destruct H as (v & Hi & Hv). rewrite Hi. pose proof (found_lookup sg e n i v He Hi Hv) as Hl.
    destruct (v_prev v) as [|s p] eqn:Ep.
    + eexists. split; [reflexivity|].
      destruct (replace_facts sg e i v (mkVar None [] (v_inherit v) [])) as (R1 & R2 & R3 & l' & P1 & P2); auto.
      { unfold var_ok. simpl. auto. } { intros; unfold differ; simpl; auto. } { intros; unfold differ; simpl; auto. }
      split; [apply table_qsort; auto|].
      intros m. cbn [e_buf]. rewrite (qsort_lookup sg) by auto.
      rewrite (lookup_swap (e_buf e) _ l' v (mkVar None [] (v_inherit v) []) m); auto;
        [|eapply sorted_FOP; apply He].
      unfold named at 1. cbn [v_name].
      destruct (lookup (e_buf e) m) as [w|] eqn:Em.
      * rewrite (Hsame m w Em). destruct (named m v) eqn:Ev.
        -- assert (w = v).
           { rewrite (found_lookup sg e m i v) in Em by auto. congruence. } subst w.
           rewrite Hv, Ep. auto.
        -- destruct (named n w) eqn:Ew; auto. exfalso.
           assert (lookup (e_buf e) n = Some w).
           { apply lookup_Some; [eapply sorted_FOP; apply He|]. split; auto. apply find_some in Em. tauto. }
           assert (w = v) by congruence. subst w. apply find_some in Em. rewrite (proj2 Em) in Ev. discriminate.
      * destruct (named m v); auto.
    + exists e. split; [reflexivity|]. split; auto. intros m.
      destruct (lookup (e_buf e) m) as [w|] eqn:Em; auto. rewrite (Hsame m w Em).
      destruct (named n w) eqn:Ew; auto.
      assert (lookup (e_buf e) n = Some w).
      { apply lookup_Some; [eapply sorted_FOP; apply He|]. split; auto. apply find_some in Em. tauto. }
      assert (w = v) by congruence. subst w. rewrite Ep. auto.
  - exists e. split; [reflexivity|]. split; auto. intros m.
    destruct (lookup (e_buf e) m) as [w|] eqn:Em; auto. rewrite (Hsame m w Em).
    rewrite lookup_None in H. rewrite H; auto. apply find_some in Em. tauto.
Qed.

(** The entry of [n] after an assignment. *)
Definition assigned (e : env) (n : cstr) (na : Z) (text : cstr) (inherit : bool) (v' : var) : Prop :=
  match lookup (e_buf e) n with
  | Some v => v' = mkVar (v_name v) text (v_inherit v || inherit) (v_prev v)
  | None => exists stale, v' = mkVar (Some (n, na)) text (stale || inherit) [] /\
              (stale = true -> exists w, In w (e_buf e) /\ v_name w = None /\ v_inherit w = true)
  end.

Lemma set_ok sg e n ka na c text inherit :
  table_ok sg e -> nonul n -> addr_ok sg na ->
  exists e' v', pBat_SetEnvEx e n ka na (Some (c :: text)) inherit = Ret e' /\ table_ok sg e' /\
    assigned e (pBat_AdjustVarName n) na (c :: text) inherit v' /\
    forall m, lookup (e_buf e') m = if same_nameb (pBat_AdjustVarName n) m then Some v' else lookup (e_buf e) m.
Proof.
  intros He Hn Ha. unfold pBat_SetEnvEx, assigned. set (t := pBat_AdjustVarName n).
  assert (Ht : nonul t) by (apply adjust_nonul; auto).
  assert (HF := sorted_FOP sg _ (proj1 He)).
  destruct (find_name_ok sg e t na He Ht Ha) as (r & -> & H). cbn [bind]. destruct r as [i|].
  - destruct H as (v & Hi & Hv). rewrite Hi. rewrite (found_lookup sg e t i v He Hi Hv).
    set (x := mkVar (v_name v) (c :: text) (v_inherit v || inherit) (v_prev v)).
    exists (mkEnv (update (e_buf e) i x) (e_nb e)), x. split; [reflexivity|].
    destruct (replace_facts sg e i v x) as (R1 & R2 & R3 & l' & P1 & P2); auto.
    { destruct He as (_ & Hvo & _). rewrite Forall_forall in Hvo. apply nth_error_In in Hi.
      specialize (Hvo v Hi). exact Hvo. }
    { intros w _ E. unfold differ. simpl. rewrite E. auto. }
    split; [|split; [reflexivity|]].
    + split; [|split]; auto. simpl. destruct He as (Hs & _).
      clear R1 R2 R3 P1 P2 l' HF. revert i Hi. induction Hs as [|y l Hs IH Hf]; intros i Hi; [destruct i; discriminate|].
      destruct i as [|i]; simpl in *.
      * injection Hi as ->. constructor; auto.
      * constructor; auto. rewrite Forall_forall in *. intros z Hz.
        assert (Hz' : z = x \/ In z l).
        { revert Hz. clear. revert i. induction l as [|y l IH]; intros [|i]; simpl; auto; intros [H|H]; auto.
          destruct (IH _ H); auto. }
        destruct Hz' as [->|Hz']; auto. specialize (Hf v (nth_error_In _ _ Hi)). exact Hf.
    + intros m. cbn [e_buf]. rewrite (lookup_swap (e_buf e) _ l' v x m); auto.
      assert (En : named m x = named m v) by reflexivity. rewrite En.
      assert (Es : named m v = same_nameb t m).
      { unfold named in *. destruct (v_name v) as [[a ?]|]; [|discriminate]. apply same_nameb_iff in Hv.
        unfold same_nameb, same_name in *. rewrite Hv. auto. }
      rewrite Es. destruct (same_nameb t m); auto.
  - rewrite H. assert (Hno := H). rewrite lookup_None in H.
    assert (Hdx : forall b w, In w (e_buf e) -> differ (mkVar (Some (t, na)) (c :: text) b []) w).
    { intros b w Hw. unfold differ. simpl. specialize (H w Hw). unfold named in H.
      destruct (v_name w) as [[a ?]|]; auto. intros E. symmetry in E. apply key_lower, same_nameb_iff in E. congruence. }
    assert (Hvx : forall b, var_ok sg (mkVar (Some (t, na)) (c :: text) b [])).
    { intros b. unfold var_ok. simpl. auto. }
    destruct (find_free_ok sg e He) as (f & -> & Hfree). cbn [bind]. destruct f as [i|].
    + destruct Hfree as (v & Hi & Hvn). rewrite Hi.
      set (x := mkVar (Some (t, na)) (c :: text) (v_inherit v || inherit) []).
      exists (mkEnv (qsort (update (e_buf e) i x)) (e_nb e)), x. split; [reflexivity|].
      destruct (replace_facts sg e i v x) as (R1 & R2 & R3 & l' & P1 & P2); auto.
      { apply Hvx. } { intros w Hw _. apply Hdx; auto. } { intros w Hw _. apply Hdx; auto. }
      split; [apply table_qsort; auto|]. split.
      * exists (v_inherit v). split; auto. intros E. exists v. split; [eapply nth_error_In; eauto|auto].
      * intros m. cbn [e_buf]. rewrite (qsort_lookup sg) by auto.
        rewrite (lookup_swap (e_buf e) _ l' v x m); auto. unfold named. cbn [v_name x]. rewrite Hvn.
        destruct (same_nameb t m); auto.
    + set (x := mkVar (Some (t, na)) (c :: text) inherit []).
      assert (P : Permutation (x :: e_buf e) (e_buf e ++ [x])) by apply Permutation_cons_append.
      assert (F1 : ForallOrdPairs differ (x :: e_buf e)).
      { constructor; auto. rewrite Forall_forall. intros w Hw. apply Hdx; auto. }
      assert (F2 : Forall (var_ok sg) (x :: e_buf e)).
      { constructor; [apply Hvx|apply He]. }
      assert (F1' := FOP_perm _ _ P F1). assert (F2' := Permutation_Forall P F2).
      eexists. exists x. split; [reflexivity|]. split; [apply table_qsort; auto|].
      * rewrite app_length. simpl. destruct He as (_ & _ & Hnb). unfold e_index in *.
        destruct (Nat.eqb_spec (length (e_buf e)) (e_nb e)); [|lia].
        pose proof (realloc_ge (S (e_nb e))). lia.
      * split; [exists false; split; auto; discriminate|].
        intros m. cbn [e_buf]. rewrite (qsort_lookup sg) by auto.
        rewrite <- (lookup_perm (x :: e_buf e)) by auto. unfold lookup. simpl. unfold named at 1. simpl.
        destruct (same_nameb t m); auto.
Qed.

(** ** Histories *)

Lemma trimmed_unique n t1 t2 : is_trimmed n t1 -> is_trimmed n t2 -> t1 = t2.
Proof.
  intros (b1 & E1 & B1 & H1) (b2 & E2 & B2 & H2).
  assert (K : forall ta ba tb bb, ta ++ ba = tb ++ bb ->
    Forall (fun c => c = " "%char \/ c = "009"%char) bb ->
    (exists t' c, ta = t' ++ [c] /\ c <> " "%char /\ c <> "009"%char) ->
    forall l, ta = tb ++ l -> bb = l ++ ba -> l = []).
  { intros ta ba tb bb _ Hb (t' & c & Ht & Hc1 & Hc2) l El Eb.
    destruct l as [|x l0] using rev_ind; auto. exfalso. rewrite app_assoc in El.
    rewrite Ht in El. apply app_inj_tail in El as [_ <-].
    rewrite Forall_forall in Hb. specialize (Hb c). rewrite Eb in Hb. destruct Hb; auto.
    rewrite !in_app_iff. left. right. left. auto. }
  destruct H1 as [[A1 ->]|N1], H2 as [[A2 ->]|N2].
  - rewrite app_nil_r in *. congruence.
  - destruct N2 as (t' & c & -> & C1 & C2). exfalso. rewrite Forall_forall in A1. specialize (A1 c).
    rewrite E2 in A1. destruct A1; auto. rewrite !in_app_iff. left. right. left. auto.
  - destruct N1 as (t' & c & -> & C1 & C2). exfalso. rewrite Forall_forall in A2. specialize (A2 c).
    rewrite E1 in A2. destruct A2; auto. rewrite !in_app_iff. left. right. left. auto.
  - assert (E : t1 ++ b1 = t2 ++ b2) by congruence.
    destruct (app_eq_app _ _ _ _ E) as (l & [[L1 L2]|[L1 L2]]).
    + rewrite (K t1 b1 t2 b2 E B2 N1 l L1 L2), app_nil_r in L1. auto.
    + symmetry in E. rewrite (K t2 b2 t1 b1 E B1 N2 l L1 L2), app_nil_r in L1. auto.
Qed.

Lemma toplevel_lookup sg e : table_ok sg e ->
  (toplevel e <-> forall n v, lookup (e_buf e) n = Some v -> v_prev v = []).
Proof.
  intros (Hs & Hv & _). unfold toplevel. rewrite Forall_forall in *. split.
  - intros H n v Hl. apply find_some in Hl. apply H. tauto.
  - intros H v Hin. specialize (Hv v Hin). unfold var_ok in Hv. destruct (v_name v) as [[m a]|] eqn:E; auto.
    apply (H m). apply lookup_Some; [eapply sorted_FOP; eauto|]. split; auto. unfold named. rewrite E.
    apply same_nameb_iff. reflexivity.
Qed.

Lemma op_step sg o e : table_ok sg e -> toplevel e -> op_ok sg o ->
  exists e', op_run o e = Ret e' /\ table_ok sg e' /\ toplevel e' /\
    forall n, option_map v_content (lookup (e_buf e') n) =
      expected pBat_AdjustVarName [o] n (option_map v_content (lookup (e_buf e) n)).
Proof.
  intros He Ht Ho.
  assert (U : forall m ka, nonul m -> addr_ok sg ka ->
    exists e', pBat_UnSetEnv e m ka = Ret e' /\ table_ok sg e' /\ toplevel e' /\
      forall n, option_map v_content (lookup (e_buf e') n) =
        if same_nameb m n then None else option_map v_content (lookup (e_buf e) n)).
  { intros m ka Hm Ha. destruct (unset_ok sg e m ka He Hm Ha) as (e' & H1 & H2 & H3).
    assert (H4 := proj1 (toplevel_lookup sg e He) Ht).
    exists e'. split; auto. split; auto. split.
    - apply (toplevel_lookup sg e' H2). intros n v Hl. rewrite H3 in Hl.
      destruct (lookup (e_buf e) n) as [w|] eqn:Ew; [|discriminate]. rewrite (H4 n w Ew) in Hl.
      destruct (same_nameb m n); [discriminate|]. injection Hl as <-. eauto.
    - intros n. rewrite H3. destruct (lookup (e_buf e) n) as [w|] eqn:Ew; simpl.
      + rewrite (H4 n w Ew). destruct (same_nameb m n); auto.
      + destruct (same_nameb m n); auto. }
  destruct o as [m ka na c i|m ka]; simpl in Ho.
  - destruct Ho as (Hm & Hk & Hn). destruct c as [|c text].
    + destruct (U m ka Hm Hk) as (e' & H). exists e'. exact H.
    + destruct (set_ok sg e m ka na c text i He Hm Hn) as (e' & v' & H1 & H2 & H3 & H4).
      assert (Hc : v_content v' = c :: text /\ v_prev v' = []).
      { unfold assigned in H3. destruct (lookup (e_buf e) (pBat_AdjustVarName m)) as [w|] eqn:Ew.
        - subst v'. simpl. split; auto. apply (proj1 (toplevel_lookup sg e He) Ht _ _ Ew).
        - destruct H3 as (st & -> & _). auto. }
      destruct Hc as [Hc Hp]. exists e'. split; auto. split; auto. split.
      * apply (toplevel_lookup sg e' H2). intros n v Hl. rewrite H4 in Hl.
        destruct (same_nameb (pBat_AdjustVarName m) n).
        -- congruence.
        -- apply (proj1 (toplevel_lookup sg e He) Ht _ _ Hl).
      * intros n. rewrite H4. simpl. destruct (same_nameb (pBat_AdjustVarName m) n); simpl; congruence.
  - destruct Ho as (Hm & Hk). destruct (U m ka Hm Hk) as (e' & H). exists e'. exact H.
Qed.

Lemma expected_app trim l1 : forall l2 n v0,
  expected trim (l1 ++ l2) n v0 = expected trim l2 n (expected trim l1 n v0).
Proof. induction l1 as [|o l1 IH]; intros l2 n v0; auto. destruct o as [m ka na [|c t] i|m ka]; simpl; apply IH. Qed.

Lemma ops_ok sg l : forall e, table_ok sg e -> toplevel e -> Forall (op_ok sg) l ->
  exists e', ops_run l e = Ret e' /\ table_ok sg e' /\ toplevel e' /\
    forall n, option_map v_content (lookup (e_buf e') n) =
      expected pBat_AdjustVarName l n (option_map v_content (lookup (e_buf e) n)).
Proof.
  induction l as [|o l IH]; intros e He Ht Hl.
  - exists e. auto.
  - inversion Hl; subst. destruct (op_step sg o e He Ht) as (e1 & H4 & H5 & H6 & H7); auto.
    destruct (IH e1 H5 H6) as (e' & R1 & R2 & R3 & R4); auto.
    exists e'. split; [simpl; rewrite H4; exact R1|]. split; auto. split; auto.
    intros n. rewrite R4, H7. symmetry. apply (expected_app _ [o] l).
Qed.

Lemma expected_trim t1 t2 l n v0 : (forall m, t1 m = t2 m) -> expected t1 l n v0 = expected t2 l n v0.
Proof.
  intros H. revert v0. induction l as [|o l IH]; intros v0; auto.
  destruct o as [m ka na [|c t] i|m ka]; simpl; rewrite ?H; apply IH.
Qed.

(** ** Initial environment *)

Lemma adjust_init n v : exists w, pBat_AdjustVarName (n ++ "="%char :: v) = n ++ "="%char :: w /\ is_rstripped v w.
Proof.
  set (s := n ++ "="%char :: v).
  destruct (adjust_trimmed s) as (b & E & B & H).
  set (t := pBat_AdjustVarName s) in *.
  destruct H as [[A ->]|(t' & c & Ht & C1 & C2)].
  - exfalso. rewrite Forall_forall in A. destruct (A "="%char) as [X|X]; try discriminate.
    unfold s. apply in_or_app. right. left. auto.
  - unfold s in E. destruct (app_eq_app _ _ _ _ E) as (l & [[L1 L2]|[L1 L2]]).
    + (* n = t ++ l, b = l ++ "=" :: v *) exfalso.
      rewrite Forall_forall in B. destruct (B "="%char) as [X|X]; try discriminate.
      rewrite L2. apply in_or_app. right. left. auto.
    + (* t = n ++ l, "=" :: v = l ++ b *)
      destruct l as [|x w].
      * exfalso. simpl in L2. rewrite <- L2 in B. inversion B as [|? ? [X|X] ?]; discriminate.
      * injection L2 as <- L2. exists w. split; [exact L1|]. exists b. split; auto. split; auto.
        intros w' d Hw. rewrite Ht, Hw in L1.
        change (n ++ "="%char :: w' ++ [d]) with (n ++ ("="%char :: w') ++ [d]) in L1.
        rewrite app_assoc in L1. apply app_inj_tail in L1 as [_ <-]. auto.
Qed.

Lemma init_var_ok n v a : ~ In "="%char n ->
  exists w, init_var (n ++ "="%char :: v) a = Some (mkVar (Some (n, a)) w false []) /\ is_rstripped v w.
Proof.
  intros Hn. unfold init_var.
  assert (E : strchr (n ++ "="%char :: v) "="%char = Some (length n)).
  { unfold strchr. revert Hn.
    induction n as [|c n IH]; intros Hn; simpl; auto.
    destruct (ceq c "="%char) eqn:Ec; [apply ceq_true in Ec; subst; exfalso; apply Hn; left; auto|].
    rewrite IH; auto. intros H. apply Hn. right. auto. }
  rewrite E. destruct (adjust_init n v) as (w & -> & Hw). exists w. split; auto.
  assert (F : firstn (length n) (n ++ "="%char :: w) = n).
  { rewrite firstn_app, firstn_all, Nat.sub_diag. simpl. apply app_nil_r. }
  assert (G : skipn (S (length n)) (n ++ "="%char :: w) = w).
  { rewrite skipn_app, skipn_all2 by lia. replace (S (length n) - length n) with 1 by lia. reflexivity. }
  rewrite F. f_equal. f_equal. exact G.
Qed.

Lemma init_vars_ok (sg : bool) (l : list (cstr * cstr * Z)) :
  Forall (fun x => let '(n, v, a) := x in ~ In "="%char n /\ nonul n /\ addr_ok sg a) l ->
  exists vs, init_vars (map (fun x => let '(n, v, a) := x in (n ++ "="%char :: v, a)) l) = Some vs /\
    Forall2 (fun x v' => let '(n, v, a) := x in
      exists w, v' = mkVar (Some (n, a)) w false [] /\ is_rstripped v w) l vs.
Proof.
  induction l as [|[[n v] a] l IH]; intros H; simpl.
  - exists []. split; auto.
  - inversion H as [|? ? HH H4]; subst. cbv beta iota in HH. destruct HH as (H1 & H2 & H3). destruct (IH H4) as (vs & -> & F).
    destruct (init_var_ok n v a H1) as (w & -> & Hw). exists (mkVar (Some (n, a)) w false [] :: vs).
    split; auto. constructor; eauto.
Qed.

Lemma init_ok sg (l : list (cstr * cstr * Z)) :
  Forall (fun x => let '(n, v, a) := x in ~ In "="%char n /\ nonul n /\ addr_ok sg a) l ->
  NoDup (map (fun x => let '(n, v, a) := x in map tolower n) l) ->
  exists e, pBat_InitEnv (map (fun x => let '(n, v, a) := x in (n ++ "="%char :: v, a)) l) = Some e /\
    table_ok sg e /\ toplevel e /\
    (forall n v a, In (n, v, a) l -> exists w, is_rstripped v w /\
       forall m, same_name m n -> option_map v_content (lookup (e_buf e) m) = Some w) /\
    (forall m, (forall n v a, In (n, v, a) l -> ~ same_name m n) -> lookup (e_buf e) m = None).
Proof.
  intros H Hnd. destruct (init_vars_ok sg l H) as (vs & E & F). unfold pBat_InitEnv. rewrite E.
  eexists. split; [reflexivity|].
  assert (Lvs : length vs = length l) by (clear -F; induction F; simpl; auto).
  assert (HV : Forall (var_ok sg) vs).
  { clear E Hnd Lvs. revert H. induction F as [|[[n v] a] v' l vs HH F IH]; [|cbv beta iota in HH; destruct HH as (w & -> & _)]; intros H; constructor.
    - inversion H as [|? ? HH H4]; subst. cbv beta iota in HH. destruct HH as (_ & H2 & H3). unfold var_ok. simpl. auto.
    - inversion H; subst. auto. }
  assert (HF : ForallOrdPairs differ vs).
  { clear E H Lvs HV. revert Hnd. induction F as [|[[n v] a] v' l vs HH F IH]; [|cbv beta iota in HH; destruct HH as (w & -> & _)]; intros H; constructor.
    - simpl in H. apply NoDup_cons_iff in H as [H _]. rewrite Forall_forall. intros y Hy.
      unfold differ. simpl. destruct (v_name y) as [[b q]|] eqn:Ey; auto. intros K. apply H.
      apply in_map_iff. clear -F Hy Ey K. induction F as [|[[n' v'] a'] y' l vs HH F IH]; [contradiction|]; cbv beta iota in HH; destruct HH as (w' & -> & _).
      destruct Hy as [<-|Hy].
      + simpl in Ey. injection Ey as <- <-. exists (n', v', a'). split; [|left; auto].
        symmetry. apply key_lower. auto.
      + destruct (IH Hy) as ([[n2 v2] a2] & H1 & H2). exists (n2, v2, a2). split; auto. right; auto.
    - simpl in H. apply NoDup_cons_iff in H as [_ H]. auto. }
  split; [apply table_qsort; auto|].
  { rewrite Lvs, map_length. apply Nat.le_trans with (S (length l)); [lia|apply realloc_ge]. }
  split; [|split].
  - unfold toplevel. cbn [e_buf]. eapply Permutation_Forall; [apply qsort_perm|].
    clear -F. induction F as [|[[n v] a] v' l vs HH F IH]; [|cbv beta iota in HH; destruct HH as (w & -> & _)]; constructor; auto.
  - intros n v a Hin. cbn [e_buf].
    assert (X : exists w, In (mkVar (Some (n, a)) w false []) vs /\ is_rstripped v w).
    { clear -F Hin. induction F as [|[[n' v'] a'] y' l vs HH F IH]; [contradiction|]; cbv beta iota in HH; destruct HH as (w' & -> & Hw).
      destruct Hin as [Heq|Hin].
      - injection Heq as -> -> ->. exists w'. split; auto. left; auto.
      - destruct (IH Hin) as (w & W1 & W2). exists w. split; auto. right; auto. }
    destruct X as (w & Hin' & Hw). exists w. split; auto. intros m Hm. rewrite (qsort_lookup sg) by auto.
    assert (Hl : lookup vs m = Some (mkVar (Some (n, a)) w false [])).
    { apply lookup_Some; auto. split; auto. unfold named. simpl. apply same_nameb_iff.
      unfold same_name in *. congruence. }
    rewrite Hl. reflexivity.
  - intros m Hm. cbn [e_buf]. rewrite (qsort_lookup sg) by auto. apply lookup_None. intros y Hy.
    clear -F Hy Hm. induction F as [|[[n' v'] a'] y' l vs HH F IH]; [contradiction|]; cbv beta iota in HH; destruct HH as (w' & -> & Hw).
    destruct Hy as [<-|Hy].
    + unfold named. simpl. destruct (same_nameb n' m) eqn:Es; auto. apply same_nameb_iff in Es. exfalso.
      apply (Hm n' v' a'); [left; auto|]. unfold same_name in *. congruence.
    + apply IH; auto. intros n v a Hin. apply (Hm n v a). right. auto.
Qed.
