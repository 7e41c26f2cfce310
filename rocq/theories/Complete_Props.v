(** Complete_Props.v -- C84: the key TAB. *)

From Verif Require Import Base Lex StrLib_Model StrLib_Spec Path_Model Path_Spec Glob_Model Glob_Spec Glob_Proofs Attr_Model Prompt_Proofs Fs_Model Fs_Spec Fs_Proofs Search_Model Search_Spec Search_Proofs Search_Props Complete_Model Complete_Spec.

(** * The word *)
Lemma size_plain w : forall a, first_word a -> ~ In dquote w -> (forall c, In c w -> ~ cuts c) -> item_size false (rev (a ++ w)) = length w.
Proof.
  intros a Fa. rewrite rev_app_distr. intros Q C. assert (Q' : ~ In dquote (rev w)) by (rewrite <- in_rev; auto). assert (C' : forall c, In c (rev w) -> ~ cuts c) by (intros c; rewrite <- in_rev; auto).
  rewrite <- (rev_length w). clear Q C. induction (rev w) as [|c r IH]; cbn [app].
  - destruct Fa as [->|(a' & c & -> & H)]; [reflexivity|]. rewrite rev_app_distr. cbn [rev app item_size].
    assert (D : ceq c dquote = false) by (unfold cuts in H; cbn in H; intuition subst; reflexivity). rewrite D. cbn [negb andb].
    assert (E : existsb (ceq c) ("009"%char :: s2l " &|") = true) by (apply existsb_exists; exists c; split; [auto|apply ceq_refl]). rewrite E. reflexivity.
  - cbn [item_size length]. assert (D : ceq c dquote = false) by (apply ceq_false; intros ->; apply Q'; left; auto). rewrite D. cbn [negb andb].
    assert (E : existsb (ceq c) ("009"%char :: s2l " &|") = false).
    { apply not_true_iff_false. intros H. apply existsb_exists in H. destruct H as (x & I & X). apply ceq_true in X. subst. apply (C' x); [left; auto|exact I]. }
    rewrite E. rewrite IH; auto; [intros H; apply Q'; right; auto|intros x H; apply C'; right; auto].
Qed.
Lemma size_quoted w : forall a, first_word a -> ~ In dquote w -> item_size true (rev (a ++ dquote :: w)) = S (length w).
Proof.
  intros a Fa Q. rewrite rev_app_distr. cbn [rev]. rewrite <- app_assoc. assert (Q' : ~ In dquote (rev w)) by (rewrite <- in_rev; auto). rewrite <- (rev_length w). clear Q.
  induction (rev w) as [|c r IH]; cbn [app].
  - cbn [item_size]. rewrite ceq_refl. cbn [negb]. f_equal. pose proof (size_plain [] a Fa) as H. rewrite app_nil_r in H. apply H; [intros []|intros c []].
  - cbn [item_size length]. assert (D : ceq c dquote = false) by (apply ceq_false; intros ->; apply Q'; left; auto). rewrite D. cbn [negb andb]. f_equal. apply IH. intros H; apply Q'; right; auto.
Qed.
Lemma item_word before after w : word_at before after w -> get_item before after = w.
Proof.
  assert (Sk : forall (a b : cstr), skipn (length (a ++ b) - length b) (a ++ b) = b).
  { intros a b. rewrite app_length. replace (length a + length b - length b) with (length a + 0) by lia. rewrite Nat.add_0_r, skipn_app, skipn_all, Nat.sub_diag. reflexivity. }
  intros [a w' af Fa Q C N|a w' r Fa Q]; unfold get_item.
  - assert (X : (match af with c :: _ => ceq c dquote | [] => false end) = false).
    { destruct af as [|c r]; [auto|]. apply ceq_false. intros ->. eapply N. reflexivity. }
    rewrite X, size_plain by auto. rewrite Sk. destruct w' as [|c r]; [auto|]. assert (D : ceq c dquote = false) by (apply ceq_false; intros ->; apply Q; left; auto). rewrite D. auto.
  - rewrite ceq_refl, size_quoted by auto. change (S (length w')) with (length (dquote :: w')). rewrite Sk, ceq_refl. auto.
Qed.

(** * The longest beginning *)
Lemma alike_le p q : alike p q <= length p /\ alike p q <= length q /\ firstn (alike p q) p = firstn (alike p q) q.
Proof. revert q. induction p as [|a p IH]; intros [|b q]; cbn [alike]; try (cbn; lia || auto with arith). destruct (ceq a b) eqn:E; [|cbn; repeat split; lia]. apply ceq_true in E. subst. destruct (IH q) as (A & B & C). cbn [length firstn]. rewrite C. repeat split; lia. Qed.
Lemma alike_max p q a r s : p = a ++ r -> q = a ++ s -> length a <= alike p q.
Proof. revert p q. induction a as [|c a IH]; intros p q -> ->; cbn [app alike length]; [lia|]. rewrite ceq_refl. specialize (IH _ _ eq_refl eq_refl). lia. Qed.
Lemma begin_firstn p q n : n <= alike p q -> exists r, q = firstn n p ++ r.
Proof.
  intros L. destruct (alike_le p q) as (A & B & C). exists (skipn n q). rewrite <- (firstn_skipn n q) at 1. f_equal.
  assert (X : firstn n (firstn (alike p q) p) = firstn n (firstn (alike p q) q)) by (f_equal; exact C). rewrite !firstn_firstn in X. rewrite Nat.min_l in X by auto. auto.
Qed.
Definition least (p : cstr) (l : list cstr) (n : nat) : nat := fold_left (fun n q => Nat.min n (alike p q)) l n.
Lemma least_le p l : forall n, least p l n <= n /\ (forall q, In q l -> least p l n <= alike p q).
Proof.
  induction l as [|q l IH]; intros n; cbn [least fold_left]; [split; [lia|intros q []]|]. destruct (IH (Nat.min n (alike p q))) as [A B]. fold (least p l (Nat.min n (alike p q))). split; [lia|].
  intros x [<-|I]; [lia|apply B; auto].
Qed.
Lemma least_ge p l m : forall n, m <= n -> (forall q, In q l -> m <= alike p q) -> m <= least p l n.
Proof. induction l as [|q l IH]; intros n L H; cbn [least fold_left]; [auto|]. apply IH; [assert (m <= alike p q) by (apply H; left; auto); lia|intros x I; apply H; right; auto]. Qed.
Lemma longest_least p l n : longest_begin (p :: l) (firstn (least p l (length p)) p) /\ (n = least p l (length p) -> length (firstn n p) = n).
Proof.
  destruct (least_le p l (length p)) as [A B]. split; [|intros ->; apply firstn_length_le; auto]. split.
  - constructor; [exists (skipn (least p l (length p)) p); symmetry; apply firstn_skipn|]. apply Forall_forall. intros q I. apply begin_firstn. auto.
  - intros p' F. inversion F as [|? ? [r Er] F']; subst. rewrite firstn_length_le by auto. apply least_ge; [rewrite app_length; lia|]. intros q I. rewrite Forall_forall in F'. destruct (F' q I) as [s ->]. eapply alike_max; eauto.
Qed.
(** What the loop gives: the exact length if it is longer than [min]. *)
Lemma common_least p min : forall l n, (forall m, longest_common p l min (Some n) = Some m -> min < m -> m = least p l n) /\
  (exists m, longest_common p l min (Some n) = Some m /\ (min < least p l n -> m = least p l n) /\ (least p l n <= min -> m <= min)).
Proof.
  induction l as [|q l IH]; intros n; cbn [longest_common least fold_left].
  - split; [congruence|]. exists n. repeat split; auto.
  - assert (E : (if alike p q <? n then alike p q else n) = Nat.min n (alike p q)) by (destruct (Nat.ltb_spec (alike p q) n); lia). rewrite E. fold (least p l (Nat.min n (alike p q))).
    destruct (Nat.eqb_spec (Nat.min n (alike p q)) min) as [X|X].
    + split; [intros m Em; injection Em as <-; lia|]. exists min. split; [auto|]. destruct (least_le p l (Nat.min n (alike p q))) as [L _]. split; lia.
    + apply IH.
Qed.
Lemma common_first p min q l : exists m, longest_common p (q :: l) min None = Some m /\ (min < least p (q :: l) (length p) -> m = least p (q :: l) (length p)) /\ (least p (q :: l) (length p) <= min -> m <= min).
Proof.
  assert (E : longest_common p (q :: l) min None = longest_common p (q :: l) min (Some (length p))).
  { cbn [longest_common]. assert (X : (if alike p q <? length p then alike p q else length p) = alike p q); [|rewrite X; auto]. destruct (alike_le p q) as [A _]. destruct (Nat.ltb_spec (alike p q) (length p)); lia. }
  rewrite E. apply common_least.
Qed.

(** * The names *)
Definition base_of (ds : list cstr) : cstr := "/"%char :: flat_map (fun d => d ++ ["/"%char]) ds.
Lemma base_slashed ds n : base_of ds ++ n = "/"%char :: slashed (ds ++ [n]).
Proof.
  unfold base_of. cbn [app]. f_equal. induction ds as [|d ds IH]; [reflexivity|]. cbn [flat_map app]. rewrite <- !app_assoc. cbn [app]. rewrite IH.
  rewrite slashed_app; [reflexivity|]. intros X. apply app_eq_nil in X. destruct X; discriminate.
Qed.
Lemma base_place ds : Forall component ds -> place_of (base_of ds) = fold_left step ds [].
Proof.
  intros F. unfold place_of, base_of. cbn [names]. change (ceq "/" "/")%char with true. cbv iota. cbn [fold_left step]. generalize (@nil cstr) as pl. 
  induction F as [|d ds [N S] F IH]; intros pl; [reflexivity|]. cbn [flat_map]. rewrite <- app_assoc. cbn [app]. rewrite names_app, names_one by auto. cbn [app fold_left]. apply IH.
Qed.
Lemma same_str_name a c : same_str false c a <-> same_name a c.
Proof.
  unfold same_str, same_name. split.
  - induction 1 as [|x y c a H F IH]; [reflexivity|]. cbn [map]. cbn in H. congruence.
  - revert a. induction c as [|x c IH]; intros [|y a] H; try discriminate; constructor; cbn [map] in H; injection H as H1 H2; [cbn; auto|apply IH; auto].
Qed.
Lemma meant_begin c n : ~ wild c -> Forall (fun x => (code x < 128)%Z) c -> (meant (c ++ ["*"%char]) n <-> exists a r, n = a ++ r /\ same_name a c /\ r <> []).
Proof.
  intros W A. apply plain_b in W. assert (Pl : Forall (Glob_Proofs.plain true) c) by (eapply Forall_impl; [|exact A]; intros x H _; auto).
  unfold meant. split.
  - intros [H _]. specialize (H ltac:(exists c; auto)). rewrite <- app_assoc in H. apply glob_literal_inv in H; [|exact W]. destruct H as (t & us & E & St & G).
    exists t, (concat us). split; [rewrite <- (chars_concat true n), E, concat_app, concat_singles; auto|]. split; [apply same_str_name; auto|].
    intros X. apply glob_star_inv in G. destruct G as (u1 & u2 & -> & G). inversion G; subst; try congruence.
    assert (I : In u (chars true n)) by (rewrite E; apply in_or_app; right; apply in_or_app; right; left; auto). apply chars_units in I. rewrite concat_app in X. apply app_eq_nil in X. destruct X as [_ X]. cbn [concat] in X. apply app_eq_nil in X. tauto.
  - intros (a & r & -> & Sa & R). split; [|intros H; exfalso; apply H; exists c; auto]. intros _. rewrite <- app_assoc. apply glob_literal; auto; [apply same_str_name; auto|].
    cbn [app s2l list_ascii_of_string]. apply (glob_stars_q false 0). intros X. apply R. eapply chars_nil; eauto.
Qed.

(** What is looked at: the names in the directory that begin with what was typed, in any case,
    and are longer; each once. *)
Theorem C84_candidates : forall f ds c, proper f -> tree f -> once f ->
  Forall normal_comp ds -> Forall (fun d => ~ wild d) ds -> ~ wild c -> ~ In "/"%char c -> nonul c -> Forall (fun x => (code x < 128)%Z) c ->
  let base := base_of ds in get f (place_of (base ++ c ++ ["*"%char])) = None ->
  (forall n, get f (n :: place_of base) <> None -> length (base ++ n) < FILENAME_MAX) ->
  exists l, pBat_GetMatchFileList f false true false (base ++ c ++ ["*"%char]) = Ret l /\ NoDup l /\
    forall p, In p l <-> exists n, goes_on f (place_of base) c n /\ p = base ++ n.
Proof.
  intros f ds c Pr Tr On Fd Wd Wc Sc Nc Ac base G L. subst base.
  assert (Fc : Forall component ds) by (eapply Forall_impl; [|exact Fd]; apply normal_component).
  assert (Ww : wild (c ++ ["*"%char])) by (left; apply in_or_app; right; left; auto).
  assert (Cw : component (c ++ ["*"%char])) by (split; [intros X; apply app_eq_nil in X; destruct X; discriminate|intros X; apply in_app_or in X; destruct X as [X|[X|[]]]; [auto|discriminate]]).
  assert (Nw : normal_comp (c ++ ["*"%char])).
  { destruct Cw as [C1 C2]. split; [auto|]. assert (E : forall s, c ++ ["*"%char] = s -> last s "*"%char = "*"%char) by (intros s <-; rewrite last_last; auto).
    repeat split; auto; intros X; apply E in X; discriminate X. }
  assert (Uw : understood (c ++ ["*"%char])).
  { split; [intros X; apply in_app_or in X; destruct X as [X|[X|[]]]; [apply Nc; auto|discriminate]|]. split; [apply Forall_app; split; [auto|repeat constructor]|].
    intros a b d E. apply (f_equal (existsb (fun x => ceq x "?"%char))) in E. rewrite existsb_app in E. cbn [existsb] in E. change (ceq "*" "?")%char with false in E. rewrite !existsb_app in E. cbn [existsb] in E. rewrite existsb_app in E. cbn [existsb] in E.
    change (ceq "?" "?")%char with true in E. rewrite !orb_true_r in E. cbn [orb] in E. rewrite orb_false_r in E. apply existsb_exists in E. destruct E as (x & I & X). apply ceq_true in X. subst. apply Wc. right. auto. }
  assert (Rc : forall ns q, reach f false false [] (ds ++ [c ++ ["*"%char]]) ns q <-> exists n, ns = ds ++ [n] /\ goes_on f (place_of (base_of ds)) c n /\ q = n :: place_of (base_of ds)).
  { intros ns q. rewrite base_place by auto. rewrite reach_pre by auto. split.
    - intros (ms & -> & R). inversion R; subst; try contradiction; try discriminate. match goal with H : reach _ _ _ _ [] _ _ |- _ => inversion H; subst end.
      match goal with H : _ \/ false = true /\ _ |- _ => destruct H as [[Gn Nn]|[X _]]; [|discriminate X] end. exists n. rewrite step_normal by auto. split; [auto|]. split; [|auto]. split; [auto|]. apply meant_begin; auto.
    - intros (n & -> & [Gn Mn] & ->). exists [n]. split; [auto|]. apply meant_begin in Mn; auto. destruct (Pr _ n Gn) as [Nn _]; [left; auto|]. rewrite <- (step_normal (fold_left step ds []) n Nn).
      eapply r_wild; eauto. constructor. rewrite step_normal; auto. }
  rewrite base_slashed in G.
  destruct (C75_pattern f false true false (ds ++ [c ++ ["*"%char]])) as (l & E & I & O); auto.
  - apply Forall_app. auto.
  - apply Forall_app. split; [|auto]. eapply Forall_impl; [|exact Wd]. intros d X Y. contradiction.
  - exists (c ++ ["*"%char]). split; [apply in_or_app; right; left|]; auto.
  - discriminate.
  - intros ns q R. apply Rc in R. destruct R as (n & -> & [Gn _] & _). rewrite <- base_slashed. auto.
  - exists l. rewrite base_slashed. split; [auto|]. split.
    + assert (X : inner_first (map place_of l)) by (apply O; auto; apply Forall_app; auto). clear - X. unfold inner_first in X. induction l as [|p l IH]; constructor.
      * inversion X as [|? ? F _]; subst. intros I. rewrite Forall_forall in F. destruct (F (place_of p)) as [A _]; [apply in_map; auto|congruence].
      * apply IH. inversion X; auto.
    + intros p. rewrite I. split.
      * intros (ns & q & R & ->). apply Rc in R. destruct R as (n & -> & Gn & _). exists n. split; [auto|]. symmetry. apply base_slashed.
      * intros (n & Gn & ->). exists (ds ++ [n]), (n :: place_of (base_of ds)). split; [apply Rc; eauto|]. apply base_slashed.
Qed.
Print Assumptions C84_candidates.

(** * The list *)
Lemma base_name_ok : forall pch name x, name = x ++ pch -> ~ In "/"%char x -> ~ In "\"%char x ->
  exists a, name = a ++ base_name name pch /\ ~ In "/"%char (base_name name pch) /\ ~ In "\"%char (base_name name pch) /\ (a = [] \/ exists a' c, a = a' ++ [c] /\ (c = "/"%char \/ c = "\"%char)).
Proof.
  induction pch as [|c r IH]; intros name x E S B; cbn [base_name].
  - rewrite app_nil_r in E. subst. exists []. auto.
  - destruct (ceq c "/"%char || ceq c "\"%char) eqn:C.
    + destruct (IH r [] eq_refl) as (a & Ea & S2 & B2 & X); [intros []|intros []|]. exists (x ++ [c] ++ a). split; [rewrite E, <- !app_assoc; cbn [app]; congruence|]. split; [auto|]. split; [auto|]. right.
      apply orb_true_iff in C. destruct X as [->|(a' & d & -> & D)].
      * exists x, c. split; [rewrite app_nil_r; auto|]. destruct C as [C|C]; apply ceq_true in C; auto.
      * exists (x ++ [c] ++ a'), d. rewrite <- !app_assoc. auto.
    + apply orb_false_iff in C. destruct C as [C1 C2]. apply ceq_false in C1, C2. apply (IH name (x ++ [c])); [rewrite E, <- app_assoc; auto| |]; intros I; apply in_app_or in I; destruct I as [I|[I|[]]]; auto.
Qed.
Lemma name_of_last p : last_name p (name_of p).
Proof. destruct (base_name_ok p p [] eq_refl) as (a & E & S & B & X); [intros []|intros []|]. repeat split; eauto. Qed.
Lemma rows_cons per names rows r : 0 < per -> length r = per -> in_rows per names rows -> in_rows per (r ++ names) (r :: rows).
Proof.
  intros P L (E & F & A). split; [cbn [concat]; congruence|]. split; [constructor; auto; split; [intros ->; cbn in L; lia|lia]|].
  intros a r2 b Eq N. destruct a as [|x a]; cbn [app] in Eq; injection Eq as E1 E2; subst; [auto|]. eapply A; eauto.
Qed.
Lemma mod_next k per : 0 < per -> S k mod per = if S (k mod per) =? per then 0 else S (k mod per).
Proof.
  intros P. assert (H := Nat.div_mod k per ltac:(lia)). assert (B := Nat.mod_upper_bound k per ltac:(lia)). destruct (Nat.eqb_spec (S (k mod per)) per).
  - symmetry. apply (Nat.mod_unique (S k) per (S (k / per))); [lia|]. nia.
  - symmetry. apply (Nat.mod_unique (S k) per (k / per)); lia.
Qed.
Lemma names_rows per width : 0 < per -> forall files count cur, length cur = count mod per ->
  exists rows, flat_map (col width) cur ++ print_names per width count files = flat_map (row width) rows /\ in_rows per (cur ++ map name_of files) rows.
Proof.
  intros P. induction files as [|p files IH]; intros count cur L; cbn [print_names map].
  - rewrite app_nil_r. destruct (Nat.eqb_spec (count mod per) 0) as [Z|Z].
    + rewrite Z in L. destruct cur; [|discriminate]. exists []. split; [reflexivity|]. split; [reflexivity|]. split; [constructor|]. intros a r b X. destruct a; discriminate.
    + exists [cur]. split; [cbn [flat_map]; rewrite app_nil_r; reflexivity|]. split; [cbn; apply app_nil_r|]. split.
      * constructor; [|constructor]. assert (B := Nat.mod_upper_bound count per ltac:(lia)). split; [intros ->; cbn in L; lia|lia].
      * intros a r b X N. destruct a as [|y a]; cbn [app] in X; injection X as X1 X2; subst; [congruence|]. destruct a; discriminate.
  - rewrite mod_next by auto. destruct (Nat.eqb_spec (S (count mod per)) per) as [Z|Z]; cbn [Nat.eqb].
    + destruct (IH (S count) []) as (rows & E & R); [rewrite mod_next, Z, Nat.eqb_refl by auto; reflexivity|]. cbn [flat_map app] in E, R.
      exists ((cur ++ [name_of p]) :: rows). split.
      * cbn [flat_map]. rewrite <- E. change (padded width (name_of p)) with (col width (name_of p)). unfold row. rewrite flat_map_app. cbn [flat_map]. rewrite app_nil_r, <- !app_assoc. reflexivity.
      * change (cur ++ name_of p :: map name_of files) with (cur ++ [name_of p] ++ map name_of files). rewrite app_assoc. apply rows_cons; auto. rewrite app_length. cbn [length]. lia.
    + destruct (IH (S count) (cur ++ [name_of p])) as (rows & E & R).
      { rewrite mod_next by auto. destruct (Nat.eqb_spec (S (count mod per)) per); [lia|]. rewrite app_length. cbn [length]. lia. }
      exists rows. rewrite <- app_assoc in R. split; [|exact R]. rewrite <- E, flat_map_app. cbn [flat_map]. change (padded width (name_of p)) with (col width (name_of p)). rewrite app_nil_r, <- !app_assoc. reflexivity.
Qed.

(** The list has the name of each file, in columns of a width that is more than that of all of
    them; a row has at most 80 columns. *)
Definition listing (files : list cstr) (out : cstr) : Prop :=
  exists width names rows, Forall2 last_name files names /\ Forall (fun n => length n < width) names /\ 0 < width <= 80 /\ in_rows (80 / width) names rows /\
    out = ["013"%char; "010"%char] ++ flat_map (row width) rows ++ ["013"%char; "010"%char].
Theorem C84_list : forall yes files, length files <= 20 \/ yes = true -> (forall p n, In p files -> last_name p n -> length n < 80) ->
  exists out, pBat_PrintCompletionList yes files = Ret out /\ listing files out.
Proof.
  intros yes files Y S. unfold pBat_PrintCompletionList. set (max := list_max (map (fun p => length (name_of p)) files)).
  assert (Q : (20 <? length files) && negb yes = false) by (destruct Y as [Y| ->]; [apply Nat.ltb_ge in Y; rewrite Y; auto|apply andb_false_r]). rewrite Q.
  assert (M : max <= 79). { apply list_max_le. apply Forall_map, Forall_forall. intros p I. specialize (S p (name_of p) I (name_of_last p)). lia. }
  assert (X : (80 <? max) = false) by (apply Nat.ltb_ge; lia). rewrite X. assert (P : 0 < 80 / Datatypes.S max) by (apply Nat.div_str_pos; lia).
  destruct (80 / Datatypes.S max) as [|per] eqn:E; [lia|].
  destruct (names_rows (Datatypes.S per) (Datatypes.S max) P files 0 []) as (rows & Er & R); [rewrite Nat.mod_0_l; auto|]. cbn [flat_map app] in Er, R. rewrite Er.
  exists (["013"%char; "010"%char] ++ flat_map (row (Datatypes.S max)) rows ++ ["013"%char; "010"%char]). split; [destruct files; reflexivity|].
  exists (Datatypes.S max), (map name_of files), rows. split; [clear; induction files; constructor; auto using name_of_last|]. split.
  - apply Forall_map. assert (H : Forall (fun k => k <= max) (map (fun p => length (name_of p)) files)) by (apply list_max_le; auto). rewrite Forall_map in H. eapply Forall_impl; [|exact H]. cbn. intros; lia.
  - split; [lia|]. rewrite E. auto.
Qed.
Print Assumptions C84_list.

(** * The key *)
Lemma longest_unique q l p : longest_begin (q :: l) p -> p = firstn (least q l (length q)) q.
Proof.
  intros [F M]. destruct (longest_least q l 0) as [[F' M'] _]. set (p' := firstn (least q l (length q)) q) in *. specialize (M p' F'). specialize (M' p F).
  inversion F as [|? ? [r Er] _]; subst. inversion F' as [|? ? [r' Er'] _]; subst. fold p' in Er'. assert (X : firstn (length p) (p ++ r) = firstn (length p) (p' ++ r')) by congruence.
  rewrite firstn_app, Nat.sub_diag, firstn_all, app_nil_r in X. replace (length p) with (length p') in X by lia. rewrite firstn_app, Nat.sub_diag, firstn_all, app_nil_r in X. rewrite X. reflexivity.
Qed.
Definition placed (f : fsys) (ds : list cstr) (c : cstr) : Prop :=
  proper f /\ tree f /\ once f /\ Forall normal_comp ds /\ Forall (fun d => ~ wild d) ds /\ ~ wild c /\ ~ In "/"%char c /\ nonul c /\ Forall (fun x => (code x < 128)%Z) c /\
  get f (place_of (base_of ds ++ c ++ ["*"%char])) = None /\ (forall n, get f (n :: place_of (base_of ds)) <> None -> length (base_of ds ++ n) < FILENAME_MAX).

(** The word before the cursor is completed as far as all the names agree; else, the names are
    listed, and the line stays as it is. *)
Theorem C84_tab : forall f cur buflen yes before after w ds c,
  word_at before after w -> let typed := base_of ds ++ c in pBat_MakeFullPathEs cur w = typed -> placed f ds c ->
  exists l, NoDup l /\ (forall p, In p l <-> exists n, goes_on f (place_of (base_of ds)) c n /\ p = base_of ds ++ n) /\
    let key := completeLine f cur buflen yes before after in
    (l = [] -> key = Ret (before, after, None)) /\
    forall p, l <> [] -> longest_begin l p ->
      (length typed < length p -> let x := skipn (length typed) p in
         (buflen < length before + length x + length after -> key = Ret (before, after, None)) /\
         (length before + length x + length after <= buflen -> after = [] \/ length after <= length x -> key = Ret (before ++ x, after, None)) /\
         ((forall n, goes_on f (place_of (base_of ds)) c n -> exists r, n = c ++ r) -> p = typed ++ x)) /\
      (length p <= length typed -> length l <= 20 \/ yes = true -> (forall q n, In q l -> last_name q n -> length n < 80) ->
         exists out, key = Ret (before, after, Some out) /\ listing l out).
Proof.
  intros f cur buflen yes before after w ds c Wa typed Ef (Pr & Tr & On & Fd & Wd & Wc & Sc & Nc & Ac & G & L). subst typed.
  destruct (C84_candidates f ds c Pr Tr On Fd Wd Wc Sc Nc Ac G L) as (l & El & Nd & Il). exists l. split; [auto|]. split; [auto|]. cbv zeta.
  unfold completeLine. rewrite (item_word _ _ _ Wa). unfold pBat_CompletionHandler, list_handler. rewrite Ef. cbv zeta. rewrite <- app_assoc. rewrite El. cbn [bind]. split; [intros ->; reflexivity|].
  intros p Nl Lp. destruct l as [|q l]; [exfalso; apply Nl; reflexivity|]. set (len := length (base_of ds ++ c)).
  assert (Lq : forall x, In x (q :: l) -> len < length x /\ exists a r, x = (base_of ds ++ a) ++ r /\ same_name a c).
  { intros x I. apply Il in I. destruct I as (n & (_ & a & r & -> & Sa & R) & ->). assert (La : length a = length c) by (unfold same_name in Sa; apply (f_equal (@length _)) in Sa; rewrite !map_length in Sa; auto).
    split; [|exists a, r; rewrite <- app_assoc; auto]. subst len. rewrite !app_length, La. destruct r; [congruence|cbn [length]; lia]. }
  assert (Lq0 := proj1 (Lq q (or_introl eq_refl))). pose proof (longest_unique _ _ _ Lp) as Ep.
  destruct (least_le q l (length q)) as [Le _]. assert (Lenp : length p = least q l (length q)) by (rewrite Ep; apply firstn_length_le; auto).
  assert (Sx : match longest_common q l len None with
     | None => if length q <? len then Undef else Ret (SText (skipn len q))
     | Some m => if len <? m then Ret (SText (firstn (m - len) (skipn len q))) else Ret SList end = if len <? length p then Ret (SText (skipn len p)) else Ret SList).
  { destruct l as [|q2 l].
    - cbn [longest_common]. cbn [least fold_left] in *. rewrite firstn_all in Ep. subst p. destruct (Nat.ltb_spec (length q) len); [lia|]. destruct (Nat.ltb_spec len (length q)); [auto|lia].
    - destruct (common_first q len q2 l) as (m & -> & M1 & M2). destruct (Nat.ltb_spec len (length p)) as [X|X].
      + rewrite M1 by lia. destruct (Nat.ltb_spec len (least q (q2 :: l) (length q))); [|lia]. rewrite Ep at 1. rewrite skipn_firstn_comm. reflexivity.
      + assert (M : m <= len) by (apply M2; lia). destruct (Nat.ltb_spec len m); [lia|auto]. }
  rewrite Sx. clear Sx. split.
  - intros X. fold len in X |- *. apply Nat.ltb_lt in X. rewrite X. apply Nat.ltb_lt in X. cbn [bind]. unfold insert. assert (Lx : length (skipn len p) <> 0) by (rewrite skipn_length; lia). split; [|split].
    + intros Y. destruct (Nat.ltb_spec (buflen - (length before + length after)) (length (skipn len p))); [reflexivity|lia].
    + intros Y Z. destruct (Nat.ltb_spec (buflen - (length before + length after)) (length (skipn len p))); [lia|].
      assert (O : (negb (length after =? 0) && (length (skipn len p) <? length after))%nat = false).
      { destruct Z as [->|Z]; [reflexivity|]. apply andb_false_iff. right. apply Nat.ltb_ge. auto. }
      rewrite O. reflexivity.
    + intros Ex. assert (Iq : In q (q :: l)) by (left; auto). apply Il in Iq. destruct Iq as (n & Gn & Eq). destruct (Ex n Gn) as [r ->]. rewrite app_assoc in Eq.
      assert (X2 : firstn len p = base_of ds ++ c).
      { rewrite Ep, firstn_firstn, Nat.min_l by lia. rewrite Eq. subst len. rewrite firstn_app, Nat.sub_diag, firstn_all, app_nil_r. reflexivity. }
      rewrite <- X2. symmetry. apply firstn_skipn.
  - intros X Y Z. fold len in X. assert (X2 : (len <? length p) = false) by (apply Nat.ltb_ge; auto). rewrite X2. cbn [bind].
    destruct (C84_list yes (q :: l) Y Z) as (out & E & Li). rewrite E. cbn [bind]. eauto.
Qed.
Print Assumptions C84_tab.

Definition tab (names : list cstr) (before after : string) : outcome (string * string * option string) :=
  do (b, a, o) <- completeLine ((place_of (s2l "/"), Dir) :: (place_of (s2l "/d"), Dir) :: map (fun n => (n :: place_of (s2l "/d"), File [])) names) (s2l "/d") 4095 true (s2l before) (s2l after);
  Ret (string_of_list_ascii b, string_of_list_ascii a, option_map string_of_list_ascii o).
(** What was typed can be completed to a name that is not there, as the case of what was typed
    is kept. *)
Theorem C84_case_refuted : tab [s2l "Report.txt"] "TYPE rep" "" = Ret ("TYPE report.txt", ""%string, None)%string.
Proof. vm_compute. reflexivity. Qed.
Print Assumptions C84_case_refuted.
(** What was typed is no candidate, even if a file has it as its name. *)
Theorem C84_exact_refuted : tab [s2l "foo"; s2l "foobar"] "TYPE foo" "" = Ret ("TYPE foobar", "", None)%string.
Proof. vm_compute. reflexivity. Qed.
Print Assumptions C84_exact_refuted.
(** If there are wildcards in what was typed, memory behind the end of a name is read. *)
Theorem C84_wild_refuted : tab [s2l "a"] "TYPE ***" "" = Undef.
Proof. vm_compute. reflexivity. Qed.
Print Assumptions C84_wild_refuted.
(** When more follows the cursor than is to be inserted, memcpy is used for places that
    overlap. *)
Theorem C84_middle_refuted : tab [s2l "foo"] "TYPE fo" " | MORE" = Undef /\ tab [s2l "foo.text"] "TYPE fo" " | MORE" = Undef /\ tab [s2l "foo.text"] "TYPE fo" " >x" = Ret ("TYPE foo.text", " >x", None)%string.
Proof. repeat split; vm_compute; reflexivity. Qed.
Print Assumptions C84_middle_refuted.
(** The list of names the longest of which has 80 bytes divides by zero. *)
Theorem C84_width_refuted : tab [repeat "a"%char 80; s2l "b"] "TYPE " "" = Undef /\ exists o, tab [repeat "a"%char 81; s2l "b"] "TYPE " "" = Ret ("TYPE ", "", Some o)%string.
Proof. split; [vm_compute; reflexivity|]. eexists. vm_compute. reflexivity. Qed.
Print Assumptions C84_width_refuted.
(** A quote that is not closed does not keep blanks in a word. *)
Theorem C84_quote_refuted : tab [s2l "my file"; s2l "files"] "TYPE ""my fi" "" = Ret ("TYPE ""my files", "", None)%string /\ tab [s2l "my file"; s2l "files"] "TYPE ""my fi" """" = Ret ("TYPE ""my file", """", None)%string.
Proof. split; vm_compute; reflexivity. Qed.
Print Assumptions C84_quote_refuted.

(** The hypotheses hold. *)
Definition ex_fs : fsys := [at_ "/" Dir; at_ "/d" Dir; at_ "/d/foot" (File []); at_ "/d/foobar" (File []); at_ "/d/foolish" Dir; at_ "/d/bar" (File [])].
Example C84_ex :
  word_at (s2l "TYPE f") (s2l " >x") (s2l "f") /\ pBat_MakeFullPathEs (s2l "/d") (s2l "f") = base_of [s2l "d"] ++ s2l "f" /\ placed ex_fs [s2l "d"] (s2l "f") /\
  word_at (s2l "TYPE ""a b") (s2l """") (s2l "a b") /\
  completeLine ex_fs (s2l "/d") 4095 true (s2l "TYPE f") [] = Ret (s2l "TYPE foo", [], None) /\
  completeLine ex_fs (s2l "/d") 4095 true (s2l "TYPE foo") [] = Ret (s2l "TYPE foo", [], Some (crlf ++ s2l "foot    foobar  foolish " ++ crlf ++ crlf)) /\
  completeLine ex_fs (s2l "/d") 4095 true (s2l "TYPE foob") [] = Ret (s2l "TYPE foobar", [], None) /\
  completeLine ex_fs (s2l "/d") 4095 true (s2l "TYPE x") [] = Ret (s2l "TYPE x", [], None) /\
  (forall n, goes_on ex_fs (place_of (base_of [s2l "d"])) (s2l "f") n -> exists r, n = s2l "f" ++ r).
Proof.
  assert (X : forall p, get ex_fs p <> None -> In p (map fst ex_fs)) by (intros p; apply get_in).
  assert (Cu : forall c w, existsb (ceq c) ("009"%char :: s2l " &|") = w -> w = false -> ~ cuts c).
  { intros c w E -> H. apply not_true_iff_false in E. apply E. apply existsb_exists. exists c. split; [exact H|apply ceq_refl]. }
  split; [|split; [reflexivity|]; split; [|split; [|split; [vm_compute; reflexivity|]; split; [vm_compute; reflexivity|]; split; [vm_compute; reflexivity|]; split; [vm_compute; reflexivity|]]]].
  - apply (wa_plain (s2l "TYPE ")); [right; exists (s2l "TYPE"), " "%char; split; [reflexivity|right; left; auto]|intros [H|[]]; discriminate| |discriminate]. intros c [<-|[]]. eapply Cu; reflexivity.
  - split; [|split; [|split]].
    + intros p x G I. apply X in G. vm_compute in G. repeat (destruct G as [<-|G]; [cbn in I; repeat (destruct I as [<-|I]; [split; [repeat split; try discriminate; intros H; cbn in H; intuition discriminate|apply nonul_b; reflexivity]|]); destruct I|]). destruct G.
    + intros n p G. apply X in G. vm_compute in G. repeat (destruct G as [G|G]; [try discriminate; injection G as <- <-; reflexivity|]). destruct G.
    + unfold once. vm_compute. repeat constructor; cbn; intuition discriminate.
    + split; [repeat constructor; try discriminate; intros H; cbn in H; intuition discriminate|]. split; [repeat constructor; intros [H|H]; cbn in H; intuition discriminate|].
      split; [intros [H|H]; cbn in H; intuition discriminate|]. split; [intros H; cbn in H; intuition discriminate|]. split; [apply nonul_b; reflexivity|]. split; [repeat constructor|]. split; [vm_compute; reflexivity|].
      intros n G. apply X in G. vm_compute in G. apply Nat.ltb_lt. repeat (destruct G as [G|G]; [try discriminate; injection G as <-; vm_compute; reflexivity|]). destruct G.
  - apply (wa_quoted (s2l "TYPE ")); [right; exists (s2l "TYPE"), " "%char; split; [reflexivity|right; left; auto]|intros H; cbn in H; intuition discriminate].
  - intros n [G (a & r & -> & Sa & R)]. apply X in G. destruct a as [|x [|y a]]; try discriminate Sa. assert (Y : In ((x :: r) :: [s2l "d"]) (map fst ex_fs)) by exact G. vm_compute in Y.
    assert (Ex : x <> "b"%char) by (intros ->; discriminate Sa). repeat (destruct Y as [Y|Y]; [try discriminate; injection Y as <- <-; try congruence; eexists; reflexivity|]). destruct Y.
Qed.
