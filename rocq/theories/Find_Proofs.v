(** Find_Proofs.v -- FIND meets Find_Spec. *)

From Verif Require Import Base Lex Num_Model Num_Proofs StrLib_Model StrLib_Spec Estr_Spec Estr_Proofs Path_Model Path_Proofs Var_Model Var_Proofs Expand_Model
  Args_Model Args_Spec Args_Proofs Params_Model Params_Spec Params_Proofs For_Model Glob_Model Glob_Proofs Wc_Model Prompt_Spec Prompt_Proofs Set_Spec Set_Proofs Find_Model Find_Spec.

(** ** Searching *)
Lemma casestr_iff s c f : nonul f -> casestr s (tolower c) f = true <-> exists a x r, s = a ++ x :: r /\ tolower x = tolower c /\ starts f r.
Proof.
  intros N. induction s as [|y s IH]; cbn [casestr].
  - split; [discriminate|]. intros ([|] & x & r & E & _); discriminate.
  - rewrite orb_true_iff, andb_true_iff, IH. rewrite ceq_true. fold (starts_b f s). rewrite (starts_iff f s N). split.
    + intros [[E H]|(a & x & r & -> & E & H)]; [exists [], y, s|exists (y :: a), x, r]; auto.
    + intros ([|z a] & x & r & E & H & S); injection E as -> ->; [left; auto|right; exists a, x, r; auto].
Qed.
Lemma strcasestr_iff text s : nonul s -> pBat_strcasestr text s = true <-> contains true text s.
Proof.
  intros N. destruct s as [|c f]; cbn [pBat_strcasestr].
  - split; auto. intros _. exists [], [], text. split; auto. reflexivity.
  - assert (Nf : nonul f) by (intros X; apply N; right; auto). rewrite casestr_iff by auto. split.
    + intros (a & x & r & -> & E & (b & t & -> & H)). exists a, (x :: b), t. split; auto. unfold same_name in *. cbn [map]. congruence.
    + intros (a & m & b & -> & H). unfold same_name in H. destruct m as [|x m]; [discriminate|]. cbn [map] in H. injection H as H1 H2.
      exists a, x, (m ++ b). repeat split; auto. exists m, b. auto.
Qed.
Lemma strstr_iff text s : (match strstr text s with Some _ => true | None => false end) = true <-> contains false text s.
Proof.
  destruct (strstr text s) as [k|] eqn:E.
  - split; auto. intros _. destruct (strstr_Some _ _ _ E) as (a & b & -> & _). exists a, s, b. auto.
  - split; [discriminate|]. intros (a & m & b & -> & ->). exfalso. eapply (strstr_None _ _ E (length a)). exists a, b. auto.
Qed.

Lemma skip_following_len s : length (skip_following s) <= length s.
Proof. induction s as [|c s IH]; cbn [skip_following]; [lia|]. destruct (_pBat_IsFollowingByte c); cbn [length]; lia. Qed.
Lemma next_len utf8 c s : length (pBat_GetNextChar utf8 (c :: s)) <= length s.
Proof. unfold pBat_GetNextChar. pose proof (skip_following_len s). destruct utf8; [destruct (128 <=? code c)%Z|]; cbn; try lia; auto. Qed.
Lemma skip_jokers_len p : length (skip_jokers p) <= length p.
Proof. induction p as [|c s IH]; cbn [skip_jokers]; [lia|]. destruct (is_joker c); cbn [length]; lia. Qed.
Lemma rx_total cs utf8 : forall fuel p s, length p < fuel -> exists b, rx_match fuel cs utf8 p s = Ret b.
Proof.
  induction fuel as [|f IH]; intros p s L; [lia|]. cbn [rx_match]. destruct p as [|x p]; [destruct s; eauto|]. destruct s as [|y s]; [eauto|].
  pose proof (next_len utf8 x p) as X. cbn [length] in L.
  destruct (ceq x "?"%char); [apply IH; lia|]. destruct (ceq x "*"%char) eqn:S.
  - assert (J : length (skip_jokers (x :: p)) <= length p).
    { cbn [skip_jokers]. replace (is_joker x) with true by (unfold is_joker; rewrite S; auto). apply skip_jokers_len. }
    destruct (skip_jokers (x :: p)) as [|z q] eqn:Q; [eauto|]. destruct (strpbrk (z :: q) (s2l "*?")) as [n|]; [|eauto].
    destruct (pBat_SeekPattern cs (y :: s) (z :: q) n); [|eauto]. apply IH. rewrite skipn_length. lia.
  - destruct (negb (rx_eq cs x y)); [eauto|]. apply IH. lia.
Qed.

(** ** The lines *)
Definition q_of (m : fmode) (str : cstr) : query := mkQ (f_count m =? 1) (f_count m =? 2) (f_icase m) (f_regexp m) (f_reverse m) str.
Lemma find_in_ok m str l : nonul str -> exists b, find_in m str l = Ret b /\ (b = true <-> found (q_of m str) l).
Proof.
  intros N. unfold find_in, found. cbn [q_of q_text q_expr q_icase]. destruct str as [|c s].
  - exists false. split; auto. split; [discriminate|]. intros [X _]; contradiction.
  - destruct (f_regexp m), (f_icase m).
    + unfold pBat_RegExpCaseMatch. destruct (rx_total false true (S (length (c :: s))) (c :: s) l) as (b & E); [lia|]. exists b. rewrite E. split; auto.
      split; [intros ->; split; [discriminate|auto]|]. intros [_ [= ->]]. auto.
    + unfold pBat_RegExpMatch. destruct (rx_total true true (S (length (c :: s))) (c :: s) l) as (b & E); [lia|]. exists b. rewrite E. split; auto.
      split; [intros ->; split; [discriminate|auto]|]. intros [_ [= ->]]. auto.
    + eexists. split; [reflexivity|]. rewrite strcasestr_iff by auto. split; [split; [discriminate|auto]|tauto].
    + eexists. split; [reflexivity|]. rewrite strstr_iff by auto. split; [split; [discriminate|auto]|tauto].
Qed.
Lemma chomp_ok line : chomped line (pBat_RmTrailingNl line).
Proof.
  unfold pBat_RmTrailingNl, chomped. destruct (rev line) as [|c r] eqn:E.
  - apply (f_equal (@rev ascii)) in E. rewrite rev_involutive in E. subst. right. split; auto. intros [|]; discriminate.
  - apply (f_equal (@rev ascii)) in E. rewrite rev_involutive in E. cbn [rev] in E. destruct (ceq c nl) eqn:Q.
    + apply ceq_true in Q. subst. left. auto.
    + right. split; auto. intros a X. subst line. apply app_inj_tail in X. destruct X as [_ ->]. rewrite ceq_refl in Q. discriminate.
Qed.
Lemma picks_length q n ls r : picks q n ls r -> length r <= length ls.
Proof. induction 1; cbn [length]; lia. Qed.
Definition shown (m : fmode) (x : Z * cstr) : cstr :=
  match f_count m with
  | 1 => "["%char :: dec (fst x) ++ "]"%char :: snd x ++ [nl]
  | 0 => snd x ++ [nl]
  | _ => []
  end.
Lemma find_lines_ok m str : nonul str -> forall ls n i out, (0 <= i <= n)%Z -> (n + Z.of_nat (length ls) < 2147483648)%Z ->
  exists r, picks (q_of m str) (n + 1) ls r /\ find_lines m str ls n i out = Ret ((i + Z.of_nat (length r))%Z, out ++ flat_map (shown m) r).
Proof.
  intros N. induction ls as [|line ls IH]; intros n i out I B; cbn [find_lines].
  - exists []. split; [constructor|]. cbn [length flat_map]. rewrite app_nil_r. do 2 f_equal. lia.
  - cbn [length] in B.
    assert (IO : forall z, (0 <= z < 2147483648)%Z -> int_op z = Ret z).
    { intros z Hz. unfold int_op, in_int, INT_MIN, INT_MAX. destruct (Z.leb_spec (-2147483648) z); [|lia]. destruct (Z.leb_spec z 2147483647); [auto|lia]. }
    rewrite IO by lia. cbn [bind]. destruct (find_in_ok m str (pBat_RmTrailingNl line) N) as (b & -> & Hb). cbn [bind].
    assert (W : xorb (negb (f_reverse m)) (negb b) = true <-> wanted (q_of m str) (pBat_RmTrailingNl line)).
    { unfold wanted. cbn [q_of q_not]. destruct (f_reverse m), b; cbn; split; intros X; try discriminate; auto.
      - exfalso. apply X. apply Hb. auto.
      - intros Y. apply Hb in Y. discriminate.
      - apply Hb. auto.
      - apply Hb in X. discriminate. }
    pose proof (chomp_ok line) as C. destruct (xorb _ _) eqn:X.
    + rewrite IO by lia. cbn [bind].
      match goal with |- context [find_lines m str ls ?a ?b ?c] => destruct (IH a b c ltac:(lia) ltac:(lia)) as (r & P & ->) end.
      exists ((n + 1, pBat_RmTrailingNl line)%Z :: r). split; [eapply pk_take; eauto; apply W; auto|]. cbn [length flat_map]. rewrite <- app_assoc. do 2 f_equal. lia.
    + destruct (IH (n + 1)%Z i out ltac:(lia) ltac:(lia)) as (r & P & ->). exists r. split; auto. eapply pk_skip; eauto. intros Y. apply W in Y. discriminate.
Qed.
Lemma flat_map_nil {A B} (f : A -> list B) l : (forall x, f x = []) -> flat_map f l = [].
Proof. intros H. induction l; cbn; auto. rewrite H, IHl. auto. Qed.
Lemma file_ok m str ls : nonul str -> f_count m <= 2 -> (Z.of_nat (length ls) < 2147483648)%Z ->
  exists s o, pBat_FileFind m str (Some ls) = Ret (s, o) /\ searches (q_of m str) ls s o.
Proof.
  intros N C L. unfold pBat_FileFind. destruct (find_lines_ok m str N ls 0 0 [] ltac:(lia) ltac:(lia)) as (r & P & E). rewrite E. cbn [bind]. eexists _, _. split; [reflexivity|].
  exists r. split; [exact P|]. split; [|destruct r; [reflexivity|]; replace (_ =? 0)%Z with false; [reflexivity|symmetry; apply Z.eqb_neq; cbn [length]; lia]].
  unfold prints. cbn [q_of q_count q_number app]. unfold shown. destruct (f_count m) as [|[|[|k]]]; [| | |lia]; cbn [Nat.eqb].
  - rewrite app_nil_r. apply flat_map_ext. auto.
  - rewrite app_nil_r. apply flat_map_ext. intros x. cbn [app]. rewrite <- app_assoc. reflexivity.
  - rewrite flat_map_nil by auto. reflexivity.
Qed.

(** ** The parameters *)
Lemma nn_opt o : In o options -> nonul o.
Proof. intros H. apply nonul_b. destruct H as [<-|[<-|[<-|[<-|[<-|[]]]]]]; reflexivity. Qed.
Lemma is_b p o : nonul p -> nonul o -> same_name p o -> (stricmp p o =? 0)%Z = true.
Proof. intros. apply stricmp_name; auto. Qed.
Lemma not_b p o : nonul p -> nonul o -> ~ same_name p o -> (stricmp p o =? 0)%Z = false.
Proof. intros N M H. destruct (stricmp p o =? 0)%Z eqn:E; auto. exfalso. apply H. apply stricmp_name in E; auto. Qed.
Lemma nn_C : nonul (s2l "/C"). Proof. apply nonul_b. reflexivity. Qed.
Lemma nn_N : nonul (s2l "/N"). Proof. apply nonul_b. reflexivity. Qed.
Lemma nn_I : nonul (s2l "/I"). Proof. apply nonul_b. reflexivity. Qed.
Lemma nn_E : nonul (s2l "/E"). Proof. apply nonul_b. reflexivity. Qed.
Lemma nn_V : nonul (s2l "/V"). Proof. apply nonul_b. reflexivity. Qed.
Lemma other p o o' : same_name p o -> map tolower o <> map tolower o' -> ~ same_name p o'.
Proof. unfold same_name. intros H N X. apply N. congruence. Qed.

Section P.
Variable search : cstr -> list ffile.
Variable w : xworld.
Notation params := (find_params search).
Lemma par_end fuel old line m str l passed : written w line [] -> 0 < fuel -> params fuel w old line m str l passed = Ret (FGo m str l passed, w).
Proof. intros W F. inversion W; subst. destruct fuel; [lia|]. cbn [find_params]. rewrite next_end; auto. Qed.
Lemma written_next line p ps : written w line (p :: ps) ->
  exists rest, (forall old, pBat_GetNextParameterEs w old line = Ret (p, Some rest, w)) /\ written w rest ps /\ length rest < length line.
Proof.
  intros W. inversion W as [|a raw rest t v l A N F P B C D R E1 E2]; subst. exists rest. split; [intros; eapply next_written; eauto|]. split; auto.
  rewrite !app_length. destruct raw; [congruence|]. cbn [length]. lia.
Qed.
Lemma slash o p : nonul p -> same_name p o -> map tolower o <> map tolower (s2l "/?") -> streqb p (s2l "/?") = false.
Proof. intros N H K. apply streqb_false. intros ->. apply K. unfold same_name in *. congruence. Qed.
Lemma par_option fuel old line p ps m s str l passed q1 : written w line (p :: ps) -> option_of (q_of m s) p q1 ->
  exists m' rest, q1 = q_of m' s /\ (f_count m <= 2 -> f_count m' <= 2) /\ written w rest ps /\ length rest < length line /\
    params (S fuel) w old line m str l passed = params fuel w p rest m' str l passed.
Proof.
  intros W O. destruct (written_next _ _ _ W) as (rest & E & R & L). cbn [find_params]. rewrite E. cbn [bind].
  destruct O as [[[N O] ->]|[[[N O] ->]|[[[N O] ->]|[[[N O] ->]|[[N O] ->]]]]].
  - rewrite (slash (s2l "/c")) by (auto; discriminate). rewrite (is_b p (s2l "/C") N nn_C) by exact O.
    exists (mkF 2 (f_icase m) (f_regexp m) (f_reverse m)), rest. cbn. repeat split; auto.
  - rewrite (slash (s2l "/n")) by (auto; discriminate). rewrite (not_b p (s2l "/C") N nn_C) by (eapply other; eauto; discriminate).
    rewrite (is_b p (s2l "/N") N nn_N) by exact O. exists (mkF 1 (f_icase m) (f_regexp m) (f_reverse m)), rest. cbn. repeat split; auto.
  - rewrite (slash (s2l "/i")) by (auto; discriminate). rewrite (not_b p (s2l "/C") N nn_C), (not_b p (s2l "/N") N nn_N) by (eapply other; eauto; discriminate).
    rewrite (is_b p (s2l "/I") N nn_I) by exact O. exists (mkF (f_count m) true (f_regexp m) (f_reverse m)), rest. cbn. repeat split; auto.
  - rewrite (slash (s2l "/e")) by (auto; discriminate).
    rewrite (not_b p (s2l "/C") N nn_C), (not_b p (s2l "/N") N nn_N), (not_b p (s2l "/I") N nn_I) by (eapply other; eauto; discriminate).
    rewrite (is_b p (s2l "/E") N nn_E) by exact O. exists (mkF (f_count m) (f_icase m) true (f_reverse m)), rest. cbn. repeat split; auto.
  - rewrite (slash (s2l "/v")) by (auto; discriminate).
    rewrite (not_b p (s2l "/C") N nn_C), (not_b p (s2l "/N") N nn_N), (not_b p (s2l "/I") N nn_I), (not_b p (s2l "/E") N nn_E) by (eapply other; eauto; discriminate).
    rewrite (is_b p (s2l "/V") N nn_V) by exact O. exists (mkF (f_count m) (f_icase m) (f_regexp m) true), rest. cbn. repeat split; auto.
Qed.
Lemma par_plain fuel old line p ps m str l passed : written w line (p :: ps) -> plain p ->
  exists rest, written w rest ps /\ length rest < length line /\
    params (S fuel) w old line m str l passed =
      match str with
      | None => params fuel w p rest m (Some p) l passed
      | Some _ => match search p with [] => Ret (FFail PBAT_NO_MATCH, w) | items => params fuel w p rest m str (l ++ items) true end
      end.
Proof.
  intros W (N & H & O). destruct (written_next _ _ _ W) as (rest & E & R & L). exists rest. split; auto. split; auto. cbn [find_params]. rewrite E. cbn [bind].
  apply streqb_false in H. rewrite H.
  rewrite (not_b p (s2l "/C") N nn_C) by (apply (O (s2l "/c")); cbn; tauto). rewrite (not_b p (s2l "/N") N nn_N) by (apply (O (s2l "/n")); cbn; tauto).
  rewrite (not_b p (s2l "/I") N nn_I) by (apply (O (s2l "/i")); cbn; tauto). rewrite (not_b p (s2l "/E") N nn_E) by (apply (O (s2l "/e")); cbn; tauto).
  rewrite (not_b p (s2l "/V") N nn_V) by (apply (O (s2l "/v")); cbn; tauto). reflexivity.
Qed.
Lemma par_help fuel old line ps m str l passed : written w line (s2l "/?" :: ps) -> 0 < fuel -> params fuel w old line m str l passed = Ret (FHelp, w).
Proof.
  intros W F. destruct (written_next _ _ _ W) as (rest & E & R & L). destruct fuel; [lia|]. cbn [find_params]. rewrite E. cbn [bind].
  rewrite streqb_refl. reflexivity.
Qed.

(** What stands before [tail] is read; then the parameters [tail] follow. *)
Definition missing (l : list ffile) : bool := match l with [] => true | _ => false end.
Lemma par_files q ps q' names : asks_files q ps q' names -> forall fuel old line m str l passed tail, written w line (ps ++ tail) -> q = q_of m str ->
  length line < fuel -> f_count m <= 2 -> (forall n, In n names -> search n <> []) ->
  exists m' fuel' old' line', q' = q_of m' str /\ f_count m' <= 2 /\ written w line' tail /\ length line' < fuel' /\
    params fuel w old line m (Some str) l passed =
    params fuel' w old' line' m' (Some str) (l ++ flat_map search names) (passed || negb (match names with [] => true | _ => false end)).
Proof.
  induction 1 as [q|q p q1 ps q' names O A IH|q p ps q' names P A IH]; intros fuel old line m str l passed tail W -> F C S.
  - exists m, fuel, old, line. cbn. rewrite orb_false_r, app_nil_r. auto.
  - destruct fuel as [|fuel]; [lia|]. cbn [app] in W. destruct (par_option fuel old line p (ps ++ tail) m str (Some str) l passed q1 W O) as (m' & rest & -> & C' & R & L & ->).
    eapply IH; eauto. lia.
  - destruct fuel as [|fuel]; [lia|]. cbn [app] in W. destruct (par_plain fuel old line p (ps ++ tail) m (Some str) l passed W P) as (rest & R & L & ->).
    pose proof (S p (or_introl eq_refl)) as Sp. destruct (search p) as [|x xs] eqn:X; [congruence|]. rewrite <- X.
    destruct (IH fuel p rest m str (l ++ search p) true tail R eq_refl ltac:(lia) C) as (m' & fuel' & old' & line' & Q & C' & W' & L' & E); [intros; apply S; right; auto|].
    exists m', fuel', old', line'. rewrite E. cbn [flat_map negb orb]. rewrite <- app_assoc. rewrite orb_true_r. auto.
Qed.
Lemma par_asks q ps q' names : asks q ps q' names -> forall fuel old line m tail, written w line (ps ++ tail) -> q = q_of m [] ->
  length line < fuel -> f_count m <= 2 -> (forall n, In n names -> search n <> []) ->
  exists m' fuel' old' line', q' = q_of m' (q_text q') /\ nonul (q_text q') /\ f_count m' <= 2 /\ written w line' tail /\ length line' < fuel' /\
    params fuel w old line m None [] false =
    params fuel' w old' line' m' (Some (q_text q')) (flat_map search names) (negb (match names with [] => true | _ => false end)).
Proof.
  induction 1 as [q p q1 ps q' names O A IH|q p ps q' names P A]; intros fuel old line m tail W -> F C S.
  - destruct fuel as [|fuel]; [lia|]. cbn [app] in W. destruct (par_option fuel old line p (ps ++ tail) m [] None [] false q1 W O) as (m' & rest & -> & C' & R & L & ->).
    eapply IH; eauto. lia.
  - destruct fuel as [|fuel]; [lia|]. cbn [app] in W. destruct (par_plain fuel old line p (ps ++ tail) m None [] false W P) as (rest & R & L & ->).
    destruct (par_files _ _ _ _ A fuel p rest m p [] false tail R eq_refl ltac:(lia) C S) as (m' & fuel' & old' & line' & Q & C' & W' & L' & E).
    exists m', fuel', old', line'. rewrite E. subst q'. cbn [q_of q_text]. destruct P as (N & _). auto 8.
Qed.
Lemma par_options ps : (forall p, In p ps -> exists o, In o options /\ opt p o) -> forall fuel old line m tail, written w line (ps ++ tail) -> length line < fuel ->
  exists m' fuel' old' line', written w line' tail /\ length line' < fuel' /\ params fuel w old line m None [] false = params fuel' w old' line' m' None [] false.
Proof.
  induction ps as [|p ps IH]; intros O fuel old line m tail W F; [exists m, fuel, old, line; auto|]. destruct fuel as [|fuel]; [lia|]. cbn [app] in W.
  assert (X : exists q1, option_of (q_of m []) p q1).
  { destruct (O p (or_introl eq_refl)) as (o & I & H). unfold option_of. cbn [options In] in I. destruct I as [<-|[<-|[<-|[<-|[<-|[]]]]]]; eexists; eauto 12. }
  destruct X as (q1 & X). destruct (par_option fuel old line p (ps ++ tail) m [] None [] false q1 W X) as (m' & rest & _ & _ & R & L & ->).
  apply IH; auto; [|lia]. intros; apply O; right; auto.
Qed.
End P.
