(** Dir_Proofs.v -- DIR. *)

From Verif Require Import Base Lex Num_Model StrLib_Model StrLib_Spec Path_Model Path_Spec Path_Proofs Var_Model Expand_Model Args_Model Params_Model Params_Spec Params_Proofs Find_Proofs Prompt_Proofs Glob_Model Attr_Model Attr_Spec For_Model Wc_Model Fs_Model Fs_Spec Fs_Proofs Search_Model Search_Spec Search_Proofs Copy_Model Copy_Spec Copy_Proofs Del_Proofs Dir_Model Dir_Spec.

(** Sizes *)
Definition three (z : Z) : cstr := [digit_ (z / 100); digit_ (z / 10 mod 10); digit_ (z mod 10)]%Z.
Definition two (z : Z) : cstr := [digit_ (z / 10); digit_ (z mod 10)]%Z.
Definition dec_check (n : nat) : bool :=
  let z := Z.of_nat n in
  if n <? 10 then streqb (dec z) [digit_ z] && streqb (dec2 z) (two z) else if n <? 100 then streqb (dec z) (two z) && streqb (dec2 z) (two z) else streqb (dec z) (three z).
Lemma dec_checked n : n < 1000 -> dec_check n = true.
Proof.
  intros L. assert (X : forallb dec_check (seq 0 1000) = true) by (vm_compute; reflexivity). rewrite forallb_forall in X. apply X. apply in_seq. lia.
Qed.
Lemma dec_three z : (100 <= z < 1000)%Z -> dec z = three z.
Proof.
  intros H. pose proof (dec_checked (Z.to_nat z) ltac:(lia)) as X. unfold dec_check in X. rewrite Z2Nat.id in X by lia.
  destruct (Nat.ltb_spec (Z.to_nat z) 10); [lia|]. destruct (Nat.ltb_spec (Z.to_nat z) 100); [lia|]. apply streqb_iff. auto.
Qed.
Lemma dec_two z : (10 <= z < 100)%Z -> dec z = two z.
Proof.
  intros H. pose proof (dec_checked (Z.to_nat z) ltac:(lia)) as X. unfold dec_check in X. rewrite Z2Nat.id in X by lia.
  destruct (Nat.ltb_spec (Z.to_nat z) 10); [lia|]. destruct (Nat.ltb_spec (Z.to_nat z) 100); [|lia]. apply andb_prop in X. apply streqb_iff. apply X.
Qed.
Lemma dec_one z : (0 <= z < 10)%Z -> dec z = [digit_ z].
Proof.
  intros H. pose proof (dec_checked (Z.to_nat z) ltac:(lia)) as X. unfold dec_check in X. rewrite Z2Nat.id in X by lia.
  destruct (Nat.ltb_spec (Z.to_nat z) 10); [|lia]. apply andb_prop in X. apply streqb_iff. apply X.
Qed.
Lemma dec2_two z : (0 <= z < 100)%Z -> dec2 z = two z.
Proof.
  intros H. pose proof (dec_checked (Z.to_nat z) ltac:(lia)) as X. unfold dec_check in X. rewrite Z2Nat.id in X by lia.
  destruct (Nat.ltb_spec (Z.to_nat z) 10); [|destruct (Nat.ltb_spec (Z.to_nat z) 100); [|lia]]; apply andb_prop in X; apply streqb_iff; apply X.
Qed.
Lemma size_end v i last s u : (0 <= s < 1000)%Z -> (0 <= last < 1000)%Z -> nth_error units i = Some u -> (i = 0 -> last = 0%Z) -> (i <> 0 -> (1 <= s)%Z) ->
  (s * 1000 ^ Z.of_nat i <= v < (s + 1) * 1000 ^ Z.of_nat i)%Z ->
  ((100 * s + last / 10) * 1000 ^ Z.of_nat i <= 100 * v < (100 * s + last / 10 + 1) * 1000 ^ Z.of_nat i)%Z ->
  size_shown v (firstn 7 (if (100 <=? s)%Z then " "%char :: dec s ++ " "%char :: unit_ (Nat.modulo i 4)
         else if (10 <=? s)%Z then s2l "  " ++ dec s ++ " "%char :: unit_ (Nat.modulo i 4)
         else dec s ++ ","%char :: dec2 (last / 10)%Z ++ " "%char :: unit_ (Nat.modulo i 4))).
Proof.
  intros Hs Hl Hu H0 H1 A B. assert (Li : i < 4) by (assert (X : nth_error units i <> None) by congruence; apply nth_error_Some in X; exact X).
  assert (Eu : unit_ (Nat.modulo i 4) = u /\ length u <= 2) by (do 4 (destruct i as [|i]; [cbn in Hu; injection Hu as <-; cbn; split; [reflexivity|lia]|]); lia). destruct Eu as [-> Lu].
  assert (Fu : forall a b c d, firstn 7 (a :: b :: c :: d :: " "%char :: u) = a :: b :: c :: d :: " "%char :: u) by (intros; apply firstn_all2; cbn [length]; lia).
  destruct (Z.leb_spec 100 s) as [C|C].
  - rewrite dec_three by lia. cbn [three app]. rewrite Fu. eapply ss_three; eauto; lia.
  - destruct (Z.leb_spec 10 s) as [D|D].
    + rewrite dec_two by lia. cbn [two app s2l list_ascii_of_string]. rewrite Fu. eapply ss_two; eauto; lia.
    + assert (L : (0 <= last / 10 < 100)%Z) by (split; [apply Z.div_pos; lia|apply Z.div_lt_upper_bound; lia]).
      rewrite dec_one, dec2_two by lia. cbn [two app]. rewrite Fu.
      pose proof (ss_one v i u (100 * s + last / 10)%Z Hu) as X. cbv zeta in X.
      replace ((100 * s + last / 10) / 100)%Z with s in X by (Z.to_euclidean_division_equations; lia).
      replace ((100 * s + last / 10) / 10 mod 10)%Z with (last / 10 / 10)%Z in X by (Z.to_euclidean_division_equations; lia).
      replace ((100 * s + last / 10) mod 10)%Z with ((last / 10) mod 10)%Z in X by (Z.to_euclidean_division_equations; lia).
      apply X; auto; [lia|]. destruct i; [left; auto|right]. lia.
Qed.
Lemma size_ok n : (n < 4294967296)%N -> exists z, pBat_FormatFileSize 8 n = Ret z /\ size_shown (Z.of_N n) z.
Proof.
  intros L. unfold pBat_FormatFileSize. rewrite Z.mod_small by lia. set (v := Z.of_N n). assert (Hv : (0 <= v < 4294967296)%Z) by lia. clearbody v. clear L n.
  cbn [size_loop]. change (8 - 1) with 7.
  destruct (Z.leb_spec 1000 v) as [A|A]; [|cbn [bind]; eexists; split; [reflexivity|]; eapply size_end; try reflexivity; try lia; change (0 / 10)%Z with 0%Z; lia].
  destruct (Z.leb_spec 1000 (v / 1000)) as [B|B];
    [|cbn [bind]; eexists; split; [reflexivity|]; eapply size_end; try reflexivity; try lia; change (1000 ^ Z.of_nat 1)%Z with 1000%Z; Z.to_euclidean_division_equations; lia].
  destruct (Z.leb_spec 1000 (v / 1000 / 1000)) as [C|C];
    [|cbn [bind]; eexists; split; [reflexivity|]; eapply size_end; try reflexivity; try lia; change (1000 ^ Z.of_nat 2)%Z with 1000000%Z; Z.to_euclidean_division_equations; lia].
  destruct (Z.leb_spec 1000 (v / 1000 / 1000 / 1000)) as [D|D]; [exfalso; Z.to_euclidean_division_equations; lia|].
  cbn [bind]; eexists; split; [reflexivity|]; eapply size_end; try reflexivity; try lia; change (1000 ^ Z.of_nat 3)%Z with 1000000000%Z; Z.to_euclidean_division_equations; lia.
Qed.

(** What is found extends the path from which it is looked for. *)
Lemma each_from g l : forall m x, each g l = Ret m -> In x m -> exists n a, g n = Ret a /\ In x a.
Proof.
  induction l as [|n l IH]; intros m x E I; cbn [each] in E; [injection E as <-; destruct I|].
  destruct (g n) as [a| |] eqn:Eg; try discriminate. cbn [bind] in E. destruct (each g l) as [b| |] eqn:El; try discriminate. cbn [bind] in E. injection E as <-.
  apply in_app_or in I. destruct I as [I|I]; eauto.
Qed.
Lemma inside_inside b n z : exists y, inside (inside b n) z = inside b y.
Proof. unfold inside at 1. exists (n ++ (if ends_slash (inside b n) then [] else ["/"%char]) ++ z). unfold inside. rewrite <- !app_assoc. reflexivity. Qed.
Lemma match_ext f rec nopseudo : forall k b up l x, pBat_GetMatch f rec nopseudo k (Some b) up = Ret l -> In x l -> exists y, x = add (inside b y).
Proof.
  induction k as [|k IH]; intros b up l x E I; cbn [pBat_GetMatch] in E; [discriminate|].
  assert (Sub : forall n up l x, pBat_GetMatch f rec nopseudo k (Some (inside b n)) up = Ret l -> In x l -> exists y, x = add (inside b y)).
  { intros n u m y Em Iy. destruct (IH _ _ _ _ Em Iy) as (z & ->). destruct (inside_inside b n z) as (y & ->). eauto. }
  set (Q := match up with None => _ | Some u => _ end) in E. destruct Q as [[item next] joker]. clear up.
  destruct joker; cbn [negb] in E.
  - destruct (pBat_DirExists f b); [|injection E as <-; destruct I]. destruct (each_from _ _ _ _ E I) as (n & a & Ea & Ia). clear E I l. cbn beta in Ea.
    destruct (nopseudo && pseudo n); [injection Ea as <-; destruct Ia|]. destruct (pBat_RegExpCaseMatch true item n) as [m| |]; try discriminate. cbn [bind] in Ea.
    destruct m.
    + destruct (pBat_FileExists f (inside b n)); [destruct next; injection Ea as <-; [destruct Ia|destruct Ia as [<-|[]]; eauto]|].
      destruct next as [next|]; [eapply Sub; eauto|].
      destruct (rec && negb (pseudo n)); [destruct (pBat_GetMatch f rec nopseudo k (Some (inside b n)) (Some item)) as [m| |] eqn:Em; try discriminate|]; cbn [bind] in Ea; injection Ea as <-;
        [apply in_app_or in Ia; destruct Ia as [Ia|[<-|[]]]; eauto|destruct Ia as [<-|[]]; eauto].
    + destruct (rec && _ && _ && _); [eapply Sub; eauto|injection Ea as <-; destruct Ia].
  - destruct (pBat_FileExists f (inside b item)); [destruct next; injection E as <-; [destruct I|destruct I as [<-|[]]; eauto]|].
    destruct (pBat_DirExists f (inside b item)); [|injection E as <-; destruct I]. destruct next as [next|]; [eapply Sub; eauto|].
    destruct rec; [destruct (pBat_GetMatch f true nopseudo k (Some (inside b item)) None) as [m| |] eqn:Em; try discriminate|]; cbn [bind] in E; injection E as <-;
        [apply in_app_or in I; destruct I as [I|[<-|[]]]; eauto|destruct I as [<-|[]]; eauto].
Qed.
Lemma level_from u : forall i k, k < i -> exists o, next_level i u false (Some k) = (o, false) /\ forall j, o = Some j -> k <= j.
Proof.
  induction u as [|c u IH]; intros i k L; cbn [next_level]; [exists None; split; [auto|discriminate]|].
  destruct (is_joker c); [exists (Some k); split; [auto|intros j [= <-]; auto]|]. destruct (ceq c "/"%char).
  - destruct (IH (S i) i ltac:(lia)) as (o & E & H). exists o. split; [auto|]. intros j X. apply H in X. lia.
  - destruct (IH (S i) k ltac:(lia)) as (o & E & H). eauto.
Qed.
Lemma level_past c u : forall i prev, Forall (fun x => is_joker x = false) c -> exists prev', next_level i (c ++ u) false prev = next_level (i + length c) u false prev'.
Proof.
  induction c as [|x c IH]; intros i prev F; cbn [app length]; [exists prev; rewrite Nat.add_0_r; auto|]. inversion F as [|? ? F1 F2]; subst. cbn [next_level]. rewrite F1.
  rewrite Nat.add_succ_r. destruct (ceq x "/"%char); apply (IH (S i)); auto.
Qed.
Lemma plain_chars c : ~ In "*"%char c -> ~ In "?"%char c -> Forall (fun x => is_joker x = false) c.
Proof.
  intros A B. apply Forall_forall. intros x I. unfold is_joker. destruct (ceq x "*"%char) eqn:E; [apply ceq_true in E; subst; contradiction|].
  destruct (ceq x "?"%char) eqn:E'; [apply ceq_true in E'; subst; contradiction|]. auto.
Qed.
Lemma not_ends cur : (forall r, cur <> r ++ s2l "/") -> ends_slash cur = false.
Proof.
  intros H. unfold ends_slash. destruct (rev cur) as [|c r] eqn:E; auto. destruct (ceq c "/"%char) eqn:C; auto. apply ceq_true in C. subst c. exfalso. apply (H (rev r)).
  rewrite <- (rev_involutive cur), E. reflexivity.
Qed.
Lemma inside_below cur s y : ends_slash cur = false -> (s = [] \/ exists s', s = "/"%char :: s') -> exists z, inside (cur ++ s) y = cur ++ "/"%char :: z.
Proof.
  intros H [->|(s' & ->)]; unfold inside.
  - rewrite app_nil_r, H. cbn [app]. eauto.
  - rewrite <- app_assoc. cbn [app]. eauto.
Qed.
Lemma found_below f rec nopseudo cur t l x : plain_dir cur -> pBat_GetMatchFileList f rec nopseudo true (cur ++ "/"%char :: t) = Ret l -> In x l -> exists y, x = add (cur ++ "/"%char :: y).
Proof.
  intros ((c & -> & C) & E & J1 & J2) M I. apply not_ends in E. set (cur := "/"%char :: c) in *.
  assert (Below : forall s y, s = [] \/ (exists s', s = "/"%char :: s') -> exists z, add (inside (cur ++ s) y) = add (cur ++ "/"%char :: z)).
  { intros s y Hs. destruct (inside_below cur s y E Hs) as (z & ->). eauto. }
  unfold pBat_GetMatchFileList in M. cbn [orb andb] in M. destruct (pBat_DirExists f (cur ++ "/"%char :: t)).
  - destruct (pBat_GetMatch f rec nopseudo _ _ _) as [m| |] eqn:Em; try discriminate. cbn [bind] in M. injection M as <-. destruct (match_ext _ _ _ _ _ _ _ _ Em I) as (y & ->). apply Below. right. eauto.
  - cbn [orb] in M. destruct (pBat_FileExists f (cur ++ "/"%char :: t)); [injection M as <-; destruct I as [<-|[]]; exists t; reflexivity|].
    destruct (forallb (fun c0 => negb (is_joker c0)) (cur ++ "/"%char :: t)); [injection M as <-; destruct I|]. unfold cur in M. cbn [app] in M.
    assert (Nc : c <> []) by (intros ->; discriminate). destruct c as [|d c]; [congruence|]. cbn [app] in M.
    assert (D : ceq d "/"%char = false) by (destruct (ceq d "/"%char) eqn:X; auto; apply ceq_true in X; subst; exfalso; eapply C; eauto). rewrite D in M. change (ceq "/" "/" && negb false)%bool with true in M. cbn iota in M. cbn [tl] in M.
    destruct (length ("/"%char :: d :: c ++ "/"%char :: t) + depth f + 3) as [|k] eqn:Ek; [lia|]. cbn [pBat_GetMatch] in M.
    change (d :: c ++ "/"%char :: t) with ((d :: c) ++ "/"%char :: t) in M. unfold pBat_GetNextLevel in M.
    destruct (level_past (d :: c) ("/"%char :: t) 0 None) as (pv & El).
    { apply plain_chars; intros Z; [apply J1|apply J2]; right; exact Z. }
    rewrite El in M. change (next_level (0 + length (d :: c)) ("/"%char :: t) false pv) with (next_level (S (0 + length (d :: c))) t false (Some (0 + length (d :: c)))) in M. clear El pv.
    destruct (level_from t (S (0 + length (d :: c))) (0 + length (d :: c)) ltac:(lia)) as (o & Eo & Ho). rewrite Eo in M. clear Eo. rewrite Nat.add_0_l in Ho.
    destruct o as [j|].
    + specialize (Ho j eq_refl). rewrite firstn_app, firstn_all2 in M by lia. set (s := firstn (j - length (d :: c)) ("/"%char :: t)) in M.
      assert (Hs : s = [] \/ exists s', s = "/"%char :: s') by (unfold s; destruct (j - length (d :: c)); cbn [firstn]; eauto).
      cbn [negb] in M. change (inside (s2l "/") ((d :: c) ++ s)) with (cur ++ s) in M.
      destruct (pBat_FileExists f (cur ++ s)); [injection M as <-; destruct I|]. destruct (pBat_DirExists f (cur ++ s)); [|injection M as <-; destruct I].
      destruct (match_ext _ _ _ _ _ _ _ _ M I) as (y & ->). auto.
    + cbn [negb] in M. change (inside (s2l "/") ((d :: c) ++ "/"%char :: t)) with (cur ++ "/"%char :: t) in M.
      destruct (pBat_FileExists f (cur ++ "/"%char :: t)); [injection M as <-; destruct I as [<-|[]]; exists t; reflexivity|]. destruct (pBat_DirExists f (cur ++ "/"%char :: t)); [|injection M as <-; destruct I].
      destruct rec; [destruct (pBat_GetMatch f true nopseudo k _ None) as [m| |] eqn:Em; try discriminate|]; cbn [bind] in M; injection M as <-;
        [apply in_app_or in I; destruct I as [I|[<-|[]]]; [|exists t; reflexivity]|destruct I as [<-|[]]; exists t; reflexivity].
      destruct (match_ext _ _ _ _ _ _ _ _ Em I) as (y & ->). apply Below. right. eauto.
Qed.
Lemma found_cut f rec nopseudo cur t l x : plain_dir cur -> length (cur ++ s2l "/") < FILENAME_MAX -> pBat_GetMatchFileList f rec nopseudo true (cur ++ "/"%char :: t) = Ret l -> In x l ->
  exists y, x = (cur ++ s2l "/") ++ y.
Proof.
  intros P L M I. destruct (found_below _ _ _ _ _ _ _ P M I) as (y & ->). unfold add. exists (firstn (FILENAME_MAX - 1 - length (cur ++ s2l "/")) y).
  change (cur ++ "/"%char :: y) with (cur ++ s2l "/" ++ y). rewrite app_assoc, firstn_app. rewrite (firstn_all2 (cur ++ s2l "/")) by lia. reflexivity.
Qed.

(** The parameters *)
Section Par.
Variable w : xworld.
Notation cur := (vw_cd (x_var w)).
Definition named (q : lrequest) : cstr := match l_name q with None => [] | Some n => pBat_MakeFullPath cur n FILENAME_MAX end.
Definition left_out (q : lrequest) : nat := match l_name q with None => 0 | Some n => if PBAT_TEST_ABSOLUTE_PATH n then 0 else length cur + 1 end.
Lemma named_some n : pBat_MakeFullPath cur n FILENAME_MAX <> [].
Proof.
  unfold pBat_MakeFullPath, pBat_MakeFullPathEs. destruct (PBAT_TEST_ABSOLUTE_PATH (TRANS n)) eqn:A.
  - destruct (TRANS n); discriminate.
  - change (FILENAME_MAX - 1) with 4095. destruct cur; discriminate.
Qed.
Lemma opt_c t o : nonul t -> nonul (s2l o) -> (stricmp (s2l o) t =? 0)%Z = true <-> same_name t (s2l o).
Proof. intros A B. rewrite stricmp_name by auto. unfold same_name. split; auto. Qed.
Ltac yes_ o p O := let X := fresh "X" in assert (X : (stricmp (s2l o) p =? 0)%Z = true) by (apply opt_c; [assumption|apply nonul_b; reflexivity|exact O]); rewrite X.
Ltac no_ o p O := let X := fresh "X" in let Z := fresh "Z" in assert (X : (stricmp (s2l o) p =? 0)%Z = false) by (apply not_true_iff_false; rewrite opt_c by (solve [assumption|apply nonul_b; reflexivity]); intros Z; unfold same_name in *; rewrite O in Z; discriminate); rewrite X.
Lemma dir_name_tests p : dir_name p -> streqb p (s2l "/?") = false /\ (stricmp (s2l "/b") p =? 0)%Z = false /\ (stricmp (s2l "/s") p =? 0)%Z = false /\ (strnicmp (s2l "/a") p 2 =? 0)%Z = false.
Proof.
  intros (N & H1 & H2 & H3). split; [apply streqb_false; auto|].
  assert (NN : forall o, In (s2l o) [s2l "/b"; s2l "/s"] -> nonul (s2l o) -> (stricmp (s2l o) p =? 0)%Z = false).
  { intros o D No. apply not_true_iff_false. rewrite opt_c by auto. apply H2. auto. }
  split; [apply NN; [left; auto|apply nonul_b; reflexivity]|]. split; [apply NN; [right; left; auto|apply nonul_b; reflexivity]|].
  apply not_true_iff_false. rewrite kw_b by (auto; apply nonul_b; reflexivity). intros (a & r & X & Sa). apply (H3 a r); auto.
Qed.
Lemma dir_par q ps q' : dir_asked q ps q' -> forall tail fuel old line, written w line (ps ++ tail) -> length line < fuel ->
  exists fuel' old' line', written w line' tail /\ length line' < fuel' /\
  dir_params fuel w old line (l_bare q) (l_rec q) (pBat_MakeFileAttributes (l_attr q)) (named q) (left_out q) =
  dir_params fuel' w old' line' (l_bare q') (l_rec q') (pBat_MakeFileAttributes (l_attr q')) (named q') (left_out q').
Proof.
  induction 1 as [q|q p ps q' O A IH|q p ps q' O A IH|q p t ps q' O A IH|q p ps q' O Nn A IH]; intros tail fuel old line W L.
  { exists fuel, old, line. auto. }
  all: destruct fuel as [|fuel]; [lia|]; cbn [app] in W; destruct (Find_Proofs.written_next (fun _ => []) w _ _ _ W) as (rest & E & R & Lr); cbn [dir_params]; rewrite E; cbn [bind].
  - destruct O as (N & O). assert (X0 : streqb p (s2l "/?") = false) by (apply streqb_false; intros ->; discriminate). rewrite X0. yes_ "/b"%string p O. apply (IH tail fuel p rest R). lia.
  - destruct O as (N & O). assert (X0 : streqb p (s2l "/?") = false) by (apply streqb_false; intros ->; discriminate). rewrite X0. no_ "/b"%string p O. yes_ "/s"%string p O. apply (IH tail fuel p rest R). lia.
  - pose proof O as O'. destruct O as (N & a & Sa & Pa).
    assert (X : forall o, match s2l o with x :: y :: _ => [tolower x; tolower y] <> s2l "/a" | _ => True end -> nonul (s2l o) -> (stricmp (s2l o) p =? 0)%Z = false).
    { intros o D No. apply not_true_iff_false. rewrite opt_c by auto. intros Z. eapply (attr_not p t o); eauto. }
    rewrite (X "/b"%string), (X "/s"%string) by (try discriminate; apply nonul_b; reflexivity).
    assert (La : length a = 2) by (apply (f_equal (@length _)) in Sa; rewrite !map_length in Sa; auto).
    assert (X0 : streqb p (s2l "/?") = false).
    { apply streqb_false. intros ->. destruct a as [|a1 [|a2 [|a3 a]]]; try discriminate. cbn [app] in Pa. assert (a2 = "?"%char) by (destruct Pa as [Pa|[Pa _]]; cbn in Pa; injection Pa; auto). subst a2. cbn in Sa. discriminate. }
    rewrite X0.
    assert (X3 : (strnicmp (s2l "/a") p 2 =? 0)%Z = true) by (apply kw_b; auto; [apply nonul_b; reflexivity|]; exists a; destruct Pa as [->|[-> _]]; eauto).
    rewrite X3.
    assert (Y : @eq cstr (match skipn 2 p with c :: r => if ceq c ":"%char then r else c :: r | [] => [] end) t).
    { destruct a as [|a1 [|a2 [|a3 a]]]; try discriminate. destruct Pa as [->|[-> Pt]]; cbn [app skipn]; [reflexivity|].
      destruct t as [|c t]; auto. destruct (ceq c ":"%char) eqn:Z; auto. apply ceq_true in Z. subst c. exfalso. eapply Pt; eauto. }
    rewrite Y. apply (IH tail fuel p rest R). lia.
  - destruct (dir_name_tests p O) as (T1 & T2 & T3 & T4). rewrite T1, T2, T3, T4. unfold named at 1, left_out at 1. rewrite Nn. cbn zeta. apply (IH tail fuel p rest R). lia.
Qed.
Lemma dir_params_ok line ps q : written w line ps -> dir_asked no_lrequest ps q ->
  dir_params (S (length line)) w [] line false false 0 [] 0 = Ret (LGo (l_bare q) (l_rec q) (pBat_MakeFileAttributes (l_attr q)) (named q) (left_out q), w).
Proof.
  intros W A. rewrite <- (app_nil_r ps) in W. destruct (dir_par _ _ _ A [] (S (length line)) [] line W ltac:(lia)) as (fuel & old & line' & W' & L & E).
  cbn [no_lrequest l_bare l_rec l_attr named left_out l_name] in E. change (pBat_MakeFileAttributes []) with 0%N in E. rewrite E. inversion W'; subst. destruct fuel; [lia|]. cbn [dir_params]. rewrite Params_Proofs.next_end; auto.
Qed.
Lemma dir_more line ps q p rest : written w line (ps ++ p :: rest) -> dir_asked no_lrequest ps q -> dir_name p -> l_name q <> None ->
  dir_params (S (length line)) w [] line false false 0 [] 0 = Ret (LFail PBAT_UNEXPECTED_ELEMENT, w).
Proof.
  intros W A N Q. destruct (dir_par _ _ _ A (p :: rest) (S (length line)) [] line W ltac:(lia)) as (fuel & old & line' & W' & L & E).
  cbn [no_lrequest l_bare l_rec l_attr named left_out l_name] in E. change (pBat_MakeFileAttributes []) with 0%N in E. rewrite E. destruct fuel; [lia|].
  destruct (Find_Proofs.written_next (fun _ => []) w _ _ _ W') as (r & E' & _ & _). cbn [dir_params]. rewrite E'. cbn [bind].
  destruct (dir_name_tests p N) as (T1 & T2 & T3 & T4). rewrite T1, T2, T3, T4. unfold named. destruct (l_name q) as [n|]; [|congruence]. pose proof (named_some n) as X. destruct (pBat_MakeFullPath cur n FILENAME_MAX); [congruence|reflexivity].
Qed.
Lemma dir_help line ps q rest : written w line (ps ++ s2l "/?" :: rest) -> dir_asked no_lrequest ps q -> dir_params (S (length line)) w [] line false false 0 [] 0 = Ret (LHelp, w).
Proof.
  intros W A. destruct (dir_par _ _ _ A (s2l "/?" :: rest) (S (length line)) [] line W ltac:(lia)) as (fuel & old & line' & W' & L & E).
  cbn [no_lrequest l_bare l_rec l_attr named left_out l_name] in E. change (pBat_MakeFileAttributes []) with 0%N in E. rewrite E. destruct fuel; [lia|].
  destruct (Find_Proofs.written_next (fun _ => []) w _ _ _ W') as (r & E' & _ & _). cbn [dir_params]. rewrite E'. reflexivity.
Qed.
End Par.
Lemma absolute_b p : PBAT_TEST_ABSOLUTE_PATH p = true <-> absolute p.
Proof.
  unfold PBAT_TEST_ABSOLUTE_PATH, absolute. destruct p as [|c p]; cbn [test_sep skipn]; [split; [discriminate|intros (r & X & _); discriminate]|].
  rewrite andb_true_iff, negb_true_iff, is_sep_iff. split.
  - intros [-> H]. exists p. split; auto. intros r ->. discriminate.
  - intros (r & X & H). injection X as -> ->. split; auto. destruct r as [|d r]; auto. cbn. apply is_sep_false. intros ->. eapply H; eauto.
Qed.
(** What is looked for, and how much is left out *)
Lemma search_for w q p top : meant_by (vw_cd (x_var w)) (l_name q) p top -> (forall n, l_name q = Some n -> TRANS n = n) -> length p < FILENAME_MAX ->
  match named w q with [] => (firstn (FILENAME_MAX - 1) (vw_cd (x_var w) ++ s2l "/*"), length (vw_cd (x_var w)) + 1) | _ => (named w q, left_out w q) end = (p, length top).
Proof.
  intros M T L. pose proof (named_some w) as Ns. unfold named, left_out in *.
  destruct M as [|n An|n An].
  - rewrite firstn_all2 by lia. rewrite app_length. reflexivity.
  - specialize (Ns n). unfold pBat_MakeFullPath, pBat_MakeFullPathEs in *. rewrite T in * by auto. apply absolute_b in An. rewrite An in *. rewrite firstn_all2 in * by lia. destruct n; [congruence|reflexivity].
  - specialize (Ns n). unfold pBat_MakeFullPath, pBat_MakeFullPathEs in *. rewrite T in * by auto.
    assert (An' : PBAT_TEST_ABSOLUTE_PATH n = false) by (apply not_true_iff_false; rewrite absolute_b; auto). rewrite An' in *. rewrite firstn_all2 in * by lia.
    rewrite app_length. destruct (vw_cd (x_var w) ++ "/"%char :: n); [congruence|reflexivity].
Qed.
Lemma meant_below f rec nopseudo cur name p top l : meant_by cur name p top -> (top <> [] -> plain_dir cur) -> length p < FILENAME_MAX -> pBat_GetMatchFileList f rec nopseudo true p = Ret l ->
  forall x, In x l -> exists y, x = top ++ y.
Proof.
  intros M P L E x I. destruct M as [|n An|n An]; [|exists x; auto|].
  - eapply found_cut; eauto; [apply P; destruct cur; discriminate|]. rewrite app_length in *. cbn in *. lia.
  - eapply found_cut; eauto; [apply P; destruct cur; discriminate|]. rewrite app_length in *. cbn in *. lia.
Qed.
Lemma strip top (l : list cstr) : (forall x, In x l -> exists y, x = top ++ y) -> exists ys, l = map (app top) ys.
Proof.
  induction l as [|x l IH]; intros H; [exists []; auto|]. destruct (H x) as (y & ->); [left; auto|]. destruct IH as (ys & ->); [intros z I; apply H; right; auto|]. exists (y :: ys). auto.
Qed.
Lemma past_top top y : past (length top) (top ++ y) = Ret y.
Proof. unfold past. rewrite app_length. destruct (Nat.leb_spec (length top) (length top + length y)); [|lia]. rewrite skipn_app, skipn_all, Nat.sub_diag. reflexivity. Qed.
Lemma prints_bare correct rec top ys : prints (bare_line correct rec (length top)) (map (app top) ys) = Ret (concat (map (fun y => y ++ [nl]) (if correct && rec then map (app top) ys else ys))).
Proof.
  induction ys as [|y ys IH]; cbn [map prints]; [destruct (correct && rec); reflexivity|]. rewrite IH. unfold bare_line. destruct (correct && rec); [reflexivity|]. rewrite past_top. reflexivity.
Qed.
Lemma prints_long perm dsize time f top ys : (forall y, In y ys -> (f_size (info perm dsize f (top ++ y)) < 4294967296)%N) ->
  exists ls, prints (long_line perm dsize time f (length top)) (map (app top) ys) = Ret (concat ls) /\
    Forall2 (fun y line => shown (time (place_of (top ++ y))) (info perm dsize f (top ++ y)) y line) ys ls.
Proof.
  induction ys as [|y ys IH]; intros H; cbn [map prints]; [exists []; auto|]. destruct IH as (ls & E & F); [intros z I; apply H; right; auto|]. rewrite E.
  unfold long_line. set (i := info perm dsize f (top ++ y)) in *. destruct (f_dir i) eqn:D.
  - cbn [bind]. rewrite past_top. cbn [bind]. eexists (_ :: ls). split; [reflexivity|]. constructor; auto. apply (sh_dir (time (place_of (top ++ y))) i y D).
  - destruct (size_ok (f_size i)) as (z & Ez & Sz); [apply H; left; auto|]. rewrite Ez. cbn [bind]. rewrite past_top. cbn [bind]. eexists (_ :: ls). split; [reflexivity|]. constructor; auto.
    pose proof (sh_file (time (place_of (top ++ y))) i y z D Sz) as X. unfold tab, TAB in *. cbn [s2l list_ascii_of_string app] in *. exact X.
Qed.
