(** For_Proofs.v -- lemmas on FOR. *)

From Verif Require Import Base Lex StrLib_Model StrLib_Spec StrLib_Proofs Num_Model Env_Model Var_Model Expand_Model Expand_Spec Expand_Proofs LocalVar_Model Args_Model Block_Model CmdList_Model
  Parse_Model Args_Spec Args_Proofs Args_Props Block_Spec Block_Proofs Block_Props Stream_Model Stream_Spec Stream_Proofs If_Model If_Spec If_Proofs
  Path_Model ForTok_Model ForTok_Spec ForTok_Proofs Body_Model For_Model Run_Model Run_Spec
  Run_Proofs RunBlock_Spec RunBlock_Proofs RunIf_Proofs For_Spec.
Open Scope nat_scope.

(** ** Words *)
Definition wild : cstr := s2l "^%!""" ++ blanks.
Definition tame (s : cstr) : Prop := Forall (fun c => ~ In c wild) s.

Lemma live_in p s i : live p s i -> exists c, In c s /\ p c = true.
Proof. intros [_ (c & C & P)]. apply nth_error_In in C. eauto. Qed.
Lemma tame_escaping s : tame s -> escaping s s.
Proof. induction 1 as [|c s H _ IH]; constructor; auto. intros ->. apply H. simpl. auto. Qed.
Lemma tame_word w old a s rest : Forall blank a -> ends rest -> s <> [] -> tame s ->
  pBat_GetNextParameterEs w old (a ++ s ++ rest) = Ret (s, Some rest, w).
Proof.
  intros A R N T. unfold tame in T. rewrite Forall_forall in T.
  apply C22_word; auto; [apply tame_escaping; apply Forall_forall; auto| | |].
  - intros i L. apply live_in in L. destruct L as (c & I & C). apply (T c I). apply inset_in in C. unfold wild. cbn [app s2l] in *. destruct C as [<-|C]; simpl; auto 10.
  - intros i L. apply live_in in L. destruct L as (c & I & C). apply (T c I). apply ceq_true in C. subst. simpl. auto.
  - intros _ i L. apply live_in in L. destruct L as (c & I & C). apply (T c I). apply ceq_true in C. subst. simpl. auto.
Qed.
Lemma name_tame o k : same_name o k -> forallb (fun b => negb (existsb (fun d => ceq (tolower b) (tolower d)) k)) wild = true -> tame o.
Proof.
  unfold same_name. intros H B. rewrite forallb_forall in B. apply Forall_forall. intros c I X. apply B in X. apply Bool.negb_true_iff in X.
  apply (in_map tolower) in I. rewrite H in I. apply in_map_iff in I. destruct I as (d & D & I).
  assert (Y : existsb (fun d => ceq (tolower c) (tolower d)) k = true) by (apply existsb_exists; exists d; split; auto; rewrite D; apply ceq_refl). congruence.
Qed.
Lemma name_len o k : same_name o k -> length o = length k.
Proof. intros H. apply (f_equal (@length _)) in H. rewrite !map_length in H. exact H. Qed.
Lemma name_ne o k : same_name o k -> k <> [] -> o <> [].
Proof. intros H N ->. apply N. apply name_len in H. destruct k; [auto|discriminate]. Qed.
Lemma is_word_same o o' k : same_name o o' -> is_word o k = is_word o' k.
Proof. intros H. unfold is_word. rewrite (stricmp_same o o' _ H). reflexivity. Qed.

Lemma ends_gaps b r : gaps b -> ends (b ++ r).
Proof. intros [B N] c x E. destruct b as [|d b]; [congruence|]. injection E as <- _. inversion B; auto. Qed.
Lemma ends_nil : ends [].
Proof. intros c r E. discriminate. Qed.

(** The variable. *)
Lemma var_code c : var_char c -> (33 <= code c <= 127)%Z.
Proof. intros [H _]. exact H. Qed.
Lemma var_name_ok c : var_char c -> name_ok c = true.
Proof. intros [H _]. unfold name_ok. apply Bool.andb_true_iff. split; apply Bool.negb_true_iff, Z.leb_gt; lia. Qed.
Lemma var_not c d : var_char c -> In d (s2l "%^!~"",;") -> c <> d.
Proof. intros [_ H] I ->. auto. Qed.
Lemma search_none s d : ~ In d s -> pBat_SearchChar s d = None.
Proof.
  intros N. pose proof (search_pred_spec (fun c => ceq c d) s) as H. unfold pBat_SearchChar. destruct (search_pred _ s) as [k|] eqn:E; [|reflexivity].
  exfalso. destruct H as [L _]. apply live_in in L. destruct L as (c & I & C). apply ceq_true in C. subst. auto.
Qed.
Lemma var_expand w c : var_char c -> x_locals w c = None -> pBat_DelayedExpand w ["%"%char; c] = Ret (["%"%char; c], w).
Proof.
  intros V L. unfold pBat_DelayedExpand.
  assert (X : pBat_ExpandSpecialVar w ["%"%char; c] = Ret ["%"%char; c]).
  { unfold pBat_ExpandSpecialVar. cbn [length special_loop]. change (pBat_SearchChar ["%"%char; c] "%"%char) with (Some 0). cbn [skipn].
    unfold get_local, pBat_GetLocalVar. assert (Q : ceq c "~"%char = false) by (apply ceq_false; apply var_not; [auto|cbv; tauto]). rewrite Q. cbn [negb].
    rewrite var_name_ok by auto. unfold at_block. pose proof (var_code c V). destruct (Z.ltb_spec (code c) 128); [|lia]. cbn [bind]. rewrite L. cbn [bind firstn app special_loop].
    rewrite search_none; [reflexivity|]. intros [E|[]]. revert E. apply var_not; [auto|cbv; tauto]. }
  rewrite X. cbn [bind].
  assert (U : pBat_UnEscape ["%"%char; c] = ["%"%char; c]).
  { apply UnEscape_escaping. constructor; [discriminate|]. constructor; [|constructor]. apply (var_not c "^"%char); [auto|cbv; tauto]. }
  destruct (x_delayed w) eqn:D; [|rewrite U; reflexivity].
  unfold pBat_ExpandVar. cbn [length expand_loop]. rewrite search_none.
  - unfold delayed_unescape. rewrite D. cbn [andb ceq]. rewrite ceq_refl, U. reflexivity.
  - intros [E|[E|[]]]; [discriminate|]. revert E. apply var_not; [auto|cbv; tauto].
Qed.
Lemma var_param w old a c rest : var_char c -> x_locals w c = None -> Forall blank a -> ends rest ->
  pBat_GetNextParameterEs w old (a ++ "%"%char :: c :: rest) = Ret (["%"%char; c], Some rest, w).
Proof.
  intros V L A R.
  assert (X : escaping ["%"%char; c] ["%"%char; c]).
  { constructor; [discriminate|]. constructor; [|constructor]. apply (var_not c "^"%char); [auto|cbv; tauto]. }
  assert (Y : forall i, ~ live (inset (dquote :: blanks)) ["%"%char; c] i).
  { intros i H. apply live_in in H. destruct H as (d & [<-|[<-|[]]] & C); [discriminate|]. apply inset_in in C. destruct V as [V1 V2].
    destruct C as [<-|[<-|[<-|[<-|[<-|[<-|[]]]]]]]; try (apply V2; cbv; tauto); revert V1; vm_compute; intuition congruence. }
  destruct (word_whole ["%"%char; c] _ ltac:(discriminate) X Y) as [W B].
  change (a ++ "%"%char :: c :: rest) with (a ++ ["%"%char; c] ++ rest). rewrite (next_whole w old a _ rest ["%"%char; c] A W R (B _)) by discriminate. rewrite var_expand by auto. reflexivity.
Qed.

(** ** The head of FOR *)
Lemma opts_first u l : opts_text u l -> exists c r, u = c :: r /\ In (tolower c) (s2l "tdesu").
Proof.
  intros H. apply opts_start in H. destruct H as (k & r & -> & H).
  assert (X : exists name d t, key_of k name /\ s2l name = d :: t /\ In d (s2l "tdesu")).
  { destruct H as [H|[H|[H|[H|[H _]]]]]; eexists _, _, _; (split; [exact H|split; [reflexivity|cbv; tauto]]). }
  destruct X as (name & d & t & K & E & I). destruct (key_first k name d t K E) as (c & k' & -> & T). exists c, (k' ++ r). split; auto. rewrite T. exact I.
Qed.
Lemma not_option u c r : u = c :: r -> In (tolower c) (s2l "tdesu") ->
  is_word u "/F" = false /\ is_word u "/L" = false /\ is_word u "/R" = false /\ is_word u "/D" = false /\ streqb u (s2l "/?") = false /\ c <> "%"%char.
Proof.
  intros -> I. assert (N : c <> "/"%char) by (intros ->; cbv in I; intuition discriminate).
  assert (M : c <> "%"%char) by (intros ->; cbv in I; intuition discriminate).
  assert (X : forall k t, s2l k = "/"%char :: t -> is_word (c :: r) k = false).
  { intros k t E. unfold is_word. rewrite E, stricmp_lower. cbn [map strcmp]. 
    assert (D : (tolower c =? "/")%char = false).
    { apply Ascii.eqb_neq. intros Y. rewrite Y in I. cbv in I. intuition discriminate. }
    change (tolower "/"%char) with "/"%char. revert D I. generalize (tolower c). intros a D I. 
    cbv in I. decompose [or] I; subst; try contradiction; reflexivity. }
  repeat (split; [eapply X; reflexivity|]). split; [|exact M].
  apply streqb_false. intros E. injection E as E _. congruence.
Qed.
Lemma not_var c x : is_word ("%"%char :: c :: x) "/F" = false /\ is_word ("%"%char :: c :: x) "/L" = false /\ is_word ("%"%char :: c :: x) "/R" = false /\
  is_word ("%"%char :: c :: x) "/D" = false /\ streqb ("%"%char :: c :: x) (s2l "/?") = false.
Proof. repeat split. Qed.

Lemma for_kind_var f w old b1 c R k : var_char c -> x_locals w c = None -> Forall blank b1 -> ends R ->
  for_kind (S f) w old (b1 ++ "%"%char :: c :: R) k = Ret (Some (k, ["%"%char; c], Some R), w).
Proof.
  intros V L B E. cbn [for_kind]. rewrite var_param by auto. cbn [bind]. destruct (not_var c []) as (-> & -> & -> & -> & ->). reflexivity.
Qed.
Lemma for_var_var f w k c R dir info : var_char c -> for_var (S f) w k ["%"%char; c] (Some R) dir info = Ret (inr (c, ["%"%char; c], R, dir, info), w).
Proof.
  intros V. cbn [for_var]. assert (c <> "%"%char) by (apply var_not; [auto|cbv; tauto]).
  assert (X : match [c] with "%"%char :: v' => v' | _ => [c] end = [c]) by (destruct c as [[] [] [] [] [] [] [] []]; auto; exfalso; auto).
  rewrite X. cbn. rewrite var_name_ok by auto. reflexivity.
Qed.

Lemma for_var_option f w q r rest info : q <> "%"%char -> for_var (S f) w KF (q :: r) (Some rest) [] info =
  do i <- pBat_ForMakeInfo (q :: r) info;
  match i with
  | inl e => Ret (inl e, w)
  | inr info => do (t', rest, w) <- pBat_GetNextParameterEs w (q :: r) rest; for_var f w KF t' rest [] info
  end.
Proof.
  intros N. cbn [for_var]. destruct q as [[] [] [] [] [] [] [] []]; try (exfalso; apply N; reflexivity); destruct (pBat_ForMakeInfo _ _) as [[?|?]| |]; reflexivity.
Qed.
Lemma head_start w k o b1 c R f : kind_text w k o -> gaps b1 -> var_char c -> x_locals w c = None -> ends R ->
  exists kk t rest info, for_kind (S (S f)) w [] (o ++ b1 ++ "%"%char :: c :: R) KSimple = Ret (Some (kk, t, Some rest), w) /\
    for_var (S (S f)) w kk t (Some rest) [] forInfo = Ret (inr (c, ["%"%char; c], R, [], info), w) /\
    match k with Words => kk = KSimple | Steps => kk = KL | Lines l => kk = KF /\ holds (fold_left ask l default) (fi_first forInfo) info end.
Proof.
  intros K G V L R0.
  assert (HD : holds default (fi_first forInfo) forInfo) by (unfold holds, asked_ranges; cbn; repeat (split; [reflexivity|]); split; [|lia]; repeat constructor; cbn; lia).
  destruct K as [|b o B O|b o B O|b o b' raw t u l B O B' W Ba Nc D T On].
  - exists KSimple, ["%"%char; c], R, forInfo. split; [apply for_kind_var; auto; apply G|]. split; [apply for_var_var; auto|reflexivity].
  - exists KL, ["%"%char; c], R, forInfo. split; [|split; [apply for_var_var; auto|reflexivity]].
    rewrite <- app_assoc. remember (S f) as g. cbn [for_kind]. subst g. rewrite tame_word; auto; [|apply B|apply ends_gaps; auto|eapply name_ne; [eauto|discriminate]|eapply name_tame; [eauto|reflexivity]].
    cbn [bind]. rewrite !(is_word_same o _ _ O). change (is_word (s2l "/L") "/F") with false. change (is_word (s2l "/L") "/L") with true. cbv iota.
    apply for_kind_var; auto. apply G.
  - exists KF, ["%"%char; c], R, forInfo. split; [|split; [apply for_var_var; auto|split; [reflexivity|exact HD]]].
    rewrite <- app_assoc. remember (S f) as g. cbn [for_kind]. subst g. rewrite tame_word; auto; [|apply B|apply ends_gaps; auto|eapply name_ne; [eauto|discriminate]|eapply name_tame; [eauto|reflexivity]].
    cbn [bind]. rewrite !(is_word_same o _ _ O). change (is_word (s2l "/F") "/F") with true. cbv iota.
    apply for_kind_var; auto. apply G.
  - destruct (make_info_ok u l T (S (length u)) default (fi_first forInfo) forInfo HD On) as (info & E & H); [intros X; exfalso; apply X; reflexivity|lia|].
    exists KF, u, (b1 ++ "%"%char :: c :: R), info. destruct (opts_first u l T) as (q & r & Eu & I). destruct (not_option u q r Eu I) as (N1 & N2 & N3 & N4 & N5 & N6).
    split; [|split; [|split; [reflexivity|exact H]]].
    + rewrite <- !app_assoc. cbn [for_kind]. rewrite tame_word; auto; [|apply B|apply ends_gaps; auto|eapply name_ne; [eauto|discriminate]|eapply name_tame; [eauto|reflexivity]].
      cbn [bind]. rewrite !(is_word_same o _ _ O). change (is_word (s2l "/F") "/F") with true. cbv iota.
      rewrite (next_whole w o b' raw _ t); auto; [|apply B'|apply ends_gaps; auto].
      rewrite D. cbn [bind]. rewrite N1, N2, N3, N4, N5. reflexivity.
    + rewrite Eu in *. rewrite for_var_option by auto. unfold pBat_ForMakeInfo. rewrite E. cbn [bind]. rewrite var_param by (auto; apply G). cbn [bind]. apply for_var_var; auto.
Qed.

Lemma pad_blank b : pad b -> Forall blank b.
Proof. intros H. eapply Forall_impl; [|exact H]. intros c [->| ->]; cbv; tauto. Qed.
Lemma skip_pad b c r : pad b -> c <> " "%char -> c <> "009"%char -> skip_st (b ++ c :: r) = c :: r.
Proof.
  intros P N1 N2. induction P as [|x b H P IH].
  - cbn [app skip_st]. rewrite (proj2 (ceq_false c " "%char) N1), (proj2 (ceq_false c "009"%char) N2). reflexivity.
  - cbn [app skip_st]. destruct H as [->| ->]; exact IH.
Qed.

(** The command as [for_head] gets it. *)
Lemma for_start w k c input i t : for_text w k c input i t -> exists p,
  pBat_SkipAllBlanks t = p /\ look_ahead t = true /\
  exists f o b1 b2 n b3 b4 d rest, p = f ++ o ++ b1 ++ "%"%char :: c :: b2 ++ n ++ b3 ++ parens input ++ b4 ++ d ++ rest /\
    length f = 3 /\ kind_text w k o /\ gaps b1 /\ gaps b2 /\ same_name n (s2l "in") /\ pad b3 /\ b3 <> [] /\ Forall blank b4 /\ same_name d (s2l "do") /\
    var_char c /\ x_locals w c = None /\ inner input /\ ends rest /\ rest <> [] /\ (if_block i rest \/ if_command i rest).
Proof.
  intros (b0 & f & o & b1 & b2 & n & b3 & b4 & d & rest & E & B0 & F & K & G1 & G2 & N & P3 & N3 & B4 & D & V & L & I & (x & y & R & X) & J).
  set (p := f ++ o ++ b1 ++ "%"%char :: c :: b2 ++ n ++ b3 ++ parens input ++ b4 ++ d ++ rest) in *.
  pose proof (name_len f _ F) as LF. cbn in LF.
  assert (S : pBat_SkipAllBlanks t = p).
  { rewrite E, allskip by auto. unfold p. destruct f as [|q f]; [discriminate|]. cbn [app]. apply allskip_stop. injection F as F _.
    intros H. cbn in H. repeat (destruct H as [<-|H]; [discriminate F|]). destruct H. }
  exists p. split; [auto|]. split.
  - unfold look_ahead. rewrite S. apply Bool.orb_true_iff. right.
    assert (Y : exists q r, o ++ b1 ++ "%"%char :: c :: b2 ++ n ++ b3 ++ parens input ++ b4 ++ d ++ rest = q :: r /\ blank q).
    { assert (Z0 : forall b r, gaps b -> exists q x, b ++ r = q :: x /\ blank q) by (intros b r [Z1 Z2]; destruct b as [|q b]; [congruence|]; inversion Z1; subst; eexists _, _; split; [reflexivity|auto]).
      destruct K; [cbn [app]; apply Z0; auto| | |]; rewrite <- ?app_assoc; apply Z0; auto. }
    destruct Y as (q & r & Y & Q). unfold p. rewrite Y. destruct (kw_delim' (s2l "for") f q r (Path_Proofs.nonul_s2l "for" eq_refl) Q F) as [K1 K2].
    change (length (s2l "for")) with 3 in K1, K2. rewrite K1, K2. reflexivity.
  - exists f, o, b1, b2, n, b3, b4, d, rest. repeat (split; [solve [auto]|]). split; [|split; auto; subst; discriminate]. subst rest. intros q z [= <- _]. auto.
Qed.

Definition kind_info (k : kind) (kk : fkind) (info : forinfo) : Prop :=
  match k with Words => kk = KSimple | Steps => kk = KL | Lines l => kk = KF /\ holds (fold_left ask l default) (fi_first forInfo) info end.
Lemma head_ok io log w k c input i t u w1 : for_text w k c input i t -> pBat_DelayedExpand w input = Ret (u, w1) ->
  exists kk info, kind_info k kk info /\
    for_head io log w (pBat_SkipAllBlanks t) =
    do (r, w) <- init_loop io log w1 kk c [] u info;
    match r with
    | inl code => Ret (FFail i code, w)
    | inr (s, cmd) => Ret (FRun i s cmd, w)
    end.
Proof.
  intros T X. destruct (for_start w k c input i t T) as (p & -> & _ & f & o & b1 & b2 & n & b3 & b4 & d & rest & E & F & K & G1 & G2 & N & P3 & N3 & B4 & D & V & L & I & R & R0 & J).
  assert (Ein : ends (b3 ++ parens input ++ b4 ++ d ++ rest)) by (apply ends_gaps; split; [apply pad_blank|]; auto).
  set (R1 := b2 ++ n ++ b3 ++ parens input ++ b4 ++ d ++ rest) in *.
  assert (E1 : ends R1) by (apply ends_gaps; auto).
  assert (LL : exists q, S (length p) = S (S q)).
  { exists (length p - 1). rewrite E, app_length, F. lia. }
  destruct LL as (q & LL).
  destruct (head_start w k o b1 c R1 q K G1 V L E1) as (kk & t0 & rest0 & info & H1 & H2 & H3).
  exists kk, info. split; [exact H3|]. unfold for_head. rewrite LL, E.
  replace (skipn 3 (f ++ o ++ b1 ++ "%"%char :: c :: R1)) with (o ++ b1 ++ "%"%char :: c :: R1) by (rewrite <- F, skipn_app, skipn_all, Nat.sub_diag; reflexivity).
  rewrite H1. cbn [bind]. rewrite H2. cbn [bind]. unfold R1.
  rewrite tame_word; [|apply G2|exact Ein|eapply name_ne; [eauto|discriminate]|eapply name_tame; [eauto|reflexivity]]. cbn [bind].
  rewrite (is_word_same n (s2l "in") _ N). change (is_word (s2l "in") "IN") with true. cbn [negb].
  unfold parens. cbn [app]. rewrite skip_pad by (auto; discriminate). cbn [opens]. rewrite ceq_refl. cbn [negb].
  unfold pBat_GetNextBlockEs. rewrite <- ?app_assoc. cbn [app].
  pose proof (next_block [] input (b4 ++ d ++ rest) ltac:(constructor) I) as NB. cbn [app] in NB. rewrite NB. cbn [bind]. rewrite X. cbn [bind].
  rewrite tame_word; auto; [|eapply name_ne; [eauto|discriminate]|eapply name_tame; [eauto|reflexivity]]. cbn [bind].
  rewrite (is_word_same d (s2l "do") _ D). change (is_word (s2l "do") "DO") with true. cbn [negb].
  assert (BO : exists e, body_of (pBat_SkipBlanks rest) = Ret (i, e) /\ after_par e = []).
  { destruct J as [(Ii & a & b & A & B & ->)|(_ & L2 & L3 & a & A & ->)].
    - rewrite body_block by auto. eexists. split; [reflexivity|]. apply after_blank; auto.
    - exists []. split; [|reflexivity]. apply body_command; auto. }
  destruct BO as (e & -> & Ae). cbn [bind]. rewrite Ae. reflexivity.
Qed.

(** ** Numbers of FOR /L *)
Lemma numeral_tame b n : numeral b n -> tame b.
Proof.
  assert (H : forall base s v, digits base s v -> tame s).
  { intros base s v (ns & F & _). clear v. induction F as [|c n0 s ns D F IH]; constructor; auto.
    intros I. apply dig_iff in D. destruct D as [D1 D2]. subst n0. revert D2. cbv [wild blanks s2l app] in I. 
    repeat (destruct I as [<-|I]; [vm_compute; discriminate|]). destruct I. }
  intros [c s v _ D|s v D|x s v X _ D].
  - apply H in D. auto.
  - constructor; [cbv; intuition discriminate|]. exact (H _ _ _ D).
  - constructor; [cbv; intuition discriminate|]. constructor; [|exact (H _ _ _ D)]. cbv in X. destruct X as [<-|[<-|[]]]; cbv; intuition discriminate.
Qed.
Lemma int_word_ok t z : int_word t z -> (-2147483648 <= z <= 2147483647)%Z -> t <> [] /\ tame t /\ strtol0 t = (z, []).
Proof.
  assert (CL : forall z, (-2147483648 <= z <= 2147483647)%Z -> clip_long z = z).
  { intros y Y. unfold clip_long. destruct (Z.ltb_spec y (-9223372036854775808)); [lia|]. destruct (Z.ltb_spec 9223372036854775807 y); [lia|]. reflexivity. }
  assert (X : forall b n, numeral b n -> tame b /\ unsigned0 b = Some (n, []) /\ exists c r, b = c :: r /\ is_space c = false /\ ceq c "-"%char = false /\ ceq c "+"%char = false).
  { intros b n N. split; [eapply numeral_tame; eauto|]. destruct (numeral_first b n [] N) as (c & r & Eb & _ & D). rewrite app_nil_r in Eb. destruct (digit_facts c D) as (D1 & D2 & D3).
    pose proof (unsigned_ok b n [] N ltac:(constructor)) as U. rewrite app_nil_r in U. split; auto. exists c, r. auto. }
  intros [b n N|b n N|b n N] R; destruct (X b n N) as (T & U & c & r & E & D1 & D2 & D3).
  - split; [subst; discriminate|]. split; auto. unfold strtol0. rewrite E. cbn [skip_space]. rewrite D1, D2, D3, <- E, U, CL by auto. reflexivity.
  - split; [discriminate|]. split; [constructor; auto; cbv; intuition discriminate|]. unfold strtol0. cbn [skip_space]. change (is_space "+"%char) with false. cbv iota.
    change (ceq "+" "-")%char with false. change (ceq "+" "+")%char with true. cbv iota. rewrite U, CL by auto. reflexivity.
  - split; [discriminate|]. split; [constructor; auto; cbv; intuition discriminate|]. unfold strtol0. cbn [skip_space]. change (is_space "-"%char) with false. cbv iota.
    change (ceq "-" "-")%char with true. cbv iota. rewrite U, CL by auto. reflexivity.
Qed.
Lemma next_blank w old b : Forall blank b -> pBat_GetNextParameterEs w old b = Ret (old, None, w).
Proof.
  intros B. destruct (C21_next w old b) as [[_ H]|(a & raw & rest & t & E & A & N & P & _)]; auto.
  exfalso. destruct raw as [|c raw]; [congruence|]. rewrite E in B. apply Forall_app in B. destruct B as [_ B]. inversion B as [|? ? C _]; subst.
  assert (L0 : live_unquoted (sep PBAT_DELIMITERS) ((c :: raw) ++ rest) 0).
  { split; [apply live_iff; split; [reflexivity|]; exists c; split; [reflexivity|]|].
    - rewrite sep_std. apply Args_Proofs.inset_in. exact C.
    - exists 0. reflexivity. }
  destruct rest as [|d rest]; unfold param_at in P.
  - rewrite app_nil_r in L0. apply (P 0). exact L0.
  - destruct P as [_ P]. apply (P 0); [simpl; lia|exact L0].
Qed.
Lemma ints_ends u l : ints_text false u l -> ends u.
Proof.
  intros H. inversion H as [? b B|? b t z r zs B N _ _ _]; subst.
  - intros c r ->. inversion B; auto.
  - apply ends_gaps. split; auto.
Qed.
Lemma l_params_ok w : forall u first l, ints_text first u l -> forall fuel old got, length u < fuel -> length got <= 3 ->
  l_params fuel w old u got = Ret (if 3 <? length got + length l then inl PBAT_FOR_BAD_INPUT_SPECIFIER else inr (got ++ l), w).
Proof.
  induction 1 as [first b B|first b t z r zs B N T Z0 Hr IH]; intros [|fuel] old got F G; try lia; cbn [l_params].
  - rewrite next_blank by auto. cbn [bind length]. rewrite Nat.add_0_r, app_nil_r. destruct (Nat.ltb_spec 3 (length got)); [lia|]. reflexivity.
  - destruct (int_word_ok t z T Z0) as (N1 & Tm & St). rewrite tame_word; auto; [|eapply ints_ends; eauto]. cbn [bind].
    destruct (Nat.leb_spec 3 (length got)) as [L|L].
    + cbn [length]. destruct (Nat.ltb_spec 3 (length got + S (length zs))); [reflexivity|lia].
    + rewrite St. rewrite Num_Proofs.to_int_id by (unfold INT_MIN, INT_MAX; lia). rewrite IH.
      * rewrite app_length. cbn [length]. rewrite <- app_assoc. cbn [app]. replace (length got + 1 + length zs) with (length got + S (length zs)) by lia. reflexivity.
      * rewrite !app_length in F. destruct t; [congruence|]. simpl in F. lia.
      * rewrite app_length. simpl. lia.
Qed.

(** ** Words of FOR *)
Definition for_blanks : cstr := ":"%char :: blanks.
Lemma sep_for c : sep FOR_DELIMS c = inset for_blanks c.
Proof.
  pose proof (ascii_forall (fun c => Bool.eqb (sep FOR_DELIMS c) (inset for_blanks c)) eq_refl c) as H.
  apply Bool.eqb_prop in H. auto.
Qed.
Lemma quote_for : In dquote FOR_DELIMS.
Proof. cbv. tauto. Qed.
Definition for_ends (r : cstr) : Prop := forall c x, r = c :: x -> In c for_blanks.
Lemma for_word_first raw r : for_word raw -> forall c x, raw ++ r = c :: x -> ~ In c for_blanks.
Proof.
  intros (N & _ & _ & Nl) c x A B. apply (Nl 0). destruct raw as [|y raw]; [congruence|]. simpl in A. injection A as -> _.
  split; [|exists 0; rewrite quotes_0; reflexivity]. apply live_iff. split; [reflexivity|]. exists c. split; auto.
  apply Args_Proofs.inset_in. auto.
Qed.
Lemma for_word_at raw rest : for_word raw -> for_ends rest ->
  first_pos (live_unquoted (sep FOR_DELIMS) (raw ++ rest)) (match rest with [] => None | _ => Some (length raw) end).
Proof.
  intros (N & St & Ev & Nl) R. destruct rest as [|c r].
  - rewrite app_nil_r. intros j L. apply (Nl j). eapply live_unquoted_ext; [|apply L]. intros x. symmetry. apply sep_for.
  - split.
    + split.
      * apply live_iff. rewrite E_skip_app. split; [destruct St as (u & St); eapply escaping_est; eauto|].
        exists c. rewrite nth_error_app2, Nat.sub_diag by auto. split; auto. rewrite sep_for. apply Args_Proofs.inset_in. eapply R; eauto.
      * rewrite quotes_app. auto.
    + intros j J L. apply (Nl j). destruct L as [L1 L2]. split.
      * eapply live_app1; [apply J|]. eapply live_ext; [|apply L1]. intros x. symmetry. apply sep_for.
      * assert (X : quotes_before (raw ++ c :: r) j = quotes_before raw j).
        { clear - J. unfold quotes_before. generalize false as e. revert j J. induction raw as [|x raw IH]; intros j J e; simpl in *; [lia|].
          destruct j; auto. cbn [count_quotes]. f_equal. apply IH. lia. }
        rewrite <- X. auto.
Qed.
Lemma for_pointers b raw rest : Forall blank b -> for_word raw -> for_ends rest ->
  pBat_GetParameterPointers FOR_DELIMS (b ++ raw ++ rest) = Ret (Some (raw ++ rest, match rest with [] => None | _ => Some (length raw) end)).
Proof.
  intros B W R. pose proof (for_word_first raw rest W) as F.
  assert (Ne : raw <> []) by apply W.
  destruct (pointers_ok FOR_DELIMS (b ++ raw ++ rest) quote_for) as [[X _]|(a & c & r & e & E & A & C & P & Q)].
  - exfalso. apply Forall_app in X. destruct X as [_ X]. destruct raw as [|c raw]; [congruence|]. inversion X; subst.
    apply (F c (raw ++ rest) eq_refl). right. auto.
  - destruct (blank_split _ _ _ _ E B A) as [_ E2].
    + intros d x D Y. apply (F d x D). right. auto.
    + intros d x [= <- _]. auto.
    + rewrite P, <- E2. f_equal. f_equal. f_equal. rewrite <- E2 in Q. eapply first_pos_unique; [exact Q|]. apply for_word_at; auto.
Qed.
Lemma for_pointers_none b : Forall blank b -> pBat_GetParameterPointers FOR_DELIMS b = Ret None.
Proof.
  intros B. destruct (pointers_ok FOR_DELIMS b quote_for) as [[_ X]|(a & c & r & e & E & A & C & _)]; auto.
  exfalso. apply C. rewrite E in B. apply Forall_app in B. destruct B as [_ B]. inversion B; auto.
Qed.
Lemma words_ends u ws : words_text false u ws -> for_ends u.
Proof.
  intros H. inversion H as [? b B|? b t r zs B N _ _]; subst.
  - intros c r ->. inversion B; subst. right. auto.
  - destruct b as [|d b]; [exfalso; apply N; auto|]. intros c x [= <- _]. inversion B; subst. right. auto.
Qed.
Lemma mask_pbrk t : mask t = match strpbrk t (s2l "*?") with Some _ => true | None => false end.
Proof. unfold mask, strpbrk. induction t as [|c t IH]; auto. cbn [existsb find_idx]. destruct (inset _ c); auto. cbn [orb]. rewrite IH. destruct (find_idx _ t); auto. Qed.
Lemma stripped_ok t m : stripped t m <-> m = no_quotes t.
Proof.
  destruct t as [|q r]; [reflexivity|]. destruct (Ascii.ascii_dec q dquote) as [->|N].
  - unfold no_quotes. rewrite ceq_refl. cbn [stripped].
    assert (X : stripped (dquote :: r) m <-> (exists u, r = u ++ [dquote] /\ m = u) \/ (~ (exists u, r = u ++ [dquote]) /\ m = r)) by reflexivity.
    rewrite X. clear X. destruct r as [|l r _] using rev_ind; [cbn [rev]|rewrite rev_app_distr; cbn [rev app]].
    + split; [intros [(u & E & _)|[_ ->]]; auto; destruct u; discriminate|]. intros ->. right. split; auto. intros (u & E). destruct u; discriminate.
    + destruct (Ascii.ascii_dec l dquote) as [->|L].
      * rewrite ceq_refl, rev_involutive. split; [intros [(u & E & ->)|[X _]]|intros ->; left; eauto].
        -- apply app_inj_tail in E. destruct E; auto.
        -- exfalso. apply X. eauto.
      * rewrite (proj2 (ceq_false l dquote) L). split; [intros [(u & E & _)|[_ ->]]; auto; apply app_inj_tail in E; destruct E; congruence|].
        intros ->. right. split; auto. intros (u & E). apply app_inj_tail in E. destruct E. congruence.
  - unfold no_quotes. rewrite (proj2 (ceq_false q dquote) N).
    assert (X : stripped (q :: r) m <-> m = q :: r) by (destruct q as [[] [] [] [] [] [] [] []]; try reflexivity; exfalso; apply N; reflexivity). exact X.
Qed.

(** ** Running *)
Lemma bind_ret {A B} (x : outcome A) a (f : A -> outcome B) : x = Ret a -> bind x f = f a.
Proof. intros ->. reflexivity. Qed.

Section R.
Variable leaf : list event -> xworld -> cstr -> leafres.
Variable can_open : list event -> cstr -> std -> bool -> bool.
Variable fio : forio.
Variable table : tree.
Variable strtod : cstr -> dbl * nat.
Variable exists_file : list event -> cstr -> bool.
Variable ka : Z.
Notation run := (run leaf can_open fio table strtod exists_file ka).
Notation chain_goes := (chain_goes leaf can_open fio table strtod exists_file ka).

Inductive loop_goes (it : Run_Model.item) : fstate -> rst -> rst -> Prop :=
| lg_done s r : for_next fio (r_log r) (r_x r) s = Ret TDone -> loop_goes it s r r
| lg_skip s s1 r r' : for_next fio (r_log r) (r_x r) s = Ret (TSkip s1) -> loop_goes it s1 r r' -> loop_goes it s r r'
| lg_stop s w s1 r r1 : for_next fio (r_log r) (r_x r) s = Ret (TTurn w s1) -> chain_goes [it] (set_x r w) r1 -> r_abort r1 <> 0%Z -> loop_goes it s r r1
| lg_next s w s1 r r1 r' : for_next fio (r_log r) (r_x r) s = Ret (TTurn w s1) -> chain_goes [it] (set_x r w) r1 -> r_abort r1 = 0%Z ->
    loop_goes it s1 r1 r' -> loop_goes it s r r'.

Lemma block_keeps n i st f r c b r' : inner i -> handled table (parens i) "CmdBlock" -> run f (JLine [(n, parens i, st)]) r = Ret (c, b, r') -> c = [(n, parens i, st)].
Proof.
  intros I (e & G & P) H. destruct f as [|f]; [discriminate|]. cbn [Run_Model.run] in H. unfold pBat_ExecOperators in H.
  assert (LA : look_ahead (parens i) = false) by reflexivity. rewrite LA in H.
  assert (J : forall f r c b r', run f (JLine []) r = Ret (c, b, r') -> c = []) by (intros [|g] ? ? ? ? X; [discriminate|]; cbn in X; injection X as <- _ _; reflexivity).
  destruct (op_skips n _).
  - cbn [orb bind] in H. destruct (pBat_PopStreamStackUntilLock _); try discriminate. cbn [bind] in H. destruct (_ || _); [injection H as <- _ _; reflexivity|].
    match type of H with bind ?x _ = _ => destruct x as [[[c' ?] ?]| |] eqn:E end; try discriminate. apply J in E. injection H as <- _ _. subst. reflexivity.
  - cbn [orb pipe_loop bind] in H. destruct (negb _).
    + destruct (pBat_PopStreamStackUntilLock _); try discriminate. cbn [bind orb] in H. injection H as <- _ _. reflexivity.
    + destruct (pBat_ExecOutput _ _ _); try discriminate. cbn [bind] in H.
      match type of H with bind ?x _ = _ => destruct x as [[[c2 stop] r2]| |] eqn:E end; try discriminate. cbn [bind] in H.
      assert (C2 : c2 = [(n, parens i, st)]).
      { destruct f as [|f]; [discriminate|]. cbn [Run_Model.run] in E. change (pBat_SkipAllBlanks (parens i)) with (parens i) in E. rewrite G in E. cbn [bind] in E. rewrite P, streqb_refl in E.
        unfold parens in E at 1. pose proof (next_block [] i [] ltac:(constructor) I) as NB. cbn [app] in NB. rewrite NB in E. cbn [bind] in E.
        destruct (pBat_DelayedExpand _ _) as [[? ?]| |]; try discriminate. cbn [bind pBat_SkipBlanks] in E. match type of E with bind ?x _ = _ => destruct x as [[[? ?] ?]| |] end; try discriminate. injection E as <- _ _. reflexivity. }
      subst c2. destruct (pBat_PopStreamStackUntilLock _); try discriminate. cbn [bind] in H. destruct (_ || _); [injection H as <- _ _; reflexivity|].
      match type of H with bind ?x _ = _ => destruct x as [[[c' ?] ?]| |] eqn:E2 end; try discriminate. apply J in E2. injection H as <- _ _. subst. reflexivity.
Qed.

Lemma for_loop n i st : inner i -> handled table (parens i) "CmdBlock" -> forall r' s r,
  (exists f c b, run f (JFor s [(n, parens i, st)]) r = Ret (c, b, r')) <-> loop_goes (n, parens i, st) s r r'.
Proof.
  intros I Hd r' s r. split.
  - intros (f & c & b & H). revert s r c b H. induction f as [|f IH]; [discriminate|]. intros s r c b H. cbn [Run_Model.run] in H.
    destruct (for_next _ _ _ _) as [[|s1|w s1]| |] eqn:N; try discriminate; cbn [bind] in H.
    + injection H as _ _ <-. constructor; auto.
    + eapply lg_skip; eauto.
    + destruct (run f (JLine _) _) as [[[c' b'] r1]| |] eqn:E; try discriminate. cbn [bind] in H. pose proof (block_keeps _ _ _ _ _ _ _ _ I Hd E) as ->.
      destruct (Z.eqb_spec (r_abort r1) 0) as [A|A].
      * eapply lg_next; eauto. exists f. eauto.
      * injection H as _ _ <-. eapply lg_stop; eauto. exists f. eauto.
  - induction 1 as [s r N|s s1 r r' N H (f & c & b & IH)|s w s1 r r1 N (f & c & b & H) A|s w s1 r r1 r' N (f & c & b & H) A H2 (f2 & c2 & b2 & IH)].
    + exists 1. eexists _, _. cbn [Run_Model.run]. rewrite N. reflexivity.
    + exists (S f), c, b. cbn [Run_Model.run]. rewrite N. exact IH.
    + exists (S f), c, false. cbn [Run_Model.run]. rewrite N. cbn [bind]. etransitivity; [apply (bind_ret _ _ _ H)|]. cbv beta iota. apply Z.eqb_neq in A. rewrite A. reflexivity.
    + exists (S (f + f2)), c2, b2. cbn [Run_Model.run]. rewrite N. cbn [bind]. pose proof (block_keeps _ _ _ _ _ _ _ _ I Hd H) as ->.
      etransitivity; [apply (bind_ret _ _ _ (more_run _ _ _ _ _ _ _ f (f + f2) _ _ _ ltac:(lia) H))|]. cbv beta iota. apply Z.eqb_eq in A. rewrite A. apply (more_run _ _ _ _ _ _ _ f2); [lia|exact IH].
Qed.

Definition ends_loop (s : fstate) (r0 r1 r' : rst) : Prop :=
  same_io (r_io r') (r_io r0) /\ r_x r' = x_set_err (for_end s (r_x r1)) 0 /\ r_abort r' = r_abort r1 /\ r_log r' = r_log r1.
Lemma command_for f n t st tl r h w : handled table (pBat_SkipAllBlanks t) "CmdFor" -> for_head fio (r_log r) (r_x r) (pBat_SkipAllBlanks t) = Ret (h, w) ->
  run (S f) (JCommand ((n, t, st) :: tl)) (set_io r (locked (r_io r))) =
  let c := (n, t, st) :: tl in let r := set_x (set_io r (locked (r_io r))) w in
  match h with
  | FStop code => Ret (c, true, set_err r code)
  | FFail b code => Ret ((n, parens b, st) :: tl, true, set_err r code)
  | FRun b s cmd => do (c', _, r1) <- run f (JFor s ((n, parens b, st) :: tl)) (started cmd r);
                    Ret (c', true, set_err (set_x r1 (for_end s (r_x r1))) 0)
  end.
Proof.
  intros (e & G & P) H. cbn [Run_Model.run]. rewrite G. cbn [bind]. rewrite P.
  change (streqb (s2l "CmdFor") (s2l "CmdBlock")) with false. change (streqb (s2l "CmdFor") (s2l "CmdIf")) with false. cbv iota. rewrite streqb_refl.
  change (r_log (set_io r (locked (r_io r)))) with (r_log r). change (r_x (set_io r (locked (r_io r)))) with (r_x r). rewrite H. cbn [bind].
  destruct h; reflexivity.
Qed.

Lemma start_io cmd r : r_io (started cmd r) = r_io r.
Proof. destruct cmd; reflexivity. Qed.
Lemma for_runs n t st r i s cmd w : ready (r_io r) -> chosen n (errlevel r) = true -> r_abort r = 0%Z -> look_ahead t = true ->
  handled table (pBat_SkipAllBlanks t) "CmdFor" -> inner i -> handled table (parens i) "CmdBlock" ->
  for_head fio (r_log r) (r_x r) (pBat_SkipAllBlanks t) = Ret (FRun i s cmd, w) ->
  same_runs (chain_goes [(n, t, st)] r) (loop_goes (n, parens i, st) s (started cmd (mkR (locked (r_io r)) w 0 (r_log r)))) (ends_loop s r).
Proof.
  intros R CH AB LA Hf I Hd HH. set (r0 := started cmd (mkR (locked (r_io r)) w 0 (r_log r))).
  assert (X : forall f, run (S (S f)) (JLine [(n, t, st)]) r =
    do (c', _, r1) <- run f (JFor s [(n, parens i, st)]) r0;
    do s0 <- pBat_PopStreamStackUntilLock (r_io r1);
    match c' with [] => Undef | _ :: _ => Ret (c', false, set_io (set_err (set_x r1 (for_end s (r_x r1))) 0) (relock s0 (get_lock (io_stk (r_io r))))) end).
  { intros f. rewrite run_ahead by auto. rewrite (command_for f n t st [] r _ w Hf HH). cbv zeta. rewrite set_if by auto. fold r0.
    destruct (run f (JFor _ _) r0) as [[[? ?] ?]| |]; reflexivity. }
  assert (SM : forall f c' b r2, run f (JFor s [(n, parens i, st)]) r0 = Ret (c', b, r2) ->
    c' <> [] /\ exists s0, pBat_PopStreamStackUntilLock (r_io r2) = Ret s0 /\ same_io (relock s0 (get_lock (io_stk (r_io r)))) (r_io r)).
  { intros f c' b r2 E. split.
    - apply run_keeps in E. exact E.
    - apply pop_locked; auto. destruct (run_same leaf can_open fio table strtod exists_file ka f) as (I2 & _).
      assert (RR : ready (r_io r0)) by (unfold r0; rewrite start_io; apply ready_locked; auto).
      specialize (I2 _ _ _ _ _ E RR). unfold r0 in I2. rewrite start_io in I2. exact I2. }
  split.
  - intros r' (f & c' & b & E). apply (more_run _ _ _ _ _ _ _ f (S (S f))) in E; [|lia]. rewrite X in E.
    destruct (run f (JFor _ _) _) as [[[c2 b2] r2]| |] eqn:E2; try discriminate. cbn [bind] in E.
    destruct (SM f c2 b2 r2 E2) as (G2 & s0 & P0 & S0). rewrite P0 in E. cbn [bind] in E. destruct c2; [congruence|]. injection E as <- <- <-.
    exists r2. split; [apply for_loop; auto; exists f; eauto|]. split; [exact S0|]. auto.
  - intros r1 H. apply (for_loop n i st I Hd) in H. destruct H as (f & c2 & b2 & E2). destruct (SM f c2 b2 r1 E2) as (G2 & s0 & P0 & S0).
    destruct c2 as [|q qs]; [congruence|].
    eexists. split.
    + exists (S (S f)). eexists _, _. rewrite X, E2. cbn [bind]. rewrite P0. cbn [bind]. reflexivity.
    + split; [exact S0|]. auto.
Qed.
Lemma for_fails n t st r h w code : ready (r_io r) -> chosen n (errlevel r) = true -> r_abort r = 0%Z -> look_ahead t = true ->
  handled table (pBat_SkipAllBlanks t) "CmdFor" -> for_head fio (r_log r) (r_x r) (pBat_SkipAllBlanks t) = Ret (h, w) ->
  (h = FStop code \/ exists b, h = FFail b code) ->
  (exists r', chain_goes [(n, t, st)] r r') /\
  forall r', chain_goes [(n, t, st)] r r' ->
    same_io (r_io r') (r_io r) /\ r_x r' = x_set_err w code /\ r_abort r' = 0%Z /\ r_log r' = r_log r.
Proof.
  intros R CH AB LA Hf HH HC. destruct (pop_locked r (locked (r_io r)) R (same_refl _)) as (s0 & P & S).
  assert (X : exists c, c <> [] /\ forall f, run (Datatypes.S (Datatypes.S f)) (JLine [(n, t, st)]) r =
    Ret (c, false, set_io (set_err (set_x r w) code) (relock s0 (get_lock (io_stk (r_io r)))))).
  { destruct HC as [->|(b & ->)].
    - exists [(n, t, st)]. split; [discriminate|]. intros f. rewrite run_ahead by auto. rewrite (command_for f n t st [] r _ w Hf HH). cbn [bind set_err set_x set_io r_io]. rewrite P. reflexivity.
    - exists [(n, parens b, st)]. split; [discriminate|]. intros f. rewrite run_ahead by auto. rewrite (command_for f n t st [] r _ w Hf HH). cbn [bind set_err set_x set_io r_io]. rewrite P. reflexivity. }
  destruct X as (c & _ & X). split.
  - eexists. exists 2. eexists _, _. apply X.
  - intros r' (f & c' & b & E). apply (more_run _ _ _ _ _ _ _ f (Datatypes.S (Datatypes.S f))) in E; [|lia]. rewrite X in E. injection E as <- <- <-.
    split; [exact S|]. split; [reflexivity|]. split; [exact AB|reflexivity].
Qed.

Lemma loop_unfold it s r r' : loop_goes it s r r' <->
  match for_next fio (r_log r) (r_x r) s with
  | Ret TDone => r' = r
  | Ret (TSkip s1) => loop_goes it s1 r r'
  | Ret (TTurn w s1) => exists r1, chain_goes [it] (set_x r w) r1 /\ (r_abort r1 <> 0%Z /\ r' = r1 \/ r_abort r1 = 0%Z /\ loop_goes it s1 r1 r')
  | _ => False
  end.
Proof.
  split.
  - intros H. inversion H; subst;
      match goal with E : for_next _ _ _ _ = _ |- _ => rewrite E end; auto; eexists; split; eauto.
  - destruct (for_next _ _ _ _) as [[|s1|w s1]| |] eqn:E; try contradiction.
    + intros ->. constructor; auto.
    + intros H. eapply lg_skip; eauto.
    + intros (r1 & H & [[A ->]|[A B]]); [eapply lg_stop|eapply lg_next]; eauto.
Qed.

(** FOR /L. *)
Notation value_turn := (value_turn leaf can_open fio table strtod exists_file ka).
Lemma assign_set w c v : name_ok c = true -> set_local w c v = assign c v w.
Proof. intros N. unfold set_local, pBat_SetLocalVar. rewrite N. reflexivity. Qed.
Lemma in_int_iff z : in_int z = true <-> (-2147483648 <= z <= 2147483647)%Z.
Proof. unfold in_int, INT_MIN, INT_MAX. rewrite Bool.andb_true_iff, !Z.leb_le. tauto. Qed.
Lemma count_loop it c s e : name_ok c = true -> forall i r r', loop_goes it (FL c false i s e) r r' <-> counts (value_turn it c) s e i r r'.
Proof.
  intros N.
  assert (F : forall st r r', loop_goes it st r r' -> match st with
     | FL c0 turned i s0 e0 => c0 = c -> s0 = s -> e0 = e -> if turned then (-2147483648 <= i + s <= 2147483647)%Z /\ counts (value_turn it c) s e (i + s) r r' else counts (value_turn it c) s e i r r'
     | _ => True end).
  { induction 1 as [st r E|st s1 r r' E H IH|st w s1 r r1 E H A|st w s1 r r1 r' E H A H2 IH]; destruct st as [c0 turned i s0 e0|c0 fs rest|info sk src]; auto; intros -> -> ->;
      cbn [for_next] in E; unfold next_l in E.
    - destruct turned; [destruct (in_int (i + s)) eqn:I; [|discriminate]|]; cbn [bind] in E.
      + destruct (Z.leb_spec (i + s) e); [discriminate|]. split; [apply in_int_iff; auto|]. apply ct_end. auto.
      + destruct (Z.leb_spec i e); [discriminate|]. apply ct_end. auto.
    - destruct turned; [destruct (in_int (i + s)) eqn:I; [|discriminate]|]; cbn [bind] in E; destruct (_ <=? _)%Z; discriminate.
    - destruct turned; [destruct (in_int (i + s)) eqn:I; [|discriminate]|]; cbn [bind] in E.
      + destruct (Z.leb_spec (i + s) e); [|discriminate]. injection E as <- <-. rewrite assign_set in H by auto. split; [apply in_int_iff; auto|]. apply ct_stop; auto.
      + destruct (Z.leb_spec i e); [|discriminate]. injection E as <- <-. rewrite assign_set in H by auto. apply ct_stop; auto.
    - destruct turned; [destruct (in_int (i + s)) eqn:I; [|discriminate]|]; cbn [bind] in E.
      + destruct (Z.leb_spec (i + s) e); [|discriminate]. injection E as <- <-. rewrite assign_set in H by auto. specialize (IH eq_refl eq_refl eq_refl). destruct IH as [IH1 IH2].
        split; [apply in_int_iff; auto|]. eapply ct_next; eauto.
      + destruct (Z.leb_spec i e); [|discriminate]. injection E as <- <-. rewrite assign_set in H by auto. specialize (IH eq_refl eq_refl eq_refl). destruct IH as [IH1 IH2].
        eapply ct_next; eauto. }
  intros i r r'. split; [intros H; apply F in H; auto|].
  assert (G : counts (value_turn it c) s e i r r' -> loop_goes it (FL c false i s e) r r' /\ (in_int i = true -> forall j, (j + s)%Z = i -> loop_goes it (FL c true j s e) r r')).
  { induction 1 as [i r L|i r r1 L T A|i r r1 r' L T A R H [IH1 IH2]].
    - split; [|intros I j <-]; apply loop_unfold; cbn [for_next]; unfold next_l; try rewrite I; cbn [bind]; (match goal with |- context [(?a <=? e)%Z] => destruct (Z.leb_spec a e) end; [lia|reflexivity]).
    - split; [|intros I j <-]; apply loop_unfold; cbn [for_next]; unfold next_l; try rewrite I; cbn [bind]; (match goal with |- context [(?a <=? e)%Z] => destruct (Z.leb_spec a e) end; [|lia]); rewrite assign_set by auto; exists r1; auto.
    - apply in_int_iff in R. specialize (IH2 R i eq_refl).
      split; [|intros I j <-]; apply loop_unfold; cbn [for_next]; unfold next_l; try rewrite I; cbn [bind]; (match goal with |- context [(?a <=? e)%Z] => destruct (Z.leb_spec a e) end; [|lia]); rewrite assign_set by auto; exists r1; auto. }
  intros H. apply G; auto.
Qed.

(** FOR. *)
Lemma files_loop it c rest : name_ok c = true -> forall files r r', r_abort r = 0%Z ->
  (loop_goes it (FS c files rest) r r' <->
   exists r1, for_each (value_turn it c) files r r1 /\ (r_abort r1 <> 0%Z /\ r' = r1 \/ r_abort r1 = 0%Z /\ loop_goes it (FS c [] rest) r1 r')).
Proof.
  intros N. induction files as [|x files IH]; intros r r' A.
  - split.
    + intros H. exists r. split; [constructor|]. auto.
    + intros (r1 & H & [[B _]|[_ B]]); inversion H; subst; [congruence|auto].
  - rewrite loop_unfold. cbn [for_next next_s]. rewrite assign_set by auto. split.
    + intros (r1 & T & [[B ->]|[B H]]).
      * exists r1. split; [apply fe_stop; auto|auto].
      * apply IH in H; auto. destruct H as (r2 & H1 & H2). exists r2. split; auto. eapply fe_next; eauto.
    + intros (r1 & F & H). inversion F as [|? ? ? ? T B|? ? ? r2 ? T B F2]; subst.
      * exists r1. split; [exact T|]. destruct H as [[_ ->]|[B2 _]]; [left; auto|congruence].
      * exists r2. split; [exact T|]. right. split; auto. apply IH; auto. exists r1. auto.
Qed.
Lemma for_words_cons turn t ts r r' : for_words fio turn (t :: ts) r r' <->
  exists vs r1, word_values fio t r vs /\ for_each turn vs r r1 /\ (r_abort r1 <> 0%Z /\ r' = r1 \/ r_abort r1 = 0%Z /\ for_words fio turn ts r1 r').
Proof.
  split.
  - intros H. inversion H; subst; eexists _, _; (split; [eassumption|split; [eassumption|auto]]).
  - intros (vs & r1 & V & E & [[A ->]|[A B]]); [eapply fw_stop|eapply fw_next]; eauto.
Qed.
Lemma words_loop it c : name_ok c = true -> forall first u ws, words_text first u ws -> forall r r', r_abort r = 0%Z ->
  (loop_goes it (FS c [] (Some u)) r r' <-> for_words fio (value_turn it c) ws r r').
Proof.
  intros N. induction 1 as [first b B|first b raw u ws B F W Hu IH]; intros r r' A.
  - rewrite loop_unfold. cbn [for_next next_s]. rewrite for_pointers_none by auto. cbn [bind].
    split; [intros ->; constructor|]. intros H. inversion H; auto.
  - assert (X : exists vs, word_values fio raw r vs /\ (forall vs', word_values fio raw r vs' -> vs' = vs) /\
       (loop_goes it (FS c [] (Some (b ++ raw ++ u))) r r' <-> loop_goes it (FS c vs (match u with [] => None | _ => Some u end)) r r')).
    { pose proof (loop_unfold it (FS c [] (Some (b ++ raw ++ u))) r r') as U. cbn [for_next next_s] in U. rewrite for_pointers in U by (auto; eapply words_ends; eauto). cbn [bind] in U.
      set (e := match u with [] => None | _ => Some (length raw) end) in U.
      assert (T : match e with Some n => firstn n (raw ++ u) | None => raw ++ u end = raw).
      { unfold e. destruct u; [apply app_nil_r|]. apply Estr_Proofs.firstn_app_len. auto. }
      assert (Q : match e with Some n => Some (skipn n (raw ++ u)) | None => None end = match u with [] => None | _ => Some u end).
      { unfold e. destruct u; auto. f_equal. apply Estr_Proofs.skipn_app_len. auto. }
      rewrite T, Q in U. clear T Q e. pose proof (mask_pbrk raw) as M.
      destruct (strpbrk raw (s2l "*?")) as [k|].
      - exists (fio_glob fio (r_log r) (r_x r) (no_quotes raw)). split; [apply wv_mask; auto; apply stripped_ok; auto|]. split; [|exact U].
        intros vs' H. inversion H as [M2|m M2 S]; subst; [congruence|]. apply stripped_ok in S. congruence.
      - exists [raw]. split; [constructor; auto|]. split; [intros vs' H; inversion H; subst; auto; congruence|].
        rewrite U, (loop_unfold it (FS c [raw] _)). cbn [for_next next_s]. reflexivity. }
    destruct X as (vs & V & Vu & X). rewrite X, files_loop, for_words_cons by auto.
    assert (Y : forall r1, r_abort r1 = 0%Z -> (loop_goes it (FS c [] (match u with [] => None | _ => Some u end)) r1 r' <-> for_words fio (value_turn it c) ws r1 r')).
    { intros r1 A1. destruct u as [|d u]; [|apply IH; auto].
      rewrite loop_unfold. cbn [for_next next_s]. inversion Hu as [? ? ? E1|? b0 raw0 u0 ws0 B0 F0 W0 ? E1]; subst.
      - split; [intros ->; constructor|]. intros HH. inversion HH; auto.
      - exfalso. destruct b0; [|discriminate]. destruct raw0; [destruct W0 as (W0 & _); auto|discriminate]. }
    split.
    + intros (r1 & H1 & H2). exists vs, r1. split; auto. split; auto. destruct H2 as [H2|[H2 H3]]; [left; auto|right]. split; auto. apply Y; auto.
    + intros (vs' & r1 & V' & H1 & H2). apply Vu in V'. subst vs'. exists r1. split; auto. destruct H2 as [H2|[H2 H3]]; [left; auto|right]. split; auto. apply Y; auto.
Qed.

(** A colon stops the reading of the list. *)
Lemma colon_loop it c x : name_ok c = true -> forall r r', r_abort r = 0%Z -> loop_goes it (FS c [] (Some (":"%char :: x))) r r' -> r_abort r' <> 0%Z.
Proof.
  intros N r r' A H. remember (FS c [] (Some (":"%char :: x))) as s eqn:Es.
  assert (E : forall log w, for_next fio log w (FS c [] (Some (":"%char :: x))) = Ret (TTurn (set_local w c (Some [])) (FS c [] (Some (":"%char :: x))))).
  { intros log w. cbn [for_next next_s].
    assert (P : pBat_GetParameterPointers FOR_DELIMS (":"%char :: x) = Ret (Some (":"%char :: x, Some 0))).
    { destruct (pointers_ok FOR_DELIMS (":"%char :: x) quote_for) as [[X _]|(a & d & r0 & e & E & Aa & C & P & Q)].
      - inversion X as [|? ? X1 _]; subst. cbv in X1. exfalso. intuition discriminate.
      - destruct a as [|y a]; [|injection E as <- _; inversion Aa as [|? ? X1 _]; subst; cbv in X1; exfalso; intuition discriminate].
        injection E as <- <-. rewrite P. f_equal. f_equal. f_equal. eapply first_pos_unique; [exact Q|]. split; [|intros; lia].
        split; [apply live_iff; split; [reflexivity|]; exists ":"%char; split; reflexivity|]. exists 0. reflexivity. }
    rewrite P. reflexivity. }
  induction H as [s r H|s s1 r r' H _ _|s w s1 r r1 H T B|s w s1 r r1 r' H T B H2 IH]; subst s; rewrite E in H; try discriminate; auto.
  injection H as <- <-. apply IH; auto.
Qed.

(** FOR /F. *)
Notation line_turn := (line_turn leaf can_open fio table strtod exists_file ka).
Inductive src_is : source -> feed -> list feed -> nat -> Prop :=
| si_text t ls k : text_lines t (skipn k ls) -> src_is (SText t) (text_feed ls) [] k
| si_files p k l : src_is (SFiles p k l) (file_feed fio p) (map (file_feed fio) l) k
| si_pipe n k : src_is (SPipe n k) (pipe_feed fio n) [] k.

Definition comment_b (eol l : cstr) : bool :=
  match eol with [] => false | _ => match l with c :: _ => inset eol c | [] => true end end.
Lemma comment_ok eol l : comment_b eol l = true <-> comment eol l.
Proof.
  unfold comment_b, comment. destruct eol as [|e eol]; [split; [discriminate|intros [X _]; congruence]|].
  destruct l as [|c l]; [split; auto; intros _; split; auto; discriminate|]. rewrite Args_Proofs.inset_in. split; [intros H; split; [discriminate|auto]|tauto].
Qed.
Lemma blank_b l : match pBat_SkipBlanks l with [] => true | _ => false end = true <-> Forall blank l.
Proof.
  split.
  - intros H. induction l as [|c l IH]; [constructor|]. cbn [pBat_SkipBlanks] in H. destruct (pBat_IsDelim c) eqn:D; [|discriminate].
    constructor; auto. apply delim_blank. auto.
  - intros H. pose proof (skip_blanks l [] H ltac:(discriminate)) as X. rewrite app_nil_r in X. rewrite X. reflexivity.
Qed.

(** The next line of a source. *)
Lemma next_source src f fs k info skip log w : src_is src f fs k ->
  (exists l src', line_at f log k = Some l /\ src_is src' f fs (S k) /\ next_f fio log w info skip src = line_f fio log w info skip l src') \/
  (line_at f log k = None /\
    (fs = [] /\ next_f fio log w info skip src = Ret TDone \/
     exists g gs, fs = g :: gs /\ (can_read g log = false /\ next_f fio log w info skip src = Undef \/
       can_read g log = true /\ exists src', src_is src' g gs 0 /\ next_f fio log w info skip src = Ret (TSkip (FF info skip src'))))).
Proof.
  intros [t ls k0 H|p k0 l|n k0].
  - cbn [next_f]. inversion H as [E1 E2|l Ne Nn E1 E2|l r ls' Nn H2 E1 E2].
    + right. split; [|left; auto]. cbn. destruct (nth_error ls k0) eqn:E; auto. apply nth_error_split in E. destruct E as (a & b & -> & La).
      rewrite Estr_Proofs.skipn_app_len in E2 by auto. discriminate.
    + left. subst l. exists t, (SText []).
      assert (X : exists a, ls = a ++ [t] /\ length a = k0).
      { exists (firstn k0 ls). pose proof (firstn_skipn k0 ls) as X. rewrite <- E2 in X. split; auto. apply firstn_length_le. destruct (Nat.le_gt_cases k0 (length ls)); auto.
        rewrite skipn_all2 in E2 by lia. discriminate. }
      destruct X as (a & -> & La). split; [|split].
      * cbn. rewrite nth_error_app2 by lia. rewrite La, Nat.sub_diag. reflexivity.
      * constructor. rewrite skipn_all2 by (rewrite app_length; simpl; lia). constructor.
      * unfold string_input. destruct t as [|c t]; [congruence|]. 
        assert (F : find_idx (fun x => ceq x nl) (c :: t) = None).
        { clear - Nn. induction (c :: t) as [|x u IH]; auto. cbn [find_idx]. destruct (ceq x nl) eqn:E; [apply ceq_true in E; subst; exfalso; apply Nn; simpl; auto|].
          rewrite IH; auto. intros I. apply Nn. simpl. auto. }
        rewrite F. reflexivity.
    + left. exists l, (SText r).
      assert (X : exists a, ls = a ++ l :: ls' /\ length a = k0).
      { exists (firstn k0 ls). pose proof (firstn_skipn k0 ls) as X. rewrite <- E2 in X. split; auto. apply firstn_length_le. destruct (Nat.le_gt_cases k0 (length ls)); auto.
        rewrite skipn_all2 in E2 by lia. discriminate. }
      destruct X as (a & -> & La). split; [|split].
      * cbn. rewrite nth_error_app2 by lia. rewrite La, Nat.sub_diag. reflexivity.
      * constructor. replace (a ++ l :: ls') with ((a ++ [l]) ++ ls') by (rewrite <- app_assoc; reflexivity).
        rewrite Estr_Proofs.skipn_app_len; [exact H2|]. rewrite app_length. simpl. lia.
      * unfold string_input.
        assert (F : find_idx (fun x => ceq x nl) (l ++ nl :: r) = Some (length l)).
        { clear - Nn. induction l as [|x u IH]; [reflexivity|]. cbn [app find_idx]. destruct (ceq x nl) eqn:E; [apply ceq_true in E; subst; exfalso; apply Nn; simpl; auto|].
          rewrite IH; auto. intros I. apply Nn. simpl. auto. }
        rewrite F. rewrite Estr_Proofs.firstn_app_len by auto.
        replace (skipn (S (length l)) (l ++ nl :: r)) with r.
        -- destruct l; reflexivity.
        -- replace (l ++ nl :: r) with ((l ++ [nl]) ++ r) by (rewrite <- app_assoc; reflexivity). rewrite Estr_Proofs.skipn_app_len; auto. rewrite app_length. simpl. lia.
  - cbn [next_f]. destruct (fio_file fio log p k0) as [l0|] eqn:E.
    + left. exists l0, (SFiles p (S k0) l). split; [exact E|]. split; [constructor|reflexivity].
    + right. split; [exact E|]. destruct l as [|q l]; [left; auto|]. right. exists (file_feed fio q), (map (file_feed fio) l). split; auto.
      cbn [can_read file_feed]. destruct (fio_open fio log q); [right|left]; auto. split; auto. exists (SFiles q 0 l). split; [constructor|reflexivity].
  - cbn [next_f]. destruct (fio_pipe fio log n k0) as [l0|] eqn:E.
    + left. exists l0, (SPipe n (S k0)). split; [exact E|]. split; [constructor|reflexivity].
    + right. split; [exact E|]. left. auto.
Qed.

Lemma split_gives k c info line b : holds k c info -> (33 <= code c <= 127)%Z -> exists b', pBat_ForSplitTokens line info b = Ret b' /\ gives k c line b b'.
Proof.
  intros (H1 & H2 & H3 & H4 & H5 & H6 & H7 & H8 & H9) C.
  destruct (splits_ex (k_delims k) line) as (ws0 & tail0 & Sp0).
  assert (X : forall ws tail, splits (k_delims k) line ws tail -> exists b', pBat_ForSplitTokens line info b = Ret b' /\
    (forall j n m, nth_error (code_ranges (asked_ranges k)) j = Some (n, m) -> (j = 0 -> length (asked_ranges k) <= 95) ->
       b' (var_name c j) = Some (pick ws tail (Z.to_nat n) (Z.to_nat m))) /\
    (forall x, (forall j, j < length (asked_ranges k) -> x <> var_name c j) -> b' x = b x)).
  { intros ws tail Sp. rewrite <- H5. apply split_all; auto; [rewrite H5; auto|rewrite H1; auto]. }
  destruct (X ws0 tail0 Sp0) as (b' & E & _). exists b'. split; auto. intros ws tail Sp. destruct (X ws tail Sp) as (b2 & E2 & F). rewrite E in E2. injection E2 as <-. exact F.
Qed.

Lemma line_case k c info skip l src log w : holds k c info -> (33 <= code c <= 127)%Z ->
  let soft := fio_cmdly fio log = true -> ~ Forall blank l in
  (fio_cmdly fio log = true /\ Forall blank l /\ line_f fio log w info skip l src = Ret (TSkip (FF info skip src))) \/
  (soft /\ (0 < skip)%Z /\ line_f fio log w info skip l src = Ret (TSkip (FF info (skip - 1) src))) \/
  (soft /\ (skip <= 0)%Z /\ comment (k_eol k) l /\ line_f fio log w info skip l src = Ret (TSkip (FF info skip src))) \/
  (soft /\ (skip <= 0)%Z /\ ~ comment (k_eol k) l /\ exists b, pBat_ForSplitTokens l info (x_locals w) = Ret b /\ gives k c l (x_locals w) b /\
     line_f fio log w info skip l src = Ret (TTurn (set_locals w b) (FF info skip src))).
Proof.
  intros Hk C soft. unfold line_f. assert (Eol : fi_eol info = k_eol k) by apply Hk. rewrite Eol. fold (comment_b (k_eol k) l).
  pose proof (blank_b l) as BB. destruct (fio_cmdly fio log && _) eqn:CM.
  - left. apply Bool.andb_true_iff in CM. destruct CM as [CM BL]. split; auto. split; auto. apply BB. auto.
  - right. assert (SO : soft).
    { intros Q F. apply BB in F. rewrite Q, F in CM. discriminate. }
    destruct (Z.ltb_spec 0 skip); [left; auto|right]. pose proof (comment_ok (k_eol k) l) as CC. destruct (comment_b (k_eol k) l).
    + left. split; auto. split; auto. split; auto. apply CC. auto.
    + right. split; auto. split; auto. split; [intros X; apply CC in X; discriminate|].
      destruct (split_gives k c info l (x_locals w) Hk C) as (b & Sp & G). exists b. split; auto. split; auto. rewrite Sp. reflexivity.
Qed.

Lemma lines_loop it k c info : holds k c info -> (33 <= code c <= 127)%Z -> forall src f fs n skip r r', src_is src f fs n ->
  (loop_goes it (FF info skip src) r r' <-> for_lines fio (line_turn it k info c) (k_eol k) f fs n skip r r').
Proof.
  intros Hk C src f fs n skip r r' S0. split.
  - intros H. revert f fs n S0. remember (FF info skip src) as s eqn:Es. revert skip src Es.
    induction H as [s r E|s s1 r r' E H IH|s w s1 r r1 E H A|s w s1 r r1 r' E H A H2 IH]; intros skip src -> f fs n S0; cbn [for_next] in E;
      (destruct (next_source src f fs n info skip (r_log r) (r_x r) S0) as [(l & src' & L & S' & X)|(L & [(-> & X)|(g & gs & -> & [(G & X)|(G & src' & S' & X)])])]; rewrite X in E; clear X);
      try discriminate;
      try (destruct (line_case k c info skip l src' (r_log r) (r_x r) Hk C) as [(B1 & B2 & X)|[(B1 & B2 & X)|[(B1 & B2 & B3 & X)|(B1 & B2 & B3 & b & Sp & Gv & X)]]]; rewrite X in E; clear X; try discriminate);
      try (injection E as <- <-); try (injection E as <-).
    + apply fl_end. auto.
    + eapply fl_blank; eauto.
    + eapply fl_skip; eauto.
    + eapply fl_comment; eauto.
    + eapply fl_file; eauto.
    + eapply fl_stop; eauto. exists b. auto.
    + eapply fl_next; eauto. exists b. auto.
  - intros H. revert src S0. induction H; intros src S0; apply loop_unfold; cbn [for_next];
      (destruct (next_source src f _ k0 info s (r_log r) (r_x r) S0) as [(l' & src' & L & S' & X)|(L & [(F & X)|(g' & gs & F & [(G & X)|(G & src' & S' & X)])])]; rewrite X; clear X);
      try congruence; try discriminate; try (injection F as <- <-);
      try (rewrite L in H; injection H as <-);
      try (destruct (line_case k c info s l' src' (r_log r) (r_x r) Hk C) as [(B1 & B2 & X)|[(B1 & B2 & X)|[(B1 & B2 & B3 & X)|(B1 & B2 & B3 & b & Sp & Gv & X)]]]; rewrite X; clear X);
      try (exfalso; tauto); try lia.
    all: try (exfalso; congruence).
    all: auto.
    + destruct H3 as (b2 & Sp2 & _ & T). rewrite Sp in Sp2. injection Sp2 as <-. exists r1. split; auto.
    + destruct H3 as (b2 & Sp2 & _ & T). rewrite Sp in Sp2. injection Sp2 as <-. exists r1. split; auto.
Qed.
End R.

(** ** Where FOR /F starts *)
Lemma adjust_ok q s x : ~ In q s -> adjust_input (q :: s ++ q :: x) = Some s.
Proof.
  intros N. unfold adjust_input. assert (F : find_idx (fun c => ceq c q) (s ++ q :: x) = Some (length s)).
  { induction s as [|c s IH]; cbn [app find_idx]; [rewrite ceq_refl; reflexivity|].
    destruct (ceq c q) eqn:E; [apply ceq_true in E; subst; exfalso; apply N; simpl; auto|]. rewrite IH; auto. intros I. apply N. simpl. auto. }
  rewrite F, Estr_Proofs.firstn_app_len by auto. reflexivity.
Qed.
Lemma names_ends w u l : names_text w false u l -> ends u.
Proof.
  intros H. inversion H as [? b B|? b raw t z r zs B N]; subst.
  - intros c r ->. inversion B; auto.
  - apply ends_gaps. split; auto.
Qed.
Lemma file_list_ok w : forall first u l, names_text w first u l -> forall fuel n, length u < fuel -> length l <= n ->
  file_list fuel w u n = Ret (map (pBat_MakeFullPathEs (vw_cd (x_var w))) l, w).
Proof.
  induction 1 as [first b B|first b raw t v r vs B N W Ba Nc D Hr IH]; intros [|fuel] n F G; try lia; cbn [file_list].
  - rewrite next_blank by auto. reflexivity.
  - rewrite (next_whole w [] b raw r t); auto; [|eapply names_ends; eauto]. rewrite D. cbn [bind].
    cbn [length] in G. destruct n as [|n]; [lia|]. rewrite IH; [reflexivity| |lia].
    rewrite !app_length in F. destruct raw as [|c raw]; [destruct W as (W & _); congruence|]. simpl in F. lia.
Qed.
Lemma make_input_ok io log w backq u f fs cmd : feeds io w log backq u f fs cmd ->
  exists src, src_is io src f fs 0 /\ make_input io log w backq u = Ret (inr (src, cmd), w).
Proof.
  intros [q s x ls Q N T|q s x Q N|u0 v vs f0 fs0 N L H M O].
  - exists (SText s). split; [constructor; exact T|]. unfold make_input. subst q. destruct backq.
    + rewrite ceq_refl. rewrite adjust_ok by auto. reflexivity.
    + change (ceq """" "'")%char with false. change (ceq """" "`")%char with false. cbv iota. rewrite ceq_refl. rewrite adjust_ok by auto. reflexivity.
  - exists (SPipe (length log) 0). split; [constructor|]. unfold make_input. subst q. destruct backq.
    + change (ceq "`" "'")%char with false. cbv iota. rewrite ceq_refl. rewrite adjust_ok by auto. reflexivity.
    + rewrite ceq_refl. rewrite adjust_ok by auto. reflexivity.
  - cbn [map] in M. injection M as <- <-. set (p := pBat_MakeFullPathEs (vw_cd (x_var w)) v) in *.
    exists (SFiles p 0 (map (pBat_MakeFullPathEs (vw_cd (x_var w))) vs)). split.
    + rewrite <- (map_map (pBat_MakeFullPathEs (vw_cd (x_var w))) (file_feed io)). constructor.
    + unfold make_input. assert (Fi : file_list (S (length u0)) w u0 FILE_LIST_T_BUFSIZ = Ret (p :: map (pBat_MakeFullPathEs (vw_cd (x_var w))) vs, w)).
      { rewrite (file_list_ok w true u0 (v :: vs)); auto. }
      rewrite Fi. cbn [bind]. cbn [file_feed can_read] in O. rewrite O.
      destruct u0 as [|c u0]; [reflexivity|]. destruct H as [H1 H2].
      assert (N1 : ceq c "'"%char = false) by (apply ceq_false; intros ->; apply H1; cbv; tauto).
      assert (N2 : ceq c "`"%char = false) by (apply ceq_false; intros ->; apply H1; cbv; tauto).
      rewrite N1, N2. destruct (ceq c dquote) eqn:E; [|reflexivity]. apply ceq_true in E. rewrite (H2 E). reflexivity.
Qed.
Lemma holds_first k c c' info : holds k c info -> holds k c' (with_first info c').
Proof. intros (H1 & H2 & H3 & H4 & H5 & H6 & H7 & H8 & H9). unfold holds. cbn. auto 12. Qed.

(** Expansion leaves the variables of FOR. *)
Lemma expand_locals d : forall fuel w s t w', expand_loop fuel w d s = Ret (t, w') -> x_locals w' = x_locals w.
Proof.
  induction fuel as [|f IH]; intros w s t w' H; [discriminate|]. cbn [expand_loop] in H.
  repeat match type of H with
  | Ret _ = Ret _ => injection H as _ <-
  | Undef = _ => discriminate
  | OutOfFuel = _ => discriminate
  | bind ?x _ = _ => let E := fresh "E" in destruct x as [?| |] eqn:E; try discriminate; cbn [bind] in H
  | context [match ?x with _ => _ end] => let E := fresh "E" in destruct x eqn:E; try discriminate
  end; subst; auto;
  match goal with E : expand_loop f _ _ _ = Ret _ |- _ => apply IH in E; exact E end.
Qed.
Lemma delayed_locals w s t w' : pBat_DelayedExpand w s = Ret (t, w') -> x_locals w' = x_locals w.
Proof.
  unfold pBat_DelayedExpand. destruct (pBat_ExpandSpecialVar w s); try discriminate. cbn [bind]. destruct (x_delayed w); [apply expand_locals|]. intros [= _ <-]. reflexivity.
Qed.

(** ** Counting *)
Lemma counts_end turn s e i r r' : (e < i)%Z -> (counts turn s e i r r' <-> r' = r).
Proof. intros L. split; [|intros ->; constructor; auto]. intros H. inversion H; subst; auto; lia. Qed.
Lemma counts_list turn s e : forall n i r r', (0 <= s)%Z ->
  (forall k, k < n -> (i + Z.of_nat k * s <= e)%Z) -> (e < i + Z.of_nat n * s)%Z ->
  (-2147483648 <= i)%Z -> (i + Z.of_nat n * s <= 2147483647)%Z ->
  (counts turn s e i r r' <-> for_each turn (map (fun k => dec (i + Z.of_nat k * s)) (seq 0 n)) r r').
Proof.
  induction n as [|n IH]; intros i r r' S1 B E I J.
  - rewrite counts_end by lia. cbn [seq map]. split; [intros ->; constructor|]. intros H. inversion H; auto.
  - assert (X : map (fun k => dec (i + Z.of_nat k * s)) (seq 0 (S n)) = dec i :: map (fun k => dec ((i + s) + Z.of_nat k * s)) (seq 0 n)).
    { cbn [seq map]. f_equal; [f_equal; lia|]. rewrite <- seq_shift, map_map. apply map_ext. intros k. f_equal. lia. }
    rewrite X. clear X. pose proof (B 0 ltac:(lia)) as B0. cbn [Z.of_nat] in B0.
    assert (IH' : forall r0, counts turn s e (i + s) r0 r' <-> for_each turn (map (fun k => dec ((i + s) + Z.of_nat k * s)) (seq 0 n)) r0 r').
    { intros r0. apply IH; auto; try lia. intros k K. specialize (B (S k) ltac:(lia)). lia. }
    split.
    + intros H. inversion H as [|? ? r1 L T A|? ? r1 ? L T A R H2]; subst; [lia|apply fe_stop; auto|].
      eapply fe_next; eauto. apply IH'. auto.
    + intros H. inversion H as [|? ? ? r1 T A|? ? ? r1 ? T A H2]; subst; [apply ct_stop; auto; lia|].
      eapply ct_next; eauto; [lia| |apply IH'; auto]. split; [lia|]. assert (Z.of_nat n * s >= 0)%Z by nia. lia.
Qed.
Lemma counts_never turn s e i r r' : (forall k, (forall j, j <= k -> (-2147483648 <= i + Z.of_nat j * s <= 2147483647)%Z) -> (i + Z.of_nat k * s <= e)%Z) ->
  (-2147483648 <= i <= 2147483647)%Z -> counts turn s e i r r' -> r_abort r' <> 0%Z.
Proof.
  intros B I H. induction H as [i r L|i r r1 L T A|i r r1 r' L T A R H IH]; auto.
  - specialize (B 0). cbn [Z.of_nat] in B. rewrite Z.mul_0_l, Z.add_0_r in B. assert (i <= e)%Z; [|lia]. apply B. intros j J. replace j with 0 by lia. cbn. lia.
  - apply IH; auto. intros k K. replace (i + s + Z.of_nat k * s)%Z with (i + Z.of_nat (S k) * s)%Z by lia. apply B. intros [|j] J; [cbn; lia|].
    specialize (K j ltac:(lia)). lia.
Qed.

Lemma text_facts w k c input i t : for_text w k c input i t -> look_ahead t = true /\ inner i /\ var_char c.
Proof.
  intros H. destruct (for_start _ _ _ _ _ _ H) as (p & _ & LA & f & o & b1 & b2 & n & b3 & b4 & d & rest & _ & _ & _ & _ & _ & _ & _ & _ & _ & _ & V & _ & _ & _ & _ & J).
  split; auto. split; auto. destruct J as [J|J]; [apply J|]. apply in_last, J.
Qed.
Lemma text_free w k c input i t : for_text w k c input i t -> x_locals w c = None.
Proof. intros (b0 & f & o & b1 & b2 & n & b3 & b4 & d & rest & E & B0 & F & K & G1 & G2 & N & P3 & N3 & B4 & D & V & L & I & X & J). exact L. Qed.
Lemma lower_f x : tolower x = "f"%char -> x = "f"%char \/ x = "F"%char.
Proof. destruct x as [[] [] [] [] [] [] [] []]; intros H; try discriminate H; auto. Qed.
Lemma lower_o x : tolower x = "o"%char -> x = "o"%char \/ x = "O"%char.
Proof. destruct x as [[] [] [] [] [] [] [] []]; intros H; try discriminate H; auto. Qed.
Lemma lower_r x : tolower x = "r"%char -> x = "r"%char \/ x = "R"%char.
Proof. destruct x as [[] [] [] [] [] [] [] []]; intros H; try discriminate H; auto. Qed.
Lemma handled_for f q r : same_name f (s2l "for") -> blank q -> handled builtin_table (f ++ q :: r) "CmdFor".
Proof.
  intros F Q. unfold same_name in F. destruct f as [|x1 [|x2 [|x3 [|x4 f]]]]; try discriminate F. injection F as F1 F2 F3.
  apply lower_f in F1. apply lower_o in F2. apply lower_r in F3.
  cbn in Q. destruct F1 as [->| ->], F2 as [->| ->], F3 as [->| ->]; destruct Q as [<-|[<-|[<-|[<-|[<-|[]]]]]]; (destruct r as [|c r]; vm_compute; eexists; split; reflexivity).
Qed.
