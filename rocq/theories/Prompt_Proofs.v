(** Prompt_Proofs.v -- lemmas about prompt strings, colours and ECHO. *)

From Verif Require Import Base Lex Num_Model StrLib_Model StrLib_Spec Env_Model Env_Spec Env_Proofs Var_Model Expand_Model Args_Model Args_Spec
  Args_Proofs Path_Proofs Params_Model Params_Spec Params_Proofs Prompt_Model Prompt_Spec.

(** ** Colours *)
Lemma back_ext a b : (forall i, (4 <= i <= 8)%Z -> Z.testbit a i = Z.testbit b i) -> back_of a = back_of b.
Proof. intros H. unfold back_of, bits. rewrite !H by lia. reflexivity. Qed.
Lemma fore_ext a b : (forall i, (0 <= i <= 3)%Z \/ i = 9%Z -> Z.testbit a i = Z.testbit b i) -> fore_of a = fore_of b.
Proof. intros H. unfold fore_of, bits. rewrite !H by lia. reflexivity. Qed.

Definition hex_of (c : ascii) : option nat := find_idx (fun d => ceq d (tolower c)) (s2l "0123456789abcdef").
Lemma hex_iff c n : nth_error (s2l "0123456789abcdef") n = Some (tolower c) <-> hex_of c = Some n.
Proof.
  unfold hex_of. generalize (tolower c). intros d. split; intros H.
  - assert (n < 16). { assert (X : nth_error (s2l "0123456789abcdef") n <> None) by congruence. apply nth_error_Some in X. exact X. }
    do 16 (destruct n as [|n]; [injection H as <-; reflexivity|]). lia.
  - apply find_idx_Some in H. destruct H as (c' & H1 & H2 & _). apply ceq_true in H2. congruence.
Qed.
Lemma hex_lt c n : hex_of c = Some n -> n < 16.
Proof.
  intros H. apply hex_iff in H. assert (X : nth_error (s2l "0123456789abcdef") n <> None) by congruence. apply nth_error_Some in X. exact X.
Qed.
Lemma color_char_ok f cur c :
  color_char f cur c = match hex_of c with Some n => Some (f (Z.of_nat n)) | None => if ceq c "."%char then Some cur else None end.
Proof.
  assert (X : let r := if is_digit c then Some (code c - 48)%Z else if inset (s2l "abcdef") (tolower c) then Some (10 + code (tolower c) - 97)%Z else None in
    match r, hex_of c with Some a, Some n => (a =? Z.of_nat n)%Z | None, None => true | _, _ => false end = true).
  { revert c. apply ascii_forall. vm_compute. reflexivity. }
  unfold color_char. cbv zeta in X. destruct (is_digit c).
  - destruct (hex_of c); [|discriminate]. apply Z.eqb_eq in X. rewrite X. auto.
  - destruct (inset (s2l "abcdef") (tolower c)).
    + destruct (hex_of c); [|discriminate]. apply Z.eqb_eq in X. rewrite X. auto.
    + destruct (hex_of c); [discriminate|]. auto.
Qed.
Definition range (n : nat) : list Z := map Z.of_nat (seq 0 n).
Lemma range_In n z : (0 <= z < Z.of_nat n)%Z -> In z (range n).
Proof. intros H. unfold range. apply in_map_iff. exists (Z.to_nat z). split; [lia|]. apply in_seq. lia. Qed.
Definition hue_eqb (a b : hue) : bool := match a, b with Default, Default => true | Hue n, Hue m => (n =? m)%Z | _, _ => false end.
Lemma hue_eqb_true a b : hue_eqb a b = true -> a = b.
Proof. destruct a, b; cbn; intros H; try discriminate; auto. apply Z.eqb_eq in H. congruence. Qed.

Lemma land_bits a m i : (0 <= i)%Z -> Z.testbit (Z.land a m) i = Z.testbit a i && Z.testbit m i.
Proof. intros. apply Z.land_spec. Qed.

(** The colours of one side of a code. *)
Definition on_side (lo : bool) (v : Z) : Prop :=
  forall i, (if lo then (4 <= i <= 8)%Z else (0 <= i <= 3)%Z \/ i = 9%Z) -> Z.testbit v i = false.
Lemma paint_back n : n < 16 -> back_of (BACKGROUND_COLOR (Z.of_nat n)) = Hue (Z.of_nat n) /\ on_side false (BACKGROUND_COLOR (Z.of_nat n)).
Proof.
  intros H. split.
  - apply hue_eqb_true. revert H. do 16 (destruct n as [|n]; [intros; vm_compute; reflexivity|]). lia.
  - intros i [I|I].
    + assert (X : In i [0; 1; 2; 3]%Z) by (cbn; lia). revert X. do 16 (destruct n as [|n]; [intros; repeat (destruct X as [<-|X]; [vm_compute; reflexivity|]); destruct X|]). lia.
    + subst i. revert H. do 16 (destruct n as [|n]; [intros; vm_compute; reflexivity|]). lia.
Qed.
Lemma paint_fore n : n < 16 -> fore_of (FOREGROUND_COLOR (Z.of_nat n)) = Hue (Z.of_nat n) /\ on_side true (FOREGROUND_COLOR (Z.of_nat n)).
Proof.
  intros H. split.
  - apply hue_eqb_true. revert H. do 16 (destruct n as [|n]; [intros; vm_compute; reflexivity|]). lia.
  - intros i I. assert (X : In i [4; 5; 6; 7; 8]%Z) by (cbn; lia). revert X.
    do 16 (destruct n as [|n]; [intros; repeat (destruct X as [<-|X]; [vm_compute; reflexivity|]); destruct X|]). lia.
Qed.
Lemma mask_bit a m i b : (0 <= i)%Z -> Z.testbit m i = b -> Z.testbit (Z.land a m) i = if b then Z.testbit a i else false.
Proof. intros I <-. rewrite land_bits by auto. destruct (Z.testbit m i); [apply andb_true_r|apply andb_false_r]. Qed.
Lemma keep_back col : back_of (PBAT_GET_BACKGROUND col) = back_of col /\ on_side false (PBAT_GET_BACKGROUND col).
Proof.
  unfold PBAT_GET_BACKGROUND. split.
  - apply back_ext. intros i I. assert (X : In i [4; 5; 6; 7; 8]%Z) by (cbn; lia).
    rewrite (mask_bit col 496 i true); [auto|lia|]. repeat (destruct X as [<-|X]; [reflexivity|]). destruct X.
  - intros i I. assert (X : In i [0; 1; 2; 3; 9]%Z) by (cbn; lia).
    rewrite (mask_bit col 496 i false); [auto|lia|]. repeat (destruct X as [<-|X]; [reflexivity|]). destruct X.
Qed.
Lemma keep_fore col : fore_of (PBAT_GET_FOREGROUND col) = fore_of col /\ on_side true (PBAT_GET_FOREGROUND col).
Proof.
  unfold PBAT_GET_FOREGROUND. split.
  - apply fore_ext. intros i I. assert (X : In i [0; 1; 2; 3; 9]%Z) by (cbn; lia).
    rewrite (mask_bit col 527 i true); [auto|lia|]. repeat (destruct X as [<-|X]; [reflexivity|]). destruct X.
  - intros i I. assert (X : In i [4; 5; 6; 7; 8]%Z) by (cbn; lia).
    rewrite (mask_bit col 527 i false); [auto|lia|]. repeat (destruct X as [<-|X]; [reflexivity|]). destruct X.
Qed.
Lemma lor_sides f b : on_side true f -> on_side false b -> back_of (Z.lor f b) = back_of b /\ fore_of (Z.lor f b) = fore_of f.
Proof.
  intros F B. split.
  - apply back_ext. intros i I. rewrite Z.lor_spec, (F i) by auto. auto.
  - apply fore_ext. intros i I. rewrite Z.lor_spec, (B i) by auto. apply orb_false_r.
Qed.

Lemma picks_back col c : match color_char BACKGROUND_COLOR (PBAT_GET_BACKGROUND col) c with
  | Some b => picks (back_of col) c (back_of b) /\ on_side false b
  | None => forall h, ~ picks (back_of col) c h end.
Proof.
  rewrite color_char_ok. destruct (hex_of c) as [n|] eqn:E.
  - destruct (paint_back n) as [-> S]; [eapply hex_lt; eauto|]. split; auto. constructor. apply hex_iff. auto.
  - destruct (ceq c "."%char) eqn:D.
    + apply ceq_true in D. subst c. destruct (keep_back col) as [-> S]. split; auto. constructor.
    + intros h H. destruct H as [c n H|]; [apply hex_iff in H; congruence|]. rewrite ceq_refl in D. discriminate.
Qed.
Lemma picks_fore col c : match color_char FOREGROUND_COLOR (PBAT_GET_FOREGROUND col) c with
  | Some b => picks (fore_of col) c (fore_of b) /\ on_side true b
  | None => forall h, ~ picks (fore_of col) c h end.
Proof.
  rewrite color_char_ok. destruct (hex_of c) as [n|] eqn:E.
  - destruct (paint_fore n) as [-> S]; [eapply hex_lt; eauto|]. split; auto. constructor. apply hex_iff. auto.
  - destruct (ceq c "."%char) eqn:D.
    + apply ceq_true in D. subst c. destruct (keep_fore col) as [-> S]. split; auto. constructor.
    + intros h H. destruct H as [c n H|]; [apply hex_iff in H; congruence|]. rewrite ceq_refl in D. discriminate.
Qed.
Lemma picks_fun cur c h h' : picks cur c h -> picks cur c h' -> h = h'.
Proof.
  destruct 1 as [c n H|]; inversion 1 as [c' m H' |]; subst; auto.
  - apply hex_iff in H, H'. congruence.
  - apply hex_iff in H. discriminate.
  - match goal with X : nth_error _ _ = _ |- _ => apply hex_iff in X; discriminate end.
Qed.
Lemma chooses_fun col c B F B' F' : chooses col c B F -> chooses col c B' F' -> B = B' /\ F = F'.
Proof.
  destruct 1 as [a b B F H1 H2|b F H]; inversion 1; subst; split; eauto using picks_fun.
  destruct (Z.testbit col 5); eauto using picks_fun.
Qed.
Lemma color_code_ok col c : match pBat_GetColorCode col c with
  | Some k => chooses col c (back_of k) (fore_of k)
  | None => forall B F, ~ chooses col c B F end.
Proof.
  destruct c as [|a [|b [|x r]]]; cbn [pBat_GetColorCode].
  - intros B F H. inversion H.
  - pose proof (picks_fore col a) as P. destruct (color_char FOREGROUND_COLOR _ a) as [f|].
    + destruct P as [P S]. set (b := Z.shiftl (PBAT_GET_BACKGROUND col) 4).
      assert (SB : forall i, (0 <= i)%Z -> Z.testbit b i = if (4 <=? i)%Z then Z.testbit (PBAT_GET_BACKGROUND col) (i - 4) else false).
      { intros i I. unfold b. destruct (4 <=? i)%Z eqn:L; [rewrite Z.shiftl_spec by auto; auto|rewrite Z.shiftl_spec_low by lia; auto]. }
      assert (SV : forall i v, (0 <= i)%Z -> (4 <= i)%Z -> Z.testbit 496 (i - 4) = v -> Z.testbit b i = if v then Z.testbit col (i - 4) else false).
      { intros i v I I4 V. rewrite SB by auto. destruct (4 <=? i)%Z eqn:L; [|lia]. apply mask_bit; auto. lia. }
      assert (BK : back_of (Z.lor f b) = if Z.testbit col 4 then Default else Hue 0).
      { unfold back_of, bits. rewrite !Z.lor_spec, !S by lia.
        rewrite (SV 8%Z true), (SV 7%Z false), (SV 6%Z false), (SV 5%Z false), (SV 4%Z false) by (lia || reflexivity). reflexivity. }
      assert (FK : fore_of (Z.lor f b) = if Z.testbit col 5 then Default else fore_of f).
      { unfold fore_of, bits. rewrite !Z.lor_spec. rewrite (SV 9%Z true) by (lia || reflexivity).
        rewrite (SB 0%Z), (SB 1%Z), (SB 2%Z), (SB 3%Z) by lia. change (9 - 4)%Z with 5%Z.
        change (4 <=? 0)%Z with false. change (4 <=? 1)%Z with false. change (4 <=? 2)%Z with false. change (4 <=? 3)%Z with false. cbv iota.
        rewrite !orb_false_r. destruct (Z.testbit f 9), (Z.testbit col 5); reflexivity. }
      rewrite BK, FK. constructor. auto.
    + intros B F H. inversion H; subst. eapply P; eauto.
  - pose proof (picks_back col a) as P. destruct (color_char BACKGROUND_COLOR _ a) as [k|].
    + pose proof (picks_fore col b) as Q. destruct (color_char FOREGROUND_COLOR _ b) as [f|].
      * destruct P as [P1 P2]. destruct Q as [Q1 Q2]. destruct (lor_sides f k Q2 P2) as [-> ->]. constructor; auto.
      * intros B F H. inversion H; subst. eapply Q; eauto.
    + intros B F H. inversion H; subst. eapply P; eauto.
  - intros B F H. inversion H.
Qed.

(** The sequences printed depend on ten bits. *)
Lemma lxor_land a b m : Z.land (Z.lxor a b) m = Z.lxor (Z.land a m) (Z.land b m).
Proof.
  apply Z.bits_inj'. intros i I. rewrite Z.land_spec, !Z.lxor_spec, !Z.land_spec.
  destruct (Z.testbit a i), (Z.testbit b i), (Z.testbit m i); reflexivity.
Qed.
Lemma land_low c m : Z.land 1023 m = m -> Z.land (Z.land c 1023) m = Z.land c m.
Proof. intros H. rewrite <- Z.land_assoc, H. auto. Qed.
Lemma console_low t c : pBat_SetConsoleTextColor t c = pBat_SetConsoleTextColor t (Z.land c 1023).
Proof.
  unfold pBat_SetConsoleTextColor, PBAT_FOREGROUND_DEFAULT, PBAT_BACKGROUND_DEFAULT. destruct t; auto.
  rewrite (land_low c 8) by reflexivity. destruct (Z.land c 8 =? 0)%Z.
  - rewrite (land_low c 128) by reflexivity. destruct (Z.land c 128 =? 0)%Z.
    + rewrite !land_low by reflexivity. reflexivity.
    + rewrite !lxor_land, !land_low by reflexivity. reflexivity.
  - rewrite !lxor_land. rewrite (land_low c 128) by reflexivity. destruct (Z.lxor (Z.land c 128) (Z.land 8 128) =? 0)%Z.
    + rewrite !lxor_land, !land_low by reflexivity. reflexivity.
    + rewrite !lxor_land, !land_low by reflexivity. reflexivity.
Qed.
Lemma back_low c : back_of (Z.land c 1023) = back_of c.
Proof.
  apply back_ext. intros i I. assert (X : In i [4; 5; 6; 7; 8]%Z) by (cbn; lia).
  rewrite (mask_bit c 1023 i true); [auto|lia|]. repeat (destruct X as [<-|X]; [reflexivity|]). destruct X.
Qed.
Lemma fore_low c : fore_of (Z.land c 1023) = fore_of c.
Proof.
  apply fore_ext. intros i I. assert (X : In i [0; 1; 2; 3; 9]%Z) by (cbn; lia).
  rewrite (mask_bit c 1023 i true); [auto|lia|]. repeat (destruct X as [<-|X]; [reflexivity|]). destruct X.
Qed.
Lemma console_ok c : pBat_SetConsoleTextColor true c = paint (back_of c) (fore_of c).
Proof.
  rewrite console_low, <- (back_low c), <- (fore_low c).
  assert (X : forallb (fun c => streqb (pBat_SetConsoleTextColor true c) (paint (back_of c) (fore_of c))) (range (Z.to_nat 1024)) = true)
    by (vm_compute; reflexivity).
  rewrite forallb_forall in X. apply streqb_true. apply X. apply range_In.
  change 1023%Z with (Z.ones 10). rewrite Z.land_ones by lia. rewrite Z2Nat.id by lia. apply Z.mod_pos_bound. reflexivity.
Qed.

(** ** Prompt strings *)
Lemma stands_fun p k v v' : stands p k v -> stands p k v' -> v = v'.
Proof.
  destruct 1 as [k v H| | | |c r H|v H|v H|]; inversion 1 as [k' v2 H'| | | |c' r' H'|v2 H'|v2 H'|]; subst; auto; try congruence.
  all: repeat match goal with X : In _ prompt_chars |- _ => cbn in X end.
  all: repeat match goal with X : _ \/ _ |- _ => destruct X as [X|X] end; try tauto; try congruence.
  all: rewrite H in H'; injection H' as ->; auto.
Qed.
Lemma stands_code p k v : stands p k v -> In k codes /\ k <> "x"%char.
Proof.
  destruct 1 as [k v H| | | |c r H|v H|v H|]; try (split; [cbn; tauto|discriminate]).
  cbn in H. repeat (destruct H as [H|H]; [injection H as <- <-; split; [cbn; tauto|discriminate]|]). destruct H.
Qed.
Lemma color_at_fun t k s k' s' : color_at t k s -> color_at t k' s' -> k = k' /\ s = s'.
Proof. destruct 1; inversion 1; subst; auto; congruence. Qed.
Lemma color_text_fun p c v v' : color_text p c v -> color_text p c v' -> v = v'.
Proof.
  destruct 1 as [B F T C|T|W]; inversion 1 as [B' F' T' C'|T'|W']; subst; auto; try congruence.
  - destruct (chooses_fun _ _ _ _ _ _ C C') as [-> ->]. auto.
  - exfalso. eapply W'; eauto.
  - exfalso. eapply W; eauto.
Qed.
Lemma x_code : In "x"%char codes.
Proof. cbn. tauto. Qed.

Lemma prompts_fun p s o : prompts p s o -> forall o', prompts p s o' -> o = o'.
Proof.
  induction 1 as [|c s o C H IH| |c v s o S H IH|c s o N H IH|c t k s v o X A T H IH|c t o X A H IH]; intros o' H'.
  - inversion H'; auto.
  - inversion H'; subst; try congruence. f_equal. auto.
  - inversion H'; subst; congruence.
  - destruct (stands_code _ _ _ S) as [S1 S2].
    inversion H' as [|c' s' o2 C' H2| |c' v' s' o2 S' H2|c' s' o2 N' H2|c' t' k' s' v' o2 X' A' T' H2|c' t' o2 X' A' H2]; subst; try congruence; try tauto.
    rewrite (stands_fun _ _ _ _ S S'). f_equal. auto.
  - inversion H' as [|c' s' o2 C' H2| |c' v' s' o2 S' H2|c' s' o2 N' H2|c' t' k' s' v' o2 X' A' T' H2|c' t' o2 X' A' H2]; subst; auto; try congruence.
    + apply stands_code in S'. tauto.
    + rewrite X' in N. pose proof x_code. tauto.
    + rewrite X' in N. pose proof x_code. tauto.
  - inversion H' as [|c' s' o2 C' H2| |c' v' s' o2 S' H2|c' s' o2 N' H2|c' t' k' s' v' o2 X' A' T' H2|c' t' o2 X' A' H2]; subst; auto; try congruence.
    + apply stands_code in S'. tauto.
    + rewrite X in N'. pose proof x_code. tauto.
    + destruct (color_at_fun _ _ _ _ _ A A') as [<- <-]. rewrite (color_text_fun _ _ _ _ T T'). f_equal. auto.
    + exfalso. eapply A'; eauto.
  - inversion H' as [|c' s' o2 C' H2| |c' v' s' o2 S' H2|c' s' o2 N' H2|c' t' k' s' v' o2 X' A' T' H2|c' t' o2 X' A' H2]; subst; auto; try congruence.
    + apply stands_code in S'. tauto.
    + rewrite X in N'. pose proof x_code. tauto.
    + exfalso. eapply A; eauto.
Qed.

Lemma prompts_text p pre s o : ~ In "$"%char pre -> prompts p s o -> prompts p (pre ++ s) (pre ++ o).
Proof.
  intros N H. induction pre as [|c pre IH]; auto. cbn [app]. apply pr_text; [intros ->; apply N; left; auto|].
  apply IH. intros X. apply N. right. auto.
Qed.

Lemma nonul_b n : forallb (fun c => negb (ceq c "000"%char)) n = true -> nonul n.
Proof. intros H X. rewrite forallb_forall in H. specialize (H _ X). rewrite ceq_refl in H. discriminate. Qed.
Lemma env_ready p n : ready p -> nonul n -> exists v, pBat_GetEnv (vw_env (p_var p)) n (p_ka p) = Ret v.
Proof. intros (_ & sg & T & A) N. erewrite get_ok by eauto. eauto. Qed.

Lemma color_ok p c : color_text p c (prompt_color p c).
Proof.
  unfold prompt_color. pose proof (color_code_ok (p_col p) c) as H. destruct (pBat_GetColorCode (p_col p) c) as [k|].
  - destruct (p_tty p) eqn:T.
    + rewrite console_ok. apply ct_color; auto.
    + apply ct_file. auto.
  - apply ct_wrong. auto.
Qed.

Ltac inlist := unfold prompt_chars; repeat (first [left; reflexivity|right]).
Lemma code_ok p c r : ready p ->
  exists o s, prompt_code p (c :: r) = Ret (o, s) /\ length s <= length r /\
    forall t, prompts p s t -> prompts p ("$"%char :: c :: r) (o ++ t).
Proof.
  intros R. unfold prompt_code. set (k := tolower c).
  assert (K : forall x v, k = x -> stands p x v -> forall t, prompts p r t -> prompts p ("$"%char :: c :: r) (v ++ t)).
  { intros x v E S t H. apply pr_code; auto. fold k. rewrite E. auto. }
  assert (U : forall x, k = x -> inset codes x = false -> forall t, prompts p r t -> prompts p ("$"%char :: c :: r) ([] ++ t)).
  { intros x E N t H. apply pr_unknown; auto. fold k. rewrite E. intros X. apply inset_in in X. congruence. }
  Ltac plain k x tac :=
    destruct (ceq k x) eqn:?E; [match goal with E : ceq k x = true |- _ => apply ceq_true in E end; tac|].
  Ltac done_ K := do 2 eexists; split; [reflexivity|split; [apply Nat.le_refl|]]; eapply K; [eassumption|].
  plain k "a"%char ltac:(done_ K; apply st_char; inlist).
  plain k "b"%char ltac:(done_ K; apply st_char; inlist).
  plain k "c"%char ltac:(done_ K; apply st_char; inlist).
  plain k "d"%char ltac:(done_ K; constructor).
  plain k "e"%char ltac:(done_ K; apply st_char; inlist).
  plain k "f"%char ltac:(done_ K; apply st_char; inlist).
  plain k "g"%char ltac:(done_ K; apply st_char; inlist).
  plain k "h"%char ltac:(done_ K; apply st_char; inlist).
  plain k "l"%char ltac:(done_ K; apply st_char; inlist).
  plain k "m"%char ltac:(done_ U; reflexivity).
  plain k "n"%char ltac:(idtac).
  { destruct (vw_cd (p_var p)) as [|h d] eqn:CD; [destruct R; congruence|]. done_ K. eapply st_root; eauto. }
  plain k "p"%char ltac:(done_ K; constructor).
  plain k "q"%char ltac:(done_ K; apply st_char; inlist).
  plain k "s"%char ltac:(done_ K; apply st_char; inlist).
  plain k "t"%char ltac:(done_ K; constructor).
  plain k "u"%char ltac:(idtac).
  { unfold prompt_env. destruct (env_ready p (s2l "USERNAME") R) as [v V]; [apply nonul_b; reflexivity|].
    rewrite V. cbn [bind]. done_ K. constructor. auto. }
  plain k "v"%char ltac:(done_ U; reflexivity).
  plain k "w"%char ltac:(idtac).
  { unfold prompt_env. destruct (env_ready p (s2l "USERDOMAIN") R) as [v V]; [apply nonul_b; reflexivity|].
    rewrite V. cbn [bind]. done_ K. constructor. auto. }
  destruct (ceq k "x"%char) eqn:EX; [apply ceq_true in EX|].
  { assert (W : (forall k0 s, ~ color_at r k0 s) ->
      exists o s, Ret ([], advance r) = Ret (o, s) /\ length s <= length r /\ forall t, prompts p s t -> prompts p ("$"%char :: c :: r) (o ++ t)).
    { intros N. exists [], (advance r). split; auto. split; [destruct r; cbn; auto|]. intros t H. apply pr_broken; [exact EX|exact N|]. destruct r; exact H. }
    destruct r as [|a [|b t]]; [apply W; intros k0 s X; inversion X|apply W; intros k0 s X; inversion X|].
    destruct (ceq b ";"%char) eqn:B.
    - apply ceq_true in B. subst b. do 2 eexists. split; [reflexivity|]. split; [cbn; auto|]. intros o H.
      eapply pr_color; eauto; [constructor|apply color_ok].
    - apply ceq_false in B. destruct t as [|d t]; [apply W; intros k0 s X; inversion X; congruence|].
      destruct (ceq d ";"%char) eqn:D; [|apply ceq_false in D; apply W; intros k0 s X; inversion X; congruence].
      apply ceq_true in D. subst d. do 2 eexists. split; [reflexivity|]. split; [cbn; auto|]. intros o H.
      eapply pr_color; eauto; [constructor; auto|apply color_ok]. }
  plain k "_"%char ltac:(done_ K; apply st_char; inlist).
  plain k "$"%char ltac:(done_ K; apply st_char; inlist).
  plain k "+"%char ltac:(done_ K; constructor).
  exists [], r. split; auto. split; auto. apply (U k); auto.
  repeat match goal with E : ceq k _ = false |- _ => revert E end. generalize k. clear. intros k.
  assert (X : implb (inset codes k) (existsb (ceq k) codes) = true).
  { revert k. apply ascii_forall. vm_compute. reflexivity. }
  intros. destruct (inset codes k); auto. cbn [implb] in X. exfalso.
  assert (Y : existsb (ceq k) codes = false).
  { unfold codes. cbn [s2l list_ascii_of_string existsb]. repeat match goal with H : ceq k _ = false |- _ => rewrite H; clear H end. reflexivity. }
  congruence.
Qed.

Lemma prompt_ok p fuel s : ready p -> length s < fuel -> exists o, prompt_loop fuel p s = Ret o /\ prompts p s o.
Proof.
  intros R. revert s. induction fuel as [|f IH]; intros s L; [lia|]. cbn [prompt_loop].
  destruct (strchr s "$"%char) as [i|] eqn:E.
  - unfold strchr in E. apply find_idx_Some in E as E'. destruct E' as (c & N1 & N2 & N3). apply ceq_true in N2.
    assert (S : s = firstn i s ++ "$"%char :: skipn (Datatypes.S i) s).
    { rewrite <- (firstn_skipn i s) at 1. f_equal. clear -N1 N2. revert i N1. induction s as [|h s IH]; intros [|i] N1; try discriminate.
      - cbn in N1. injection N1 as ->. cbn. congruence.
      - cbn [skipn]. apply IH. auto. }
    assert (F : ~ In "$"%char (firstn i s)).
    { intros X. apply In_nth_error in X. destruct X as [j X]. assert (J : j < i).
      { assert (Y : j < length (firstn i s)) by (apply nth_error_Some; congruence). rewrite firstn_length in Y. lia. }
      assert (X' : nth_error s j = Some "$"%char).
      { rewrite <- (firstn_skipn i s). rewrite nth_error_app1; auto. apply nth_error_Some. congruence. }
      specialize (N3 j _ J X'). rewrite ceq_refl in N3. discriminate. }
    destruct (skipn (Datatypes.S i) s) as [|c' r] eqn:K.
    + cbn [prompt_code bind]. destruct f; [apply find_idx_lt in E; lia|]. cbn [prompt_loop strchr find_idx bind].
      eexists. split; [reflexivity|]. rewrite S at 1. apply prompts_text; auto. apply pr_lone.
    + destruct (code_ok p c' r R) as (o & s' & -> & Ls & H). cbn [bind].
      assert (LL : length s' < f).
      { assert (X : length s = length (firstn i s ++ "$"%char :: c' :: r)) by congruence. rewrite app_length in X. cbn [length] in X. lia. }
      destruct (IH s' LL) as (t & -> & P). cbn [bind]. eexists. split; [reflexivity|]. rewrite S at 1. apply prompts_text; auto.
  - exists s. split; auto. unfold strchr in E. rewrite find_idx_None in E.
    rewrite <- (app_nil_r s) at 1. rewrite <- (app_nil_r s) at 2. apply prompts_text; [|constructor].
    intros X. specialize (E _ X). rewrite ceq_refl in E. discriminate.
Qed.

(** ** Parameters *)
Lemma written_next w s l old : written w s l ->
  match l with
  | [] => pBat_GetNextParameterEs w old s = Ret (old, None, w)
  | v :: l' => exists rest, pBat_GetNextParameterEs w old s = Ret (v, Some rest, w) /\ written w rest l'
  end.
Proof.
  destruct 1 as [s B|a raw rest t v l A N F P B C D W]; [apply next_end; auto|].
  exists rest. split; auto. eapply next_written; eauto.
Qed.
Lemma stricmp_name v s : nonul v -> nonul s -> (stricmp v s =? 0)%Z = true <-> same_name v s.
Proof. intros. apply stricmp_eq_lower; auto. Qed.
Lemma punct_iff c : ispunct c = true <-> In c punctuation.
Proof. apply inset_in. Qed.

Lemma same_range n m : n < 16 -> m < 16 ->
  (Z.shiftr (Z.land 240 (Z.lor (FOREGROUND_COLOR (Z.of_nat m)) (BACKGROUND_COLOR (Z.of_nat n)))) 4 =?
   Z.land 15 (Z.lor (FOREGROUND_COLOR (Z.of_nat m)) (BACKGROUND_COLOR (Z.of_nat n))))%Z = (n =? m).
Proof.
  intros N M.
  assert (X : forallb (fun n => forallb (fun m => Bool.eqb (Z.shiftr (Z.land 240 (Z.lor (FOREGROUND_COLOR (Z.of_nat m)) (BACKGROUND_COLOR (Z.of_nat n)))) 4 =?
     Z.land 15 (Z.lor (FOREGROUND_COLOR (Z.of_nat m)) (BACKGROUND_COLOR (Z.of_nat n))))%Z (n =? m)) (seq 0 16)) (seq 0 16) = true) by (vm_compute; reflexivity).
  rewrite forallb_forall in X. assert (I : In n (seq 0 16)) by (apply in_seq; lia). assert (J : In m (seq 0 16)) by (apply in_seq; lia).
  pose proof (X n I) as Y. rewrite forallb_forall in Y. apply Bool.eqb_prop. exact (Y m J).
Qed.
