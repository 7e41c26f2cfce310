(** Edit_Proofs.v -- lemmas for Edit_Props. *)

From Verif Require Import Base Edit_Model Edit_Spec.

Notation bytes := (@concat ascii).

(** * UTF-8 *)
Lemma code_range a : (0 <= code a < 256)%Z.
Proof. unfold code. pose proof (nat_ascii_bounded a). unfold nat_of_ascii in *. lia. Qed.
Lemma all_codes (P : Z -> bool) : forallb P (map Z.of_nat (seq 0 256)) = true -> forall a, P (code a) = true.
Proof.
  intros H a. rewrite forallb_forall in H. apply H. replace (code a) with (Z.of_nat (nat_of_ascii a)) by (unfold code, nat_of_ascii; lia). apply in_map. apply in_seq. pose proof (nat_ascii_bounded a). lia.
Qed.
Lemma lead2 a : (Z.land (code a) 224 =? 192)%Z = ((192 <=? code a) && (code a <? 224))%Z.
Proof. apply eqb_prop. apply (all_codes (fun x => eqb (Z.land x 224 =? 192) ((192 <=? x) && (x <? 224)))%Z). vm_compute. reflexivity. Qed.
Lemma lead3 a : (Z.land (code a) 240 =? 224)%Z = ((224 <=? code a) && (code a <? 240))%Z.
Proof. apply eqb_prop. apply (all_codes (fun x => eqb (Z.land x 240 =? 224) ((224 <=? x) && (x <? 240)))%Z). vm_compute. reflexivity. Qed.
Lemma lead4 a : (Z.land (code a) 248 =? 240)%Z = ((240 <=? code a) && (code a <? 248))%Z.
Proof. apply eqb_prop. apply (all_codes (fun x => eqb (Z.land x 248 =? 240) ((240 <=? x) && (x <? 248)))%Z). vm_compute. reflexivity. Qed.
Lemma cont_b a : cont a = ((128 <=? code a) && (code a <? 192))%Z.
Proof. apply eqb_prop. apply (all_codes (fun x => eqb (Z.land x 192 =? 128) ((128 <=? x) && (x <? 192)))%Z). vm_compute. reflexivity. Qed.
Lemma low_b a : (128 <= code a < 192)%Z -> low a = (code a - 128)%Z.
Proof.
  intros H. pose proof (all_codes (fun x => negb ((128 <=? x) && (x <? 192)) || (Z.land x 63 =? x - 128))%Z eq_refl a) as E. cbv beta in E.
  rewrite (proj2 (Z.leb_le _ _)), (proj2 (Z.ltb_lt _ _)) in E by lia. apply Z.eqb_eq in E. exact E.
Qed.
Lemma land31 a : (192 <= code a < 224)%Z -> Z.land (code a) 31 = (code a - 192)%Z.
Proof.
  intros H. pose proof (all_codes (fun x => negb ((192 <=? x) && (x <? 224)) || (Z.land x 31 =? x - 192))%Z eq_refl a) as E. cbv beta in E.
  rewrite (proj2 (Z.leb_le _ _)), (proj2 (Z.ltb_lt _ _)) in E by lia. apply Z.eqb_eq in E. exact E.
Qed.
Lemma land15 a : (224 <= code a < 240)%Z -> Z.land (code a) 15 = (code a - 224)%Z.
Proof.
  intros H. pose proof (all_codes (fun x => negb ((224 <=? x) && (x <? 240)) || (Z.land x 15 =? x - 224))%Z eq_refl a) as E. cbv beta in E.
  rewrite (proj2 (Z.leb_le _ _)), (proj2 (Z.ltb_lt _ _)) in E by lia. apply Z.eqb_eq in E. exact E.
Qed.
Lemma land7 a : (240 <= code a < 248)%Z -> Z.land (code a) 7 = (code a - 240)%Z.
Proof.
  intros H. pose proof (all_codes (fun x => negb ((240 <=? x) && (x <? 248)) || (Z.land x 7 =? x - 240))%Z eq_refl a) as E. cbv beta in E.
  rewrite (proj2 (Z.leb_le _ _)), (proj2 (Z.ltb_lt _ _)) in E by lia. apply Z.eqb_eq in E. exact E.
Qed.
Lemma lor_add x y n : (0 <= n)%Z -> (0 <= y < 2 ^ n)%Z -> Z.lor (Z.shiftl x n) y = (x * 2 ^ n + y)%Z.
Proof.
  intros N Y. rewrite <- Z.shiftl_mul_pow2 by auto. rewrite Z.add_nocarry_lxor; [symmetry; apply Z.lxor_lor|];
  (apply Z.bits_inj'; intros i I; rewrite Z.land_spec, Z.bits_0; destruct (Z.lt_ge_cases i n) as [L|L];
   [rewrite Z.shiftl_spec_low by lia; reflexivity|]; destruct (Z.eq_dec y 0) as [->|Ny]; [rewrite Z.bits_0; apply andb_false_r|];
   rewrite (Z.bits_above_log2 y i); [apply andb_false_r|lia|]; assert (Z.log2 y < n)%Z by (apply Z.log2_lt_pow2; lia); lia).
Qed.

(** Split on the tests of the first byte *)
Lemma decode1 a rest : (code a < 128)%Z -> utf8BytesToCodePoint (a :: rest) = Some (code a, 1).
Proof. intros H. cbn [utf8BytesToCodePoint]. rewrite (proj2 (Z.ltb_lt _ _)) by lia. reflexivity. Qed.
Ltac zb := repeat match goal with
  | |- context [(?x <? ?y)%Z] => first [replace (x <? y)%Z with true by (symmetry; apply Z.ltb_lt; lia) | replace (x <? y)%Z with false by (symmetry; apply Z.ltb_ge; lia)]
  | |- context [(?x <=? ?y)%Z] => first [replace (x <=? y)%Z with true by (symmetry; apply Z.leb_le; lia) | replace (x <=? y)%Z with false by (symmetry; apply Z.leb_gt; lia)]
  end.
Lemma enc_decode s cp rest : encodes s cp -> utf8BytesToCodePoint (s ++ rest) = Some (cp, length s).
Proof.
  intros E. destruct E; cbn [app utf8BytesToCodePoint]; rewrite ?lead2, ?lead3, ?lead4; zb; cbn [andb length]; [reflexivity|..].
  - rewrite land31, !low_b by lia. rewrite lor_add by lia. reflexivity.
  - rewrite land15, !low_b by lia. rewrite <- Z.lor_assoc. rewrite (lor_add (code b - 128)) by lia. rewrite lor_add by lia. do 2 f_equal. lia.
  - rewrite land7, !low_b by lia. rewrite <- !Z.lor_assoc. rewrite (lor_add (code c - 128)) by lia. rewrite (lor_add (code b - 128)) by lia. rewrite lor_add by lia. do 2 f_equal. lia.
Qed.
Lemma enc_cons s cp : encodes s cp -> exists a cs, s = a :: cs /\ cont a = false /\ Forall (fun c => cont c = true) cs.
Proof.
  intros E. destruct E; (eexists _, _; split; [reflexivity|split; [rewrite cont_b; zb; auto using andb_false_r|repeat constructor; rewrite cont_b; zb; reflexivity]]).
Qed.
Lemma enc_fun s cp cp' : encodes s cp -> encodes s cp' -> cp = cp'.
Proof. intros E E'. apply (enc_decode _ _ []) in E, E'. congruence. Qed.
Lemma enc_pos s cp : encodes s cp -> 0 < length s.
Proof. intros E. destruct E; cbn; lia. Qed.
Lemma conts_rev cs a rest : Forall (fun c => cont c = true) cs -> cont a = false -> conts (rev cs ++ a :: rest) = length cs.
Proof.
  intros F A. rewrite <- (rev_length cs). apply Forall_rev in F. induction F as [|c l C F IH]; cbn [app conts length]; [rewrite A; auto|]. rewrite C, IH. reflexivity.
Qed.

Section Edit.
Variable comb : Z -> bool.
Variable buflen : nat.
Notation mark := (mark comb).
Notation base := (base comb).
Notation character := (character comb).
Notation text := (text comb).
Definition point (s : cstr) : Prop := exists cp, encodes s cp.
Definition starts (l : list cstr) : Prop := match l with [] => True | b :: _ => base b end.

Lemma point_cases s : point s -> mark s \/ base s.
Proof. intros [cp E]. destruct (comb cp) eqn:C; [left|right]; exists cp; auto. Qed.
Lemma mark_point s : mark s -> point s. Proof. intros (cp & E & _). exists cp. auto. Qed.
Lemma base_point s : base s -> point s. Proof. intros (cp & E & _). exists cp. auto. Qed.
Lemma mark_not_base s : mark s -> base s -> False.
Proof. intros (cp & E & C) (cp' & E' & C'). pose proof (enc_fun _ _ _ E E'). congruence. Qed.

Lemma split_marks l : Forall point l -> exists ms r, l = ms ++ r /\ Forall mark ms /\ Forall point r /\ starts r.
Proof.
  induction 1 as [|c l P F (ms & r & -> & M & Pr & St)]; [exists [], []; repeat split; constructor|].
  destruct (point_cases c P) as [C|C]; [exists (c :: ms), r; repeat split; auto|]. exists [], (c :: ms ++ r). repeat split; auto.
Qed.
Lemma text_iff l : text l <-> Forall point l /\ starts l.
Proof.
  split.
  - intros (cs & F & ->). induction F as [|c cs (b & ms & -> & B & M) F [IH1 IH2]]; [split; constructor|]. cbn [concat]. split; [|exact B].
    apply Forall_app. split; auto. constructor; [apply base_point; auto|]. eapply Forall_impl; [|exact M]. apply mark_point.
  - intros [P St]. remember (length l) as n. assert (L : length l <= n) by lia. clear Heqn. revert l L P St. induction n; intros l L P St.
    { destruct l; [|cbn in L; lia]. exists []. split; constructor. }
    destruct l as [|b l]; [exists []; split; constructor|]. inversion P; subst. destruct (split_marks l) as (ms & r & -> & M & Pr & Sr); auto.
    destruct (IHn r) as (cs & F & E); auto; [cbn in L; rewrite app_length in L; lia|]. exists ((b :: ms) :: cs). split; [constructor; auto; exists b, ms; auto|]. cbn [concat app]. subst. reflexivity.
Qed.
Lemma char_points c : character c -> Forall point c.
Proof. intros C. apply (proj1 (text_iff c)). exists [c]. split; [constructor; auto|]. cbn. rewrite app_nil_r. reflexivity. Qed.

Lemma marks_ok ms : Forall mark ms -> forall r fuel, Forall point r -> starts r -> length (bytes (ms ++ r)) <= fuel -> marks comb fuel (bytes (ms ++ r)) = Ret (length (bytes ms)).
Proof.
  induction 1 as [|m ms (cp & E & C) F IH]; intros r fuel Pr Sr L.
  - cbn [app concat length] in *. destruct r as [|b r]; [cbn; destruct fuel; reflexivity|]. destruct Sr as (cp & E & C). cbn [concat] in *. rewrite app_length in L. pose proof (enc_pos _ _ E).
    destruct fuel; [lia|]. pose proof (enc_decode _ _ (bytes r) E) as D. destruct (b ++ bytes r) eqn:Eb; [destruct b; [cbn in *; lia|discriminate]|]. cbn [marks]. rewrite D, C. reflexivity.
  - cbn [app concat] in *. rewrite app_length in L. pose proof (enc_pos _ _ E). destruct fuel; [lia|]. pose proof (enc_decode _ _ (bytes (ms ++ r)) E) as D.
    destruct (m ++ bytes (ms ++ r)) eqn:Eb; [destruct m; [cbn in *; lia|discriminate]|]. cbn [marks]. rewrite D, C, <- Eb, skipn_app, skipn_all, Nat.sub_diag. cbn [app skipn].
    rewrite IH by (auto; lia). cbn [bind]. rewrite app_length. reflexivity.
Qed.
Lemma next_ok b ms r : base b -> Forall mark ms -> Forall point r -> starts r -> nextCharLen comb (bytes (b :: ms ++ r)) = Ret (length (bytes (b :: ms))).
Proof.
  intros (cp & E & C) M P St. cbn [concat]. unfold nextCharLen. rewrite (enc_decode _ _ _ E), C, skipn_app, skipn_all, Nat.sub_diag. cbn [app skipn].
  rewrite marks_ok by (auto; rewrite !app_length; lia). cbn [bind]. rewrite app_length. reflexivity.
Qed.
Lemma next_char c r : character c -> text r -> nextCharLen comb (bytes (c ++ r)) = Ret (length (bytes c)) /\ 0 < length (bytes c).
Proof.
  intros (b & ms & -> & B & M) T. apply text_iff in T. destruct T. split; [apply next_ok; auto|]. destruct B as (cp & E & _). cbn [concat]. rewrite app_length. apply enc_pos in E. lia.
Qed.
Lemma columns_ok l fuel : text l -> length (bytes l) <= fuel -> columns comb fuel (bytes l) = Ret tt.
Proof.
  intros (cs & F & ->). revert fuel. induction F as [|c cs C F IH]; intros fuel L; [destruct fuel; reflexivity|]. cbn [concat] in *.
  assert (T : text (concat cs)) by (exists cs; auto). destruct (next_char c _ C T) as [N P]. rewrite concat_app, app_length in *.
  destruct fuel; [lia|]. remember (bytes c ++ bytes (concat cs)) as s eqn:Es. destruct s as [|x s]; [apply (f_equal (@length _)) in Es; rewrite app_length in Es; cbn in Es; lia|].
  cbn [columns]. rewrite N. cbn [bind]. destruct (length (bytes c) =? 0) eqn:Z; [apply Nat.eqb_eq in Z; lia|]. rewrite Es, skipn_app, skipn_all, Nat.sub_diag. cbn [app skipn]. apply IH. lia.
Qed.
Lemma refresh_ok l e : text l -> buf e = bytes l -> refreshLine comb e = Ret e.
Proof. intros T E. unfold refreshLine. rewrite E, columns_ok by auto. reflexivity. Qed.

Lemma prev_point c l fuel cp : encodes c cp -> prev comb (S fuel) (rev (l ++ c)) = if comb cp then do r <- prev comb fuel (rev l) ; Ret (option_map (Nat.add (length c)) r) else Ret (Some (length c)).
Proof.
  intros E. destruct (enc_cons _ _ E) as (a & cs & Ec & A & F). assert (K : S (conts (rev (l ++ c))) = length c).
  { rewrite rev_app_distr, Ec. cbn [rev]. rewrite <- app_assoc. cbn [app]. rewrite conts_rev; auto. }
  pose proof (enc_pos _ _ E) as P. cbn [prev]. destruct (rev (l ++ c)) eqn:Er; [apply (f_equal (@length _)) in Er; rewrite rev_length, app_length in Er; cbn in Er; lia|].
  rewrite K, <- Er. rewrite rev_length, app_length. destruct (length l + length c <? length c) eqn:X; [apply Nat.ltb_lt in X; lia|].
  rewrite rev_app_distr, firstn_app, skipn_app, rev_length, Nat.sub_diag, (firstn_all2 (rev c)), (skipn_all2 (rev c)) by (rewrite rev_length; lia). cbn [firstn skipn app]. rewrite app_nil_r, rev_involutive.
  pose proof (enc_decode _ _ [] E) as D. rewrite app_nil_r in D. rewrite D. reflexivity.
Qed.
Lemma prev_ok b ms l fuel : base b -> Forall mark ms -> length ms < fuel -> prev comb fuel (rev (l ++ bytes (b :: ms))) = Ret (Some (length (bytes (b :: ms)))).
Proof.
  intros (cp & E & C). revert fuel. induction ms as [|m ms IH] using rev_ind; intros fuel F L; (destruct fuel; [lia|]).
  - cbn [concat]. rewrite app_nil_r, (prev_point _ _ _ _ E), C. reflexivity.
  - apply Forall_app in F. destruct F as [F Fm]. inversion Fm as [|? ? (cm & Em & Cm) _]; subst. rewrite app_length in L. cbn [length] in L.
    change (b :: ms ++ [m]) with ((b :: ms) ++ [m]). rewrite concat_app. cbn [concat] in *. rewrite app_nil_r, app_assoc, (prev_point _ _ _ _ Em), Cm, IH by (auto; lia). cbn [bind option_map]. rewrite !app_length. do 2 f_equal. lia.
Qed.
Lemma prev_char c l : character c -> prevCharLen comb (rev (l ++ bytes c)) = Ret (length (bytes c)).
Proof.
  intros (b & ms & -> & B & M). unfold prevCharLen. rewrite prev_ok; auto. rewrite rev_length, app_length. cbn [concat]. rewrite app_length. destruct B as (cp & E & _). apply enc_pos in E.
  assert (length ms <= length (bytes ms)); [|lia]. clear -M. induction M as [|m ms (cp & E & _) M IH]; [auto|]. cbn [concat length]. rewrite app_length. apply enc_pos in E. lia.
Qed.

(** * The operations *)
Definition shows (s : state) (e : ed) : Prop :=
  match s with At o x l r n => exists x', hist e = rev o ++ x' :: n /\ (n <> [] -> x' = x) /\ idx e = length n /\
    buf e = bytes (l ++ r) /\ pos e = length (bytes l) /\ text (l ++ r) /\ text r /\ nonul (bytes (l ++ r)) /\ length (bytes (l ++ r)) <= buflen end.
Definition op (k : press) (e : ed) : outcome ed :=
  match k with
  | Type_ c => linenoiseEditInsert comb buflen e c
  | Left => linenoiseEditMoveLeft comb e
  | Right => linenoiseEditMoveRight comb e
  | Home => linenoiseEditMoveHome comb e
  | End_ => linenoiseEditMoveEnd comb e
  | Backspace => linenoiseEditBackspace comb e
  | Delete | CtrlD => linenoiseEditDelete comb e
  | Up => linenoiseEditHistoryNext comb buflen e true
  | Down => linenoiseEditHistoryNext comb buflen e false
  | KillLine => refreshLine comb (with_line e [] 0)
  | KillRest => refreshLine comb (with_line e (before e) (pos e))
  | KillWord => linenoiseEditDeletePrevWord comb e
  | Swap => swap comb e
  | Other => Ret e
  end.

Lemma text_pre l r : text (l ++ r) -> text l.
Proof. rewrite !text_iff. intros [P S']. apply Forall_app in P. split; [tauto|]. destruct l; [exact I|exact S']. Qed.
Lemma text_app l r : text l -> text r -> text (l ++ r).
Proof. rewrite !text_iff. intros [P S1] [Q S2]. split; [apply Forall_app; auto|]. destruct l; auto. Qed.
Lemma text_nil : text []. Proof. exists []. split; constructor. Qed.
Lemma text_char c : character c -> text c. Proof. intros C. exists [c]. split; [constructor; auto|]. cbn. rewrite app_nil_r. auto. Qed.
Lemma text_point l c : Forall point l -> starts l -> l <> [] -> point c -> text (l ++ [c]).
Proof. intros P St N C. apply text_iff. split; [apply Forall_app; auto|]. destruct l; [congruence|exact St]. Qed.
Lemma before_ok (l r : list cstr) e : buf e = bytes (l ++ r) -> pos e = length (bytes l) -> before e = bytes l.
Proof. intros B P. unfold before. rewrite B, P, concat_app, firstn_app, firstn_all, Nat.sub_diag. cbn. apply app_nil_r. Qed.
Lemma behind_ok (l r : list cstr) e : buf e = bytes (l ++ r) -> pos e = length (bytes l) -> behind e = bytes r.
Proof. intros B P. unfold behind. rewrite B, P, concat_app, skipn_app, skipn_all, Nat.sub_diag. reflexivity. Qed.
Lemma bytes_nil l : Forall point l -> length (bytes l) = 0 -> l = [].
Proof. intros P L. destruct P as [|c l [cp E] P]; [auto|]. cbn [concat] in L. rewrite app_length in L. apply enc_pos in E. lia. Qed.
Lemma char_pos c : character c -> 0 < length (bytes c).
Proof. intros (b & ms & -> & (cp & E & _) & _). cbn [concat]. rewrite app_length. apply enc_pos in E. lia. Qed.
Lemma nonul_app (a b : cstr) : nonul (a ++ b) <-> nonul a /\ nonul b.
Proof. unfold nonul. split; [intros H; split; intros I; apply H; apply in_or_app; auto|intros [A B] I; apply in_app_or in I; tauto]. Qed.
Lemma to_nul_id s : nonul s -> to_nul s = s.
Proof.
  induction s as [|c s IH]; intros N; [auto|]. cbn [to_nul]. destruct (ceq c "000") eqn:E; [apply ceq_true in E; subst; exfalso; apply N; left; reflexivity|]. rewrite IH; [auto|]. intros I. apply N. right. auto.
Qed.

(** A new line at the same place of the history *)
Lemma shows_line o x l r n e l' r' : shows (At o x l r n) e -> text (l' ++ r') -> text r' -> nonul (bytes (l' ++ r')) -> length (bytes (l' ++ r')) <= buflen ->
  let e' := with_line e (bytes (l' ++ r')) (length (bytes l')) in refreshLine comb e' = Ret e' /\ shows (At o x l' r' n) e'.
Proof.
  intros (x' & H & X & I & _) T Tr Nn L e'. split; [apply (refresh_ok (l' ++ r')); auto|]. exists x'. repeat split; auto.
Qed.
Ltac parts S := let x' := fresh "x'" in destruct S as (x' & Hh & Hx & Hi & Hb & Hp & Ht & Hr & Hn & Hl).
Ltac lens := rewrite ?concat_app, ?app_length in *; cbn [concat length app] in *; rewrite ?app_length, ?app_nil_r in *; cbn [length] in *; lia.

Lemma act_insert o x l r n e c cp : shows (At o x l r n) e -> encodes c cp -> cp <> 0%Z -> l <> [] \/ base c -> length (bytes (l ++ c :: r)) <= buflen ->
  exists e', op (Type_ c) e = Ret e' /\ shows (At o x (l ++ [c]) r n) e'.
Proof.
  intros Sh E N B L. pose proof Sh as Sh0. parts Sh. unfold op, linenoiseEditInsert. rewrite (before_ok _ _ _ Hb Hp), (behind_ok _ _ _ Hb Hp), Hb.
  destruct (length (bytes (l ++ r)) + length c <=? buflen) eqn:F; [|apply Nat.leb_gt in F; lens].
  assert (Eb : bytes l ++ c ++ bytes r = bytes ((l ++ [c]) ++ r)) by (rewrite !concat_app; cbn [concat]; rewrite app_nil_r, <- app_assoc; reflexivity).
  rewrite Eb, Hp. replace (length (bytes l) + length c) with (length (bytes (l ++ [c]))) by lens.
  assert (Tl : text (l ++ [c])).
  { pose proof (text_pre _ _ Ht) as Tl. apply text_iff in Tl. destruct Tl as [P St]. destruct l as [|b l]; [|apply text_point; auto; [congruence|exists cp; auto]]. destruct B as [B|B]; [congruence|]. apply text_iff. split; [repeat constructor; apply base_point; auto|exact B]. }
  eexists. eapply shows_line; eauto; [apply text_app; auto| |lens].
  rewrite <- Eb. rewrite concat_app in Hn. apply nonul_app in Hn. destruct Hn. apply nonul_app. split; [auto|]. apply nonul_app. split; [|auto].
  intros I. clear -E N I. destruct E; cbn in I; repeat (destruct I as [I|I]; [subst; change (code "000") with 0%Z in *; lia|]); destruct I.
Qed.
Lemma act_full o x l r n e c : shows (At o x l r n) e -> buflen < length (bytes (l ++ c :: r)) -> op (Type_ c) e = Ret e.
Proof.
  intros Sh L. parts Sh. unfold op, linenoiseEditInsert. rewrite Hb. destruct (length (bytes (l ++ r)) + length c <=? buflen) eqn:F; [apply Nat.leb_le in F; lens|reflexivity].
Qed.
Lemma act_left o x l c r n e : shows (At o x (l ++ c) r n) e -> character c -> exists e', op Left e = Ret e' /\ shows (At o x l (c ++ r) n) e'.
Proof.
  intros Sh C. pose proof Sh as Sh0. parts Sh. pose proof (char_pos c C). unfold op, linenoiseEditMoveLeft. assert (P : (0 <? pos e) = true) by (apply Nat.ltb_lt; rewrite Hp; lens). rewrite P.
  rewrite (before_ok _ _ _ Hb Hp), concat_app, prev_char by auto. cbn [bind]. unfold with_pos. rewrite Hb, Hp. rewrite <- app_assoc. replace (length (bytes (l ++ c)) - length (bytes c)) with (length (bytes l)) by lens.
  rewrite <- app_assoc in *. eexists. eapply shows_line; eauto. apply text_app; auto. apply text_char. auto.
Qed.
Lemma act_left0 o x r n e : shows (At o x [] r n) e -> op Left e = Ret e.
Proof. intros Sh. parts Sh. unfold op, linenoiseEditMoveLeft. rewrite Hp. reflexivity. Qed.
Lemma act_right o x l c r n e : shows (At o x l (c ++ r) n) e -> character c -> text r -> exists e', op Right e = Ret e' /\ shows (At o x (l ++ c) r n) e'.
Proof.
  intros Sh C T. pose proof Sh as Sh0. parts Sh. pose proof (char_pos c C). unfold op, linenoiseEditMoveRight. assert (P : (pos e =? length (buf e)) = false) by (apply Nat.eqb_neq; rewrite Hp, Hb; lens). rewrite P. cbn [negb].
  rewrite (behind_ok _ _ _ Hb Hp). destruct (next_char c r C T) as [-> _]. cbn [bind]. unfold with_pos. rewrite Hb, Hp, app_assoc. replace (length (bytes l) + length (bytes c)) with (length (bytes (l ++ c))) by lens.
  rewrite app_assoc in *. eexists. eapply shows_line; eauto.
Qed.
Lemma act_right0 o x l n e : shows (At o x l [] n) e -> op Right e = Ret e.
Proof. intros Sh. parts Sh. unfold op, linenoiseEditMoveRight. rewrite Hp, Hb, app_nil_r, Nat.eqb_refl. reflexivity. Qed.
Lemma shows_same o x l r n e : shows (At o x l r n) e -> forall l' r', l' ++ r' = l ++ r -> bytes l' = bytes l -> text r' -> shows (At o x l' r' n) e.
Proof. intros Sh l' r' E L T. parts Sh. exists x'. rewrite E, L. repeat split; auto. Qed.
Lemma act_home o x l r n e : shows (At o x l r n) e -> exists e', op Home e = Ret e' /\ shows (At o x [] (l ++ r) n) e'.
Proof.
  intros Sh. pose proof Sh as Sh0. parts Sh. unfold op, linenoiseEditMoveHome. destruct (pos e =? 0) eqn:P; cbn [negb].
  - apply Nat.eqb_eq in P. rewrite Hp in P. apply bytes_nil in P; [subst l; eauto|]. apply text_pre in Ht. apply text_iff in Ht. tauto.
  - unfold with_pos. rewrite Hb. eexists. apply (shows_line o x l r n e [] (l ++ r)); auto.
Qed.
Lemma act_end o x l r n e : shows (At o x l r n) e -> exists e', op End_ e = Ret e' /\ shows (At o x (l ++ r) [] n) e'.
Proof.
  intros Sh. pose proof Sh as Sh0. parts Sh. unfold op, linenoiseEditMoveEnd. destruct (pos e =? length (buf e)) eqn:P; cbn [negb].
  - apply Nat.eqb_eq in P. rewrite Hp, Hb in P. assert (r = []) as ->; [|rewrite app_nil_r; eauto]. apply bytes_nil; [apply text_iff in Hr; tauto|lens].
  - unfold with_pos. rewrite Hb. pose proof (shows_line o x l r n e (l ++ r) [] Sh0) as K. rewrite app_nil_r in K. destruct K; eauto using text_nil.
Qed.
Lemma act_bs o x l c r n e : shows (At o x (l ++ c) r n) e -> character c -> exists e', op Backspace e = Ret e' /\ shows (At o x l r n) e'.
Proof.
  intros Sh C. pose proof Sh as Sh0. parts Sh. pose proof (char_pos c C). unfold op, linenoiseEditBackspace.
  assert (P : (0 <? pos e) && (0 <? length (buf e)) = true) by (apply andb_true_intro; split; apply Nat.ltb_lt; [rewrite Hp|rewrite Hb]; lens). rewrite P.
  rewrite (before_ok _ _ _ Hb Hp), (behind_ok _ _ _ Hb Hp), concat_app, prev_char by auto. cbn [bind]. rewrite Hb, Hp. replace (length (bytes (l ++ c)) - length (bytes c)) with (length (bytes l)) by lens.
  rewrite <- app_assoc, concat_app, firstn_app, firstn_all, Nat.sub_diag. cbn [firstn]. rewrite app_nil_r, <- concat_app.
  eexists. eapply shows_line; eauto; [| |lens].
  - apply text_app; auto. rewrite <- app_assoc in Ht. apply text_pre in Ht. auto.
  - rewrite !concat_app in *. rewrite !nonul_app in *. tauto.
Qed.
Lemma act_bs0 o x r n e : shows (At o x [] r n) e -> op Backspace e = Ret e.
Proof. intros Sh. parts Sh. unfold op, linenoiseEditBackspace. rewrite Hp. reflexivity. Qed.
Lemma act_del o x l c r n e : shows (At o x l (c ++ r) n) e -> character c -> text r -> exists e', op Delete e = Ret e' /\ shows (At o x l r n) e'.
Proof.
  intros Sh C T. pose proof Sh as Sh0. parts Sh. pose proof (char_pos c C). unfold op, linenoiseEditDelete.
  assert (P : (0 <? length (buf e)) && (pos e <? length (buf e)) = true) by (apply andb_true_intro; split; apply Nat.ltb_lt; rewrite ?Hp, Hb; lens). rewrite P.
  rewrite (before_ok _ _ _ Hb Hp), (behind_ok _ _ _ Hb Hp). destruct (next_char c r C T) as [-> _]. cbn [bind]. rewrite concat_app.
  destruct (length (bytes c ++ bytes r) <? length (bytes c)) eqn:F; [apply Nat.ltb_lt in F; lens|]. rewrite skipn_app, skipn_all, Nat.sub_diag. cbn [skipn app]. rewrite <- concat_app, Hp.
  eexists. eapply shows_line; eauto; [| |lens].
  - apply text_app; auto. apply text_pre in Ht. auto.
  - rewrite !concat_app in *. rewrite !nonul_app in *. tauto.
Qed.
Lemma act_del0 o x l n e : shows (At o x l [] n) e -> op Delete e = Ret e.
Proof. intros Sh. parts Sh. unfold op, linenoiseEditDelete. rewrite Hp, Hb, app_nil_r, Nat.ltb_irrefl, andb_false_r. reflexivity. Qed.

Lemma set_mid (a : list cstr) y b z : set_nth (length a) z (a ++ y :: b) = a ++ z :: b.
Proof.
  unfold set_nth. rewrite firstn_app, firstn_all, Nat.sub_diag, skipn_app. cbn [firstn]. rewrite skipn_all2 by lia. replace (S (length a) - length a) with 1 by lia. cbn [skipn app]. rewrite app_nil_r. reflexivity.
Qed.
Lemma act_up p o x l r n e cs : shows (At (p :: o) x l r n) e -> text cs -> bytes cs = p -> nonul p -> length p < buflen ->
  exists e', op Up e = Ret e' /\ shows (At o p cs [] (bytes (l ++ r) :: n)) e'.
Proof.
  intros Sh T Ep Np Lp. parts Sh. cbn [rev] in Hh. unfold op, linenoiseEditHistoryNext. cbv zeta. assert (Ln : length (hist e) = S (S (length o + length n))) by (rewrite Hh, !app_length, rev_length; cbn; lia).
  rewrite Ln, Hi. assert (X1 : (1 <? S (S (length o + length n))) = true) by (apply Nat.ltb_lt; lia). assert (X2 : (S (S (length o + length n)) - 1 <? length n) = false) by (apply Nat.ltb_ge; lia).
  assert (X3 : (S (S (length o + length n)) <=? S (length n)) = false) by (apply Nat.leb_gt; lia). rewrite X1, X2, X3.
  replace (S (S (length o + length n)) - 1 - length n) with (length (rev o ++ [p])) by (rewrite app_length, rev_length; cbn [length]; lia). rewrite Hh, set_mid, Hb, to_nul_id by auto.
  replace (S (S (length o + length n)) - 1 - S (length n)) with (length (rev o)) by (rewrite rev_length; lia). rewrite <- app_assoc. cbn [app]. rewrite app_nth2, Nat.sub_diag by lia. cbn [nth].
  rewrite firstn_all2 by lia. eexists. split; [apply (refresh_ok cs); auto|]. exists p. cbn [hist idx buf pos]. rewrite app_nil_r, Ep. repeat split; auto using text_nil; lia.
Qed.
Lemma act_up0 x l r n e : shows (At [] x l r n) e -> exists e', op Up e = Ret e' /\ shows (At [] (bytes (l ++ r)) l r n) e'.
Proof.
  intros Sh. pose proof Sh as Sh0. parts Sh. cbn [rev app] in Hh. unfold op, linenoiseEditHistoryNext. cbv zeta. rewrite Hh, Hi. cbn [length]. destruct n as [|y n].
  - cbn [length]. change (1 <? 1) with false. cbv iota. exists e. split; [auto|]. exists x'. repeat split; auto. congruence.
  - set (k := length (y :: n)). assert (X1 : (1 <? S k) = true) by (subst k; apply Nat.ltb_lt; cbn; lia). assert (X2 : (S k - 1 <? k) = false) by (apply Nat.ltb_ge; lia). rewrite X1, X2, Nat.leb_refl.
    replace (S k - 1 - k) with (length (@nil cstr)) by (cbn [length]; lia). pose proof (set_mid [] x' (y :: n) (to_nul (buf e))) as Z. cbn [app] in Z. rewrite Z, Hb, to_nul_id by auto. eexists. split; [reflexivity|]. exists (bytes (l ++ r)). cbn [hist idx buf pos rev app]. repeat split; auto.
Qed.
Lemma act_down p o x l r n e cs : shows (At o x l r (p :: n)) e -> text cs -> bytes cs = p -> nonul p -> length p < buflen ->
  exists e', op Down e = Ret e' /\ shows (At (bytes (l ++ r) :: o) p cs [] n) e'.
Proof.
  intros Sh T Ep Np Lp. parts Sh. unfold op, linenoiseEditHistoryNext. cbv zeta. assert (Ln : length (hist e) = S (S (length o + length n))) by (rewrite Hh, !app_length, rev_length; cbn; lia).
  rewrite Ln, Hi. cbn [length]. assert (X1 : (1 <? S (S (length o + length n))) = true) by (apply Nat.ltb_lt; lia). assert (X2 : (S (S (length o + length n)) - 1 <? S (length n)) = false) by (apply Nat.ltb_ge; lia). rewrite X1, X2.
  replace (S (S (length o + length n)) - 1 - S (length n)) with (length (rev o)) by (rewrite rev_length; lia). rewrite Hh, set_mid, Hb, to_nul_id by auto.
  replace (S (S (length o + length n)) - 1 - length n) with (S (length (rev o))) by (rewrite rev_length; lia). rewrite app_nth2 by lia. replace (S (length (rev o)) - length (rev o)) with 1 by lia. cbn [nth].
  rewrite firstn_all2 by lia. eexists. split; [apply (refresh_ok cs); auto|]. exists p. cbn [hist idx buf pos rev]. rewrite app_nil_r, Ep, <- app_assoc. repeat split; auto using text_nil; lia.
Qed.
Lemma act_down0 o x l r e : shows (At o x l r []) e -> exists e', op Down e = Ret e' /\ shows (At o (bytes (l ++ r)) l r []) e'.
Proof.
  intros Sh. pose proof Sh as Sh0. parts Sh. unfold op, linenoiseEditHistoryNext. cbv zeta. rewrite Hi. cbn [length]. destruct (1 <? length (hist e)) eqn:F.
  - apply Nat.ltb_lt in F. assert (X2 : (length (hist e) - 1 <? 0) = false) by (apply Nat.ltb_ge; lia). rewrite X2. rewrite Hh, app_length. cbn [length]. replace (length (rev o) + 1 - 1 - 0) with (length (rev o)) by lia. rewrite set_mid, Hb, to_nul_id by auto.
    eexists. split; [reflexivity|]. exists (bytes (l ++ r)). cbn [hist idx buf pos]. repeat split; auto.
  - exists e. split; [auto|]. exists x'. repeat split; auto. congruence.
Qed.
Lemma act_line o x l r n e : shows (At o x l r n) e -> exists e', op KillLine e = Ret e' /\ shows (At o x [] [] n) e'.
Proof. intros Sh. eexists. apply (shows_line o x l r n e [] []); auto using text_nil; [intros []|cbn; lia]. Qed.
Lemma act_rest o x l r n e : shows (At o x l r n) e -> exists e', op KillRest e = Ret e' /\ shows (At o x l [] n) e'.
Proof.
  intros Sh. pose proof Sh as Sh0. parts Sh. unfold op. rewrite (before_ok _ _ _ Hb Hp), Hp. pose proof (shows_line o x l r n e l [] Sh0) as K. rewrite app_nil_r in K. destruct K; eauto using text_nil, text_pre; [|lens].
  rewrite concat_app, nonul_app in Hn. tauto.
Qed.
Lemma skip_app f a b : Forall (fun c => f c = true) a -> (forall c t, b = c :: t -> f c = false) -> skip_while f (a ++ b) = b.
Proof. induction 1 as [|c a C F IH]; intros B; cbn [app skip_while]; [destruct b; [auto|cbn; rewrite (B _ _ eq_refl); auto]|]. rewrite C. auto. Qed.
Lemma space_free c : point c -> c <> [" "%char] -> Forall (fun b => ceq b " " = false) c.
Proof.
  intros [cp E] N. apply Forall_forall. intros b I. destruct (ceq b " ") eqn:C; [|auto]. apply ceq_true in C. subst b. exfalso. destruct E; cbn in I; repeat (destruct I as [I|I]; [subst; try congruence; change (code " ") with 32%Z in *; lia|]); destruct I.
Qed.
Lemma act_word o x l w s r n e : shows (At o x (l ++ w ++ s) r n) e -> l = [] \/ (exists l', l = l' ++ [[" "%char]]) -> ~ In [" "%char] w -> Forall (eq [" "%char]) s -> (w = [] -> l = []) ->
  exists e', op KillWord e = Ret e' /\ shows (At o x l r n) e'.
Proof.
  intros Sh Hl' Hw Hs Hwl. pose proof Sh as Sh0. parts Sh. unfold op, linenoiseEditDeletePrevWord. rewrite (before_ok _ _ _ Hb Hp), (behind_ok _ _ _ Hb Hp).
  assert (Pw : Forall point w). { apply text_pre in Ht. apply text_iff in Ht. destruct Ht as [P _]. apply Forall_app in P. destruct P as [_ P]. apply Forall_app in P. tauto. }
  assert (Fw : Forall (fun b => ceq b " " = false) (bytes w)).
  { clear -Pw Hw. induction Pw as [|c w P F IH]; [constructor|]. cbn [concat]. apply Forall_app. split; [apply space_free; auto; intros ->; apply Hw; left; auto|apply IH; intros I; apply Hw; right; auto]. }
  assert (Fs : Forall (fun b => ceq b " " = true) (bytes s)). { clear -Hs. induction Hs; cbn [concat]; [constructor|]. subst. cbn [app]. constructor; auto. }
  assert (E : skip_while (fun c => negb (ceq c " ")) (skip_while (fun c => ceq c " ") (rev (bytes (l ++ w ++ s)))) = rev (bytes l)).
  { rewrite !concat_app, !rev_app_distr, <- app_assoc. rewrite (skip_app _ (rev (bytes s))).
    - apply skip_app.
      + apply Forall_rev. eapply Forall_impl; [|exact Fw]. cbn. intros ? ->. reflexivity.
      + intros c t Ec. destruct Hl' as [->|[l' ->]]; [discriminate|]. rewrite concat_app, rev_app_distr in Ec. cbn in Ec. injection Ec as <- _. reflexivity.
    - apply Forall_rev. auto.
    - intros c t Ec. apply Forall_rev in Fw. destruct (rev (bytes w)) as [|y t'] eqn:Ew.
      + assert (w = []) by (apply bytes_nil; auto; rewrite <- rev_length, Ew; auto). rewrite (Hwl H) in Ec. discriminate.
      + injection Ec as <- _. inversion Fw; auto. }
  rewrite E, rev_involutive, <- concat_app. eexists. eapply shows_line; eauto; [| |lens].
  - apply text_app; auto. rewrite <- app_assoc in Ht. apply text_pre in Ht. auto.
  - rewrite !concat_app in *. rewrite !nonul_app in *. tauto.
Qed.
Lemma act_swap o x l a b r n e : shows (At o x (l ++ [[a]]) ([b] :: r) n) e -> base [a] -> base [b] -> text r ->
  exists e', op Swap e = Ret e' /\ (r <> [] -> shows (At o x (l ++ [[b]; [a]]) r n) e') /\ (r = [] -> shows (At o x (l ++ [[b]]) [[a]] n) e').
Proof.
  intros Sh Ba Bb Tr. pose proof Sh as Sh0. parts Sh. unfold op, swap. assert (P : (0 <? pos e) && (pos e <? length (buf e)) = true) by (apply andb_true_intro; split; apply Nat.ltb_lt; rewrite ?Hp, ?Hb; lens). rewrite P.
  rewrite (before_ok _ _ _ Hb Hp), (behind_ok _ _ _ Hb Hp), concat_app, rev_app_distr. cbn [concat app rev]. rewrite rev_involutive.
  assert (Tl : text (l ++ [[b]; [a]] ++ r)).
  { rewrite <- app_assoc in Ht. pose proof (text_pre _ _ Ht). apply text_app; auto. apply text_app; auto. apply text_iff. split; [repeat constructor; apply base_point; auto|exact Bb]. }
  assert (Nn : nonul (bytes (l ++ [[b]; [a]] ++ r))).
  { rewrite !concat_app in *. cbn [concat app] in *. rewrite ?app_nil_r in Hn. rewrite <- app_assoc in Hn. cbn [app] in Hn. intros I. apply Hn. apply in_or_app. apply in_app_or in I. destruct I as [I|[I|[I|I]]]; [left; auto|right; right; left; auto|right; left; auto|right; right; right; auto]. }
  assert (Lb : length (bytes (l ++ [[b]; [a]] ++ r)) <= buflen) by lens.
  replace (bytes l ++ b :: a :: bytes r) with (bytes (l ++ [[b]; [a]] ++ r)) by (rewrite concat_app; reflexivity). rewrite Hp, Hb. destruct r as [|y r].
  - match goal with |- context [if ?c then _ else _] => destruct c eqn:X; [clear X|exfalso; apply Nat.eqb_neq in X; apply X; lens] end.
    replace (length (bytes (l ++ [[a]]))) with (length (bytes (l ++ [[b]]))) by lens. assert (Z : l ++ [[b]; [a]] ++ [] = (l ++ [[b]]) ++ [[a]]) by (rewrite <- app_assoc; reflexivity). rewrite Z in *.
    destruct (shows_line o x (l ++ [[a]]) [[b]] n e (l ++ [[b]]) [[a]] Sh0) as [R Sh]; auto.
    { apply text_iff. split; [repeat constructor; apply base_point; auto|exact Ba]. }
    eexists. split; [exact R|]. split; [congruence|auto].
  - assert (Py : 0 < length (bytes (y :: r))). { apply text_iff in Tr. destruct Tr as [Q _]. destruct (Nat.eq_dec (length (bytes (y :: r))) 0) as [Z|]; [|lia]. apply bytes_nil in Z; [discriminate|auto]. }
    match goal with |- context [if ?c then _ else _] => destruct c eqn:X; [exfalso; apply Nat.eqb_eq in X; revert X; change ([b] :: y :: r) with ([[b]] ++ (y :: r)); rewrite !concat_app, !app_length in *; cbn [concat length app] in *; lia|clear X] end. replace (S (length (bytes (l ++ [[a]])))) with (length (bytes (l ++ [[b]; [a]]))) by lens. rewrite app_assoc in *.
    destruct (shows_line o x (l ++ [[a]]) ([b] :: y :: r) n e (l ++ [[b]; [a]]) (y :: r) Sh0) as [R Sh]; auto. eexists. split; [exact R|]. split; [auto|congruence].
Qed.
Lemma act_swap0 o x l r n e : shows (At o x l r n) e -> l = [] \/ r = [] -> op Swap e = Ret e.
Proof.
  intros Sh D. parts Sh. unfold op, swap. rewrite Hp, Hb. destruct D as [->| ->]; [reflexivity|]. rewrite app_nil_r, Nat.ltb_irrefl, andb_false_r. reflexivity.
Qed.
Lemma act k s s' e : shows s e -> does comb buflen k s s' -> exists e', op k e = Ret e' /\ shows s' e'.
Proof.
  intros Sh D. destruct D.
  - eapply act_insert; eauto. - exists e. split; [eapply act_full; eauto|auto]. - eapply act_left; eauto. - exists e. split; [eapply act_left0; eauto|auto].
  - eapply act_right; eauto. - exists e. split; [eapply act_right0; eauto|auto]. - eapply act_home; eauto. - eapply act_end; eauto.
  - eapply act_bs; eauto. - exists e. split; [eapply act_bs0; eauto|auto]. - eapply act_del; eauto. - exists e. split; [eapply act_del0; eauto|auto].
  - eapply act_up; eauto. - eapply act_up0; eauto. - eapply act_down; eauto. - eapply act_down0; eauto. - eapply act_line; eauto. - eapply act_rest; eauto.
  - eapply act_word; eauto. - destruct (act_swap o x l a b r n e) as (e' & E & A & B); eauto. - destruct (act_swap o x l a b [] n e) as (e' & E & A & B); eauto using text_nil. - exists e. split; [eapply act_swap0; eauto|auto].
  - inversion D; subst; [change (op CtrlD) with (op Delete); eapply act_del; eauto|]. exists e. split; [change (op CtrlD) with (op Delete); eapply act_del0; eauto|auto].
  - exists e. auto.
Qed.
End Edit.
