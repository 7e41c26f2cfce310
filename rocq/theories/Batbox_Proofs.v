(** Batbox_Proofs.v -- proofs about BATBOX. *)

From Verif Require Import Base Lex Path_Spec StrLib_Model Env_Model Env_Spec Env_Proofs Var_Model Expand_Model Args_Model Args_Spec If_Model Num_Model Params_Spec Params_Proofs Batbox_Model Batbox_Spec.

Lemma next_stated (I : xworld -> Prop) w old line ps : I w -> stated I line ps ->
  (ps = [] /\ pBat_GetNextParameterEs w old line = Ret (old, None, w)) \/
  (exists v rest l, ps = v :: l /\ pBat_GetNextParameterEs w old line = Ret (v, Some rest, w) /\ nonul v /\ stated I rest l /\ length rest < length line).
Proof.
  intros Iw S. destruct S as [s B|a raw rest t v l A N F P Bt C D Nv W].
  - left. split; auto. apply next_end; auto.
  - right. exists v, rest, l. split; auto. split. { apply (next_written w old a raw rest t v); auto. }
    split; auto. split; auto. rewrite !app_length. destruct raw; [congruence|]. cbn [length]. lia.
Qed.

Lemma lower_of d c : In c letters -> tolower d = c -> ceq d c || ceq d (ascii_of_nat (nat_of_ascii c - 32)) = true.
Proof.
  intros L <-.
  assert (A : forall b, negb (existsb (ceq (tolower b)) letters) || (ceq b (tolower b) || ceq b (ascii_of_nat (nat_of_ascii (tolower b) - 32))) = true).
  { intros [[] [] [] [] [] [] [] []]; reflexivity. }
  specialize (A d). assert (X : existsb (ceq (tolower d)) letters = true) by (apply existsb_exists; exists (tolower d); split; auto; apply ceq_refl).
  rewrite X in A. exact A.
Qed.
Lemma sw_opt p c : In c letters -> sw p c = true <-> exists u, opt c u p.
Proof.
  intros L. unfold sw, opt. split.
  - destruct p as [|s [|d r]]; try discriminate. intros H. apply andb_prop in H. destruct H as [H R]. apply andb_prop in H. destruct H as [S D].
    apply ceq_true in S. subst s.
    assert (Dc : tolower d = c).
    { apply orb_prop in D. destruct D as [D|D]; apply ceq_true in D; subst d; cbv in L; repeat (destruct L as [<-|L]; [reflexivity|]); destruct L. }
    destruct r as [|u [|]]; try discriminate R; [exists false|exists true]; exists d; split; auto. apply ceq_true in R. subst. reflexivity.
  - intros (u & d & D & ->). rewrite ceq_refl. cbn [andb].
    assert (E : ceq d c || ceq d (ascii_of_nat (nat_of_ascii c - 32)) = true).
    { apply (lower_of d c); auto. }
    rewrite E. destruct u; reflexivity.
Qed.
Lemma sw_false p c : In c letters -> sw p c = false -> forall u, ~ opt c u p.
Proof. intros L S u O. assert (X : sw p c = true) by (apply sw_opt; eauto). congruence. Qed.
Lemma under_opt c u p : opt c u p -> under p = u.
Proof. intros (d & _ & ->). destruct u; reflexivity. Qed.
Lemma noswitch_ok p : noswitch p = true <-> name p.
Proof.
  unfold noswitch, name. destruct p as [|c r]. { split; [discriminate|intros (? & ? & H & _); discriminate]. }
  split. - destruct (ceq c "/") eqn:E; [discriminate|]. intros _. exists c, r. split; auto. intros ->. rewrite ceq_refl in E. discriminate.
  - intros (d & r' & [= <- <-] & N). destruct (ceq c "/") eqn:E; auto. apply ceq_true in E. congruence.
Qed.
Lemma onmove_ok c u p : c = "y"%char \/ c = "m"%char -> opt c u p -> onmove p = true <-> moves p.
Proof.
  intros C (d & D & ->). split.
  - unfold onmove. intros H. apply orb_prop in H. destruct H as [H|H].
    + apply ceq_true in H. subst d. destruct u; constructor.
    + apply andb_prop in H. destruct H as [H R]. apply ceq_true in H. subst d. destruct u; [constructor|discriminate].
  - intros M. inversion M as [E|E|E]; destruct u; inversion E; subst; reflexivity.
Qed.
Lemma short_ok z : short z (to_short z).
Proof.
  unfold short, to_short. pose proof (Z.mod_pos_bound (z + 32768) 65536 ltac:(lia)). split; [lia|].
  exists ((z + 32768) / 65536)%Z. pose proof (Z.div_mod (z + 32768) 65536 ltac:(lia)). lia.
Qed.
Lemma bit_ok n k c : (0 <= k)%Z -> bit n (2 ^ k) c = if Z.testbit n k then c else 0%Z.
Proof.
  intros K. unfold bit. destruct (Z.testbit n k) eqn:T.
  - replace (Z.land n (2 ^ k) =? 0)%Z with false; auto. symmetry. apply Z.eqb_neq. intros E.
    assert (X : Z.testbit (Z.land n (2 ^ k)) k = false) by (rewrite E; apply Z.bits_0). rewrite Z.land_spec, T, Z.pow2_bits_true in X by lia. discriminate.
  - replace (Z.land n (2 ^ k) =? 0)%Z with true; auto. symmetry. apply Z.eqb_eq. apply Z.bits_inj'. intros j J. rewrite Z.land_spec, Z.bits_0.
    destruct (Z.eq_dec j k) as [->|N]. + rewrite T. reflexivity. + rewrite Z.pow2_bits_false by lia. apply Bool.andb_false_r.
Qed.
Lemma colour_ok n : colour n (PORTABLE_COLOR n).
Proof.
  unfold PORTABLE_COLOR.
  change (bit n 8 8) with (bit n (2 ^ 3) 8). change (bit n 1 4) with (bit n (2 ^ 0) 4). change (bit n 2 2) with (bit n (2 ^ 1) 2). change (bit n 4 1) with (bit n (2 ^ 2) 1).
  change (bit n 128 128) with (bit n (2 ^ 7) 128). change (bit n 16 64) with (bit n (2 ^ 4) 64). change (bit n 32 32) with (bit n (2 ^ 5) 32). change (bit n 64 16) with (bit n (2 ^ 6) 16).
  rewrite (bit_ok n 3 8), (bit_ok n 0 4), (bit_ok n 1 2), (bit_ok n 2 1), (bit_ok n 7 128), (bit_ok n 4 64), (bit_ok n 5 32), (bit_ok n 6 16) by lia.
  unfold colour. split.
  - destruct (Z.testbit n 0), (Z.testbit n 1), (Z.testbit n 2), (Z.testbit n 3), (Z.testbit n 4), (Z.testbit n 5), (Z.testbit n 6), (Z.testbit n 7); cbv; split; congruence.
  - intros b [-> | ->]; cbn [Z.add Pos.add Pos.succ];
    destruct (Z.testbit n 0), (Z.testbit n 1), (Z.testbit n 2), (Z.testbit n 3), (Z.testbit n 4), (Z.testbit n 5), (Z.testbit n 6), (Z.testbit n 7); repeat split; reflexivity.
Qed.
Lemma to_int_range z : (-2147483648 <= to_int z <= 2147483647)%Z.
Proof. unfold to_int. pose proof (Z.mod_pos_bound (z + 2147483648) 4294967296 ltac:(lia)). lia. Qed.

Section P.
Variable ka : Z.
Variable kbhit : nat -> bool.
Variable getch : nat -> Z.
Variable mouse : nat -> bool -> Z * Z * Z.
Variable assign : xworld -> cstr -> Z -> xworld.
Variable assign_key : xworld -> cstr -> bool -> Z -> xworld.
Variable sg : bool.
Variable I : xworld -> Prop.
Hypothesis I_table : forall w, I w -> table_ok sg (vw_env (x_var w)).
Hypothesis I_assign : forall w n z, I w -> I (assign w n z).
Hypothesis ka_ok : addr_ok sg ka.
Notation run := (batbox_loop ka kbhit getch mouse assign assign_key).
Notation box := (box ka kbhit getch mouse assign).

Lemma number_ok w s : I w -> nonul s -> exists n, args_get_number ka w s = Ret n /\ number ka w s n.
Proof.
  intros Iw N. unfold args_get_number. destruct (strtol0 s) as [n r] eqn:E. destruct r as [|c r].
  - eexists. split; [reflexivity|]. constructor; auto.
  - pose proof (get_ok sg _ s ka (I_table w Iw) N ka_ok) as G. rewrite G. cbn [bind].
    destruct (lookup (e_buf (vw_env (x_var w))) s) as [v|]; cbn [option_map] in *.
    + eexists. split; [reflexivity|]. destruct (strtol0 (v_content v)) as [m r'] eqn:E2. cbn [fst]. eapply nu_var; eauto. rewrite E. discriminate.
    + eexists. split; [reflexivity|]. apply nu_none; auto. rewrite E. discriminate.
Qed.
Lemma key_ok n : let (k, m) := read_key getch n in key getch n k m.
Proof.
  unfold read_key. destruct (getch n =? 224)%Z eqn:E.
  - apply Z.eqb_eq in E. rewrite E. apply ke_extended. auto.
  - apply Z.eqb_neq in E. constructor. auto.
Qed.

(** No sum of an offset and a number is beyond the integers. *)
Definition tame (ps : list cstr) : Prop := forall w q n, I w -> In q ps -> number ka w q n -> (-2147450880 <= n <= 2147450879)%Z.
Definition sane (z : Z) : Prop := (-32768 <= z < 32768)%Z.

Lemma names_ok w p rest ps : I w -> stated I rest ps ->
  exists r, mouse_names w p rest = Ret (r, w) /\
    match r with
    | Some (x, y, t, rest') => exists l, ps = x :: y :: t :: l /\ name x /\ name y /\ name t /\ stated I rest' l /\ length rest' <= length rest
    | None => forall i j k ps', ps = i :: j :: k :: ps' -> ~ (name i /\ name j /\ name k)
    end.
Proof.
  intros Iw S. unfold mouse_names.
  destruct (next_stated I w p rest ps Iw S) as [(-> & E)|(x & r1 & l1 & -> & E & N1 & S1 & L1)]; rewrite E; cbn [bind].
  { exists None. split; auto. intros; discriminate. }
  destruct (noswitch x) eqn:X; cbn [negb].
  2: { exists None. split; auto. intros i j k ps' [= <- ->] (H & _). apply noswitch_ok in H. congruence. }
  destruct (next_stated I w [] r1 l1 Iw S1) as [(-> & E1)|(y & r2 & l2 & -> & E1 & N2 & S2 & L2)]; rewrite E1; cbn [bind].
  { exists None. split; auto. intros; discriminate. }
  destruct (noswitch y) eqn:Y; cbn [negb].
  2: { exists None. split; auto. intros i j k ps' [= <- <- ->] (_ & H & _). apply noswitch_ok in H. congruence. }
  destruct (next_stated I w [] r2 l2 Iw S2) as [(-> & E2)|(t & r3 & l3 & -> & E2 & N3 & S3 & L3)]; rewrite E2; cbn [bind].
  { exists None. split; auto. intros; discriminate. }
  destruct (noswitch t) eqn:T; cbn [negb].
  2: { exists None. split; auto. intros i j k ps' [= <- <- <- ->] (_ & _ & H). apply noswitch_ok in H. congruence. }
  exists (Some (x, y, t, r3)). split; auto. exists l3. split; auto. apply noswitch_ok in X, Y, T. repeat split; auto. lia.
Qed.

Ltac lt := cbv; tauto.
Ltac isopt S := apply sw_opt in S; [destruct S as [u S]|lt].
Ltac tm := match goal with [T : tame _ |- tame _] => intros ? ? ? ? ? ?; eapply T; eauto; repeat (try assumption; right); fail end.

Lemma loop_ok fuel : forall w old line ps ox oy lx ly n, I w -> stated I line ps -> tame ps -> sane ox -> sane oy -> length line < fuel ->
  exists z l w' st, run fuel w old line (mkB (ox, oy) (lx, ly) n) = Ret (z, l, w', st) /\ box w ox oy lx ly n ps z l w' st.
Proof.
  induction fuel as [|f IH]; intros w old line ps ox oy lx ly n Iw St T Ox Oy Lf; [lia|]. cbn [batbox_loop].
  destruct (next_stated I w old line ps Iw St) as [(-> & E)|(p & rest & l1 & -> & E & Np & S1 & L1)]; rewrite E; cbn [bind].
  { eexists _, _, _, _. split; [reflexivity|constructor]. }
  assert (T1 : tame l1) by tm. assert (Lr : length rest < f) by lia.
  assert (Ll : forall r : cstr, length r < length rest -> length r < f) by (intros; lia). assert (Le : forall r : cstr, length r <= length rest -> length r < f) by (intros; lia).
  assert (ONE : forall c (ev : Z -> bev), In c (s2l "adoghwc") -> (exists u, opt c u p) ->
    (forall q ps k z l w' st, number ka w q k -> box w ox oy lx ly n ps z l w' st -> box w ox oy lx ly n (p :: q :: ps) z (ev k :: l) w' st) ->
    exists z l w' st, (do (q, next, w) <- pBat_GetNextParameterEs w p rest;
          match next with None => Ret (0%Z, [], w, mkB (ox, oy) (lx, ly) n) | Some rest =>
            do n0 <- args_get_number ka w q; put [ev n0] (run f w q rest (mkB (ox, oy) (lx, ly) n)) end) = Ret (z, l, w', st) /\
        box w ox oy lx ly n (p :: l1) z l w' st).
  { intros c ev Hc [u O] R. destruct (next_stated I w p rest l1 Iw S1) as [(-> & E1)|(q & r2 & l2 & -> & E1 & N2 & S2 & L2)]; rewrite E1; cbn [bind].
    - eexists _, _, _, _. split; [reflexivity|]. eapply bx_alone; eauto.
    - destruct (number_ok w q Iw N2) as (k & Ek & Nk). rewrite Ek. cbn [bind].
      destruct (IH w q r2 l2 ox oy lx ly n Iw S2 ltac:(tm) Ox Oy ltac:(lia)) as (z & l & w' & st & Er & B). rewrite Er. cbn [put bind app].
      eexists _, _, _, _. split; [reflexivity|]. apply R; auto. }
  destruct (sw p "a") eqn:Sa. { isopt Sa. apply (ONE "a"%char (fun k => BText [chr k])); [lt|eauto|]. intros. eapply bx_char; eauto. }
  destruct (sw p "d") eqn:Sd.
  { isopt Sd. destruct (next_stated I w p rest l1 Iw S1) as [(-> & E1)|(q & r2 & l2 & -> & E1 & N2 & S2 & L2)]; rewrite E1; cbn [bind].
    - eexists _, _, _, _. split; [reflexivity|]. eapply bx_alone; [|exact Sd]. lt.
    - destruct (IH w q r2 l2 ox oy lx ly n Iw S2 ltac:(tm) Ox Oy (Ll _ L2)) as (z & l & w' & st & Er & B). rewrite Er. cbn [put bind app].
      eexists _, _, _, _. split; [reflexivity|]. eapply bx_text; eauto. }
  destruct (sw p "n") eqn:Sn.
  { isopt Sn. cbn [b_last b_orig b_in fst snd].
    destruct (IH w p rest l1 ox oy lx (to_short (ly + 1)) n Iw S1 T1 Ox Oy Lr) as (z & l & w' & st & Er & B). rewrite Er. cbn [put bind app].
    eexists _, _, _, _. split; [reflexivity|]. eapply bx_line; eauto. apply short_ok. }
  destruct (sw p "o") eqn:So.
  { isopt So. destruct (next_stated I w p rest l1 Iw S1) as [(-> & E1)|(q & r2 & l2 & -> & E1 & N2 & S2 & L2)]; rewrite E1; cbn [bind].
    { eexists _, _, _, _. split; [reflexivity|]. eapply bx_alone; [|exact So]. lt. }
    destruct (number_ok w q Iw N2) as (j & Ej & Nj). rewrite Ej. cbn [bind b_orig b_last b_in fst snd].
    destruct (next_stated I w q r2 l2 Iw S2) as [(-> & E2)|(q2 & r3 & l3 & -> & E2 & N3 & S3 & L3)]; rewrite E2; cbn [bind].
    { eexists _, _, _, _. split; [reflexivity|]. eapply bx_half; eauto. apply short_ok. }
    destruct (number_ok w q2 Iw N3) as (k & Ek & Nk). rewrite Ek. cbn [bind].
    destruct (IH w q2 r3 l3 (to_short j) (to_short k) lx ly n Iw S3 ltac:(tm)) as (z & l & w' & st & Er & B); try apply short_ok; [lia|].
    rewrite Er. eexists _, _, _, _. split; [reflexivity|]. eapply bx_offset; eauto; apply short_ok. }
  destruct (sw p "g") eqn:Sg.
  { isopt Sg. destruct (next_stated I w p rest l1 Iw S1) as [(-> & E1)|(q & r2 & l2 & -> & E1 & N2 & S2 & L2)]; rewrite E1; cbn [bind].
    { eexists _, _, _, _. split; [reflexivity|]. eapply bx_alone; [|exact Sg]. lt. }
    destruct (number_ok w q Iw N2) as (j & Ej & Nj). rewrite Ej. cbn [bind b_orig b_last b_in fst snd].
    assert (AJ : add_int ox j = Ret (ox + j)%Z).
    { unfold add_int. assert (X := T w q j Iw ltac:(right; left; reflexivity) Nj). unfold sane in Ox.
      replace ((-2147483648 <=? ox + j) && (ox + j <=? 2147483647))%Z with true; auto. symmetry. apply andb_true_intro. split; apply Z.leb_le; lia. }
    rewrite AJ. cbn [bind].
    destruct (next_stated I w q r2 l2 Iw S2) as [(-> & E2)|(q2 & r3 & l3 & -> & E2 & N3 & S3 & L3)]; rewrite E2; cbn [bind].
    { eexists _, _, _, _. split; [reflexivity|]. eapply bx_go1; eauto. }
    destruct (number_ok w q2 Iw N3) as (k & Ek & Nk). rewrite Ek. cbn [bind].
    assert (AK : add_int oy k = Ret (oy + k)%Z).
    { unfold add_int. assert (X := T w q2 k Iw ltac:(right; right; left; reflexivity) Nk). unfold sane in Oy.
      replace ((-2147483648 <=? oy + k) && (oy + k <=? 2147483647))%Z with true; auto. symmetry. apply andb_true_intro. split; apply Z.leb_le; lia. }
    rewrite AK. cbn [bind fst snd].
    destruct (IH w q2 r3 l3 ox oy (to_short (ox + j)) (to_short (oy + k)) n Iw S3 ltac:(tm) Ox Oy ltac:(lia)) as (z & l & w' & st & Er & B).
    rewrite Er. cbn [put bind app]. eexists _, _, _, _. split; [reflexivity|]. eapply bx_go; eauto; apply short_ok. }
  destruct (sw p "h") eqn:Sh. { isopt Sh. apply (ONE "h"%char BCursor); [lt|eauto|]. intros. eapply bx_cursor; eauto. }
  destruct (sw p "w") eqn:Sw. { isopt Sw. apply (ONE "w"%char BSleep); [lt|eauto|]. intros. eapply bx_sleep; eauto. }
  destruct (sw p "c") eqn:Sc. { isopt Sc. apply (ONE "c"%char (fun k => BColor (PORTABLE_COLOR k))); [lt|eauto|]. intros. eapply bx_colour; eauto. apply colour_ok. }
  destruct (sw p "k" || sw p "l") eqn:Sk.
  { assert (O : exists c u, (c = "k"%char \/ c = "l"%char) /\ opt c u p).
    { apply orb_prop in Sk. destruct Sk as [Sk|Sk]; isopt Sk; eauto. }
    destruct O as (c & u & Hc & O). clear Sk.
    assert (NS : noswitch p = false) by (destruct O as (d & _ & ->); reflexivity).
    assert (NX : exists q next, pBat_GetNextParameterEs w p rest = Ret (q, next, w) /\ match next with None => noswitch q | Some _ => false end = false).
    { destruct (next_stated I w p rest l1 Iw S1) as [(-> & E1)|(q & r2 & l2 & -> & E1 & _)]; rewrite E1; eauto. }
    destruct NX as (q & next & E1 & NM). rewrite E1. cbn [bind]. rewrite NM. cbn [b_in b_orig b_last]. rewrite (under_opt c u p O).
    destruct u; cbn [andb].
    - destruct (kbhit n) eqn:Kb; cbn [negb].
      + pose proof (key_ok (S n)) as K. destruct (read_key getch (S n)) as [k m]. eexists _, _, _, _. split; [reflexivity|]. eapply bx_hit; eauto.
      + destruct (IH w q rest l1 ox oy lx ly (S n) Iw S1 T1 Ox Oy Lr) as (z & l & w' & st & Er & B). rewrite Er.
        eexists _, _, _, _. split; [reflexivity|]. eapply bx_nokey; eauto.
    - pose proof (key_ok n) as K. destruct (read_key getch n) as [k m]. eexists _, _, _, _. split; [reflexivity|]. eapply bx_wait; eauto. }
  destruct (sw p "y" || sw p "m") eqn:Sy.
  { assert (O : exists c u, (c = "y"%char \/ c = "m"%char) /\ opt c u p).
    { apply orb_prop in Sy. destruct Sy as [Sy|Sy]; isopt Sy; eauto. }
    destruct O as (c & u & Hc & O). clear Sy. pose proof (onmove_ok c u p Hc O) as M.
    destruct (names_ok w p rest l1 Iw S1) as (r & Er & R). rewrite Er. cbn [bind b_in b_orig b_last].
    destruct (mouse n (onmove p)) as [[x y] t] eqn:Mo.
    destruct r as [[[[i j] k] r4]|].
    - destruct R as (l4 & -> & Ni & Nj & Nk & S4 & L4).
      destruct (IH (assign (assign (assign w i x) j y) k t) k r4 l4 ox oy lx ly (S n)) as (z & l & w' & st & Er2 & B); auto; [tm|].
      rewrite Er2. cbn [put bind app]. eexists _, _, _, _. split; [reflexivity|]. eapply bx_names; eauto.
    - destruct (IH w [] rest l1 ox oy lx ly (S n) Iw S1 T1 Ox Oy Lr) as (z & l & w' & st & Er2 & B).
      rewrite Er2. cbn [put bind app]. eexists _, _, _, _. split; [reflexivity|]. eapply bx_mouse; eauto. }
  destruct (IH w p rest l1 ox oy lx ly n Iw S1 T1 Ox Oy Lr) as (z & l & w' & st & Er & B). rewrite Er.
  eexists _, _, _, _. split; [reflexivity|]. apply bx_other; auto. clear E ONE. apply orb_false_iff in Sk, Sy. destruct Sk as [Sk Sl], Sy as [Sy Sm].
  intros c u Hc O. assert (X : sw p c = true) by (apply sw_opt; eauto).
  cbv in Hc. repeat (destruct Hc as [<-|Hc]; [congruence|]). destruct Hc.
Qed.
End P.

Section Q.
Variable ka : Z.
Variable kbhit : nat -> bool.
Variable getch : nat -> Z.
Variable mouse : nat -> bool -> Z * Z * Z.
Variable assign : xworld -> cstr -> Z -> xworld.
Variable assign_key : xworld -> cstr -> bool -> Z -> xworld.
Notation run := (batbox_loop ka kbhit getch mouse assign assign_key).
Lemma step_offset f w old line p r1 q r2 s r3 x y ox oy lx ly n : sw p "o" = true -> (forall c, In c (s2l "adn") -> sw p c = false) ->
  pBat_GetNextParameterEs w old line = Ret (p, Some r1, w) -> pBat_GetNextParameterEs w p r1 = Ret (q, Some r2, w) ->
  pBat_GetNextParameterEs w q r2 = Ret (s, Some r3, w) -> args_get_number ka w q = Ret x -> args_get_number ka w s = Ret y ->
  run (S f) w old line (mkB (ox, oy) (lx, ly) n) = run f w s r3 (mkB (to_short x, to_short y) (lx, ly) n).
Proof.
  intros So B E1 E2 E3 X Y. cbn [batbox_loop]. rewrite E1. cbn [bind]. rewrite !B by (cbv; tauto). rewrite So, E2. cbn [bind]. rewrite X. cbn [bind].
  rewrite E3. cbn [bind]. rewrite Y. reflexivity.
Qed.
Lemma step_go f w old line p r1 q r2 s r3 x y u v ox oy lx ly n : sw p "g" = true -> (forall c, In c (s2l "adno") -> sw p c = false) ->
  pBat_GetNextParameterEs w old line = Ret (p, Some r1, w) -> pBat_GetNextParameterEs w p r1 = Ret (q, Some r2, w) ->
  pBat_GetNextParameterEs w q r2 = Ret (s, Some r3, w) -> args_get_number ka w q = Ret x -> args_get_number ka w s = Ret y ->
  add_int ox x = Ret u -> add_int oy y = Ret v ->
  run (S f) w old line (mkB (ox, oy) (lx, ly) n) = put [BGo (to_short u) (to_short v)] (run f w s r3 (mkB (ox, oy) (to_short u, to_short v) n)).
Proof.
  intros So B E1 E2 E3 X Y U V. cbn [batbox_loop]. rewrite E1. cbn [bind]. rewrite !B by (cbv; tauto). rewrite So, E2. cbn [bind]. rewrite X. cbn [bind b_orig fst snd].
  rewrite U. cbn [bind]. rewrite E3. cbn [bind]. rewrite Y. cbn [bind b_orig fst snd]. rewrite V. reflexivity.
Qed.
Lemma step_end f w old line st : pBat_GetNextParameterEs w old line = Ret (old, None, w) -> run (S f) w old line st = Ret (0%Z, [], w, st).
Proof. intros E. cbn [batbox_loop]. rewrite E. reflexivity. Qed.
End Q.
