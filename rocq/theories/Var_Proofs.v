(** Var_Proofs.v -- lemmas on variable references. *)

From Verif Require Import Base Lex Num_Model Num_Proofs Estr_Model Estr_Spec Estr_Proofs
  Env_Model Env_Spec Env_Proofs Var_Model Var_Spec.

Lemma is_cont_iff c : is_cont c = true <-> continuation c.
Proof.
  pose proof (ascii_forall (fun c => Bool.eqb (is_cont c) ((128 <=? code c)%Z && (code c <? 192)%Z)) eq_refl c) as H.
  cbv beta in H. apply Bool.eqb_prop in H. rewrite H. unfold continuation.
  rewrite Bool.andb_true_iff, Z.leb_le, Z.ltb_lt. tauto.
Qed.
Lemma is_cont_false c : is_cont c = false <-> ~ continuation c.
Proof. rewrite <- is_cont_iff. destruct (is_cont c); split; congruence. Qed.

Lemma count_app a b : pBat_CountU8Chars (a ++ b) = pBat_CountU8Chars a + pBat_CountU8Chars b.
Proof. induction a as [|c a IH]; simpl; auto. rewrite IH. lia. Qed.
Lemma count_cont a : Forall continuation a -> pBat_CountU8Chars a = 0.
Proof. induction 1 as [|c a Hc _ IH]; simpl; auto. apply is_cont_iff in Hc. rewrite Hc. auto. Qed.
Lemma count_chars cs : Forall u8char cs -> pBat_CountU8Chars (concat cs) = length cs.
Proof.
  induction 1 as [|x cs (c & r & -> & Hc & Hr) _ IH]; simpl; auto.
  rewrite count_app, (count_cont r), IH by auto. apply is_cont_false in Hc. rewrite Hc. auto.
Qed.

Lemma skip_cont_ok fuel r : forall pre d post,
  Forall continuation r -> ~ continuation d -> length r < fuel ->
  skip_cont fuel (pre ++ r ++ d :: post) (length pre) = Ret (length pre + length r).
Proof.
  intros pre d post Hr Hd. revert fuel pre. induction Hr as [|c r Hc _ IH]; intros [|f] pre Hf; simpl in Hf; try lia.
  - cbn [skip_cont]. rewrite nth_error_app2, Nat.sub_diag by auto. cbn [app nth_error].
    apply is_cont_false in Hd. rewrite Hd, Nat.add_0_r. auto.
  - cbn [skip_cont]. rewrite nth_error_app2, Nat.sub_diag by auto. cbn [app nth_error].
    apply is_cont_iff in Hc. rewrite Hc.
    replace (pre ++ c :: r ++ d :: post) with ((pre ++ [c]) ++ r ++ d :: post) by (rewrite <- app_assoc; auto).
    replace (S (length pre)) with (length (pre ++ [c])) by (rewrite app_length; simpl; lia).
    rewrite IH by lia. rewrite app_length. simpl. f_equal. lia.
Qed.

Lemma skip_ok cs : forall pre k, Forall u8char cs -> k <= length cs ->
  pBat_SkipU8Chars (pre ++ concat cs ++ [nul]) (length pre) k = Ret (length pre + length (concat (firstn k cs))).
Proof.
  induction cs as [|x cs IH]; intros pre k Hc Hk.
  - destruct k; simpl in *; [|lia]. f_equal. lia.
  - destruct k as [|k]; simpl in Hk; [simpl; f_equal; lia|].
    inversion Hc as [|? ? (c & r & -> & Hc1 & Hr) Hcs]; subst.
    cbn [pBat_SkipU8Chars concat firstn].
    assert (D : exists d post, concat cs ++ [nul] = d :: post /\ ~ continuation d).
    { destruct cs as [|y cs]; [exists nul, []; split; auto; intros X; destruct X as [X _]; apply X; reflexivity|].
      inversion Hcs as [|? ? (c' & r' & -> & Hc' & Hr') _]; subst. simpl. eauto. }
    destruct D as (d & post & D & Hd).
    replace (pre ++ ((c :: r) ++ concat cs) ++ [nul]) with ((pre ++ [c]) ++ r ++ d :: post)
      by (rewrite <- D, <- !app_assoc; reflexivity).
    replace (S (length pre)) with (length (pre ++ [c])) by (rewrite app_length; simpl; lia).
    rewrite skip_cont_ok; auto; [|rewrite !app_length; simpl; lia]. cbn [bind].
    rewrite <- D.
    replace ((pre ++ [c]) ++ r ++ concat cs ++ [nul]) with ((pre ++ [c] ++ r) ++ concat cs ++ [nul])
      by (rewrite <- !app_assoc; auto).
    replace (length (pre ++ [c]) + length r) with (length (pre ++ [c] ++ r)) by (rewrite !app_length; simpl; lia).
    rewrite IH by (auto; lia). f_equal. rewrite !app_length. simpl. lia.
Qed.

Lemma concat_firstn_skipn (cs : list cstr) i j : i <= j ->
  concat (firstn j cs) = concat (firstn i cs) ++ concat (firstn (j - i) (skipn i cs)).
Proof.
  intros H. rewrite <- concat_app. f_equal.
  rewrite <- (firstn_skipn i (firstn j cs)). rewrite firstn_firstn, Nat.min_l by lia. f_equal.
  apply skipn_firstn_comm.
Qed.

Lemma slice_ok s cs b e : nonul s -> u8chars s cs -> (0 <= b)%Z -> (b <= e)%Z -> (e <= Z.of_nat (length cs))%Z ->
  slice s b e = Ret (concat (firstn (Z.to_nat (e - b)) (skipn (Z.to_nat b) cs)), s).
Proof.
  intros Hn (-> & Hc) Hb Hbe He.
  set (i := Z.to_nat b). set (j := Z.to_nat e).
  replace (Z.to_nat (e - b)) with (j - i) by (unfold i, j; lia).
  assert (Hij : i <= j) by (unfold i, j; lia). assert (Hj : j <= length cs) by (unfold j; lia).
  unfold slice. fold i j.
  pose proof (skip_ok cs [] j Hc Hj) as Sj. pose proof (skip_ok cs [] i Hc ltac:(lia)) as Si.
  simpl in Sj, Si. rewrite Sj. cbn [bind]. rewrite Si. cbn [bind].
  assert (Ej := firstn_skipn j cs). apply (f_equal (@concat _)) in Ej. rewrite concat_app in Ej.
  clear Sj Si. rewrite (concat_firstn_skipn cs i j Hij) in Ej. rewrite (concat_firstn_skipn cs i j Hij).
  set (A := concat (firstn i cs)) in *. set (B := concat (firstn (j - i) (skipn i cs))) in *.
  set (C := concat (skipn j cs)) in *. rewrite <- Ej in *. clear Ej.
  rewrite <- !app_assoc in Hn. apply nonul_app in Hn. destruct Hn as [HA Hn]. apply nonul_app in Hn. destruct Hn as [HB HC].
  destruct (C ++ [nul]) as [|x post] eqn:EC; [destruct C; discriminate|].
  replace (((A ++ B) ++ C) ++ [nul]) with ((A ++ B) ++ x :: post) by (rewrite <- EC, <- !app_assoc; auto).
  rewrite nth_error_app2, Nat.sub_diag by auto. cbn [nth_error bind].
  rewrite (write_at_app (A ++ B) [x] post [nul]) by auto. cbn [bind].
  replace ((A ++ B) ++ [nul] ++ post) with (A ++ B ++ nul :: post) by (rewrite <- !app_assoc; auto).
  rewrite (cstr_at_app A B post) by auto. cbn [bind].
  replace (A ++ B ++ nul :: post) with ((A ++ B) ++ [nul] ++ post) by (rewrite <- !app_assoc; auto).
  rewrite (write_at_app (A ++ B) [nul] post [x]) by auto. cbn [bind app].
  rewrite <- EC. replace ((A ++ B) ++ C ++ [nul]) with ([] ++ ((A ++ B) ++ C) ++ nul :: []) by (rewrite <- !app_assoc; auto).
  rewrite (cstr_at_app [] ((A ++ B) ++ C) []); auto.
  rewrite !nonul_app. auto.
Qed.

Lemma cut_ok s cs b l : nonul s -> u8chars s cs -> cut_fits cs b l ->
  cut s b l = Ret (cut_result cs b l, s).
Proof.
  intros Hn Hu (Hb & Hl & HN & Hs). unfold cut.
  assert (EC : pBat_CountU8Chars s = length cs) by (destruct Hu as (-> & ?); apply count_chars; auto).
  rewrite EC. set (n := Z.of_nat (length cs)) in *. assert (0 <= n)%Z by (unfold n; lia).
  rewrite to_int_id by (unfold INT_MIN, Num_Model.INT_MAX; lia).
  unfold cut_result, cut_exception, doc_slice. fold n.
  unfold sub_start, sub_stop in *. unfold sub_start in *.
  assert (I : forall z, (-2147483648 <= z <= 2147483647)%Z -> int_op z = Ret z) by (intros; apply int_op_ok; auto).
  assert (SL : forall i e, (0 <= i)%Z -> (i <= e)%Z -> (e <= n)%Z ->
     slice s i e = Ret (concat (firstn (Z.to_nat (e - i)) (skipn (Z.to_nat i) cs)), s)) by (intros; apply slice_ok; auto).
  destruct (Z.ltb_spec b 0); destruct (Z.ltb_spec 0 l); cbn [andb bind].
  - rewrite I by lia. cbn [bind]. destruct (Z.leb_spec l (n + b)); cbn [bind].
    + destruct (Z.ltb_spec (n + b) l); try lia. destruct (Z.ltb_spec (n + b) 0); try lia.
      destruct (Z.ltb_spec n (n + b)); try lia. cbn [orb]. rewrite I by lia. cbn [bind].
      destruct (Z.leb_spec 0 (n + b)); try lia. destruct (Z.leb_spec (n + b) (n + b + l)); try lia. cbn [andb].
      destruct (Z.leb_spec (n + b + l) n); [apply SL; lia|reflexivity].
    + destruct (Z.ltb_spec (n + b) l); try lia. destruct (Z.ltb_spec b 0); try lia. cbn [orb]. auto.
  - destruct (Z.leb_spec b l); cbn [bind].
    + rewrite I by lia. cbn [bind]. destruct (Z.ltb_spec (n + b) 0); cbn [orb].
      * destruct (Z.leb_spec 0 (n + b)); try lia. auto.
      * destruct (Z.ltb_spec n (n + b)); try lia. rewrite !I by lia. cbn [bind].
        destruct (Z.leb_spec 0 (n + b)); try lia. destruct (Z.leb_spec (n + b) (n + l)); try lia.
        destruct (Z.leb_spec (n + l) n); try lia. cbn [andb].
        destruct (Z.leb_spec (- l) (n - (n + b))); try lia. cbn [bind]. apply SL; lia.
    + destruct (Z.ltb_spec b 0); try lia. cbn [orb].
      destruct (Z.leb_spec 0 (n + b)); auto. destruct (Z.leb_spec (n + b) (n + l)); try lia. auto.
  - destruct (Z.ltb_spec b 0); try lia. cbn [orb]. destruct (Z.leb_spec 0 b); try lia.
    destruct (Z.leb_spec b (b + l)); try lia. cbn [andb].
    destruct (Z.ltb_spec n b).
    + destruct (Z.leb_spec (b + l) n); try lia. auto.
    + rewrite I by lia. cbn [bind]. destruct (Z.leb_spec (b + l) n); [apply SL; lia|reflexivity].
  - destruct (Z.ltb_spec b 0); try lia. cbn [orb]. destruct (Z.leb_spec 0 b); try lia.
    destruct (Z.leb_spec (n + l) n); try lia.
    destruct (Z.ltb_spec n b); cbn [andb].
    + destruct (Z.leb_spec b (n + l)); try lia. auto.
    + rewrite !I by lia. cbn [bind]. destruct (Z.leb_spec (- l) (n - b)), (Z.leb_spec b (n + l)); try lia; auto.
      cbn [andb bind]. apply SL; lia.
Qed.

Lemma cut_same s b l t s' : nonul s -> cut s b l = Ret (t, s') -> s' = s.
Proof.
  intros Hn. unfold cut.
  assert (SL : forall i e, slice s i e = Ret (t, s') -> s' = s).
  { intros i e. unfold slice. destruct (pBat_SkipU8Chars _ 0 (Z.to_nat e)) as [z| |]; try discriminate. cbn [bind].
    destruct (pBat_SkipU8Chars _ 0 (Z.to_nat i)) as [p| |]; try discriminate. cbn [bind].
    destruct (nth_error (s ++ [nul]) z) as [save|] eqn:En; try discriminate. cbn [bind].
    destruct (nth_error_split _ _ En) as (A & C & E & L). rewrite E. subst z.
    change (A ++ save :: C) with (A ++ [save] ++ C).
    rewrite (write_at_app A [save] C [nul]) by auto. cbn [bind].
    destruct (cstr_at (A ++ [nul] ++ C) p) as [t'| |]; try discriminate. cbn [bind].
    rewrite (write_at_app A [nul] C [save]) by auto. cbn [bind].
    change (A ++ [save] ++ C) with (A ++ save :: C). rewrite <- E.
    change (s ++ [nul]) with ([] ++ s ++ [nul]). rewrite (cstr_at_app [] s []) by auto. cbn [bind]. congruence. }
  destruct (if (b <? 0)%Z then _ else _) as [b1| |]; try discriminate. cbn [bind].
  destruct (_ || _); [congruence|].
  destruct (0 <? l)%Z.
  - destruct (int_op (b1 + l)) as [e| |]; try discriminate. cbn [bind]. destruct (_ <=? _)%Z; [apply SL|congruence].
  - destruct (int_op (- l)) as [a| |]; try discriminate. cbn [bind].
    destruct (int_op _) as [r| |]; try discriminate. cbn [bind]. destruct (_ <=? _)%Z; [|congruence].
    destruct (int_op (_ + l)) as [e| |]; try discriminate. cbn [bind]. apply SL.
Qed.

Lemma update_same {A} (l : list A) i x : nth_error l i = Some x -> update l i x = l.
Proof. revert i. induction l as [|y l IH]; intros [|i]; simpl; intros H; try discriminate; [congruence|]. f_equal. auto. Qed.

Lemma content_store w ka n p s : content w ka n = Ret (Some (p, s)) -> store w p s = w.
Proof.
  unfold content.
  repeat match goal with |- context[if ?c then _ else _] => destruct c end;
    try (intros [= <- <-]; destruct w; reflexivity).
  - destruct (scan_nul _); try discriminate. intros [= <- <-]. reflexivity.
  - destruct (find_name _ _ _) as [[i|]| |]; try discriminate. cbn [bind].
    destruct (nth_error _ i) as [v|] eqn:E; try discriminate. destruct (v_name v) eqn:EN; try discriminate.
    intros [= <- <-]. unfold store. rewrite E, EN. destruct w as [e]. simpl in *.
    rewrite update_same; [destruct e; reflexivity|]. rewrite E. destruct v; simpl in *; congruence.
Qed.

Lemma scan_nul_nonul m t : scan_nul m = Ret t -> nonul t.
Proof. intros H. apply scan_nul_inv in H. tauto. Qed.

Lemma content_nonul w ka n p s : values_ok w -> content w ka n = Ret (Some (p, s)) -> nonul s.
Proof.
  intros (H1 & H2 & H3 & H4). unfold content.
  destruct (_ =? _)%Z; [intros [= <- <-]; auto|].
  destruct (_ =? _)%Z; [intros [= <- <-]; apply dec_nonul|].
  destruct (_ =? _)%Z.
  { destruct (scan_nul _) eqn:E; try discriminate. intros [= <- <-]. eapply scan_nul_nonul; eauto. }
  destruct (_ =? _)%Z; [intros [= <- <-]; apply dec_nonul|].
  destruct (_ || _).
  { destruct n as [|c n]; [intros [= <- <-]; auto|]. destruct (_ || _); intros [= <- <-]; auto. }
  destruct (find_name _ _ _) as [[i|]| |]; try discriminate. cbn [bind].
  destruct (nth_error _ i) as [v|] eqn:E; try discriminate. destruct (v_name v); try discriminate.
  intros [= <- <-]. rewrite Forall_forall in H4. apply H4. eapply nth_error_In; eauto.
Qed.

Lemma getvar_world w ka name r w' : values_ok w -> pBat_GetVar w ka name = Ret (r, w') -> w' = w.
Proof.
  intros Hv. unfold pBat_GetVar. destruct (parse_ref name) as [[n f]| |]; try discriminate. cbn [bind].
  destruct (content w ka n) as [[[p s]|]| |] eqn:E; try discriminate; cbn [bind]; [|congruence].
  destruct f; try congruence.
  - destruct (replace_text _ _ _ _); try discriminate. cbn [bind]. congruence.
  - destruct (cut s iBegin iLen) as [[t s']| |] eqn:Ec; try discriminate. cbn [bind]. intros [= _ <-].
    assert (s' = s) by (eapply cut_same; eauto; eapply content_nonul; eauto). subst. eapply content_store; eauto.
Qed.

(** *** The forms of a reference *)

Lemma strchr_none s c : ~ In c s -> strchr s c = None.
Proof. intros H. apply find_idx_None. intros d Hd. destruct (ceq d c) eqn:E; auto. apply ceq_true in E. congruence. Qed.

Lemma strchr_app a c b : ~ In c a -> strchr (a ++ c :: b) c = Some (length a).
Proof.
  unfold strchr. induction a as [|x a IH]; simpl; intros H.
  - rewrite ceq_refl. auto.
  - destruct (ceq x c) eqn:E; [apply ceq_true in E; subst; tauto|]. rewrite IH by tauto. auto.
Qed.

Lemma parse_plain n : ~ In ":"%char n -> parse_ref n = Ret (n, FPlain).
Proof. intros H. unfold parse_ref. rewrite strchr_none; auto. Qed.

Lemma parse_replace n pat rep : ~ In ":"%char n -> ~ In "="%char pat ->
  parse_ref (n ++ ":"%char :: pat ++ "="%char :: rep) = Ret (n, FReplace pat rep).
Proof.
  intros Hn Hp. unfold parse_ref. rewrite strchr_app by auto.
  rewrite firstn_app_len, skipn_app_len by auto.
  change (":"%char :: pat ++ "="%char :: rep) with ((":"%char :: pat) ++ "="%char :: rep).
  rewrite strchr_app by (intros [X|X]; [discriminate|auto]).
  rewrite firstn_app_len by auto. f_equal. f_equal. f_equal.
  replace ((":"%char :: pat) ++ "="%char :: rep) with (((":"%char :: pat) ++ ["="%char]) ++ rep) by (rewrite <- app_assoc; auto).
  apply skipn_app_len. rewrite app_length. simpl. lia.
Qed.

Lemma parse_default n t : ~ In ":"%char n -> ~ In "="%char t -> (forall r, t <> "~"%char :: r) ->
  parse_ref (n ++ ":"%char :: t) = Ret (n, FDefault t).
Proof.
  intros Hn Ht Hd. unfold parse_ref. rewrite strchr_app by auto.
  rewrite firstn_app_len, skipn_app_len by auto.
  rewrite strchr_none by (intros [X|X]; [discriminate|auto]). simpl.
  destruct t as [|c t]; auto. destruct (ceq c "~"%char) eqn:E; auto. apply ceq_true in E. subst. destruct (Hd t); auto.
Qed.

Lemma parse_cut2 n b l : ~ In ":"%char n -> in_int b = true -> in_int l = true ->
  parse_ref (n ++ s2l ":~" ++ dec b ++ ","%char :: dec l) = Ret (n, FCut b l).
Proof.
  intros Hn Hb Hl. unfold parse_ref. change (s2l ":~" ++ dec b ++ ","%char :: dec l)
    with (":"%char :: "~"%char :: dec b ++ ","%char :: dec l). rewrite strchr_app by auto.
  rewrite firstn_app_len, skipn_app_len by auto.
  rewrite strchr_none.
  2:{ intros [X|[X|X]]; try discriminate. apply in_app_or in X. destruct X as [X|[X|X]]; try discriminate;
      revert X; apply dec_not_in; cbv; tauto. }
  change (skipn 1 (":"%char :: "~"%char :: dec b ++ ","%char :: dec l)) with ("~"%char :: dec b ++ ","%char :: dec l).
  change (ceq "~" "~")%char with true. cbv iota.
  rewrite strchr_app by (apply dec_not_in; cbv; tauto).
  replace (skipn (S (length (dec b))) (dec b ++ ","%char :: dec l)) with (dec l).
  2:{ replace (dec b ++ ","%char :: dec l) with ((dec b ++ [","%char]) ++ dec l) by (rewrite <- app_assoc; auto).
      symmetry. apply skipn_app_len. rewrite app_length. simpl. lia. }
  rewrite firstn_app_len by auto. rewrite !atol_dec by (apply in_int_long; auto). cbn [bind].
  apply in_int_iff in Hb, Hl. rewrite !to_int_id by auto. auto.
Qed.

Lemma parse_cut1 n b : ~ In ":"%char n -> in_int b = true ->
  parse_ref (n ++ s2l ":~" ++ dec b) = Ret (n, FCut b 0).
Proof.
  intros Hn Hb. unfold parse_ref. change (s2l ":~" ++ dec b) with (":"%char :: "~"%char :: dec b). rewrite strchr_app by auto.
  rewrite firstn_app_len, skipn_app_len by auto.
  rewrite strchr_none.
  2:{ intros [X|[X|X]]; try discriminate. revert X; apply dec_not_in; cbv; tauto. }
  simpl skipn. change (ceq "~" "~")%char with true. cbv iota.
  rewrite strchr_none by (apply dec_not_in; cbv; tauto). rewrite !atol_dec by (apply in_int_long; auto). cbn [bind].
  apply in_int_iff in Hb. rewrite !to_int_id by auto. auto.
Qed.

(** What %n% gives tells what the other forms work on. *)
Lemma plain_content w ka n r w' : ~ In ":"%char n -> pBat_GetVar w ka n = Ret (r, w') ->
  match r with
  | Some s => exists p, content w ka n = Ret (Some (p, s))
  | None => content w ka n = Ret None
  end.
Proof.
  intros Hn. unfold pBat_GetVar. rewrite parse_plain by auto. cbn [bind].
  destruct (content w ka n) as [[[p s]|]| |]; try discriminate; intros [= <- <-]; eauto.
Qed.

Lemma replaced_text pat rep s t : replaced pat rep s t -> pat <> [] ->
  forall fuel, length s < fuel -> replace_text fuel s pat rep = Ret t.
Proof.
  intros H Hp. induction H as [s H|a b t H Hr IH]; intros [|f] Hf; try lia; cbn [replace_text].
  - destruct (strstr s pat) eqn:E; auto. apply strstr_Some in E. destruct E as (a & b & E1 & E2 & _). destruct (H n); exists a, b; auto.
  - rewrite (strstr_first a pat b) by auto.
    assert (E : skipn (length a + length pat) (a ++ pat ++ b) = b).
    { rewrite app_assoc. apply skipn_app_len. rewrite app_length. auto. }
    rewrite E, firstn_app_len by auto. rewrite IH; auto.
    rewrite !app_length in Hf. destruct pat; [congruence|]. simpl in Hf. lia.
Qed.

Lemma replace_text_refines fuel junk junk' es s pat rep t :
  holds es s -> pat <> [] -> nonul rep -> fits (length t) -> length s < fuel ->
  replace_text fuel s pat rep = Ret t ->
  exists es', pBat_EsReplace fuel (Some junk) junk' es pat rep = Ret (0%Z, es') /\ holds es' t.
Proof.
  intros H1 H2 H3 H4 H5 H6. destruct (replaced_total pat rep s H2) as (t' & Ht').
  rewrite (replaced_text _ _ _ _ Ht' H2) in H6 by auto. injection H6 as <-.
  destruct (EsReplace_ok fuel junk junk' es s t' pat rep) as (es' & H & H' & _); eauto.
Qed.

Lemma stricmp_eqb a b : nonul a -> nonul b ->
  (stricmp a b =? 0)%Z = true <-> map tolower a = map tolower b.
Proof. intros Ha Hb. rewrite Z.eqb_eq, stricmp_0 by auto. apply key_lower. Qed.

Lemma getvar_cut w ka n f s cs b l name : values_ok w -> ~ In ":"%char n ->
  parse_ref name = Ret (n, FCut b l) ->
  pBat_GetVar w ka n = Ret (Some s, f) -> u8chars s cs -> cut_fits cs b l ->
  pBat_GetVar w ka name = Ret (Some (cut_result cs b l), w).
Proof.
  intros Hv Hn Hp Hg Hu Hf. destruct (plain_content _ _ _ _ _ Hn Hg) as (p & Hc).
  unfold pBat_GetVar. rewrite Hp. cbn [bind]. rewrite Hc. cbn [bind].
  rewrite (cut_ok s cs) by (auto; eapply content_nonul; eauto). cbn [bind].
  rewrite (content_store _ _ _ _ _ Hc). auto.
Qed.

Lemma u8chars_exists s : (forall c r, s = c :: r -> ~ continuation c) -> exists cs, u8chars s cs.
Proof.
  intros H.
  assert (G : exists r cs, s = r ++ concat cs /\ Forall continuation r /\ Forall u8char cs).
  { clear H. induction s as [|c s (r & cs & -> & Hr & Hc)]; [exists [], []; auto|].
    destruct (is_cont c) eqn:E.
    - apply is_cont_iff in E. exists (c :: r), cs. auto.
    - apply is_cont_false in E. exists [], ((c :: r) :: cs). repeat split; auto. constructor; auto. exists c, r. auto. }
  destruct G as (r & cs & -> & Hr & Hc). destruct Hr as [|c r Hc1 _].
  - exists cs. split; auto.
  - exfalso. eapply H; simpl; eauto.
Qed.

Lemma u8chars_unique s cs cs' : u8chars s cs -> u8chars s cs' -> cs = cs'.
Proof.
  intros (-> & H) (E & H'). revert cs' E H'.
  assert (Hd : forall cs : list cstr, Forall u8char cs -> forall c r, concat cs = c :: r -> ~ continuation c).
  { intros l Hl c r. destruct Hl as [|? ? (d & t & -> & Hx & _) _]; simpl; [discriminate|]. intros [= -> _]. auto. }
  assert (HH : forall r r' a b, Forall continuation r -> Forall continuation r' ->
     (forall c t, a = c :: t -> ~ continuation c) -> (forall c t, b = c :: t -> ~ continuation c) ->
     r ++ a = r' ++ b -> r = r' /\ a = b).
  { intros r r' a b Hr. revert r' a b. induction Hr as [|c r Hc _ IH]; intros r' a b Hr' Ha Hb E.
    - destruct Hr' as [|c' r' Hc' _]; auto. simpl in E. exfalso. eapply Ha; eauto.
    - destruct Hr' as [|c' r' Hc' Hr'].
      + simpl in E. exfalso. eapply Hb; eauto.
      + injection E as <- E. destruct (IH r' a b) as [-> ->]; auto. }
  induction H as [|x cs (c & r & -> & Hc & Hr) H IH]; intros cs' E H'.
  - destruct H' as [|? ? (d & t & -> & _) _]; auto. discriminate.
  - destruct H' as [|? ? (d & t & -> & Hd' & Ht) H']; [discriminate|]. simpl in E. injection E as <- E.
    apply HH in E; eauto. destruct E as [-> E]. f_equal. auto.
Qed.

Lemma content_static w ka n : nonul n -> ~ dynamic n ->
  content w ka n =
    do r <- find_name (vw_env w) n ka;
    match r with
    | None => Ret None
    | Some i => match nth_error (e_buf (vw_env w)) i with
                | Some v => match v_name v with
                            | Some _ => Ret (Some (InEnv i, v_content v))
                            | None => Ret None
                            end
                | None => Undef
                end
    end.
Proof.
  intros Hn Hd. unfold content.
  assert (X : forall d, In d dynamic_names -> (stricmp n d =? 0)%Z = false).
  { intros d Hi. destruct (stricmp n d =? 0)%Z eqn:E; auto. apply stricmp_eqb in E; auto.
    - destruct Hd. exists d. auto.
    - cbv in Hi. repeat (destruct Hi as [<-|Hi]; [intros Y; cbv in Y; intuition discriminate|]). destruct Hi. }
  rewrite !X by (cbv; tauto). reflexivity.
Qed.

Lemma getvar_static w ka n v : nonul n -> ~ dynamic n -> ~ In ":"%char n ->
  pBat_GetEnv (vw_env w) n ka = Ret v -> pBat_GetVar w ka n = Ret (v, w).
Proof.
  intros H1 H2 H3. unfold pBat_GetVar, pBat_GetEnv. rewrite parse_plain by auto. cbn [bind].
  rewrite content_static by auto. destruct (find_name _ _ _) as [[i|]| |]; try discriminate; cbn [bind].
  - destruct (nth_error _ i) as [x|]; try discriminate. destruct (v_name x); cbn [bind]; congruence.
  - congruence.
Qed.

Lemma dyn_eq n d : nonul n -> nonul d -> map tolower n = map tolower d -> stricmp n d = 0%Z.
Proof. intros. apply Z.eqb_eq, stricmp_eqb; auto. Qed.

Lemma lower_other n d d' : nonul n -> nonul d' -> map tolower n = map tolower d -> map tolower d <> map tolower d' ->
  (stricmp n d' =? 0)%Z = false.
Proof.
  intros Hn Hd E N. destruct (stricmp n d' =? 0)%Z eqn:X; auto. apply stricmp_eqb in X; auto. congruence.
Qed.
