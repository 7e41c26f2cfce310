(** Wc_Proofs.v -- lemmas about WC. *)

From Verif Require Import Base Num_Model Path_Model Var_Model Expand_Model Args_Model Args_Spec Args_Proofs Params_Model
  Params_Spec Params_Proofs For_Model Wc_Model Wc_Spec.

(** ** Counting *)
Definition cs (l w b c : Z) : wc_count_t := mkC (size_t l) (size_t w) (size_t b) (size_t c).
Lemma size_add a b : size_t (size_t a + b) = size_t (a + b).
Proof. unfold size_t. apply Zplus_mod_idemp_l. Qed.
Lemma size_add2 a b : size_t (size_t a + size_t b) = size_t (a + b).
Proof. unfold size_t. symmetry. apply Zplus_mod. Qed.

Fixpoint nwords (b : bool) (s : cstr) : nat :=
  match s with
  | [] => 0
  | c :: r => if inset wc_delims c then (if b then 1 else 0) + nwords false r else nwords true r
  end.
Fixpoint wend (b : bool) (s : cstr) : bool :=
  match s with [] => b | c :: r => wend (negb (inset wc_delims c)) r end.
Lemma nwords_app s : forall b t, nwords b (s ++ t) = nwords b s + nwords (wend b s) t.
Proof. induction s as [|c s IH]; intros b t; cbn [app nwords wend]; auto. destruct (inset wc_delims c); cbn [negb]; rewrite IH; lia. Qed.
Lemma wend_app s : forall b t, wend b (s ++ t) = wend (wend b s) t.
Proof. induction s as [|c s IH]; intros; cbn [app wend]; auto. Qed.

Definition nchars (s : cstr) : nat := length (filter wc_char s).
Definition nlines (s : cstr) : nat := count_occ ascii_dec s nl.
Lemma nlines_cons c s : nlines (c :: s) = (if ceq c nl then 1 else 0) + nlines s.
Proof.
  unfold nlines. cbn [count_occ]. destruct (ascii_dec c nl) as [->|N]; [rewrite ceq_refl; auto|].
  replace (ceq c nl) with false; auto. symmetry. apply ceq_false. auto.
Qed.
Lemma nlines_app s t : nlines (s ++ t) = nlines s + nlines t.
Proof. unfold nlines. apply count_occ_app. Qed.
Lemma nchars_app s t : nchars (s ++ t) = nchars s + nchars t.
Proof. unfold nchars. rewrite filter_app, app_length. auto. Qed.

Lemma count_buf_ok s : forall b l w y c,
  count_buf s b (cs l w y c) =
  (wend b s, cs (l + Z.of_nat (nlines s)) (w + Z.of_nat (nwords b s)) y (c + Z.of_nat (nchars s))).
Proof.
  induction s as [|h s IH]; intros b l w y c.
  - cbn. f_equal. unfold cs. f_equal; f_equal; lia.
  - cbn [count_buf wend nwords]. rewrite nlines_cons.
    replace (if wc_char h then mkC (lines (cs l w y c)) (words (cs l w y c)) (bytes (cs l w y c)) (size_t (chars (cs l w y c) + 1)) else cs l w y c)
      with (cs l w y (c + if wc_char h then 1 else 0)).
    2:{ destruct (wc_char h); unfold cs; cbn [lines words bytes chars]; rewrite ?size_add; f_equal. f_equal. lia. }
    set (c1 := (c + if wc_char h then 1 else 0)%Z).
    replace (if ceq h nl then mkC (size_t (lines (cs l w y c1) + 1)) (words (cs l w y c1)) (bytes (cs l w y c1)) (chars (cs l w y c1)) else cs l w y c1)
      with (cs (l + if ceq h nl then 1 else 0) w y c1).
    2:{ destruct (ceq h nl); unfold cs; cbn [lines words bytes chars]; rewrite ?size_add; f_equal. f_equal. lia. }
    assert (C : (c + Z.of_nat (nchars (h :: s)) = c1 + Z.of_nat (nchars s))%Z).
    { unfold nchars, c1. cbn [filter]. destruct (wc_char h); cbn [length]; lia. }
    rewrite C.
    replace (l + Z.of_nat ((if ceq h nl then 1 else 0) + nlines s))%Z with ((l + if ceq h nl then 1 else 0) + Z.of_nat (nlines s))%Z
      by (destruct (ceq h nl); lia).
    destruct (inset wc_delims h); cbn [negb]; [|apply IH].
    destruct b; [|rewrite IH; auto].
    unfold cs. cbn [lines words bytes chars]. rewrite size_add. fold (cs (l + if ceq h nl then 1 else 0) (w + 1) y c1).
    rewrite IH. f_equal. unfold cs. f_equal. f_equal. lia.
Qed.

Lemma count_reads_ok parts : forall rest b l w y c, Forall (fun p => p <> []) parts ->
  match rest with Some (_ :: _) :: _ => False | _ => True end ->
  count_reads (map Some parts ++ rest) b (cs l w y c) =
  cs (l + Z.of_nat (nlines (concat parts))) (w + Z.of_nat (nwords b (concat parts))) (y + Z.of_nat (length (concat parts)))
     (c + Z.of_nat (nchars (concat parts))).
Proof.
  induction parts as [|p parts IH]; intros rest b l w y c F R.
  - cbn [map app concat]. replace (cs (l + _) _ _ _) with (cs l w y c).
    + destruct rest as [|[[|? ?]|] ?]; try reflexivity. destruct R.
    + unfold cs, nlines, nchars. cbn. f_equal; f_equal; lia.
  - inversion F; subst. cbn [map app concat]. destruct p as [|h p]; [congruence|]. cbn [count_reads].
    unfold cs at 1 2 3 4. cbn [lines words bytes chars]. rewrite size_add.
    fold (cs l w (y + Z.of_nat (length (h :: p))) c). rewrite count_buf_ok, IH by auto.
    rewrite nlines_app, nchars_app, nwords_app, app_length. unfold cs. f_equal; f_equal; lia.
Qed.

Definition measure (s : cstr) (k : wckind) : nat :=
  match k with WLines => nlines s | WWords => nwords false s | WBytes => length s | WChars => nchars s end.

Lemma reads_counts rs s : reads_as rs s ->
  count_reads rs false count0 = cs (Z.of_nat (measure s WLines)) (Z.of_nat (measure s WWords)) (Z.of_nat (measure s WBytes)) (Z.of_nat (measure s WChars)).
Proof.
  intros (parts & rest & -> & F & <- & R). change count0 with (cs 0 0 0 0). rewrite count_reads_ok by auto. reflexivity.
Qed.

(** ** The measures *)
Lemma wc_char_iff c : wc_char c = true <-> ~ cont c.
Proof.
  assert (X : Bool.eqb (wc_char c) (negb ((128 <=? code c)%Z && (code c <? 192)%Z)) = true).
  { revert c. apply ascii_forall. vm_compute. reflexivity. }
  apply Bool.eqb_prop in X. rewrite X. unfold cont. rewrite negb_true_iff, andb_false_iff. lia.
Qed.
Lemma delim_iff c : inset wc_delims c = true <-> separator c.
Proof.
  assert (X : Bool.eqb (inset wc_delims c) (inset (s2l " ,.;" ++ ["009"%char; "010"%char; "013"%char]) c) = true).
  { revert c. apply ascii_forall. vm_compute. reflexivity. }
  apply Bool.eqb_prop in X. rewrite X. unfold separator. apply inset_in.
Qed.

Lemma cont_none s : Forall cont s -> nchars s = 0.
Proof.
  unfold nchars. induction 1 as [|c s H F IH]; auto. cbn [filter]. destruct (wc_char c) eqn:X; auto. apply wc_char_iff in X. tauto.
Qed.
Lemma chars_cons c s : nchars (c :: s) = (if wc_char c then 1 else 0) + nchars s.
Proof. unfold nchars. cbn [filter]. destruct (wc_char c); auto. Qed.
Lemma characters_count s n : characters s n -> nchars s = n.
Proof.
  induction 1 as [|c t s n C F H IH]; auto. rewrite chars_cons, nchars_app, cont_none, IH by auto.
  replace (wc_char c) with true; auto. symmetry. apply wc_char_iff. auto.
Qed.
Lemma characters_ex s : exists a t n, s = a ++ t /\ Forall cont a /\ characters t n.
Proof.
  induction s as [|c s (a & t & n & -> & F & C)].
  - exists [], [], 0. repeat split; auto. constructor.
  - destruct (wc_char c) eqn:X.
    + exists [], (c :: a ++ t), (Datatypes.S n). repeat split; auto. constructor; auto. apply wc_char_iff. auto.
    + exists (c :: a), t, n. repeat split; auto. constructor; auto. destruct (code c <? 128)%Z eqn:Y; destruct (192 <=? code c)%Z eqn:Z;
        try (unfold cont; lia); exfalso; (cut (wc_char c = true); [congruence|]; apply wc_char_iff; unfold cont; lia).
Qed.

Lemma seps_none a : Forall separator a -> forall b, nwords false a = 0 /\ wend b a = match a with [] => b | _ => false end.
Proof.
  induction 1 as [|c a H F IH]; intros b; [auto|]. cbn [nwords wend]. apply delim_iff in H. rewrite H. cbn [negb].
  destruct (IH false) as [I1 I2]. split; [lia|]. rewrite I2. destruct a; auto.
Qed.
Lemma word_none u : Forall (fun c => ~ separator c) u -> forall b, nwords b u = 0 /\ wend b u = match u with [] => b | _ => true end.
Proof.
  induction 1 as [|c u H F IH]; intros b; [auto|]. cbn [nwords wend].
  destruct (inset wc_delims c) eqn:X; [apply delim_iff in X; tauto|]. cbn [negb].
  destruct (IH true) as [I1 I2]. split; [lia|]. rewrite I2. destruct u; auto.
Qed.
Lemma words_count s n l : words_of s n l -> nwords false s = n.
Proof.
  induction 1 as [a u A U|a u d s n l A N U D W IH].
  - rewrite nwords_app. destruct (seps_none a A false) as [-> ->]. destruct (word_none u U (match a with [] => false | _ => false end)) as [-> _]. auto.
  - rewrite nwords_app. destruct (seps_none a A false) as [-> ->].
    replace (match a with [] => false | _ => false end) with false by (destruct a; auto).
    rewrite nwords_app. destruct (word_none u U false) as [-> ->]. destruct u; [congruence|].
    cbn [nwords]. apply delim_iff in D. rewrite D, IH. auto.
Qed.
Lemma words_ex s : exists n l, words_of s n l.
Proof.
  induction s as [|c s (n & l & W)].
  - exists 0, []. apply (wo_last [] []); auto.
  - destruct (inset wc_delims c) eqn:X.
    + apply delim_iff in X. exists n, l. destruct W as [a u A U|a u d s n l A N U D W].
      * apply (wo_last (c :: a) u); auto.
      * apply (wo_word (c :: a) u d s n l); auto.
    + assert (L : ~ separator c) by (rewrite <- delim_iff; congruence).
      destruct W as [a u A U|a u d s n l A N U D W].
      * destruct a as [|d a].
        -- exists 0, (c :: u). apply (wo_last [] (c :: u)); auto.
        -- inversion A; subst. exists 1, u. apply (wo_word [] [c] d (a ++ u) 0 u); auto; [discriminate|]. apply wo_last; auto.
      * destruct a as [|e a].
        -- exists (Datatypes.S n), l. apply (wo_word [] (c :: u) d s n l); auto. discriminate.
        -- inversion A; subst. exists (Datatypes.S (Datatypes.S n)), l. apply (wo_word [] [c] e (a ++ u ++ d :: s) (Datatypes.S n) l); auto; [discriminate|].
           apply wo_word; auto.
Qed.
Lemma measure_iff s k n : measures s k n <-> n = measure s k.
Proof.
  split.
  - destruct 1 as [| |a t n -> A C|n l W]; cbn [measure]; auto.
    + rewrite nchars_app, cont_none by auto. symmetry. cbn. apply characters_count. auto.
    + symmetry. eapply words_count; eauto.
  - intros ->. destruct k; cbn [measure]; try constructor.
    + destruct (characters_ex s) as (a & t & n & -> & A & C). econstructor; eauto.
      rewrite nchars_app, cont_none by auto. cbn. apply characters_count in C as C'. rewrite C'. auto.
    + destruct (words_ex s) as (n & l & W). rewrite (words_count _ _ _ W). econstructor; eauto.
Qed.

(** ** Rows *)
Definition row_of (mode : wcmode) (m : wckind -> nat) (name : cstr) : cstr :=
  (if mode WLines then printed (m WLines) else []) ++ (if mode WWords then printed (m WWords) else []) ++
  (if mode WBytes then printed (m WBytes) else []) ++ (if mode WChars then printed (m WChars) else []) ++ name ++ [nl].
Lemma print_row mode m f : pBat_PrintCounts mode (cs (Z.of_nat (m WLines)) (Z.of_nat (m WWords)) (Z.of_nat (m WBytes)) (Z.of_nat (m WChars))) (Some f) = row_of mode m f.
Proof. reflexivity. Qed.
Lemma row_ok (ask : wckind -> Prop) mode (m : wckind -> nat -> Prop) (v : wckind -> nat) name s :
  (forall k, mode k = true <-> ask k) -> (forall k n, m k n <-> n = v k) -> (row ask m name s <-> s = row_of mode v name).
Proof.
  intros A M.
  assert (X : forall ks s, counts ask m ks s <-> s = concat (map (fun k => if mode k then printed (v k) else []) ks)).
  { induction ks as [|k ks IH]; intros t; cbn [map concat].
    - split; [inversion 1; auto|intros ->; constructor].
    - split.
      + inversion 1; subst.
        * rewrite (proj2 (A k)) by auto. apply M in H3. subst. f_equal. apply IH. auto.
        * destruct (mode k) eqn:Y; [apply A in Y; tauto|]. cbn. apply IH. auto.
      + intros ->. destruct (mode k) eqn:Y.
        * apply cts_asked; [apply A; auto|apply M; auto|apply IH; auto].
        * cbn. apply cts_skip; [rewrite <- A; congruence|]. apply IH. auto. }
  unfold row, row_of. split.
  - intros (c & C & ->). apply X in C. subst c. cbn [map concat]. rewrite app_nil_r. rewrite <- !app_assoc. auto.
  - intros ->. eexists. split; [apply X; reflexivity|]. cbn [map concat]. rewrite app_nil_r, <- !app_assoc. auto.
Qed.

(** ** The parameters *)
Section Search.
Variable search : cstr -> list wfile.

Inductive wcarg := AOpt (k : wckind) | AHelp | ABad | AFile.
Definition wc_arg (t : cstr) : wcarg :=
  match t with
  | [s; c] =>
      if ceq s "/"%char then
        if ceq c "?"%char then AHelp
        else if ceq c "L"%char || ceq c "l"%char then AOpt WLines
        else if ceq c "C"%char || ceq c "c"%char then AOpt WBytes
        else if ceq c "M"%char || ceq c "m"%char then AOpt WChars
        else if ceq c "W"%char || ceq c "w"%char then AOpt WWords
        else ABad
      else AFile
  | _ => AFile
  end.
Lemma params_step fuel w old line mode l :
  wc_params search (Datatypes.S fuel) w old line mode l =
  do (t, rest, w) <- pBat_GetNextParameterEs w old line;
  match rest with
  | None => Ret (WGo mode l, w)
  | Some rest =>
      match wc_arg t with
      | AHelp => Ret (WHelp, w)
      | ABad => Ret (WFail PBAT_UNEXPECTED_ELEMENT, w)
      | AOpt k => wc_params search fuel w t rest (mode_add mode k) l
      | AFile => match search t with
                 | [] => Ret (WFail PBAT_NO_MATCH, w)
                 | items => wc_params search fuel w t rest mode
                     (l ++ map (fun i => (if PBAT_TEST_ABSOLUTE_PATH t then 0 else length (vw_cd (x_var w)) + 1, i)) items)
                 end
      end
  end.
Proof.
  cbn [wc_params]. destruct (pBat_GetNextParameterEs w old line) as [[[t [rest|]] w1]| |]; cbn [bind]; auto.
  unfold wc_arg. destruct t as [|s [|c [|d t]]]; auto. destruct (ceq s "/"%char); auto.
  destruct (ceq c "?"%char); auto. destruct (ceq c "L"%char || ceq c "l"%char); auto.
  destruct (ceq c "C"%char || ceq c "c"%char); auto. destruct (ceq c "M"%char || ceq c "m"%char); auto.
  destruct (ceq c "W"%char || ceq c "w"%char); auto.
Qed.

Lemma asks_iff p k : asks p k <-> wc_arg p = AOpt k.
Proof.
  split.
  - destruct 1 as [c H|c H|c H|c H]; cbn in H; destruct H as [<-|[<-|[]]]; reflexivity.
  - unfold wc_arg. destruct p as [|s [|c [|d t]]]; try discriminate. destruct (ceq s "/"%char) eqn:X; try discriminate.
    apply ceq_true in X. subst s. destruct (ceq c "?"%char); try discriminate.
    destruct (ceq c "L"%char || ceq c "l"%char) eqn:E1; [apply orb_true_iff in E1; rewrite !ceq_true in E1; injection 1 as <-; constructor; cbn; intuition|].
    destruct (ceq c "C"%char || ceq c "c"%char) eqn:E2; [apply orb_true_iff in E2; rewrite !ceq_true in E2; injection 1 as <-; constructor; cbn; intuition|].
    destruct (ceq c "M"%char || ceq c "m"%char) eqn:E3; [apply orb_true_iff in E3; rewrite !ceq_true in E3; injection 1 as <-; constructor; cbn; intuition|].
    destruct (ceq c "W"%char || ceq c "w"%char) eqn:E4; [apply orb_true_iff in E4; rewrite !ceq_true in E4; injection 1 as <-; constructor; cbn; intuition|].
    discriminate.
Qed.
Lemma optional_iff p : wc_arg p = AFile <-> ~ optional p.
Proof.
  unfold optional. split.
  - intros H [c ->]. revert H. unfold wc_arg. rewrite ceq_refl.
    destruct (ceq c "?"%char); [discriminate|]. destruct (ceq c "L"%char || ceq c "l"%char); [discriminate|].
    destruct (ceq c "C"%char || ceq c "c"%char); [discriminate|]. destruct (ceq c "M"%char || ceq c "m"%char); [discriminate|].
    destruct (ceq c "W"%char || ceq c "w"%char); discriminate.
  - intros H. unfold wc_arg. destruct p as [|s [|c [|d t]]]; auto. destruct (ceq s "/"%char) eqn:X; auto.
    apply ceq_true in X. subst s. exfalso. apply H. eauto.
Qed.

Definition shows (it : nat * wfile) (h : cstr * wfile) : Prop :=
  snd it = snd h /\ wc_shown (fst it) (wf_name (snd it)) = Ret (fst h).
Lemma rooted_iff p : PBAT_TEST_ABSOLUTE_PATH p = true <-> rooted p.
Proof.
  unfold PBAT_TEST_ABSOLUTE_PATH, rooted, test_sep, is_sep. rewrite andb_true_iff, negb_true_iff. split.
  - intros [A B]. destruct p as [|c p]; [discriminate|]. apply ceq_true in A. subst c. exists p. split; auto.
    intros q ->. cbn in B. discriminate.
  - intros (r & -> & N). split; auto. cbn [skipn]. destruct r as [|c r]; auto. apply ceq_false. intros ->. eapply N; eauto.
Qed.
Lemma known_shows cd p f h : snd h = f /\ known cd p f (fst h) ->
  shows (if PBAT_TEST_ABSOLUTE_PATH p then 0 else length cd + 1, f) h.
Proof.
  intros [E K]. split; cbn [fst snd]; auto. unfold wc_shown. destruct K as [[R ->]|[N ->]].
  - apply rooted_iff in R. rewrite R. reflexivity.
  - replace (PBAT_TEST_ABSOLUTE_PATH p) with false.
    + rewrite app_length. cbn [length]. destruct (length cd + 1 <=? length cd + Datatypes.S (length (fst h))) eqn:X; [|apply Nat.leb_gt in X; lia].
      f_equal. rewrite skipn_app. rewrite skipn_all2 by lia. replace (length cd + 1 - length cd) with 1 by lia. reflexivity.
    + symmetry. destruct (PBAT_TEST_ABSOLUTE_PATH p) eqn:X; auto. apply rooted_iff in X. tauto.
Qed.

Lemma params_ok w line ps : written w line ps -> forall l, named search (vw_cd (x_var w)) ps l ->
  forall fuel old mode acc, length line < fuel ->
  exists mode' items, wc_params search fuel w old line mode acc = Ret (WGo mode' (acc ++ items), w) /\
    (forall k, mode' k = true <-> mode k = true \/ asked ps k) /\ Forall2 shows items l.
Proof.
  induction 1 as [s B|a raw rest t v ps A N F P B C D W IH]; intros l H fuel old mode acc L.
  - inversion H; subst. destruct fuel; [lia|]. rewrite params_step, next_end by auto. cbn [bind]. exists mode, [].
    rewrite app_nil_r. split; [auto|]. split; auto. intros k. split; auto. intros [X|(p & [] & _)]. auto.
  - destruct fuel; [lia|]. rewrite params_step. erewrite next_written by eauto. cbn [bind].
    assert (length rest < fuel).
    { rewrite !app_length in L. destruct raw; [congruence|]. cbn [length] in L. lia. }
    inversion H as [|p k ps' l' K H'|p here ps' l' O HN Q H']; subst.
    + apply asks_iff in K as K'. rewrite K'.
      destruct (IH l H' fuel v (mode_add mode k) acc) as (mode' & items & E1 & E2 & E3); [auto|].
      exists mode', items. split; auto. split; auto. intros j. rewrite E2. unfold mode_add, asked. rewrite orb_true_iff.
      split.
      * intros [[X|X]|(q & X & Y)]; [right; exists v|auto|right; exists q]; split; auto; [left; auto| |right; auto].
        destruct k, j; try discriminate; auto.
      * intros [X|(q & [<-|X] & Y)]; auto.
        -- left. left. apply asks_iff in Y. rewrite K' in Y. injection Y as ->. destruct j; auto.
        -- right. eauto.
    + rewrite (proj2 (optional_iff v)) by auto.
      destruct (IH l' H' fuel v mode (acc ++ map (fun i => (if PBAT_TEST_ABSOLUTE_PATH v then 0 else length (vw_cd (x_var w)) + 1, i)) (search v)))
        as (mode' & items & E1 & E2 & E3); [auto|].
      destruct (search v) as [|f fs] eqn:SE; [inversion Q; subst; congruence|]. rewrite <- SE in *. clear SE. rewrite E1.
      exists mode'. eexists. split; [rewrite <- app_assoc; reflexivity|]. split.
      * intros j. rewrite E2. unfold asked. split; intros [X|(q & X & Y)]; auto; right; exists q; split; auto.
        -- right. auto.
        -- destruct X as [<-|X]; auto. exfalso. apply O. destruct Y; red; eauto.
      * apply Forall2_app; auto. clear -Q. induction Q as [|f h fs hs K Q IH]; cbn [map]; constructor; auto. apply known_shows. auto.
Qed.

Lemma params_bad w line ps : written w line ps -> forall good l p bad, ps = good ++ p :: bad -> named search (vw_cd (x_var w)) good l ->
  forall o, match wc_arg p with AHelp => o = WHelp | ABad => o = WFail PBAT_UNEXPECTED_ELEMENT | AFile => search p = [] /\ o = WFail PBAT_NO_MATCH | AOpt _ => False end ->
  forall fuel old mode acc, length line < fuel -> wc_params search fuel w old line mode acc = Ret (o, w).
Proof.
  induction 1 as [s B|a raw rest t v ps A N F P B C D W IH]; intros good l p bad E H o O fuel old mode acc L.
  - destruct good; discriminate.
  - destruct fuel; [lia|]. rewrite params_step. erewrite next_written by eauto. cbn [bind].
    assert (length rest < fuel).
    { rewrite !app_length in L. destruct raw; [congruence|]. cbn [length] in L. lia. }
    destruct good as [|q good]; cbn [app] in E; injection E as -> E.
    + destruct (wc_arg p); subst; try tauto. destruct O as [-> ->]. auto.
    + inversion H as [|? k ? ? K H'|? here ? l' OP HN Q H']; subst.
      * apply asks_iff in K. rewrite K. eapply IH; eauto.
      * rewrite (proj2 (optional_iff q)) by auto.
        destruct (search q) as [|f fs] eqn:SE; [inversion Q; subst; congruence|]. eapply IH; eauto.
Qed.

End Search.

(** ** The files *)
Definition cs_of (v : wckind -> nat) : wc_count_t :=
  cs (Z.of_nat (v WLines)) (Z.of_nat (v WWords)) (Z.of_nat (v WBytes)) (Z.of_nat (v WChars)).
Lemma add_counts u v : pBat_AddCounts (cs_of u) (cs_of v) = cs_of (fun k => u k + v k).
Proof. unfold pBat_AddCounts, cs_of, cs. cbn [lines words bytes chars]. rewrite !size_add2, <- !Nat2Z.inj_add. reflexivity. Qed.

Definition row1 (mode : wcmode) (h : cstr * wfile) (c : option cstr) : cstr :=
  match c with Some s => row_of mode (measure s) (fst h) | None => [] end.
Fixpoint rows_of (mode : wcmode) (l : list (cstr * wfile)) (cs : list (option cstr)) : list cstr :=
  match l, cs with
  | h :: l, c :: cs => row1 mode h c :: rows_of mode l cs
  | _, _ => []
  end.
Definition total_of (v : wckind -> nat) (ts : list cstr) (k : wckind) : nat := v k + list_sum (map (fun s => measure s k) ts).
Lemma files_ok mode (l : list (cstr * wfile)) : mode_bytes mode = false -> forall items cts, Forall2 shows items l -> Forall2 gives l cts ->
  forall nb v (bad : bool) r out,
  wc_files mode items nb (cs_of v) (if bad then 1 else 0) r out =
  Ret ((if bad || existsb (fun c => match c with None => true | _ => false end) cts then 1 else 0)%Z,
       out ++ concat (rows_of mode l cts) ++ if 1 <? nb + length l then row_of mode (total_of v (texts cts)) (s2l "Total") else []).
Proof.
  intros M. induction l as [|h l IH]; intros items cts HI HC nb v bad r out; inversion HI as [|it ? items' ? SH HI']; subst; inversion HC as [|? ct ? cts' G HC']; subst.
  - cbn [wc_files existsb rows_of concat app]. rewrite orb_false_r, Nat.add_0_r. f_equal. f_equal. f_equal.
    destruct (1 <? nb); auto. unfold texts. cbn [flat_map].
    rewrite <- (print_row mode (total_of v [])). unfold cs_of, total_of. cbn [map list_sum fold_right]. rewrite !Nat.add_0_r. reflexivity.
  - cbn [wc_files]. destruct it as [size f]. destruct SH as [E1 E2]. cbn [fst snd] in *. subst f. rewrite M.
    destruct ct as [s|]; cbn [gives] in G.
    + destruct G as (rs & E3 & R). rewrite E3. cbn [pBat_FileCounts]. rewrite (reads_counts _ _ R), E2. cbn [bind].
      fold (cs_of (measure s)). rewrite add_counts, Z.lor_0_r. erewrite IH by eauto. f_equal. cbn [existsb orb].
      f_equal. unfold row1. cbn [rows_of concat]. unfold cs_of. rewrite print_row. rewrite <- !app_assoc. f_equal. f_equal. f_equal.
      cbn [length]. rewrite Nat.add_succ_r. cbn [Nat.add]. destruct (1 <? Datatypes.S (nb + length l)); auto.
      unfold row_of, total_of, texts. cbn [flat_map app map list_sum fold_right]. fold list_sum. rewrite !Nat.add_assoc. reflexivity.
    + rewrite G. cbn [pBat_FileCounts].
      replace (Z.lor (if bad then 1 else 0) PBAT_FILE_ERROR) with 1%Z by (destruct bad; reflexivity).
      pose proof (IH items' cts' HI' HC' (Datatypes.S nb) v true PBAT_FILE_ERROR out) as Q. cbv iota in Q. rewrite Q. cbn [existsb orb]. rewrite orb_true_r. cbn [row1 rows_of concat app length texts flat_map].
      rewrite Nat.add_succ_r. reflexivity.
Qed.

Definition size_row (h : cstr * wfile) : cstr := printed (Z.to_nat (wf_size (snd h))) ++ fst h ++ [nl].
Lemma sizes_ok mode (l : list (cstr * wfile)) : mode_bytes mode = true -> forall items, Forall2 shows items l ->
  Forall (fun h => (0 <= wf_size (snd h))%Z) l ->
  forall nb (v : nat) out,
  wc_files mode items nb (cs_of (fun k => if kind_eqb k WBytes then v else 0)) 0 0 out =
  Ret (0%Z, out ++ concat (map size_row l) ++
            if 1 <? nb + length l then printed (v + list_sum (map (fun h => Z.to_nat (wf_size (snd h))) l)) ++ s2l "Total" ++ [nl] else []).
Proof.
  intros M. induction l as [|h l IH]; intros items HI HS nb v out; inversion HI as [|it ? items' ? SH HI']; subst; inversion HS; subst.
  - cbn [wc_files map concat app list_sum fold_right length]. rewrite !Nat.add_0_r. f_equal. f_equal. f_equal.
    destruct (1 <? nb); auto. unfold mode_bytes in M. rewrite andb_true_iff, negb_true_iff, !orb_false_iff in M.
    destruct M as (M1 & (M2 & M3) & M4). unfold pBat_PrintCounts. rewrite M1, M2, M3, M4. cbn [app].
    unfold printed, cs_of, cs, size_t. cbn [bytes kind_eqb]. rewrite <- app_assoc. reflexivity.
  - cbn [wc_files]. destruct it as [size f]. destruct SH as [E1 E2]. cbn [fst snd] in *. subst f. rewrite M, E2. cbn [bind].
    replace (mkC _ _ _ _) with (cs_of (fun k => if kind_eqb k WBytes then v + Z.to_nat (wf_size (snd h)) else 0)).
    2:{ unfold cs_of, cs. cbn [lines words bytes chars kind_eqb]. rewrite size_add. f_equal. f_equal. lia. }
    change (Z.lor 0 0) with 0%Z. rewrite (IH items') by auto. f_equal. f_equal. rewrite <- app_assoc. f_equal. cbn [map concat].
    replace (size_row h) with ((udec (size_t (wf_size (snd h))) ++ [" "%char]) ++ fst h ++ [nl])
      by (unfold size_row, printed; rewrite Z2Nat.id by auto; reflexivity).
    rewrite <- !app_assoc. cbn [app]. f_equal. f_equal. rewrite <- !app_assoc. f_equal. cbn [app]. f_equal. f_equal.
    cbn [length list_sum fold_right]. fold list_sum. rewrite Nat.add_succ_r, !Nat.add_assoc. reflexivity.
Qed.
