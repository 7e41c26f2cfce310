(** Var_Props.v -- properties C14, C15 and C48: variable references. *)

From Verif Require Import Base Lex Num_Model Num_Proofs Estr_Model Estr_Spec Estr_Proofs
  Env_Model Env_Spec Env_Proofs Var_Model Var_Spec Var_Proofs.

(** C14: exactly what %n:~b,l% gives, in terms of the characters of what %n%
    gives. *)
Theorem C14_substring :
  forall w ka n s cs b l,
    values_ok w -> ~ In ":"%char n ->
    pBat_GetVar w ka n = Ret (Some s, w) -> u8chars s cs -> cut_fits cs b l ->
    pBat_GetVar w ka (n ++ s2l ":~" ++ dec b ++ ","%char :: dec l) = Ret (Some (cut_result cs b l), w).
Proof.
  intros w ka n s cs b l Hv Hn Hg Hu Hf. eapply getvar_cut; eauto.
  destruct Hf as (Hb & Hl & _). apply parse_cut2; auto; apply in_int_iff; unfold INT_MIN, Num_Model.INT_MAX; lia.
Qed.
Print Assumptions C14_substring.

(** C14: the documented slice, whenever it exists and the start is not counted
    from the end together with a length, or enough characters precede it. *)
Theorem C14_documented :
  forall w ka n s cs b l t,
    values_ok w -> ~ In ":"%char n ->
    pBat_GetVar w ka n = Ret (Some s, w) -> u8chars s cs -> cut_fits cs b l ->
    doc_slice cs b l = Some t -> (0 <= b \/ l <= 0 \/ l <= Z.of_nat (length cs) + b)%Z ->
    pBat_GetVar w ka (n ++ s2l ":~" ++ dec b ++ ","%char :: dec l) = Ret (Some t, w).
Proof.
  intros w ka n s cs b l t Hv Hn Hg Hu Hf Hd He.
  rewrite (C14_substring w ka n s cs b l) by auto. unfold cut_result. rewrite Hd.
  replace (cut_exception cs b l) with false; auto. unfold cut_exception.
  symmetry. rewrite !Bool.andb_false_iff, !Z.ltb_ge. lia.
Qed.
Print Assumptions C14_documented.

(** C14: %n:~b% is the end of the value, from character [b]. *)
Theorem C14_tail :
  forall w ka n s cs b,
    values_ok w -> ~ In ":"%char n ->
    pBat_GetVar w ka n = Ret (Some s, w) -> u8chars s cs -> cut_fits cs b 0 ->
    pBat_GetVar w ka (n ++ s2l ":~" ++ dec b) =
      Ret (Some (concat (if (b <? 0)%Z
                         then if (0 <=? Z.of_nat (length cs) + b)%Z
                              then skipn (length cs - Z.to_nat (- b)) cs else []
                         else skipn (Z.to_nat b) cs)), w).
Proof.
  intros w ka n s cs b Hv Hn Hg Hu Hf.
  erewrite getvar_cut with (b := b) (l := 0%Z); eauto.
  2:{ destruct Hf as (Hb & Hl & _). apply parse_cut1; auto; apply in_int_iff; unfold INT_MIN, Num_Model.INT_MAX; lia. }
  f_equal. f_equal. f_equal.
  unfold cut_result, cut_exception, doc_slice, sub_stop, sub_start.
  change (0 <? 0)%Z with false. rewrite Bool.andb_false_r. cbn [andb].
  set (N := Z.of_nat (length cs)). replace (N + 0)%Z with N by lia.
  destruct (Z.ltb_spec b 0).
  - destruct (Z.leb_spec 0 (N + b)); cbn [andb]; auto.
    destruct (Z.leb_spec (N + b) N), (Z.leb_spec N N); try lia. cbn [andb].
    rewrite firstn_all2 by (rewrite skipn_length; unfold N in *; lia). f_equal. f_equal. unfold N in *. lia.
  - destruct (Z.leb_spec 0 b); try lia. destruct (Z.leb_spec N N); try lia. cbn [andb]. rewrite Bool.andb_true_r.
    destruct (Z.leb_spec b N).
    + rewrite firstn_all2 by (rewrite skipn_length; unfold N in *; lia). auto.
    + rewrite skipn_all2 by (unfold N in *; lia). auto.
Qed.
Print Assumptions C14_tail.

(** Which values have characters: those that do not start inside one. *)
Theorem C14_characters :
  forall s, (exists cs, u8chars s cs /\ forall cs', u8chars s cs' -> cs' = cs) <->
            (forall c r, s = c :: r -> ~ continuation c).
Proof.
  intros s. split.
  - intros (cs & (-> & H) & _) c r E. destruct H as [|? ? (d & t & -> & Hd & _) _]; simpl in E; [discriminate|].
    injection E as -> _. auto.
  - intros H. destruct (u8chars_exists s H) as (cs & Hc). exists cs. split; auto.
    intros cs' H'. eapply u8chars_unique; eauto.
Qed.
Print Assumptions C14_characters.

(** The example of the manual. *)
Definition ex_table (v : string) : env := mkEnv [mkVar (Some (s2l "foo", 16%Z)) (s2l v) false []] 128.
Definition ex_world (v : string) : vworld := mkVW (ex_table v) (s2l "/tmp") 3 42 (s2l "11/16/26") (s2l "03:15:000").

Lemma ex_chars : u8chars (s2l "Hello world") (map (fun c => [c]) (s2l "Hello world")).
Proof.
  split; [reflexivity|]. cbv -[u8char]. repeat constructor; eexists; eexists; (split; [reflexivity|]);
    (split; [|constructor]); intros [X _]; vm_compute in X; apply X; reflexivity.
Qed.
Example C14_ex :
  pBat_GetVar (ex_world "Hello world") 16 (s2l "foo") = Ret (Some (s2l "Hello world"), ex_world "Hello world") /\
  pBat_GetVar (ex_world "Hello world") 16 (s2l "foo:~2,3") = Ret (Some (s2l "llo"), ex_world "Hello world") /\
  pBat_GetVar (ex_world "Hello world") 16 (s2l "FOO:~2,-3") = Ret (Some (s2l "llo wo"), ex_world "Hello world") /\
  pBat_GetVar (ex_world "Hello world") 16 (s2l "foo:~-5") = Ret (Some (s2l "world"), ex_world "Hello world") /\
  cut_fits (map (fun c => [c]) (s2l "Hello world")) 2 (-3) /\ values_ok (ex_world "Hello world") /\
  doc_slice (map (fun c => [c]) (s2l "Hello world")) 2 (-3) = Some (s2l "llo wo").
Proof.
  repeat split; try (vm_compute; reflexivity); try (vm_compute; intros X; discriminate);
    try (intros X; cbv in X; intuition discriminate).
  repeat constructor. intros X; cbv in X; intuition discriminate.
Qed.

(** A UTF-8 value is cut between characters: in "a" e-acute "b", character 1 has
    two bytes. *)
Example C14_ex_utf8 :
  let v := String "a" (String "195" (String "169" (String "b" EmptyString)))%char in
  pBat_GetVar (ex_world v) 16 (s2l "foo:~1,1") = Ret (Some ["195"; "169"]%char, ex_world v) /\
  pBat_GetVar (ex_world v) 16 (s2l "foo:~-1") = Ret (Some (s2l "b"), ex_world v).
Proof. split; vm_compute; reflexivity. Qed.

(** The documented slice is not always given: %foo:~-3,2% of abc is empty. *)
Theorem C14_negative_start_refuted :
  ~ (forall w ka n s cs b l t,
       values_ok w -> ~ In ":"%char n ->
       pBat_GetVar w ka n = Ret (Some s, w) -> u8chars s cs -> cut_fits cs b l ->
       doc_slice cs b l = Some t ->
       pBat_GetVar w ka (n ++ s2l ":~" ++ dec b ++ ","%char :: dec l) = Ret (Some t, w)).
Proof.
  intros H. specialize (H (ex_world "abc") 16%Z (s2l "foo") (s2l "abc") [s2l "a"; s2l "b"; s2l "c"] (-3)%Z 2%Z (s2l "ab")).
  assert (X : pBat_GetVar (ex_world "abc") 16 (s2l "foo" ++ s2l ":~" ++ dec (-3) ++ ","%char :: dec 2)
              = Ret (Some (s2l "ab"), ex_world "abc")).
  { apply H.
    - repeat split; try (intros Y; cbv in Y; intuition discriminate). repeat constructor.
      intros Y; cbv in Y; intuition discriminate.
    - intros Y; cbv in Y; intuition discriminate.
    - vm_compute. reflexivity.
    - split; [reflexivity|]. repeat constructor; eexists; eexists; (split; [reflexivity|]);
        (split; [|constructor]); intros [Y _]; vm_compute in Y; apply Y; reflexivity.
    - repeat split; try (vm_compute; intros Y; discriminate).
    - vm_compute. reflexivity. }
  vm_compute in X. discriminate.
Qed.
Print Assumptions C14_negative_start_refuted.

(** A length that reaches beyond the end is not clipped: nothing is given; and
    huge numbers overflow. *)
Theorem C14_overflow_refuted :
  ~ (forall w ka name, values_ok w -> nonul name -> pBat_GetVar w ka name <> Undef) /\
  pBat_GetVar (ex_world "abc") 16 (s2l "foo:~1,9") = Ret (Some [], ex_world "abc").
Proof.
  split; [|vm_compute; reflexivity]. intros H.
  apply (H (ex_world "abc") 16%Z (s2l "foo:~1,2147483647")).
  - repeat split; try (intros Y; cbv in Y; intuition discriminate). repeat constructor.
    intros Y; cbv in Y; intuition discriminate.
  - intros Y; cbv in Y; intuition discriminate.
  - vm_compute. reflexivity.
Qed.
Print Assumptions C14_overflow_refuted.

(** C15: no reference changes the environment, the current directory or the exit
    code, whatever its text. *)
Theorem C15_unchanged :
  forall w ka name r w', values_ok w -> pBat_GetVar w ka name = Ret (r, w') -> w' = w.
Proof. exact getvar_world. Qed.
Print Assumptions C15_unchanged.

Example C15_ex :
  exists t, pBat_GetVar (ex_world "Hello world") 16 (s2l "foo:~2,3") = Ret (Some t, ex_world "Hello world") /\ t <> [].
Proof. exists (s2l "llo"). split; [vm_compute; reflexivity|discriminate]. Qed.

(** C48: %n% is the variable of the environment of that name. *)
Theorem C48_plain :
  forall w ka n v,
    nonul n -> ~ dynamic n -> ~ In ":"%char n ->
    pBat_GetEnv (vw_env w) n ka = Ret v -> pBat_GetVar w ka n = Ret (v, w).
Proof. exact getvar_static. Qed.
Print Assumptions C48_plain.

(** C48: the names computed by the interpreter, in any case, hide the
    environment. *)
Theorem C48_dynamic :
  forall w ka n, nonul n ->
    (map tolower n = map tolower (s2l "CD") -> pBat_GetVar w ka n = Ret (Some (vw_cd w), w)) /\
    (map tolower n = map tolower (s2l "ERRORLEVEL") ->
       exists t, pBat_GetVar w ka n = Ret (Some t, w) /\ (in_int (vw_err w) = true -> atol t = Ret (vw_err w))) /\
    (map tolower n = map tolower (s2l "DATE") -> pBat_GetVar w ka n = Ret (Some (vw_date w), w)) /\
    (map tolower n = map tolower (s2l "TIME") -> pBat_GetVar w ka n = Ret (Some (vw_time w), w)).
Proof.
  intros w ka n Hn.
  assert (NC : forall d, (d = "CD" \/ d = "ERRORLEVEL" \/ d = "DATE" \/ d = "TIME")%string ->
     map tolower n = map tolower (s2l d) -> ~ In ":"%char n).
  { intros d Hd E I. apply (in_map tolower) in I. rewrite E in I.
    destruct Hd as [->|[->|[->| ->]]]; cbv in I; intuition discriminate. }
  assert (EQ : forall d, nonul (s2l d) -> map tolower n = map tolower (s2l d) -> (stricmp n (s2l d) =? 0)%Z = true).
  { intros d Hd E. apply stricmp_eqb; auto. }
  assert (NE : forall d d', nonul (s2l d') -> map tolower n = map tolower (s2l d) ->
    map tolower (s2l d) <> map tolower (s2l d') -> (stricmp n (s2l d') =? 0)%Z = false).
  { intros d d' Hd' E Hne. destruct (stricmp n (s2l d') =? 0)%Z eqn:X; auto. apply stricmp_eqb in X; auto. congruence. }
  assert (T : forall t, map tolower n = map tolower (s2l t) -> forall c r, s2l t = c :: r ->
     exists c' r', n = c' :: r' /\ tolower c' = tolower c).
  { intros t E c r Ec. rewrite Ec in E. destruct n as [|x n]; [discriminate|]. simpl in E. injection E as E _. eauto. }
  repeat split; intros E; unfold pBat_GetVar; rewrite parse_plain by (eapply NC; [|exact E]; tauto); cbn [bind]; unfold content.
  - rewrite (EQ "CD"%string) by (auto; intros Y; cbv in Y; intuition discriminate). auto.
  - rewrite (NE "ERRORLEVEL" "CD")%string by (auto; try discriminate; intros Y; cbv in Y; intuition discriminate).
    rewrite (EQ "ERRORLEVEL"%string) by (auto; intros Y; cbv in Y; intuition discriminate). cbn [bind].
    eexists. split; [reflexivity|]. intros Hi. apply atol_dec, in_int_long; auto.
  - rewrite (NE "DATE" "CD")%string, (NE "DATE" "ERRORLEVEL")%string, (NE "DATE" "=EXITCODEASCII")%string,
      (NE "DATE" "RANDOM")%string by (auto; try discriminate; intros Y; cbv in Y; intuition discriminate).
    rewrite (EQ "DATE"%string) by (auto; intros Y; cbv in Y; intuition discriminate). cbn [orb bind].
    destruct (T "DATE"%string E _ _ eq_refl) as (c & r & -> & Hc).
    destruct (ceq c "T"%char || ceq c "t"%char) eqn:X; auto.
    apply Bool.orb_true_iff in X. destruct X as [X|X]; apply ceq_true in X; subst; discriminate.
  - rewrite (NE "TIME" "CD")%string, (NE "TIME" "ERRORLEVEL")%string, (NE "TIME" "=EXITCODEASCII")%string,
      (NE "TIME" "RANDOM")%string by (auto; try discriminate; intros Y; cbv in Y; intuition discriminate).
    rewrite (EQ "TIME"%string), Bool.orb_true_r by (auto; intros Y; cbv in Y; intuition discriminate). cbn [bind].
    destruct (T "TIME"%string E _ _ eq_refl) as (c & r & -> & Hc).
    destruct (ceq c "T"%char || ceq c "t"%char) eqn:X; auto.
    apply Bool.orb_false_iff in X. destruct X as [X1 X2]. apply ceq_false in X1, X2.
    exfalso. revert Hc X1 X2. clear.
    pose proof (ascii_forall (fun c => negb (ceq (tolower c) "t"%char) || ceq c "T"%char || ceq c "t"%char) eq_refl c) as H.
    cbv beta in H. intros Hc X1 X2. rewrite Hc in H. apply Bool.orb_true_iff in H. destruct H as [H|H].
    + apply Bool.orb_true_iff in H. destruct H as [H|H]; [vm_compute in H; discriminate|]. apply ceq_true in H. congruence.
    + apply ceq_true in H. congruence.
Qed.
Print Assumptions C48_dynamic.

(** C48: %n:pat=rep% replaces every occurrence of [pat], from the left. *)
Theorem C48_replace :
  forall w ka n s pat rep t,
    ~ In ":"%char n -> ~ In "="%char pat -> pat <> [] ->
    pBat_GetVar w ka n = Ret (Some s, w) -> replaced pat rep s t ->
    pBat_GetVar w ka (n ++ ":"%char :: pat ++ "="%char :: rep) = Ret (Some t, w).
Proof.
  intros w ka n s pat rep t Hn Hp Hne Hg Hr. destruct (plain_content _ _ _ _ _ Hn Hg) as (p & Hc).
  unfold pBat_GetVar. rewrite parse_replace by auto. cbn [bind]. rewrite Hc. cbn [bind].
  rewrite (replaced_text _ _ _ _ Hr Hne) by lia. auto.
Qed.
Print Assumptions C48_replace.

(** C48: %n:text% is the value, or [text] if the variable is not defined. *)
Theorem C48_default :
  forall w ka n v text,
    ~ In ":"%char n -> ~ In "="%char text -> (forall r, text <> "~"%char :: r) ->
    pBat_GetVar w ka n = Ret (v, w) ->
    pBat_GetVar w ka (n ++ ":"%char :: text) = Ret (Some (match v with Some s => s | None => text end), w).
Proof.
  intros w ka n v text Hn He Ht Hg. pose proof (plain_content _ _ _ _ _ Hn Hg) as Hc.
  unfold pBat_GetVar. rewrite parse_default by auto. cbn [bind].
  destruct v as [s|]; [destruct Hc as (p & Hc)|]; rewrite Hc; cbn [bind]; auto.
Qed.
Print Assumptions C48_default.

(** C48: an undefined variable stays so when cut or edited. *)
Theorem C48_undefined :
  forall w ka n b l pat rep,
    ~ In ":"%char n -> ~ In "="%char pat -> in_int b = true -> in_int l = true ->
    pBat_GetVar w ka n = Ret (None, w) ->
    pBat_GetVar w ka (n ++ s2l ":~" ++ dec b ++ ","%char :: dec l) = Ret (None, w) /\
    pBat_GetVar w ka (n ++ ":"%char :: pat ++ "="%char :: rep) = Ret (None, w).
Proof.
  intros w ka n b l pat rep Hn Hp Hb Hl Hg. pose proof (plain_content _ _ _ _ _ Hn Hg) as Hc. cbn in Hc.
  unfold pBat_GetVar. rewrite parse_cut2, parse_replace by auto. cbn [bind]. rewrite Hc. auto.
Qed.
Print Assumptions C48_undefined.

Example C48_ex :
  pBat_GetVar (ex_world "This is a test") 16 (s2l "foo:test=pinguin")
    = Ret (Some (s2l "This is a pinguin"), ex_world "This is a test") /\
  pBat_GetVar (ex_world "x") 16 (s2l "bar") = Ret (None, ex_world "x") /\
  pBat_GetVar (ex_world "x") 16 (s2l "bar:default") = Ret (Some (s2l "default"), ex_world "x") /\
  pBat_GetVar (ex_world "x") 16 (s2l "ErrorLevel") = Ret (Some (s2l "3"), ex_world "x") /\
  ~ dynamic (s2l "foo").
Proof.
  repeat split; try (vm_compute; reflexivity).
  intros (d & Hd & E). cbv in Hd. repeat (destruct Hd as [<-|Hd]; [discriminate|]). destruct Hd.
Qed.

(** Edits with an empty text to replace never end, and %=EXITCODEASCII% reads
    beyond the exit code if none of its four bytes is zero, as for -1. *)
Theorem C48_total_refuted :
  pBat_GetVar (ex_world "x") 16 (s2l "foo:=y") = OutOfFuel /\
  (forall fuel s rep, replace_text fuel s [] rep = OutOfFuel) /\
  pBat_GetVar (mkVW (ex_table "x") [] (-1) 0 [] []) 16 (s2l "=ExitCodeAscii") = Undef.
Proof.
  split; [vm_compute; reflexivity|]. split; [|vm_compute; reflexivity].
  induction fuel as [|f IH]; intros s rep; [reflexivity|]. cbn [replace_text]. rewrite strstr_nil_pat, IH. auto.
Qed.
Print Assumptions C48_total_refuted.
