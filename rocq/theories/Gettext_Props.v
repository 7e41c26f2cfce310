(** Gettext_Props.v -- C94: messages are translated as the catalogue says. *)

From Verif Require Import Base Gettext_Model Gettext_Spec Gettext_Proofs.

(** Whatever was asked before, a message of the catalogue gets its translation, and any other one stays as it is. *)
Theorem C94_translated (files : cstr -> option cstr) (h : list request) (st : gstate) (locale : category -> cstr) (d msg p f : cstr) (cat : category) (l : list (cstr * cstr)) :
  after files h st -> short_names h -> length (locale cat) < 100 -> nonul msg ->
  catalogue_path h locale d cat p -> files p = Some f -> catalogue_file f l ->
  exists r st', dcgettext files locale st d msg cat = Ret (r, st') /\ translation l msg r.
Proof.
  intros A Sh L N P F C. destruct (load_ok _ _ C) as (s & t & Ld & F1 & F2). destruct (translate_ok _ _ _ _ _ C F1 F2 N) as (r & T & R).
  destruct (dc_file _ _ _ _ _ _ _ _ msg A Sh L P F _ _ Ld _ T) as (st' & E). eauto.
Qed.
Print Assumptions C94_translated.

(** Without a catalogue the message stays as it is. *)
Theorem C94_missing (files : cstr -> option cstr) (h : list request) (st : gstate) (locale : category -> cstr) (d msg p : cstr) (cat : category) :
  after files h st -> short_names h -> length (locale cat) < 100 -> catalogue_path h locale d cat p -> files p = None ->
  dcgettext files locale st d msg cat = Ret (msg, st).
Proof. apply dc_none. Qed.
Print Assumptions C94_missing.

(** There is exactly one place for the catalogue. *)
Theorem C94_path (h : list request) (locale : category -> cstr) (d : cstr) (cat : category) :
  length (locale cat) < 100 -> exists p, catalogue_path h locale d cat p /\ forall q, catalogue_path h locale d cat q -> q = p.
Proof.
  intros L. destruct (lang_ok _ L) as (lang & _ & Lg). eexists. split; [exists lang; split; [exact Lg|reflexivity]|]. intros q (lang' & Lg' & ->).
  assert (lang' = lang) by (eapply lang_unique; eauto). subst. reflexivity.
Qed.
Print Assumptions C94_path.

(** Without a domain, the last one chosen is used. *)
Theorem C94_domain (files : cstr -> option cstr) (h : list request) (st : gstate) (locale : category -> cstr) (msg d : cstr) :
  after files h st -> short_names h -> last_domain h [] = d -> d <> [] -> length d < 128 ->
  gettext files locale st msg = dcgettext files locale st d msg LC_ALL.
Proof.
  intros A Sh D N L. destruct (after_ok _ _ _ A Sh) as (_ & _ & C). unfold gettext. rewrite C, D, firstn_all2 by lia. destruct d; [congruence|reflexivity].
Qed.
Print Assumptions C94_domain.

(** ** Examples *)
Definition num (n : nat) : cstr := [ascii_of_nat n; "000"%char; "000"%char; "000"%char].
Definition z0 : cstr := ["000"%char].
Definition header (m : cstr) (n o t : nat) : cstr := m ++ num 0 ++ num n ++ num o ++ num t.
Definition good_magic : cstr := map ascii_of_nat [222; 18; 4; 149].
(** Two messages: No -> Non, Yes -> Oui *)
Definition ex_file (m : cstr) : cstr :=
  header m 2 20 36 ++ num 2 ++ num 52 ++ num 3 ++ num 55 ++ num 3 ++ num 59 ++ num 3 ++ num 63 ++
  s2l "No" ++ z0 ++ s2l "Yes" ++ z0 ++ s2l "Non" ++ z0 ++ s2l "Oui" ++ z0.
Definition ex_list : list (cstr * cstr) := [(s2l "No", s2l "Non"); (s2l "Yes", s2l "Oui")].
Lemma number_c f o n a b c d : firstn 4 (skipn o f) = [a; b; c; d] -> Z.eqb (Z.of_nat n) (code a + code b * 2 ^ 8 + code c * 2 ^ 16 + code d * 2 ^ 24) = true -> number_at f o n.
Proof. intros E H. apply Z.eqb_eq in H. exists a, b, c, d. auto. Qed.
Ltac num_ := eapply number_c; [vm_compute; reflexivity|vm_compute; reflexivity].
Ltac txt_ := split; [intros I; cbn in I; repeat destruct I as [I|I]; try discriminate I; destruct I|eexists; vm_compute; reflexivity].
Lemma ex_catalogue : catalogue_file (ex_file good_magic) ex_list.
Proof.
  exists 20, 36. split; [vm_compute; reflexivity|]. split; [num_|]. split; [num_|]. split; [num_|]. split; [|split; [|split; [cbn; lia|split; [cbn; lia|]]]].
  - intros [|[|[|i]]] s E; cbn in E; try discriminate; injection E as <-; [exists 52|exists 55]; (split; [num_|txt_]).
  - intros [|[|[|i]]] s E; cbn in E; try discriminate; injection E as <-; [exists 59|exists 63]; (split; [num_|txt_]).
  - intros [|[|[|i]]] [|[|[|j]]] a b H A B; cbn in A, B; try discriminate; try lia. injection A as <-. injection B as <-. apply be_less. vm_compute. reflexivity.
Qed.
Definition ex_path : cstr := s2l "/usr/share/locale/fr/LC_MESSAGES/pbat.mo".
Definition ex_files (p : cstr) : option cstr := if streqb p ex_path then Some (ex_file good_magic) else None.
Definition ex_locale (n : cstr) (c : category) : cstr := n.
Definition ex_h : list request := [Bind (s2l "pbat") (s2l "/usr/share/locale"); Domain (s2l "pbat")].
Definition ex_st : gstate := textdomain (bindtextdomain (mkG [] [] []) (s2l "pbat") (s2l "/usr/share/locale")) (s2l "pbat").
Lemma ex_after : after ex_files ex_h ex_st.
Proof. apply (af_domain _ [_]). apply (af_bind _ []). apply af_start. Qed.
Lemma ex_language n : until_underscore n = s2l "fr" \/ until_underscore n = s2l "French" -> language n (s2l "fr").
Proof.
  intros [E|E].
  - exists (s2l "fr"). split; [rewrite <- E; apply until_ok|]. right. split; [|reflexivity]. intros c m I H. apply In_nth_error in I. destruct I as (i & I).
    assert (A : forallb (fun x => negb (String.eqb (snd x) "fr")) iso639 = true) by (vm_compute; reflexivity). rewrite forallb_forall in A. specialize (A _ (nth_error_In _ _ I)). cbn [snd] in A.
    change (lower (s2l "fr")) with (s2l "fr") in H. apply s2l_inj in H. subst m. discriminate.
  - exists (s2l "French"). split; [rewrite <- E; apply until_ok|]. left. exists "fr"%string, "french"%string. split; [|split; reflexivity].
    assert (A : existsb (fun x => String.eqb (fst x) "fr" && String.eqb (snd x) "french") iso639 = true) by (vm_compute; reflexivity). apply existsb_exists in A. destruct A as ([c m] & I & A).
    apply Bool.andb_true_iff in A. destruct A as [A B]. apply String.eqb_eq in A, B. cbn [fst snd] in A, B. subst. exact I.
Qed.
(** The hypotheses of C94_translated are met, with a locale of Linux and with one of Windows *)
Example C94_ex : forall n, n = s2l "fr_FR.UTF-8" \/ n = s2l "French_France.1252" ->
  after ex_files ex_h ex_st /\ short_names ex_h /\ length (ex_locale n LC_ALL) < 100 /\ catalogue_path ex_h (ex_locale n) (s2l "pbat") LC_ALL ex_path /\
  ex_files ex_path = Some (ex_file good_magic) /\ catalogue_file (ex_file good_magic) ex_list.
Proof.
  intros n N. split; [apply ex_after|]. split; [intros d dir [[= <- <-]|[H|[]]]; [cbn; lia|discriminate]|]. split; [destruct N; subst n; cbn; lia|]. split; [|split; [reflexivity|apply ex_catalogue]].
  exists (s2l "fr"). split; [|reflexivity]. apply ex_language. destruct N; subst n; [left|right]; reflexivity.
Qed.
Example C94_ex_gettext :
  (do (r, _) <- gettext ex_files (ex_locale (s2l "fr_FR.UTF-8")) ex_st (s2l "Yes"); Ret r) = Ret (s2l "Oui") /\
  (do (_, st) <- gettext ex_files (ex_locale (s2l "French_France.1252")) ex_st (s2l "Yes"); do (r, _) <- gettext ex_files (ex_locale (s2l "fr_FR.UTF-8")) st (s2l "No"); Ret r) = Ret (s2l "Non") /\
  (do (r, _) <- gettext ex_files (ex_locale (s2l "fr_FR.UTF-8")) ex_st (s2l "Perhaps"); Ret r) = Ret (s2l "Perhaps") /\
  (do (r, _) <- gettext ex_files (ex_locale (s2l "de_DE.UTF-8")) ex_st (s2l "Yes"); Ret r) = Ret (s2l "Yes").
Proof. vm_compute. auto. Qed.

(** ** What does not hold *)
(** The test of the first number is wrong: a file that is no catalogue is used as one if it has 20 bytes. *)
Theorem C94_magic_refuted : exists f s t, firstn 4 f = s2l "ELF!" /\ microgettext_load_mofile f = Ret (Some (s, t)) /\ translate (mkC f s t) (s2l "Yes") = Ret (s2l "Oui").
Proof. exists (ex_file (s2l "ELF!")). eexists _, _. split; [reflexivity|]. split; vm_compute; reflexivity. Qed.
Print Assumptions C94_magic_refuted.
(** A catalogue whose table of translations is the end of the file is not used: everything but the limit of C94_translated holds. *)
Theorem C94_end_refuted : exists f o t, number_at f 8 1 /\ number_at f 12 o /\ number_at f 16 t /\ table_at f o [s2l "a"] /\ table_at f t [s2l "b"] /\
  o + 8 * 1 <= length f /\ t + 8 * 1 <= length f /\ microgettext_load_mofile f = Ret None.
Proof.
  exists (header good_magic 1 24 32 ++ s2l "a" ++ z0 ++ s2l "b" ++ z0 ++ num 1 ++ num 20 ++ num 1 ++ num 22), 24, 32. split; [num_|]. split; [num_|]. split; [num_|].
  split; [|split; [|split; [cbn; lia|split; [cbn; lia|vm_compute; reflexivity]]]].
  - intros [|[|i]] s E; cbn in E; try discriminate; injection E as <-. exists 20. split; [num_|txt_].
  - intros [|[|i]] s E; cbn in E; try discriminate; injection E as <-. exists 22. split; [num_|txt_].
Qed.
Print Assumptions C94_end_refuted.
(** Damaged files: an empty one, one cut after the first number, a text before the file, a text without end, a table before the file. *)
Definition minus (n : nat) : cstr := map ascii_of_nat [256 - n; 255; 255; 255].
Theorem C94_damaged_refuted :
  microgettext_load_mofile [] = Undef /\ microgettext_load_mofile good_magic = Undef /\
  (exists f s t, f = header good_magic 1 20 20 ++ num 0 ++ minus 1 ++ z0 /\ microgettext_load_mofile f = Ret (Some (s, t)) /\ translate (mkC f s t) (s2l "a") = Undef) /\
  (exists f s t, f = header good_magic 1 20 20 ++ num 0 ++ num 28 ++ s2l "a" /\ microgettext_load_mofile f = Ret (Some (s, t)) /\ translate (mkC f s t) (s2l "a") = Undef) /\
  microgettext_load_mofile (good_magic ++ num 0 ++ num 2 ++ minus 8 ++ num 0) = Undef.
Proof.
  split; [reflexivity|]. split; [reflexivity|]. split; [eexists _, _, _; split; [reflexivity|]; split; vm_compute; reflexivity|]. split; [eexists _, _, _; split; [reflexivity|]; split; vm_compute; reflexivity|].
  vm_compute. reflexivity.
Qed.
Print Assumptions C94_damaged_refuted.
(** Some names of the table of languages end with a semicolon, so these languages are not known. *)
Theorem C94_spanish_refuted : In ("es", "spanish;")%string iso639 /\ microgettext_get_lang (s2l "Spanish_Spain.1252") = Ret (s2l "spanish") /\ microgettext_get_lang (s2l "French_France.1252") = Ret (s2l "fr").
Proof.
  split; [|split; vm_compute; reflexivity]. assert (A : existsb (fun x => String.eqb (fst x) "es" && String.eqb (snd x) "spanish;") iso639 = true) by (vm_compute; reflexivity).
  apply existsb_exists in A. destruct A as ([c m] & I & A). apply Bool.andb_true_iff in A. destruct A as [A B]. apply String.eqb_eq in A, B. cbn [fst snd] in A, B. subst. exact I.
Qed.
Print Assumptions C94_spanish_refuted.
(** The answer of setlocale for LC_ALL if the categories differ, as they do after the start (LC_NUMERIC is set to C, pBat_Init.c:180): LOCALE finds no language. *)
Theorem C94_locale_refuted : microgettext_get_lang (s2l "LC_CTYPE=fr_FR.UTF-8;LC_NUMERIC=C;LC_TIME=fr_FR.UTF-8;LC_COLLATE=fr_FR.UTF-8") = Ret (s2l "lc").
Proof. vm_compute. reflexivity. Qed.
Print Assumptions C94_locale_refuted.
