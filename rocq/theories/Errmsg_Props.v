(** Errmsg_Props.v -- C106: error messages. *)

From Coq Require Import NArith Lia.
From Verif Require Import Base Num_Model Errmsg_Model Errmsg_Spec Errmsg_Proofs.

(** An error of the table is reported with its complement in the place for it, whatever the translation; on a terminal the reason is the
    one of the system. *)
Theorem C106_report : forall strerror msgs quit tty errno k c exit why f t, length msgs = 62 ->
  nth_error msgs k = Some f -> says f c t -> (why = true -> tty = true) ->
  pBat_ShowErrorMessage strerror msgs quit tty errno (asked why k) c exit =
  Ret (report tty t (if why then Some (strerror errno) else None) quit (negb (Z.eqb exit 0)) k).
Proof.
  intros strerror msgs quit tty errno k c exit why f t L H S W.
  assert (K : k < 62) by (rewrite <- L; apply nth_error_Some; congruence).
  destruct (num_all k why) as [A B]; [lia|]. unfold pBat_ShowErrorMessage, report. destruct (set_colour tty Red errno) as [e1 errno'] eqn:E.
  rewrite A, B. replace (N.of_nat k <? sizeof_table)%N with true by (symmetry; apply N.ltb_lt; unfold sizeof_table; lia).
  rewrite Nnat.Nat2N.id, H, (printf_says _ _ _ S). unfold set_colour in *. destruct tty; injection E as <- <-; cbn [bind fst paint].
  - destruct why, (Z.eqb exit 0); reflexivity.
  - destruct why; [discriminate (W eq_refl)|]. destruct (Z.eqb exit 0); reflexivity.
Qed.
Print Assumptions C106_report.

(** When errors do not go to a terminal, the reason is always that they do not: the question whether they do overwrites the reason. *)
Theorem C106_reason_refuted : forall strerror msgs quit errno k c exit f t, length msgs = 62 ->
  nth_error msgs k = Some f -> says f c t ->
  pBat_ShowErrorMessage strerror msgs quit false errno (asked true k) c exit =
  Ret (report false t (Some (strerror ENOTTY)) quit (negb (Z.eqb exit 0)) k).
Proof.
  intros strerror msgs quit errno k c exit f t L H S.
  assert (K : k < 62) by (rewrite <- L; apply nth_error_Some; congruence).
  destruct (num_all k true) as [A B]; [lia|]. unfold pBat_ShowErrorMessage, report. cbn [set_colour].
  rewrite A, B. replace (N.of_nat k <? sizeof_table)%N with true by (symmetry; apply N.ltb_lt; unfold sizeof_table; lia).
  rewrite Nnat.Nat2N.id, H, (printf_says _ _ _ S). cbn [bind fst paint]. destruct (Z.eqb exit 0); reflexivity.
Qed.
Print Assumptions C106_reason_refuted.

(** Without a translation, every error but five can be given any text, the five are about a number or a letter. *)
Theorem C106_english : forall k, k < 62 -> exists f, nth_error english k = Some f /\
  (about_number k = false -> about_letter k = false -> forall s, exists t, says f (CText s) t) /\
  (about_number k = true -> forall z, exists p q, says f (CInt z) (p ++ dec z ++ q)) /\
  (about_letter k = true -> forall c, exists p q, printf1 f (Some (CInt (Z.of_N (N_of_ascii c)))) = Ret (p ++ c :: q)).
Proof.
  assert (A : forallb (fun k => match nth_error english k with
                               | Some f => if about_letter k then true else if about_number k then shape "d" f && negb (plainb f) else shape "s" f
                               | None => false end) (seq 0 62) = true) by (vm_compute; reflexivity).
  intros k K. rewrite forallb_forall in A. specialize (A k). rewrite in_seq in A. specialize (A (conj (Nat.le_0_l k) K)).
  destruct (nth_error english k) as [f|] eqn:E; [|discriminate]. exists f. split; [reflexivity|].
  assert (R : forall c, (ascii_of_N (Z.to_N (Z.of_N (N_of_ascii c) mod 256))) = c).
  { intro c. rewrite Z.mod_small; [rewrite N2Z.id; apply ascii_N_embedding|]. pose proof (N_ascii_bounded c). lia. }
  split; [|split].
  - intros X Y s. rewrite X, Y in A. destruct (shape_ok _ _ A) as [P|(p & q & -> & P & Q)].
    + exists f. constructor. exact P.
    + exists (p ++ s ++ q). apply (says_text p q s); assumption.
  - intros X z. rewrite X in A. destruct (about_letter k) eqn:Y.
    + exfalso. unfold about_letter, about_number in *. cbn in X, Y. 
      repeat (apply orb_true_iff in X; destruct X as [X|X]); try discriminate; apply Nat.eqb_eq in X; subst k; discriminate.
    + apply andb_true_iff in A. destruct A as [A B]. destruct (shape_ok _ _ A) as [P|(p & q & -> & P & Q)].
      * exfalso. unfold plainb in B. destruct (cut f) as [a b] eqn:C. destruct (cut_ok _ _ _ C) as [T _]. cbn in B.
        destruct b as [|x b]; [discriminate|]. apply P. rewrite T, (cut_head _ _ _ _ C). apply in_or_app. right. left. reflexivity.
      * exists p, q. apply (says_number p q z); assumption.
  - intros X c. unfold about_letter in X. cbn in X.
    repeat (apply orb_true_iff in X; destruct X as [X|X]); try discriminate; apply Nat.eqb_eq in X; subst k; injection E as <-.
    + exists (s2l "Error : """), (s2l """ is an invalid character for special variables. Special variables require their name to be strict ascii characters, excluding controls characters and space (0x00 - 0x30).").
      pose proof (R c) as Rc. remember (Z.of_N (N_of_ascii c)) as z. cbn -[Z.modulo Z.to_N ascii_of_N]. rewrite Rc. reflexivity.
    + exists (s2l "Error : FOR loop is trying to reassign already used %%"), (s2l " variable.").
      pose proof (R c) as Rc. remember (Z.of_N (N_of_ascii c)) as z. cbn -[Z.modulo Z.to_N ascii_of_N]. rewrite Rc. reflexivity.
Qed.
Print Assumptions C106_english.

(** Numbers just behind the table are looked up in it all the same: its size is compared in bytes. *)
Theorem C106_beyond_refuted : forall strerror msgs quit tty errno k c exit why, length msgs = 62 -> 62 <= k < 128 \/ 256 <= k < 384 ->
  pBat_ShowErrorMessage strerror msgs quit tty errno (asked why k) c exit = Undef.
Proof.
  intros strerror msgs quit tty errno k c exit why L K. destruct (num_all k why) as [A _]; [lia|].
  unfold pBat_ShowErrorMessage. destruct (set_colour tty Red errno) as [e1 errno']. rewrite A.
  replace (N.of_nat k <? sizeof_table)%N with true by (symmetry; apply N.ltb_lt; unfold sizeof_table; lia).
  rewrite Nnat.Nat2N.id. replace (nth_error msgs k) with (@None cstr) by (symmetry; apply nth_error_None; lia). reflexivity.
Qed.
Print Assumptions C106_beyond_refuted.

(** A complement of the wrong kind is undefined: the error about duplicated files is given the name of a function where its message has a
    number (pBat_Clone.c:140), and a bad option of the command line gives no text at all (pBat_Init.c:367). *)
Theorem C106_kind_refuted : forall strerror quit tty errno exit why,
  (forall s, pBat_ShowErrorMessage strerror english quit tty errno (asked why 28) (CText s) exit = Undef) /\
  pBat_ShowErrorMessage strerror english quit tty errno (asked why 5) CNull exit = Undef.
Proof.
  intros strerror quit tty errno exit why. split; [intro s|]; unfold pBat_ShowErrorMessage, set_colour; destruct tty, why; reflexivity.
Qed.
Print Assumptions C106_kind_refuted.

Example C106_ex : let serr (e : Z) := if Z.eqb e 2 then s2l "No such file" else s2l "Not a tty" in
  says (s2l "Error : Unable to access file ""%s"".") (CText (s2l "a%s")) (s2l "Error : Unable to access file ""a%s"".") /\
  pBat_ShowErrorMessage serr english english_quit true 2 (asked true 1) (CText (s2l "a%s")) 0 =
    Ret [EColour Red; EText (s2l "Error : Unable to access file ""a%s""."); EText [nl]; EText ("009"%char :: s2l "Reason: No such file" ++ [nl]); EColour Usual] /\
  pBat_ShowErrorMessage serr english english_quit false 2 (asked true 1) (CText (s2l "a")) (-1) =
    Ret [EText (s2l "Error : Unable to access file ""a""."); EText [nl]; EText ("009"%char :: s2l "Reason: Not a tty" ++ [nl]);
         EText (nl :: english_quit ++ [nl]); EKey; EExit 1] /\
  pBat_ShowErrorMessage serr english english_quit false 0 (asked false 19) (CInt 31) 0 =
    Ret [EText (s2l "Error : Attempted to specify more than TOKEN_NB_MAX (31) different tokens."); EText [nl]] /\
  length english = 62.
Proof.
  cbv zeta. split.
  - apply (says_text (s2l "Error : Unable to access file """) (s2l """.") (s2l "a%s")); apply plainb_ok; reflexivity.
  - repeat split; reflexivity.
Qed.
