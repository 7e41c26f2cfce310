(** Glob_Props.v -- properties C11 and C12: wildcard matching.

    [utf8] is the text mode.  In UTF-8 mode (the default) the pattern is assumed
    to be ASCII; the name is arbitrary, and a question mark stands for one
    character of it. *)

From Verif Require Import Base Lex Glob_Model Glob_Spec Glob_Proofs.

Definition ascii_in_utf8 (utf8 : bool) (p : cstr) : Prop :=
  utf8 = true -> Forall (fun c => (code c < 128)%Z) p.

Lemma ascii_plain utf8 p : ascii_in_utf8 utf8 p -> Forall (plain utf8) p.
Proof.
  intros H. apply Forall_forall. intros c Hc Hu. specialize (H Hu). rewrite Forall_forall in H. auto.
Qed.

(** C11: matching always ends, and if no question mark directly follows a star,
    an accepted name matches the pattern. *)
Theorem C11_match_sound :
  forall utf8 p s,
    nonul p -> nonul s -> ascii_in_utf8 utf8 p -> no_star_question p ->
    exists b, pBat_RegExpMatch utf8 p s = Ret b /\ (b = true -> glob true p (chars utf8 s)).
Proof. intros. apply rx_sound; auto using ascii_plain. Qed.
Print Assumptions C11_match_sound.

Theorem C11_case_match_sound :
  forall utf8 p s,
    nonul p -> nonul s -> ascii_in_utf8 utf8 p -> no_star_question p ->
    exists b, pBat_RegExpCaseMatch utf8 p s = Ret b /\ (b = true -> glob false p (chars utf8 s)).
Proof. intros. apply rx_sound; auto using ascii_plain. Qed.
Print Assumptions C11_case_match_sound.

(** C11: without the proviso a name can be accepted that does not match. *)
Theorem C11_star_question_refuted :
  pBat_RegExpMatch true (s2l "*?a") (s2l "a") = Ret true /\
  ~ glob true (s2l "*?a") (chars true (s2l "a")).
Proof.
  split; [vm_compute; reflexivity|]. cbn. intros H.
  apply glob_star_inv in H as (us1 & us2 & E & H).
  inversion H as [|? ? ? H2| |]; subst; try congruence. inversion H2; subst; try congruence.
  apply (f_equal (@length _)) in E. rewrite app_length in E. simpl in E. lia.
Qed.
Print Assumptions C11_star_question_refuted.

(** C11: in UTF-8 mode only the first byte of a multi-byte pattern character is
    compared: the pattern C3 A9 accepts the name C3 A8. *)
Theorem C11_utf8_refuted :
  let e_acute := [ascii_of_nat 195; ascii_of_nat 169] in
  let e_grave := [ascii_of_nat 195; ascii_of_nat 168] in
  pBat_RegExpMatch true e_acute e_grave = Ret true /\
  chars true e_acute <> chars true e_grave /\ pBat_RegExpMatch false e_acute e_grave = Ret false.
Proof. split; [vm_compute; reflexivity|]. split; [vm_compute; discriminate|vm_compute; reflexivity]. Qed.
Print Assumptions C11_utf8_refuted.

(** C12: if no question mark occurs after a star, the matcher decides matching
    exactly, except that a trailing star must stand for at least one character. *)
Theorem C12_match_exact :
  forall utf8 p s,
    nonul p -> nonul s -> ascii_in_utf8 utf8 p -> no_question_after_star p ->
    exists b, pBat_RegExpMatch utf8 p s = Ret b /\
      (ends_with_star p -> (b = true <-> glob true (p ++ s2l "?") (chars utf8 s))) /\
      (~ ends_with_star p -> (b = true <-> glob true p (chars utf8 s))).
Proof.
  intros utf8 p s Hp Hs Ha Hn.
  destruct (rx_exact true utf8 (S (length p)) p s) as (b & Hb & Hg); auto using ascii_plain.
  exists b. split; [exact Hb|]. unfold tf in Hg. rewrite <- ends_starb_iff.
  destruct (ends_starb p); split; intros H; try congruence; exact Hg.
Qed.
Print Assumptions C12_match_exact.

Theorem C12_case_match_exact :
  forall utf8 p s,
    nonul p -> nonul s -> ascii_in_utf8 utf8 p -> no_question_after_star p ->
    exists b, pBat_RegExpCaseMatch utf8 p s = Ret b /\
      (ends_with_star p -> (b = true <-> glob false (p ++ s2l "?") (chars utf8 s))) /\
      (~ ends_with_star p -> (b = true <-> glob false p (chars utf8 s))).
Proof.
  intros utf8 p s Hp Hs Ha Hn.
  destruct (rx_exact false utf8 (S (length p)) p s) as (b & Hb & Hg); auto using ascii_plain.
  exists b. split; [exact Hb|]. unfold tf in Hg. rewrite <- ends_starb_iff.
  destruct (ends_starb p); split; intros H; try congruence; exact Hg.
Qed.
Print Assumptions C12_case_match_exact.

(** C12: "a*" does not match "a", although a star may stand for nothing. *)
Theorem C12_trailing_star_refuted :
  glob true (s2l "a*") (chars true (s2l "a")) /\ pBat_RegExpMatch true (s2l "a*") (s2l "a") = Ret false.
Proof.
  split; [|vm_compute; reflexivity]. cbn.
  apply glob_lit; try discriminate; [reflexivity|]. apply (glob_star true [] [] []). constructor.
Qed.
Print Assumptions C12_trailing_star_refuted.

(** C12: with a question mark after a star a match can be missed: the search for
    the text after the star never backtracks. *)
Theorem C12_no_backtrack_refuted :
  glob true (s2l "*a?") (chars true (s2l "aab")) /\ pBat_RegExpMatch true (s2l "*a?") (s2l "aab") = Ret false.
Proof.
  split; [|vm_compute; reflexivity]. cbn.
  apply (glob_star true (s2l "a?") [["a"%char]] [["a"%char]; ["b"%char]]).
  apply glob_lit; try discriminate; [reflexivity|]. constructor. constructor.
Qed.
Print Assumptions C12_no_backtrack_refuted.

(** Non-vacuity. *)
Example C11_ex :
  no_star_question (s2l "?e*t*.c") /\ nonul (s2l "?e*t*.c") /\
  pBat_RegExpMatch true (s2l "?e*t*.c") (s2l "west end.c") = Ret true /\
  pBat_RegExpCaseMatch true (s2l "?e*T*.c") (s2l "WEST.C") = Ret true /\
  pBat_RegExpMatch true (s2l "?e*t*.c") (s2l "eel.c") = Ret false.
Proof.
  repeat split; try (vm_compute; reflexivity).
  - intros a b E. vm_compute in E. repeat (destruct a as [|? a]; [discriminate E|injection E as _ E]).
    destruct a; discriminate.
  - unfold nonul. vm_compute. intuition discriminate.
Qed.
Example C12_ex :
  no_question_after_star (s2l "?e*t*.c") /\ ~ ends_with_star (s2l "?e*t*.c") /\ ends_with_star (s2l "?e*").
Proof.
  repeat split.
  - intros a b c E. vm_compute in E.
    assert (H : forall l, In "?"%char (tl l) -> l = s2l "?e*t*.c" -> False).
    { intros l H ->. vm_compute in H. intuition discriminate. }
    apply (H (a ++ "*"%char :: b ++ "?"%char :: c)); [|symmetry; exact E].
    destruct a as [|x a]; simpl; [apply in_or_app; simpl; auto|].
    apply in_or_app. right. right. apply in_or_app. simpl; auto.
  - intros H. apply ends_starb_iff in H. vm_compute in H. discriminate.
  - apply ends_starb_iff. reflexivity.
Qed.
