(** Layout_Props.v -- C101: how tea lays out a page as text. *)

From Verif Require Import Base Layout_Model Tea_Spec Layout_Spec Layout_Proofs.
Require Import Lia.

(** A title or a piece of code whose words are all shorter than the line is written completely (a first end of line is left out), in
    lines of at most [w] characters: an end of line of the text stays, and otherwise a line ends only where the next word does not
    fit.  Each step of the loop writes something, so that as many steps as characters are enough. *)
Theorem C101_static : forall f m k w s, m < w -> k < w -> short (w - m) (drop_nl s) -> short (w - k) (drop_nl s) -> length s + 1 < f ->
  exists o, Tea_TextOutputStaticBlock f m k w s = Ret (Some o) /\ laid m k w m (drop_nl s) o /\
    fits w w o /\ visible o = visible (drop_nl s).
Proof.
  intros f m k w s Wm Wk Sm Sk L. unfold Tea_TextOutputStaticBlock.
  replace (w <=? m) with false by (symmetry; apply Nat.leb_gt; exact Wm). replace (w <=? k) with false by (symmetry; apply Nat.leb_gt; exact Wk).
  cbn [orb]. destruct f as [|f]; [lia|]. cbn [static_loop orb].
  assert (LD : length (drop_nl s) <= length s) by (destruct s as [|c s]; cbn; [lia|]; destruct (ceq c nl); cbn; lia).
  destruct (static_ok w m k Wm Wk f (drop_nl s) m ltac:(lia) (or_introl eq_refl) Sm Sk) as (o & E & La).
  destruct (Tea_OutputLine (drop_nl s) (w - m)) as [[[x r] y]| |]; cbn [bind] in E |- *; try discriminate.
  destruct (static_loop f m k w false r) as [t| |]; cbn [bind] in E |- *; try discriminate. injection E as <-.
  eexists; split; [reflexivity|]. split; [exact La|]. split; [exact (laid_fits _ _ _ _ _ _ La)|exact (laid_visible _ _ _ _ _ _ La)].
Qed.
Print Assumptions C101_static.

(** A word as long as the line or longer is never written: the loop does not end (it writes empty lines for ever). *)
Theorem C101_forever_refuted : forall m k w s, m < w -> k < w -> w - m <= length (word_of s) -> w - k <= length (word_of s) ->
  forall f, Tea_TextOutputStaticBlock f m k w s = OutOfFuel.
Proof.
  intros m k w s Wm Wk Lm Lk f. unfold Tea_TextOutputStaticBlock.
  replace (w <=? m) with false by (symmetry; apply Nat.leb_gt; exact Wm). replace (w <=? k) with false by (symmetry; apply Nat.leb_gt; exact Wk).
  cbn [orb]. rewrite (static_forever w m k s); auto.
  - intros ->. cbn in Lm. lia.
  - destruct s as [|c s]; [discriminate|]. intro X. injection X as ->. cbn in Lm. lia.
Qed.
Print Assumptions C101_forever_refuted.

(** A paragraph whose words are all shorter than the line is written completely, in lines of at most [w] characters: its first line
    has the margin [fl], the others [m], and a line ends only behind a blank, even where a word is made of several parts. *)
Theorem C101_paragraph : forall f m fl w ns, m < w -> fl < w -> ns <> [] ->
  Forall (fun n => n <> [] /\ ~ In nl n) ns -> short_parts (w - m) ns -> short_parts (w - fl) ns -> total ns < f ->
  exists o, Tea_TextOutputParagraph f m fl w ns = Ret (Some (repeat " "%char fl ++ o)) /\ filled m (concat ns) o /\
    fits w w (repeat " "%char fl ++ o) /\ visible o = visible (concat ns).
Proof.
  intros f m fl w ns Wm Wf N Fn Sm Sf L. unfold Tea_TextOutputParagraph.
  replace (w <=? m) with false by (symmetry; apply Nat.leb_gt; exact Wm). replace (w <=? fl) with false by (symmetry; apply Nat.leb_gt; exact Wf).
  cbn [orb]. destruct ns as [|n ns]; [congruence|]. inversion Fn as [|? ? F1 F2]; subst.
  destruct (para_ok m w Wm f (Some fl) false 0 0 (Some n) ns true) as (o & E & F & o' & -> & V).
  - split; [exact Wf|exact Sf].
  - exact Sm.
  - exact F2.
  - intros s X. injection X as <-. exact F1.
  - intros [X|X]; discriminate.
  - change (total (n :: ns)) with (2 * length n + 3 + total ns) in L. cbv iota beta. lia.
  - exists o'. split; [exact (f_equal (fun x => do o <- x; Ret (Some o)) E)|]. split; [exact V|]. split; [exact F|]. exact (filled_visible _ _ _ V).
Qed.
Print Assumptions C101_paragraph.

Local Definition xs (n : nat) : cstr := repeat "x"%char n.
(** Longer words are split, but a word that fills its line exactly and ends its part is not: [pBat_GetNextChar] gets NULL... *)
Theorem C101_exact_refuted : forall f, Tea_TextOutputParagraph (3 + f) 4 4 79 [xs 150] = Undef /\
  Tea_TextOutputParagraph (4 + f) 4 4 79 [xs 151] = Ret (Some (repeat " "%char 4 ++ xs 75 ++ nl :: repeat " "%char 4 ++ xs 75 ++ nl :: repeat " "%char 4 ++ xs 1)).
Proof. intro f. split; reflexivity. Qed.
Print Assumptions C101_exact_refuted.
(** ... a long word that is spread over several parts makes the program read behind the end of a part... *)
Theorem C101_parts_refuted : forall f, Tea_TextOutputParagraph (1 + f) 4 4 79 [s2l "_short_"; xs 75] = Undef.
Proof. intro f. reflexivity. Qed.
Print Assumptions C101_parts_refuted.
(** ... and a part that ends with an end of line (written \\ and an end of line in the document) also gives NULL. *)
Theorem C101_null_refuted : forall f, Tea_TextOutputParagraph (2 + f) 4 4 79 [s2l "abc" ++ [nl]] = Undef.
Proof. intro f. reflexivity. Qed.
Print Assumptions C101_null_refuted.

(** Margins that leave no place end the program at once. *)
Theorem C101_margins : forall f m k w, w <= m \/ w <= k -> (forall s, Tea_TextOutputStaticBlock f m k w s = Ret None) /\
  (forall ns, Tea_TextOutputParagraph f m k w ns = Ret None).
Proof.
  intros f m k w H. unfold Tea_TextOutputStaticBlock, Tea_TextOutputParagraph.
  replace ((w <=? m) || (w <=? k)) with true; [split; reflexivity|]. symmetry. apply orb_true_iff. rewrite !Nat.leb_le. exact H.
Qed.
Print Assumptions C101_margins.

(** Code of two lines, the first too long for its width of 14 characters; and a paragraph of three parts. *)
Example C101_ex :
  Tea_TextOutputStaticBlock 30 2 4 14 ([nl] ++ s2l "set a=b c d e" ++ [nl] ++ s2l "echo b") =
    Ret (Some (s2l "  set a=b c d " ++ [nl] ++ s2l "    e" ++ [nl] ++ s2l "  echo b")) /\
  short 10 (s2l "set a=b c d e" ++ [nl] ++ s2l "echo b") /\
  Tea_TextOutputParagraph 80 4 2 14 [s2l "this is "; s2l "_it_"; s2l ", and more"] =
    Ret (Some (s2l "  this is " ++ [nl] ++ s2l "    _it_, and " ++ [nl] ++ s2l "    more")) /\
  short_parts 10 [s2l "this is "; s2l "_it_"; s2l ", and more"] /\ total [s2l "this is "; s2l "_it_"; s2l ", and more"] < 80 /\
  (forall f, Tea_TextOutputStaticBlock f 8 6 79 (xs 80) = OutOfFuel).
Proof.
  split; [reflexivity|]. split.
  { apply short_check. reflexivity. }
  split; [reflexivity|]. split; [apply parts_check; reflexivity|].
  split; [vm_compute; lia|]. intro f. apply C101_forever_refuted; vm_compute; lia.
Qed.
