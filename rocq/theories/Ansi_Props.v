(** Ansi_Props.v -- C105: paragraphs with colours. *)

From Coq Require Import Lia.
From Verif Require Import Base Tea_Model Tea_Spec Layout_Model Layout_Spec Layout_Proofs Ansi_Model Ansi_Spec Ansi_Proofs.

(** Whatever is shown is shown in the colour of its part, and the colour ends with the part. *)
Theorem C105_colours : forall f m fl w xs l, Tea_TextAnsiOutputParagraph f m fl w xs = Ret (Some l) -> painted xs l.
Proof.
  intros f m fl w xs l H. unfold Tea_TextAnsiOutputParagraph in H. destruct ((w <=? m) || (w <=? fl)); [discriminate|].
  destruct xs as [|x xs]; [injection H as <-; constructor|].
  destruct (ansi_loop f m w (Some fl) false 0 x (Some (text_of x)) xs) as [t| |] eqn:E; cbn [bind] in H; try discriminate. injection H as <-.
  destruct (loop_painted _ _ _ _ _ _ _ _ _ _ E) as (ts & l' & -> & V & P). apply start_painted; assumption.
Qed.
Print Assumptions C105_colours.

(** If every word fits in a line, the paragraph is shown in lines that are not longer than the width. *)
Theorem C105_lines : forall f m fl w xs, m < w -> fl < w -> xs <> [] ->
  Forall (fun n => n <> [] /\ ~ In nl n) (map text_of xs) -> short_parts (w - m) (map text_of xs) -> short_parts (w - fl) (map text_of xs) ->
  total (map text_of xs) < f ->
  exists l o, Tea_TextAnsiOutputParagraph f m fl w xs = Ret (Some l) /\ txt l = repeat " "%char fl ++ o /\
    filled m (concat (map text_of xs)) o /\ fits w w (txt l).
Proof.
  intros f m fl w xs Wm Wf N Fn Sm Sf L. unfold Tea_TextAnsiOutputParagraph.
  replace (w <=? m) with false by (symmetry; apply Nat.leb_gt; exact Wm). replace (w <=? fl) with false by (symmetry; apply Nat.leb_gt; exact Wf).
  cbn [orb]. destruct xs as [|x xs]; [congruence|]. cbn [map] in *. inversion Fn as [|? ? F1 F2]; subst.
  destruct (ansi_ok m w Wm f (Some fl) false 0 (Some (text_of x)) xs x true) as (ev & E & F & o & EQ & V); auto.
  - intros s X. injection X as <-. exact F1.
  - intros [X|X]; discriminate.
  - change (total (text_of x :: map text_of xs)) with (2 * length (text_of x) + 3 + total (map text_of xs)) in L. lia.
  - rewrite E. exists (on x ++ ev), o. cbn [bind]. split; [reflexivity|]. rewrite txt_app, txt_on. cbn [app]. split; [exact EQ|]. split; [exact V|exact F].
Qed.
Print Assumptions C105_lines.

(** A word at the beginning that is too long for a line is tried again for ever (the output as text splits it, C101). *)
Theorem C105_forever_refuted : forall m fl w x xs, m < w -> fl < w -> w - m <= length (word_of (text_of x)) -> w - fl <= length (word_of (text_of x)) ->
  forall f, Tea_TextAnsiOutputParagraph f m fl w (x :: xs) = OutOfFuel.
Proof.
  intros m fl w x xs Wm Wf Lm Lf f. unfold Tea_TextAnsiOutputParagraph.
  replace (w <=? m) with false by (symmetry; apply Nat.leb_gt; exact Wm). replace (w <=? fl) with false by (symmetry; apply Nat.leb_gt; exact Wf).
  cbn [orb]. rewrite (ansi_forever m w x (text_of x) xs Lm); auto.
  - intros X. rewrite X in Lm. cbn in Lm. lia.
  - destruct (text_of x) as [|c s]; [discriminate|]. intro X. injection X as ->. cbn in Lm. lia.
Qed.
Print Assumptions C105_forever_refuted.

(** Margins that leave no place end the program at once. *)
Theorem C105_margins : forall f m fl w xs, w <= m \/ w <= fl -> Tea_TextAnsiOutputParagraph f m fl w xs = Ret None.
Proof.
  intros f m fl w xs H. unfold Tea_TextAnsiOutputParagraph. replace ((w <=? m) || (w <=? fl)) with true; [reflexivity|].
  symmetry. apply orb_true_iff. rewrite !Nat.leb_le. exact H.
Qed.
Print Assumptions C105_margins.

Definition ex_para : list node := [Plain (s2l "use "); Emphasis (s2l "a b"); Plain (s2l " or see "); Link (s2l "x.tea") (s2l "that")].
Example C105_ex :
  short_parts (12 - 2) (map text_of ex_para) /\ short_parts (12 - 0) (map text_of ex_para) /\ total (map text_of ex_para) < 100 /\
  Tea_TextAnsiOutputParagraph 100 2 0 12 ex_para =
    Ret (Some [AText (s2l "use "); seq "36"; AText (s2l "a b"); normal; AText (s2l " or "); AText (nl :: s2l "  see "); seq "34"; AText (s2l "that"); normal]) /\
  10 <= length (word_of (s2l "abcdefghijklm n")) /\ ~ In nl (s2l "use ").
Proof.
  split; [apply parts_check; reflexivity|]. split; [apply parts_check; reflexivity|]. split; [apply Nat.ltb_lt; reflexivity|]. split; [reflexivity|].
  split; [apply Nat.leb_le; reflexivity|]. cbv. intuition discriminate.
Qed.
