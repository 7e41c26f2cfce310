(** Tea_Props.v -- C99: the documents of tea. *)

From Verif Require Import Base Tea_Model Tea_Spec Tea_Proofs.
Require Import Lia.

(** Every document is cut into the blocks it is written with, and into no others; one that is not so written is refused. *)
Theorem C99_blocks : forall s,
  (forall l, Tea_ParseStringBlock s = Ret (Some l) <-> doc s l) /\
  (Tea_ParseStringBlock s = Ret None <-> forall l, ~ doc s l).
Proof.
  intro s. unfold Tea_ParseStringBlock.
  assert (C : forall l, doc s l -> parse_blocks (S (length s)) s = Ret (Some l)) by (intros l D; apply (parse_complete s l D); lia).
  destruct (parse_sound (S (length s)) s ltac:(lia)) as (x & E & D). split.
  - intro l. split; [|apply C]. intro H. rewrite E in H. injection H as ->. apply D. reflexivity.
  - split.
    + intros H l D'. rewrite (C l D') in H. discriminate.
    + intro N. rewrite E. destruct x as [l|]; [|reflexivity]. exfalso. exact (N l (D l eq_refl)).
Qed.
Print Assumptions C99_blocks.

(** A text is cut into paragraphs at its empty lines: no paragraph has one, and no character that can be seen is lost or moved. *)
Theorem C99_paragraphs : forall s, exists l, Tea_BreakParagraph s = Ret l /\ paragraphs s l
  /\ Forall (fun p => ~ has_empty_line p) l /\ concat (map visible l) = visible s.
Proof.
  intro s. destruct (break_ok (S (length s)) 0 s ltac:(lia) ltac:(intros; lia)) as (l & E & P).
  exists l. split; [exact E|]. split; [exact P|]. split; [exact (paragraphs_clean _ _ P)|exact (paragraphs_visible _ _ P)].
Qed.
Print Assumptions C99_paragraphs.

(** Emphasis and links are read as they are written; an opened brace that is not closed is refused. *)
Theorem C99_inline : forall s,
  (forall l, Tea_ParseStringNode s = Ret (Some l) <-> inline s l) /\
  (Tea_ParseStringNode s = Ret None <-> forall l, ~ inline s l).
Proof.
  intro s. unfold Tea_ParseStringNode.
  assert (C : forall l, inline s l -> parse_nodes (S (length s)) s = Ret (Some l)) by (intros l D; apply (nodes_complete s l D); lia).
  destruct (nodes_sound (S (length s)) s ltac:(lia)) as (x & E & D). split.
  - intro l. split; [|apply C]. intro H. rewrite E in H. injection H as ->. apply D. reflexivity.
  - split.
    + intros H l D'. rewrite (C l D') in H. discriminate.
    + intro N. rewrite E. destruct x as [l|]; [|reflexivity]. exfalso. exact (N l (D l eq_refl)).
Qed.
Print Assumptions C99_inline.

(** A paragraph gets the level of its dashes and shows its parts with single blanks, whatever came before it; code
    after it has its level too, and a title goes back to none. *)
Theorem C99_shown : forall s n m body l r, marks s n m body -> inline body l -> shown true l r ->
  forall esc last h c d, exists b,
    Tea_MakeLevels esc last [(Para, s); (Code, c); (Head, h); (Code, d)] = [b; mkB Code n false c; mkB Head 0 false h; mkB Code 0 false d]
    /\ b_kind b = Para /\ b_level b = n /\ b_nomark b = m /\ parse_paragraph b = Ret (Some (b, r)).
Proof.
  intros s n m body l r M I S esc last h c d.
  destruct (paragraph_ok _ _ _ _ _ _ M I S esc last [(Code, c); (Head, h); (Code, d)]) as (b & esc' & E & H). exists b. split; [exact E|exact H].
Qed.
Print Assumptions C99_shown.

(** Titles without '\' show their characters with single blanks. *)
Theorem C99_titles : forall s i, reads s i -> ~ In "\"%char s -> Tea_SweepSpace s = squeeze true i.
Proof. intros s i R N. unfold Tea_SweepSpace. rewrite (sweep_head _ _ R N). reflexivity. Qed.
Print Assumptions C99_titles.

(** Code keeps its characters and lines; only tabs become blanks. *)
Theorem C99_code : forall l, exists r, Tea_PurifyPage l = Ret r /\
  filter (fun x => match fst x with Code => true | _ => false end) r =
  map (fun x => (Code, map (fun c => if ceq c "009"%char then " "%char else c) (snd x))) (filter (fun x => match fst x with Code => true | _ => false end) l).
Proof.
  induction l as [|[k s] l (r & E & F)]; [exists []; split; reflexivity|]. destruct k; cbn [Tea_PurifyPage filter fst].
  - destruct (C99_paragraphs s) as (ps & -> & _). cbn [bind]. rewrite E. cbn [bind]. eexists; split; [reflexivity|].
    rewrite <- F. clear. induction ps as [|p ps IH]; [reflexivity|exact IH].
  - rewrite E. cbn [bind]. eexists; split; [reflexivity|]. cbn. rewrite F. reflexivity.
  - rewrite E. cbn [bind]. eexists; split; [reflexivity|]. exact F.
Qed.
Print Assumptions C99_code.

(** From the text to the page: a document of words (no '\' nor '{', no word with a mark) shows all its words, in their order. *)
Theorem C99_words : forall s, ~ In "\"%char s -> ~ In "{"%char s ->
  Forall (fun w => hd_error w <> Some "-"%char /\ hd_error w <> Some "@"%char) (words s) ->
  exists l, Tea_Page s = Ret (Some l)
    /\ Forall (fun x => b_kind (fst x) = Para /\ b_level (fst x) = 0 /\ b_nomark (fst x) = false) l
    /\ concat (map (fun x => concat (map (fun y => words (text_of y)) (snd x))) l) = words s.
Proof. exact page_words. Qed.
Print Assumptions C99_words.

(** No document makes it go on for ever. *)
Theorem C99_ends : forall s, exists r, Tea_Page s = Ret r.
Proof. exact page_total. Qed.
Print Assumptions C99_ends.

(** A '\' does not keep "{{" or "${" from opening a block. *)
Theorem C99_escape_refuted : ~ (forall t, Tea_Page (s2l "\" ++ s2l "{" ++ t) <> Ret None).
Proof. intro H. apply (H (s2l "{ is a brace")). vm_compute. reflexivity. Qed.
Print Assumptions C99_escape_refuted.

(** In a title the blank after a character that was taken with '\' is lost, when the title begins with it or a blank is before it. *)
Theorem C99_titles_refuted : ~ (forall s i, reads s i -> Tea_SweepSpace s = squeeze true i).
Proof.
  intro H. specialize (H (s2l "\# x") [Some "#"%char; None; Some "x"%char]).
  assert (R : reads (s2l "\# x") [Some "#"%char; None; Some "x"%char]).
  { apply rd_esc. apply rd_white; [reflexivity|]. apply rd_chr; [reflexivity|discriminate|constructor]. }
  specialize (H R). vm_compute in H. discriminate.
Qed.
Print Assumptions C99_titles_refuted.

(** A paragraph that ends with '\' and has two blanks one after another shows some of its text twice. *)
Theorem C99_twice_refuted : ~ (forall s b t, Tea_Page s = Ret (Some [(b, [Plain t])]) -> length (visible t) <= length (visible s)).
Proof.
  intro H. specialize (H (s2l "a  b\") (mkB Para 0 false (s2l "a  b\")) (s2l "a bb\") eq_refl). vm_compute in H. lia.
Qed.
Print Assumptions C99_twice_refuted.

(** Lines that begin with '#' are left out, and a byte order mark at the beginning is. *)
Theorem C99_comments : forall lines,
  Tea_ReadLines false lines = concat (filter (fun l => match l with c :: _ => negb (ceq c "#"%char) | [] => true end) lines).
Proof.
  induction lines as [|l r IH]; [reflexivity|]. cbn [Tea_ReadLines andb filter]. destruct l as [|c l]; [exact IH|].
  destruct (ceq c "#"); cbn [negb concat]; [exact IH|]. rewrite IH. reflexivity.
Qed.
Print Assumptions C99_comments.

(** But one at the beginning of any other line is left out too, if there was none before. *)
Theorem C99_mark_refuted : ~ (forall l r, l <> [] -> hd_error l <> Some "#"%char -> firstn 3 l <> BOM -> Tea_ReadLines true (l :: r) = l ++ Tea_ReadLines false r).
Proof.
  intro H. specialize (H (s2l "a") [BOM ++ s2l "b"] ltac:(discriminate) ltac:(discriminate) ltac:(discriminate)). vm_compute in H. discriminate.
Qed.
Print Assumptions C99_mark_refuted.

(** The hypotheses can be met. *)
Example C99_ex_doc : doc (s2l "a {{T}} b ${x{y}} c") [(Para, s2l "a "); (Head, s2l "T"); (Para, s2l " b "); (Code, s2l "x{y}"); (Para, s2l " c")].
Proof. apply (proj1 (C99_blocks _)). vm_compute. reflexivity. Qed.
Example C99_ex_shown : exists l r, marks (s2l " -- see {p|the  page} now") 2 false (s2l "- see {p|the  page} now")
  /\ inline (s2l "- see {p|the  page} now") l /\ shown true l r /\ r = [Plain (s2l "- see "); Link (s2l "p") (s2l "the page"); Plain (s2l " now")].
Proof.
  eexists; eexists. split; [apply (mk_dashes (s2l " ") 1 (s2l " see {p|the  page} now")); [reflexivity|discriminate]|].
  split; [apply (proj1 (C99_inline _)); vm_compute; reflexivity|]. split; [|reflexivity].
  assert (NB : forall t, ~ In "\"%char (s2l t) -> reads (s2l t) (map opt (s2l t))) by (intros; apply reads_plain; assumption).
  refine (sh_some true (Plain (s2l "- see ")) (map opt (s2l "- see ")) [Link (s2l "p") (s2l "the  page"); Plain (s2l " now")] [Link (s2l "p") (s2l "the page"); Plain (s2l " now")] (NB "- see "%string _) _ _);
    [intro X; cbn in X; intuition discriminate|discriminate|].
  refine (sh_some true (Link (s2l "p") (s2l "the  page")) (map opt (s2l "the  page")) [Plain (s2l " now")] [Plain (s2l " now")] (NB "the  page"%string _) _ _);
    [intro X; cbn in X; intuition discriminate|discriminate|].
  refine (sh_some false (Plain (s2l " now")) (map opt (s2l " now")) [] [] (NB " now"%string _) _ _);
    [intro X; cbn in X; intuition discriminate|discriminate|constructor].
Qed.
Example C99_ex_words : Tea_Page (s2l "One  two" ++ nl :: s2l "  " ++ nl :: s2l "three. ") =
  Ret (Some [(mkB Para 0 false (s2l "One  two"), [Plain (s2l "One two")]); (mkB Para 0 false (" "%char :: nl :: s2l "three. "), [Plain (s2l "three. ")])]).
Proof. vm_compute. reflexivity. Qed.
Example C99_ex_unclosed : Tea_Page (s2l "a {b") = Ret None /\ Tea_ParseStringBlock (s2l "a ${b") = Ret None.
Proof. split; vm_compute; reflexivity. Qed.
