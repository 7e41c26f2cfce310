(** Tea_Spec.v -- what a document of tea says, without the program. *)

From Verif Require Import Base Tea_Model.

(** Code between "${" and "}": braces in it are paired, and '\' takes the next character as it is. *)
Inductive paired : cstr -> Prop :=
| pa_nil : paired []
| pa_esc c s : paired s -> paired ("\"%char :: c :: s)
| pa_chr c s : c <> "\"%char -> c <> "{"%char -> c <> "}"%char -> paired s -> paired (c :: s)
| pa_braces s t : paired s -> paired t -> paired ("{"%char :: s ++ "}"%char :: t).

(** "{{" and "${" open a block. *)
Definition opener (o : cstr) : Prop := o = s2l "{{" \/ o = s2l "${".
(** [o] is the first opener of [t ++ o ++ r], and [w] the first "}}" of [h ++ w ++ r]. *)
Definition first_opener (t o r : cstr) : Prop :=
  opener o /\ forall u p v, opener p -> t ++ o ++ r = u ++ p ++ v -> length t <= length u.
Definition first_close (h r : cstr) : Prop :=
  forall u v, h ++ s2l "}}" ++ r = u ++ s2l "}}" ++ v -> length h <= length u.

(** A document: paragraphs, with titles and code between them. *)
Inductive doc : cstr -> list (kind * cstr) -> Prop :=
| dc_end t : (forall u p v, opener p -> t <> u ++ p ++ v) -> doc t [(Para, t)]
| dc_head t h r l :
    first_opener t (s2l "{{") (h ++ s2l "}}" ++ r) -> first_close h r -> doc r l ->
    doc (t ++ s2l "{{" ++ h ++ s2l "}}" ++ r) ((Para, t) :: (Head, h) :: l)
| dc_code t c r l :
    first_opener t (s2l "${") (c ++ s2l "}" ++ r) -> paired c -> doc r l ->
    doc (t ++ s2l "${" ++ c ++ s2l "}" ++ r) ((Para, t) :: (Code, c) :: l).

(** Blanks, tabs and ends of lines. *)
Definition white (c : ascii) : bool := ceq c " "%char || ceq c "009"%char || ceq c nl.
Definition visible (s : cstr) : cstr := filter (fun c => negb (white c)) s.
(** An empty line (it may have blanks and tabs) within a text. *)
Definition has_empty_line (s : cstr) : Prop :=
  exists u b v, s = u ++ nl :: b ++ nl :: v /\ Forall (fun c => c = " "%char \/ c = "009"%char) b.

(** A text is cut into paragraphs at the empty lines: the end of a line and the character after it are left out. *)
Definition blank_line (s : cstr) : Prop :=
  exists b v, s = nl :: b ++ nl :: v /\ Forall (fun c => c = " "%char \/ c = "009"%char) b.
Inductive paragraphs : cstr -> list cstr -> Prop :=
| pg_one s : ~ has_empty_line s -> paragraphs s [s]
| pg_more p x r l : ~ has_empty_line (p ++ [nl]) -> blank_line (nl :: x :: r) -> paragraphs r l -> paragraphs (p ++ nl :: x :: r) (p :: l).

(** What is written within a paragraph: text, {emphasis} and {target|text}.  '\' takes the next character as it is. *)
Inductive without (d : ascii) : cstr -> Prop :=
| wo_nil : without d []
| wo_esc c s : without d s -> without d ("\"%char :: c :: s)
| wo_chr c s : c <> "\"%char -> c <> d -> without d s -> without d (c :: s).
Definition without_end (d : ascii) (s : cstr) : Prop := without d s \/ exists t, s = t ++ s2l "\" /\ without d t.
Inductive inside : cstr -> node -> Prop :=
| is_emph s : without_end "|" s -> inside s (Emphasis s)
| is_link a s : without "|" a -> inside (a ++ s2l "|" ++ s) (Link a s).
Inductive inline : cstr -> list node -> Prop :=
| in_end s : without_end "{" s -> inline s [Plain s]
| in_more t s x r l : without "{" t -> without "}" s -> inside s x -> inline r l ->
    inline (t ++ s2l "{" ++ s ++ s2l "}" ++ r) (Plain t :: x :: l).

(** The characters a text stands for: [None] is a blank, tab or end of line; one after '\' is as any other. *)
Inductive reads : cstr -> list (option ascii) -> Prop :=
| rd_nil : reads [] []
| rd_white c s l : white c = true -> reads s l -> reads (c :: s) (None :: l)
| rd_esc c s l : reads s l -> reads ("\"%char :: c :: s) (Some c :: l)
| rd_chr c s l : white c = false -> c <> "\"%char -> reads s l -> reads (c :: s) (Some c :: l).
(** Several blanks are one, those at the beginning ([g]) none. *)
Fixpoint squeeze (g : bool) (l : list (option ascii)) : cstr :=
  match l with
  | [] => []
  | None :: l => if g then squeeze true l else " "%char :: squeeze true l
  | Some c :: l => c :: squeeze false l
  end.
Fixpoint ends_blank (g : bool) (l : list (option ascii)) : bool :=
  match l with [] => g | None :: l => ends_blank true l | Some _ :: l => ends_blank false l end.

(** The words of a text. *)
Fixpoint words_ (w s : cstr) : list cstr :=
  match s with
  | [] => match w with [] => [] | _ => [w] end
  | c :: s => if white c then match w with [] => words_ [] s | _ => w :: words_ [] s end else words_ (w ++ [c]) s
  end.
Definition words (s : cstr) : list cstr := words_ [] s.

(** The marks at the beginning of a paragraph: dashes are its level; with '@' before them none is shown, else one is. *)
Inductive marks : cstr -> nat -> bool -> cstr -> Prop :=
| mk_plain w c r : forallb white w = true -> white c = false -> c <> "-"%char -> c <> "@"%char -> marks (w ++ c :: r) 0 false (c :: r)
| mk_dashes w n r : forallb white w = true -> hd_error r <> Some "-"%char -> marks (w ++ repeat "-"%char (S n) ++ r) (S n) false ("-"%char :: r)
| mk_at w n r : forallb white w = true -> hd_error r <> Some "-"%char -> marks (w ++ "@"%char :: repeat "-"%char n ++ r) n true r.

(** What is shown of the parts of a paragraph. *)
Inductive shown : bool -> list node -> list node -> Prop :=
| sh_nil g : shown g [] []
| sh_none g x i l r : reads (text_of x) i -> squeeze g i = [] -> shown (ends_blank g i) l r -> shown g (x :: l) r
| sh_some g x i l r : reads (text_of x) i -> squeeze g i <> [] -> shown (ends_blank g i) l r ->
    shown g (x :: l) (with_text x (squeeze g i) :: r).
