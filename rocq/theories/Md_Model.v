(** Md_Model.v -- model of how tea writes the parts of a paragraph as Markdown (tea/src/out/tea_md_out.c).  Only the handler of nodes, titles and
    the beginning of paragraphs are modelled; the pages are laid out as text (C101). Memory is always there. *)

From Verif Require Import Base Tea_Model Html_Model.

(** tea_md_out.c:83-105 [Tea_MDEscape]; pBat_EsReplace with a text of one character as in Html_Model *)
Definition esc1 (c : ascii) (s : cstr) : cstr := replace1 c [bslash; bslash; c] s.
Definition Tea_MDEscape (s : cstr) : cstr :=
  esc1 "#" (esc1 "~" (esc1 "|" (esc1 ")" (esc1 "(" (esc1 "[" (esc1 "]" (esc1 "*" (esc1 "_" s)))))))).
(** 107-166 [Tea_MDParseHandler] for a node *)
Definition Tea_MDParseHandler (x : node) : node :=
  match x with
  | Emphasis t => Emphasis (s2l "**" ++ Tea_MDEscape t ++ s2l "**")
  | Link a t => Link (Tea_MDEscape a) (s2l "[" ++ Tea_MDEscape t ++ s2l "]" ++ s2l "(" ++ Tea_MDEscape a ++ s2l ")")
  | Plain t => Plain (Tea_MDEscape t)
  end.
(** Tea_Node.c:191-200: then the blanks and '\' of each node are swept; [begin] is whether the blanks in front of it are left out. *)
Definition md_text (begin : bool) (x : node) : cstr * bool := Tea_SweepSpaceNode begin (text_of (Tea_MDParseHandler x)).
(** A paragraph: what is written of its nodes, one after the other (the breaking of lines is that of C101) *)
Fixpoint md_paragraph (begin : bool) (l : list node) : list cstr :=
  match l with
  | [] => []
  | x :: l => let (t, b) := md_text begin x in t :: md_paragraph b l
  end.
(** tea_md_out.c:54-58: a title *)
Definition md_heading (first : bool) (t : cstr) : cstr := if first then s2l "# " ++ t else s2l "## " ++ t.
(** 63-64: the beginning of a paragraph *)
Definition md_dash (t : cstr) : cstr := match t with c :: r => if ceq c "-"%char then "*"%char :: r else t | [] => [] end.
