(** Html_Model.v -- model of how tea writes a page as HTML (tea/src/out/tea_html_out.c): the body of the page.  The head (options,
    title, files given with /H, /M and /F) is not modelled. *)

From Verif Require Import Base Tea_Model.

(** pBat_EsReplace with a text of one character, see C06. *)
Definition replace1 (a : ascii) (t : cstr) (s : cstr) : cstr := flat_map (fun c => if ceq c a then t else [c]) s.
(** tea_html_out.c:419-425 [Tea_HtmlEscapeChar], called by [Tea_HtmlParseHandler] (404-417) for the whole text that was read *)
Definition Tea_HtmlEscapeChar (s : cstr) : cstr :=
  replace1 ">" (s2l "&gt;") (replace1 "<" (s2l "&lt;") (replace1 "&" (s2l "&amp;") s)).

(** 349-367, ext: [strrchr] and [strchr] *)
Fixpoint strrchr (c : ascii) (s : cstr) : option cstr :=
  match s with
  | [] => None
  | d :: r => match strrchr c r with Some t => Some t | None => if ceq d c then Some s else None end
  end.
Definition strncmp0 (s p : cstr) : bool := streqb (firstn (length p) s) p.
Definition link_ext (md : bool) (a : cstr) : cstr :=
  let e := match strrchr "/" a with Some t => t | None => a end in
  let ext := if existsb (fun c => ceq c "."%char) e then [] else s2l ".html" in
  if strncmp0 a (s2l "http://") || strncmp0 a (s2l "https://") || strncmp0 a (s2l "mail://") || md then [] else ext.
(** 340-402 [Tea_HtmlOutputParagraph]; [first] is bFirstLine *)
Definition quote : ascii := """"%char.
Fixpoint Tea_HtmlOutputParagraph (md first : bool) (ns : list node) : cstr :=
  match ns with
  | [] => []
  | x :: ns =>
      match x with
      | Link a t => s2l "<a href=" ++ [quote] ++ a ++ link_ext md a ++ [quote] ++ s2l ">" ++ t ++ s2l "</a>"
      | Emphasis t => s2l "<strong>" ++ t ++ s2l "</strong>"
      | Plain t => match t with c :: r => if first && ceq c "-"%char then r else t | [] => [] end
      end ++ Tea_HtmlOutputParagraph md false ns
  end.

Fixpoint times (n : nat) (s : cstr) : cstr := match n with O => [] | S n => s ++ times n s end.
Definition ul_open : cstr := s2l "<ul><li>" ++ [nl].
Definition ul_close : cstr := s2l "</li></ul>" ++ [nl].
(** The lists that are closed and opened to come from a level to another (247-259, 274-286) *)
Definition to_level (last lvl : nat) : cstr := times (last - lvl) ul_close ++ times (lvl - last) ul_open.
(** 218-318 the loop of [Tea_HtmlOutputHandler] and what closes the last lists; [last] is iLastLevel, [h1] whether no title was seen *)
Fixpoint html_blocks (md : bool) (last : nat) (h1 : bool) (l : list (block * list node)) : cstr :=
  match l with
  | [] => times last ul_close
  | (b, ns) :: l =>
      match b_kind b with
      | Head =>
          times last ul_close ++ (if h1 then s2l "<h1>" else s2l "<h2>") ++ replace1 nl (s2l "<br />") (b_text b) ++
          (if h1 then s2l "</h1>" else s2l "</h2>") ++ [nl; nl] ++ html_blocks md 0 false l
      | Code =>
          to_level last (b_level b) ++ s2l "<pre><code>" ++ replace1 nl (s2l "<br />") (b_text b) ++ s2l "</code></pre>" ++
          [nl; nl] ++ html_blocks md (b_level b) h1 l
      | Para =>
          to_level last (b_level b) ++
          (if negb (last <? b_level b) && negb (b_nomark b) && (0 <? b_level b) then s2l "</li><li>" else []) ++
          s2l "<p>" ++ Tea_HtmlOutputParagraph md true ns ++ s2l "</p>" ++ [nl; nl] ++ html_blocks md (b_level b) h1 l
      end
  end.
Definition html_body (md : bool) (l : list (block * list node)) : cstr := html_blocks md 0 true l.
