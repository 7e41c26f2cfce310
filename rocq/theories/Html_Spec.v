(** Html_Spec.v -- what HTML is, without the program. *)

From Verif Require Import Base Tea_Model Tea_Spec.

(** How a character is written. *)
Definition entity (c : ascii) : cstr :=
  if ceq c "&"%char then s2l "&amp;" else if ceq c "<"%char then s2l "&lt;" else if ceq c ">"%char then s2l "&gt;" else [c].
(** A character that needs none of this. *)
Definition no_tag (s : cstr) : Prop := ~ In "<"%char s /\ ~ In ">"%char s.

(** HTML: text, elements (each is closed, in the right order), and lists, which have only items. *)
Inductive plain_element : cstr -> cstr -> Prop :=
| pe_h1 : plain_element (s2l "<h1>") (s2l "</h1>")
| pe_h2 : plain_element (s2l "<h2>") (s2l "</h2>")
| pe_p : plain_element (s2l "<p>") (s2l "</p>")
| pe_strong : plain_element (s2l "<strong>") (s2l "</strong>")
| pe_pre : plain_element (s2l "<pre><code>") (s2l "</code></pre>")
| pe_a h : no_tag h -> ~ In """"%char h -> plain_element (s2l "<a href=" ++ [""""%char] ++ h ++ [""""%char] ++ s2l ">") (s2l "</a>").
Inductive html : cstr -> Prop :=
| ht_nil : html []
| ht_chr c s : c <> "<"%char -> c <> ">"%char -> html s -> html (c :: s)
| ht_br s : html s -> html (s2l "<br />" ++ s)
| ht_elem a z s t : plain_element a z -> html s -> html t -> html (a ++ s ++ z ++ t)
| ht_list s t : items s -> html t -> html (s2l "<ul>" ++ s ++ s2l "</ul>" ++ t)
with items : cstr -> Prop :=
| it_one s : html s -> items (s2l "<li>" ++ s ++ s2l "</li>")
| it_more s t : html s -> items t -> items (s2l "<li>" ++ s ++ s2l "</li>" ++ t).

(** The text without its tags ([inside] one of them or not), and the tags alone. *)
Fixpoint strip (inside : bool) (s : cstr) : cstr :=
  match s with
  | [] => []
  | c :: r => if inside then strip (negb (ceq c ">"%char)) r else if ceq c "<"%char then strip true r else c :: strip false r
  end.
Fixpoint tags_ (cur : option cstr) (s : cstr) : list cstr :=
  match s with
  | [] => []
  | c :: r =>
      match cur with
      | Some t => if ceq c ">"%char then t :: tags_ None r else tags_ (Some (t ++ [c])) r
      | None => if ceq c "<"%char then tags_ (Some []) r else tags_ None r
      end
  end.
Definition tags (s : cstr) : list cstr := tags_ None s.
(** How many lists are open at the end of a text. *)
Definition count (t : cstr) (l : list cstr) : nat := length (filter (streqb t) l).
Definition open_lists (s : cstr) (n : nat) : Prop := count (s2l "ul") (tags s) = n + count (s2l "/ul") (tags s).

(** The text of a page: what is shown of its blocks (the '-' of an item is not). *)
Definition par_text (ns : list node) : cstr :=
  match ns with
  | Plain (c :: t) :: l => if ceq c "-"%char then t ++ concat (map text_of l) else concat (map text_of ns)
  | _ => concat (map text_of ns)
  end.
Definition block_text (x : block * list node) : cstr := match b_kind (fst x) with Para => par_text (snd x) | _ => b_text (fst x) end.

(** The texts of a page hold no tags, and the targets of its links no quotes. *)
Definition node_ok (x : node) : Prop := no_tag (text_of x) /\ match x with Link a _ => no_tag a /\ ~ In """"%char a | _ => True end.
Definition page_ok (l : list (block * list node)) : Prop := Forall (fun x => no_tag (b_text (fst x)) /\ Forall node_ok (snd x)) l.

(** Links that are not to a page beside this one. *)
Definition elsewhere (a : cstr) : Prop := exists p r, In p [s2l "http://"; s2l "https://"; s2l "mail://"] /\ a = p ++ r.
(** The name behind the last slash. *)
Definition last_name (a n : cstr) : Prop := ~ In "/"%char n /\ (a = n \/ exists d, a = d ++ "/"%char :: n).
