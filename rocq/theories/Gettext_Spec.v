(** Gettext_Spec.v -- what a catalogue of messages is, and where it is looked for. *)

From Verif Require Import Base Gettext_Model.

(** A number of four bytes, the least one first, at [o] *)
Definition number_at (f : cstr) (o n : nat) : Prop :=
  exists a b c d, firstn 4 (skipn o f) = [a; b; c; d] /\ Z.of_nat n = (code a + code b * 2 ^ 8 + code c * 2 ^ 16 + code d * 2 ^ 24)%Z.
(** A text that ends with a NUL *)
Definition text_at (f : cstr) (o : nat) (s : cstr) : Prop := nonul s /\ exists rest, skipn o f = s ++ "000"%char :: rest.
(** Dictionary order of bytes *)
Inductive before : cstr -> cstr -> Prop :=
| be_end y b : before [] (y :: b)
| be_less x y a b : (code x < code y)%Z -> before (x :: a) (y :: b)
| be_same x a b : before a b -> before (x :: a) (x :: b).
(** A table of texts at [o]: the second number of each pair says where the text is.  (The first is its length.) *)
Definition table_at (f : cstr) (o : nat) (l : list cstr) : Prop :=
  forall i s, nth_error l i = Some s -> exists p, number_at f (o + 8 * i + 4) p /\ text_at f p s.
(** A catalogue of messages and translations, as msgfmt writes it: the messages are sorted.  No table is the end of the file. *)
Definition catalogue_file (f : cstr) (l : list (cstr * cstr)) : Prop :=
  exists o t, (Z.of_nat (length f) < 2 ^ 31)%Z /\ number_at f 8 (length l) /\ number_at f 12 o /\ number_at f 16 t /\
    table_at f o (map fst l) /\ table_at f t (map snd l) /\
    o + 8 * length l < length f /\ t + 8 * length l < length f /\
    forall i j a b, i < j -> nth_error (map fst l) i = Some a -> nth_error (map fst l) j = Some b -> before a b.
(** The translation of a message *)
Definition translation (l : list (cstr * cstr)) (msg r : cstr) : Prop :=
  In (msg, r) l \/ (r = msg /\ forall t, ~ In (msg, t) l).

(** The directory of the language: the start of the name of the locale; English names of languages have a short form. *)
Definition start_of (name s : cstr) : Prop := ~ In "_"%char s /\ (name = s \/ exists r, name = s ++ "_"%char :: r).
Definition language (name lang : cstr) : Prop :=
  exists s, start_of name s /\
    ((exists c n, In (c, n) iso639 /\ s2l n = lower s /\ lang = s2l c) \/ ((forall c n, In (c, n) iso639 -> s2l n <> lower s) /\ lang = lower s)).
(** What the library was asked to do *)
Inductive request :=
| Bind (d dir : cstr) | Domain (d : cstr) | Translate (locale : category -> cstr) (d msg : cstr) (cat : category).
Inductive after (files : cstr -> option cstr) : list request -> gstate -> Prop :=
| af_start : after files [] (mkG [] [] [])
| af_bind l st d dir : after files l st -> after files (l ++ [Bind d dir]) (bindtextdomain st d dir)
| af_domain l st d : after files l st -> after files (l ++ [Domain d]) (textdomain st d)
| af_translate l st loc d msg cat r st' : after files l st -> dcgettext files loc st d msg cat = Ret (r, st') -> after files (l ++ [Translate loc d msg cat]) st'.
(** The directory that was bound last to a domain *)
Fixpoint bound (l : list request) (d : cstr) (dir : option cstr) : option cstr :=
  match l with
  | [] => dir
  | Bind d' x :: l => bound l d (if streqb d' d then Some x else dir)
  | _ :: l => bound l d dir
  end.
Definition short_names (l : list request) : Prop := forall d dir, In (Bind d dir) l -> length d < 100.
(** The directory of a category: messages (also for all categories) or what the category is called *)
Definition directory_of (c : category) : cstr :=
  match c with
  | LC_ALL | LC_other => s2l "LC_MESSAGES"
  | LC_COLLATE => s2l "LC_COLLATE" | LC_CTYPE => s2l "LC_CTYPE" | LC_MONETARY => s2l "LC_MONETARY"
  | LC_NUMERIC => s2l "LC_NUMERIC" | LC_TIME => s2l "LC_TIME"
  end.
(** The file of the catalogue *)
Definition catalogue_path (l : list request) (locale : category -> cstr) (d : cstr) (cat : category) (p : cstr) : Prop :=
  exists lang, language (locale cat) lang /\
    p = match bound l d None with Some b => b ++ s2l "/" | None => [] end ++ lang ++ s2l "/" ++ directory_of cat ++ s2l "/" ++ d ++ s2l ".mo".
(** The domain that was chosen last *)
Fixpoint last_domain (l : list request) (cur : cstr) : cstr := match l with [] => cur | Domain d :: l => last_domain l d | _ :: l => last_domain l cur end.
