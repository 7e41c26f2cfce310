(** LocalVar_Spec.v -- what one-letter variables and their modifiers mean. *)

From Verif Require Import Base Num_Model StrLib_Spec Path_Model Path_Spec LocalVar_Model.

(** Names: printable ASCII characters but the blank. *)
Definition valid_name (c : ascii) : Prop := (32 < code c < 128)%Z.

Definition modifier (c : ascii) : Prop := In c (s2l "fdnpxzta").

(** The text [r] starts with modifiers [fl] and the defined variable [c]. *)
Definition ref_at (b : block) (r fl : cstr) (c : ascii) (rest : cstr) : Prop :=
  r = fl ++ c :: rest /\ Forall modifier fl /\ length fl <= 16 /\ valid_name c /\ b c <> None.

(** The reading of [r] with most modifiers. *)
Definition longest_ref (b : block) (r fl : cstr) (c : ascii) (rest : cstr) : Prop :=
  ref_at b r fl c rest /\
  forall fl' c' rest', ref_at b r fl' c' rest' -> length fl' <= length fl.

(** [t] is [s] without the quotes around it: the first character, and from the
    last such quote on. *)
Inductive unquoted : cstr -> cstr -> Prop :=
| uq_none s : (forall q r, s = q :: r -> q <> """"%char /\ q <> "'"%char) -> unquoted s s
| uq_open q t : q = """"%char \/ q = "'"%char -> ~ In q t -> unquoted (q :: t) t
| uq_both q t u : q = """"%char \/ q = "'"%char -> ~ In q u -> unquoted (q :: t ++ q :: u) t.

(** Modifiers whose texts follow each other without a tabulation. *)
Definition adjacent (c d : ascii) : Prop :=
  (c = "d"%char /\ d = "p"%char) \/ (c = "p"%char /\ d = "n"%char) \/ (c = "n"%char /\ d = "x"%char).

(** Text of one modifier. *)
Definition modifier_text (full dir name ext : cstr) (i : finfo) (c : ascii) (t : cstr) : Prop :=
  (c = "f"%char /\ t = full) \/ (c = "d"%char /\ t = []) \/ (c = "p"%char /\ t = dir) \/
  (c = "n"%char /\ t = name) \/ (c = "x"%char /\ t = ext) \/
  (c = "z"%char /\ t = dec (to_int (fi_size i))) \/ (c = "t"%char /\ t = fi_time i) \/
  (c = "a"%char /\ t = (if fi_dir i then s2l "D      " else s2l "       ")).

(** Texts of several modifiers. *)
Inductive modifiers_text (f : ascii -> cstr -> Prop) : cstr -> cstr -> Prop :=
| mt_one c t : f c t -> modifiers_text f [c] t
| mt_adj c d r t u : adjacent c d -> f c t -> modifiers_text f (d :: r) u ->
    modifiers_text f (c :: d :: r) (t ++ u)
| mt_tab c d r t u : ~ adjacent c d -> f c t -> modifiers_text f (d :: r) u ->
    modifiers_text f (c :: d :: r) (t ++ "009"%char :: u).

(** The file a parameter of this text names: the script itself for %0. *)
Definition names_file (cur script : cstr) (cap : cstr -> nat) (c : ascii) (text file : cstr) : Prop :=
  (c = "0"%char /\ file = script) \/
  (c <> "0"%char /\ nonul text /\ ordinary text /\ absolute cur /\ cur <> s2l "/" /\
   from_dir cur text file /\ length file < cap text).

(** Modifiers about the contents of the file system. *)
Definition asks_file (fl : cstr) : Prop := exists c, In c fl /\ In c (s2l "azt").

(** Assignments, the last first. *)
Fixpoint last_assigned (h : list (ascii * option cstr)) (c : ascii) (v : option cstr) : option cstr :=
  match h with
  | [] => v
  | (d, w) :: r => if ascii_dec d c then w else last_assigned r c v
  end.
