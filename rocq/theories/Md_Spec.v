(** Md_Spec.v -- what Markdown makes of a text. *)

From Verif Require Import Base Tea_Model Tea_Spec.

Definition special : cstr := s2l "_*][()|~#".
(** [plain m t]: the Markdown [m] is read as the text [t], without any markup: a character that can be markup is behind a '\'. *)
Inductive plain : cstr -> cstr -> Prop :=
| pl_nil : plain [] []
| pl_esc c m t : In c special \/ c = "\"%char -> plain m t -> plain ("\"%char :: c :: m) (c :: t)
| pl_chr c m t : ~ In c special -> c <> "\"%char -> plain m t -> plain (c :: m) (c :: t).
(** [marked m x]: the Markdown [m] is read as the node [x]. *)
Inductive marked : cstr -> node -> Prop :=
| mk_plain m t : plain m t -> marked m (Plain t)
| mk_strong m t : plain m t -> marked (s2l "**" ++ m ++ s2l "**") (Emphasis t)
| mk_link m t n a : plain m t -> plain n a -> marked (s2l "[" ++ m ++ s2l "](" ++ n ++ s2l ")") (Link a t).
(** No '\' is left behind in the text. *)
Definition clean (l : list (option ascii)) : Prop := ~ In (Some "\"%char) l.
(** [stands g x y]: the node [x] of a document stands for [y]; if [g], the blanks at its beginning are left out. Those at the
    beginning of emphasis and links are one blank. *)
Inductive stands : bool -> node -> node -> Prop :=
| st_plain g s l : reads s l -> clean l -> stands g (Plain s) (Plain (squeeze g l))
| st_strong g s l : reads s l -> clean l -> stands g (Emphasis s) (Emphasis (squeeze false l))
| st_link g a s l k : reads s l -> clean l -> reads a k -> clean k -> stands g (Link a s) (Link (squeeze false k) (squeeze false l)).
(** Whether the blanks behind a node are left out *)
Inductive leaves : bool -> node -> bool -> Prop :=
| le_plain g s l : reads s l -> leaves g (Plain s) (ends_blank g l)
| le_strong g s : leaves g (Emphasis s) false
| le_link g a s : leaves g (Link a s) false.
(** [para g xs ms]: [ms] is Markdown for what the nodes [xs] stand for, one after the other. *)
Inductive para : bool -> list node -> list cstr -> Prop :=
| pa_nil g : para g [] []
| pa_cons g x y h m xs ms : stands g x y -> marked m y -> leaves g x h -> para h xs ms -> para g (x :: xs) (m :: ms).
