(** Parse_Spec.v -- lines of commands joined by operators, and redirections. *)

From Verif Require Import Base Lex StrLib_Spec Args_Spec Parse_Model Block_Spec.

(** How operators are written. *)
Definition op_text (n : node) : cstr :=
  match n with NODE_NONE => s2l "&" | NODE_YES => s2l "&&" | NODE_NOT => s2l "||" | NODE_PIPE => s2l "|" end.

(** Commands after the first one, each with the operator before it. *)
Definition joined (l : list (node * cstr)) : cstr := concat (map (fun '(n, t) => op_text n ++ t) l).

Definition ends_gt (t : cstr) : Prop := exists u, t = u ++ s2l ">".
Definition starts_with (c : ascii) (t : cstr) : Prop := exists r, t = c :: r.

(** The operators can be told apart: a '&' behind a '>' belongs to a redirection,
    and a single operator is not followed by the same character. *)
Fixpoint clear_ops (prev : cstr) (l : list (node * cstr)) : Prop :=
  match l with
  | [] => True
  | (n, t) :: l' =>
      (n = NODE_NONE \/ n = NODE_YES -> ~ ends_gt prev) /\
      (n = NODE_NONE -> ~ starts_with "&"%char (t ++ joined l')) /\
      (n = NODE_PIPE -> ~ starts_with "|"%char (t ++ joined l')) /\
      clear_ops t l'
  end.

(** A command without blocks.  It may have ">&" in it. *)
Inductive command : cstr -> Prop :=
| cm_end (b t : cstr) : lead_nl b -> no_block t -> command (b ++ t)
| cm_redir (b t r : cstr) : lead_nl b -> no_block (t ++ s2l ">") -> r <> [] -> ~ starts_with "&"%char r -> command r ->
    command (b ++ t ++ s2l ">&" ++ r).

(** Text with blocks in it: any parenthesis that is not protected or between
    quotes is the one of a block. *)
Inductive btext : cstr -> Prop :=
| bt_end (t : cstr) : quiet (s2l "()&|") t -> btext t
| bt_block (t i r : cstr) : quiet (s2l "()&|") t -> inner i -> btext r -> btext (t ++ "("%char :: i ++ ")"%char :: r)
| bt_redir (t r : cstr) : quiet (s2l "()&|") (t ++ s2l ">") -> btext r -> btext (t ++ s2l ">&" ++ r).

(** The command with the first block of the line. *)
Inductive bcommand : cstr -> Prop :=
| bc_group (b i r : cstr) : lead_nl b -> inner i -> btext r -> bcommand (b ++ "("%char :: i ++ ")"%char :: r)
| bc_cmd (b t i r : cstr) : lead_nl b -> takes_blocks t -> quiet (s2l "(&|") t -> inner i -> btext r ->
    bcommand (b ++ t ++ "("%char :: i ++ ")"%char :: r).

(** Lines. *)
Inductive cmdline : list cstr -> Prop :=
| cl_flat l : Forall command l -> cmdline l
| cl_blocks l c l' : Forall command l -> bcommand c -> Forall btext l' -> cmdline (l ++ c :: l').
