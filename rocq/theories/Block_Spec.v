(** Block_Spec.v -- lines of commands and blocks. *)

From Verif Require Import Base Lex StrLib_Spec Args_Spec.

(** Text that is read over when looking for [stops] and ends of lines: no such
    character but protected or between quotes (newlines only protected), quotes
    are paired, and no '^' is pending. *)
Definition quiet (stops t : cstr) : Prop :=
  (exists u, escaping u t) /\ Nat.Even (quotes_before t (length t)) /\
  (forall i, ~ live (fun c => ceq c "010"%char) t i) /\ (forall i, ~ live_unquoted (inset stops) t i).

Definition lead (b : cstr) : Prop := Forall (fun c => In c (s2l " ,;@" ++ ["009"%char])) b.

(** The commands that take blocks. *)
Definition takes_blocks (t : cstr) : Prop :=
  exists n d r, t = n ++ d :: r /\ blank d /\ (same_name n (s2l "if") \/ same_name n (s2l "for") \/ same_name n (s2l "def")).

(** Another command, even with an end of line after it. *)
Definition simple (t : cstr) : Prop :=
  (forall c r, t = c :: r -> ~ In c (s2l " ,;@(" ++ ["009"%char])) /\ ~ takes_blocks (t ++ ["010"%char]).

(** What is between the parentheses of a block, one command line with its
    blocks, and the text of a command IF, FOR or DEF with its blocks.  [par]:
    a ')' ends the line. *)
Inductive inner : cstr -> Prop :=
| in_last (l : cstr) : line true l -> inner l
| in_more (l : cstr) (c : ascii) (r : cstr) : line true l -> In c ("010"%char :: s2l "&|") -> inner r -> inner (l ++ c :: r)
| in_block (b i : cstr) (c : ascii) (r : cstr) : lead b -> inner i -> In c (s2l " ,;" ++ ["009"%char]) -> inner r ->
    inner (b ++ "("%char :: i ++ ")"%char :: c :: r)
with line : bool -> cstr -> Prop :=
| ln_plain (par : bool) (b t : cstr) : lead b -> simple t -> quiet (s2l (if par then ")&|" else "&|")) t -> line par (b ++ t)
| ln_block (par : bool) (b i : cstr) : lead b -> inner i -> line par (b ++ "("%char :: i ++ [")"%char])
| ln_cmd (par : bool) (b t : cstr) : lead b -> (forall c r, t = c :: r -> ~ In c (s2l " ,;@" ++ ["009"%char])) ->
    takes_blocks t -> text par t -> line par (b ++ t)
with text : bool -> cstr -> Prop :=
| tx_end (par : bool) (t : cstr) : quiet (s2l (if par then "()&|" else "(&|")) t -> text par t
| tx_block (par : bool) (t i r : cstr) : quiet (s2l (if par then "()&|" else "(&|")) t -> inner i -> text par r ->
    text par (t ++ "("%char :: i ++ ")"%char :: r).

(** What may follow a line. *)
Definition after_line (par : bool) (rest : cstr) : Prop :=
  rest = [] \/ exists c r, rest = c :: r /\ In c ("010"%char :: s2l (if par then ")&|" else "&|")).

Scheme inner_ind' := Induction for inner Sort Prop
with line_ind' := Induction for line Sort Prop
with text_ind' := Induction for text Sort Prop.
Combined Scheme blocks_ind from inner_ind', line_ind', text_ind'.

(** A command up to an operator: there is no block in it. *)
Definition no_block (t : cstr) : Prop :=
  (simple t /\ quiet (s2l "&|") t) \/ (takes_blocks t /\ quiet (s2l "(&|") t).

(** Blanks and '@' before a command, ends of lines included. *)
Definition lead_nl (b : cstr) : Prop := Forall (fun c => In c (s2l " ,;@" ++ ["009"%char; "010"%char])) b.

(** Ends of a command, before [r]. *)
Definition cmd_end (op r : cstr) : Prop :=
  op = ["010"%char] \/
  (exists c, In c (s2l "&|") /\ (op = [c; c] \/ (op = [c] /\ forall y, r <> c :: y))).

(** Commands without a block. *)
Inductive flat : cstr -> Prop :=
| fl_last (b t : cstr) : lead_nl b -> no_block t -> flat (b ++ t)
| fl_next (b t op r : cstr) : lead_nl b -> no_block t -> cmd_end op r -> flat r -> flat (b ++ t ++ op ++ r).

(** Text before the first block: commands without a block, then blanks or the
    first words of IF, FOR or DEF. *)
Inductive heads : cstr -> Prop :=
| hd_group (b : cstr) : lead_nl b -> heads b
| hd_cmd (b t : cstr) : lead_nl b -> takes_blocks t -> quiet (s2l "(&|") t -> heads (b ++ t)
| hd_next (b t op r : cstr) : lead_nl b -> no_block t -> cmd_end op r -> heads r -> heads (b ++ t ++ op ++ r).
