(** If_Spec.v -- what the conditions of IF mean. *)

From Coq Require Import QArith.
From Verif Require Import Base Lex Expand_Model Args_Spec Args_Model If_Model.
Open Scope nat_scope.

(** ** Comparisons *)

Inductive cmpop := EQU | NEQ | LSS | LEQ | GTR | GEQ.
Definition op_name (o : cmpop) : cstr :=
  s2l match o with EQU => "EQU" | NEQ => "NEQ" | LSS => "LSS" | LEQ => "LEQ" | GTR => "GTR" | GEQ => "GEQ" end.
Definition holds (o : cmpop) (c : comparison) : bool :=
  match o, c with
  | EQU, Eq | NEQ, Lt | NEQ, Gt | LSS, Lt | LEQ, Lt | LEQ, Eq | GTR, Gt | GEQ, Gt | GEQ, Eq => true
  | _, _ => false
  end.
Definition opposite (o : cmpop) : cmpop :=
  match o with EQU => NEQ | NEQ => EQU | LSS => GEQ | LEQ => GTR | GTR => LEQ | GEQ => LSS end.

(** Numerals: decimal, octal ("0...") and hexadecimal ("0x..."). *)
Definition is_dig (c : ascii) (n : Z) : Prop :=
  (0 <= n)%Z /\
  (nth_error (s2l "0123456789abcdef") (Z.to_nat n) = Some c \/
   nth_error (s2l "0123456789ABCDEF") (Z.to_nat n) = Some c).
Definition value (base : Z) (ns : list Z) : Z := fold_left (fun a n => a * base + n)%Z ns 0%Z.
Definition digits (base : Z) (s : cstr) (v : Z) : Prop :=
  exists ns, Forall2 is_dig s ns /\ Forall (fun n => (n < base)%Z) ns /\ v = value base ns.
Inductive numeral : cstr -> Z -> Prop :=
| num_dec c s v : c <> "0"%char -> digits 10 (c :: s) v -> numeral (c :: s) v
| num_oct s v : digits 8 s v -> numeral ("0"%char :: s) v
| num_hex x s v : In x (s2l "xX") -> s <> [] -> digits 16 s v -> numeral ("0"%char :: x :: s) v.

(** White space of the C library. *)
Definition white (c : ascii) : Prop := In c (" " :: "009" :: "010" :: "011" :: "012" :: "013" :: [])%char.

(** The text of an integer: blanks, a sign, a numeral, blanks. *)
Definition integer_text (s : cstr) (v : Z) : Prop :=
  exists a sg b t n, s = a ++ sg ++ b ++ t /\ Forall white a /\ Forall blank t /\ numeral b n /\
    ((sg = [] \/ sg = ["+"%char]) /\ v = n \/ sg = ["-"%char] /\ v = (- n)%Z).

(** Integers that floating point numbers represent exactly. *)
Definition exact (v : Z) : Prop := (Z.abs v <= 9007199254740992)%Z.

(** The numbers that texts stand for, floating point ones being read by [strtod];
    the other texts. *)
Inductive number (strtod : cstr -> dbl * nat) (s : cstr) : dbl -> Prop :=
| nb_int v : integer_text s v -> exact v -> number strtod s (DNum (inject_Z v))
| nb_blank : Forall blank s -> number strtod s (DNum (inject_Z 0))
| nb_float d k : ~ Forall blank s -> (forall v, ~ integer_text s v) ->
    strtod s = (d, k) -> Forall blank (skipn k s) -> number strtod s d.
Definition plain_text (strtod : cstr -> dbl * nat) (s : cstr) : Prop :=
  ~ Forall blank s /\ (forall v, ~ integer_text s v) /\ ~ Forall blank (skipn (snd (strtod s)) s).

(** Lexicographical order of texts, character by character. *)
Inductive text_order : cstr -> cstr -> comparison -> Prop :=
| to_eq : text_order [] [] Eq
| to_short c s : text_order [] (c :: s) Lt
| to_long c s : text_order (c :: s) [] Gt
| to_less c d s t : (code c < code d)%Z -> text_order (c :: s) (d :: t) Lt
| to_more c d s t : (code d < code c)%Z -> text_order (c :: s) (d :: t) Gt
| to_same c s t o : text_order s t o -> text_order (c :: s) (c :: t) o.

Definition fold_case (i : bool) (s : cstr) : cstr := if i then map tolower s else s.

(** ** Expressions between brackets: AND binds less than OR *)

Inductive bexp := BTest (l : list cstr) | BAnd (a b : bexp) | BOr (a b : bexp) | BPar (a : bexp).
Fixpoint words (e : bexp) : list cstr :=
  match e with
  | BTest l => l
  | BAnd a b => words a ++ s2l "AND" :: words b
  | BOr a b => words a ++ s2l "OR" :: words b
  | BPar a => s2l "[" :: words a ++ [s2l "]"]
  end.
Definition ordinary (t : cstr) : Prop :=
  t <> s2l "[" /\ t <> s2l "]" /\ ~ same_name t (s2l "AND") /\ ~ same_name t (s2l "OR").
Inductive level := Conj | Disj | Atom.
Inductive shaped : level -> bexp -> Prop :=
| sh_test l : l <> [] -> Forall ordinary l -> Forall nonul l -> shaped Atom (BTest l)
| sh_par e : shaped Conj e -> shaped Atom (BPar e)
| sh_or a b : shaped Atom a -> shaped Disj b -> shaped Disj (BOr a b)
| sh_atom e : shaped Atom e -> shaped Disj e
| sh_and a b : shaped Disj a -> shaped Conj b -> shaped Conj (BAnd a b)
| sh_disj e : shaped Disj e -> shaped Conj e.

Fixpoint tests (e : bexp) : list (list cstr) :=
  match e with
  | BTest l => [l]
  | BAnd a b | BOr a b => tests a ++ tests b
  | BPar a => tests a
  end.
(** The value, given that of each test. *)
Fixpoint truth (val : list cstr -> bool) (e : bexp) : bool :=
  match e with
  | BTest l => val l
  | BAnd a b => truth val a && truth val b
  | BOr a b => truth val a || truth val b
  | BPar a => truth val a
  end.
(** The left side of an AND is found true: then the code reads a variable which
    it has not set. *)
Fixpoint trap (val : list cstr -> bool) (e : bexp) : bool :=
  match e with
  | BTest _ => false
  | BAnd a b => trap val a || truth val a
  | BOr a b => trap val a || trap val b
  | BPar a => trap val a
  end.

(** ** Parameters: [t] is the first parameter of [line] (C21, C22), [rest] what follows *)
Definition param (w : xworld) (line t rest : cstr) : Prop :=
  pBat_GetNextParameterEs w [] line = Ret (t, Some rest, w).
Inductive params (w : xworld) : cstr -> list cstr -> cstr -> Prop :=
| ps_nil s : params w s [] s
| ps_cons s t r l e : param w s t r -> params w r l e -> params w s (t :: l) e.

(** ** The switches of IF, in this order *)
Inductive switches (w : xworld) : cstr -> bool -> bool -> cstr -> Prop :=
| sw_none p : switches w p false false p
| sw_i p t q : param w p t q -> nonul t -> same_name t (s2l "/i") -> switches w p true false q
| sw_not p t q : param w p t q -> nonul t -> same_name t (s2l "not") -> switches w p false true q
| sw_both p t q u r : param w p t q -> nonul t -> same_name t (s2l "/i") ->
    param w q u r -> nonul u -> same_name u (s2l "not") -> switches w p true true r.
Definition not_switch (t : cstr) : Prop :=
  nonul t /\ t <> s2l "/?" /\ ~ same_name t (s2l "/i") /\ ~ same_name t (s2l "not").
(** The words EXIST, DEFINED and ERRORLEVEL, of which ten characters are read. *)
Definition keyword (t : cstr) : Prop :=
  exists k, In k [s2l "exist"; s2l "defined"; s2l "errorlevel"] /\ same_name (firstn 10 t) k.
(** [t] is [a], "==" and [b], where [a] ends before the first "==". *)
Definition equal_sign (t a b : cstr) : Prop :=
  t = a ++ s2l "==" ++ b /\ forall a' b', t = a' ++ s2l "==" ++ b' -> length a <= length a'.
Definition negated (r : ifres) : ifres := match r with IfGo b rest => IfGo (negb b) rest | _ => r end.
