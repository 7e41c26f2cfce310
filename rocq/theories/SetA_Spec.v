(** SetA_Spec.v -- what SET /A computes. *)

From Verif Require Import Base Num_Model StrLib_Spec Env_Model Env_Spec Var_Model Expand_Model Args_Spec Prompt_Spec Set_Model Set_Spec SetA_Model.

(** *** The text of an expression *)
Definition hexdigits : cstr := s2l "0123456789abcdef".
(** [reads b s z]: the digits [s] make [z] in base [b]. *)
Inductive reads (b : nat) : cstr -> Z -> Prop :=
| rd_nil : reads b [] 0%Z
| rd_more s z c n : reads b s z -> nth_error hexdigits n = Some (tolower c) -> n < b -> reads b (s ++ [c]) (z * Z.of_nat b + Z.of_nat n)%Z.
(** Decimal, octal and hexadecimal numbers. *)
Inductive numeral : cstr -> Z -> Prop :=
| nu_dec c s z : c <> "0"%char -> reads 10 (c :: s) z -> numeral (c :: s) z
| nu_oct s z : reads 8 s z -> numeral ("0"%char :: s) z
| nu_hex c s z : reads 16 (c :: s) z -> numeral (s2l "0x" ++ c :: s) z.
Definition digits_only (s : cstr) : Prop := Forall (fun c => In c (s2l "0123456789")) s.
Definition float_text (t : cstr) : Prop :=
  exists a b x, t = a ++ "."%char :: b ++ x /\ digits_only a /\ digits_only b /\ (a <> [] \/ b <> []) /\
    (x = [] \/ exists e s d, x = e :: s ++ d /\ In e (s2l "eE") /\ In s [[]; s2l "+"; s2l "-"] /\ d <> [] /\ digits_only d).
Definition special : cstr := s2l "+-*%/&>~<|=()^ " ++ ["009"%char; "010"%char].
(** Names of variables in expressions: no special character, no digit or '.' at the beginning,
    and neither a function nor a constant. *)
Definition varname (n : cstr) : Prop :=
  (exists c r, n = c :: r /\ ~ In c (s2l "0123456789.")) /\ Forall (fun c => ~ In c special) n /\ ~ In n constants /\ ~ In n functions /\ nonul n.

Inductive expr :=
| Num (z : Z) | Flt (t : cstr) | Const (c : cstr) | Var (n : cstr) | Assign (n : cstr) (e : expr)
| Neg (e : expr) | Not (e : expr) | Fun (f : cstr) (e : expr) | Bin (o : binop) (a b : expr).

(** Operators, from the loosest to the tightest. *)
Definition levels : list (list (cstr * binop)) :=
  [[(s2l "|", OOr); (s2l "||", OLor); (s2l "^", OXor)];
   [(s2l "&", OAnd); (s2l "&&", OLand)];
   [(s2l "<<", OShl); (s2l ">>", OShr)];
   [(s2l "+", OAdd); (s2l "-", OSub)];
   [(s2l "*", OMul); (s2l "/", ODiv); (s2l "%", OMod)]].
Definition aspace (c : ascii) : Prop := c = " "%char \/ c = "009"%char.
(** [spells e p s]: [s] is a text of [e] whose operators outside parentheses are of level
    [p] or tighter; all operators group to the left.  What is assigned to a variable is a
    number, a variable, something in parentheses ... but no operation. *)
Inductive spells : expr -> nat -> cstr -> Prop :=
| sp_num t z : numeral t z -> spells (Num z) 5 t
| sp_flt t : float_text t -> spells (Flt t) 5 t
| sp_const c : In c constants -> spells (Const c) 5 c
| sp_var n : varname n -> spells (Var n) 5 n
| sp_set n b e s : varname n -> Forall aspace b -> spells e 5 s -> spells (Assign n e) 5 (n ++ b ++ "="%char :: s)
| sp_neg e s : spells e 5 s -> spells (Neg e) 5 ("-"%char :: s)
| sp_not e s : spells e 5 s -> spells (Not e) 5 ("~"%char :: s)
| sp_paren e s : spells e 0 s -> spells e 5 ("("%char :: s ++ [")"%char])
| sp_fun f b e s : In f functions -> Forall aspace b -> spells e 0 s -> spells (Fun f e) 5 (f ++ b ++ "("%char :: s ++ [")"%char])
| sp_bin p l t o a b s1 s2 : nth_error levels p = Some l -> In (t, o) l -> spells a p s1 -> spells b (S p) s2 -> spells (Bin o a b) p (s1 ++ t ++ s2)
| sp_tighter e p s : spells e (S p) s -> spells e p s
| sp_left e p c s : aspace c -> spells e p s -> spells e p (c :: s)
| sp_right e p c s : aspace c -> spells e p s -> spells e p (s ++ [c]).

(** *** Integers *)
(** The variables whose values are known to be numbers. *)
Definition vars := cstr -> option Z.
Definition upd (vs : vars) (n : cstr) (z : Z) : vars := fun m => if same_nameb n m then Some z else vs m.
Definition fits (b : Z) (z : Z) : bool := (- b <=? z)%Z && (z <=? b)%Z.
Definition B53 : Z := 9007199254740992.       (* 2^53 *)
Definition int64 (z : Z) : bool := (- 9223372036854775808 <=? z)%Z && (z <=? 9223372036854775807)%Z.
(** The value of an operation of integers.  The flag says whether the operands, or the
    result, are known to be small enough, and whole, in the floating point number that the code
    computes beside; operations on bits need that. *)
Definition operation (o : binop) (x y : Z * bool) : option (Z * bool) :=
  let '(x, ex) := x in let '(y, ey) := y in
  let arith (z : Z) (more : bool) := if int64 z then Some (z, ex && ey && more) else None in
  let bits (ok : bool) (z : Z) := if ex && ey && in_int x && in_int y && ok then Some (z, true) else None in
  match o with
  | OAdd => arith (x + y)%Z (fits B53 (x + y))
  | OSub => arith (x - y)%Z (fits B53 (x - y))
  | OMul => arith (x * y)%Z (fits B53 (x * y))
  | ODiv => if (y =? 0)%Z then None else arith (Z.quot x y) (Z.rem x y =? 0)%Z
  | OMod => if (y =? 0)%Z || negb (int64 (Z.quot x y)) then None else arith (Z.rem x y) true
  | OAnd => bits true (Z.land x y)
  | OOr => bits true (Z.lor x y)
  | OXor => bits true (Z.lxor x y)
  | OLand => bits true (if (x =? 0)%Z || (y =? 0)%Z then 0 else 1)%Z
  | OLor => bits true (if (x =? 0)%Z && (y =? 0)%Z then 0 else 1)%Z
  | OShr => bits ((0 <=? y)%Z && (y <? 32)%Z) (x / 2 ^ y)%Z
  | OShl => bits ((0 <=? y)%Z && (y <? 32)%Z && (0 <=? x)%Z && in_int (x * 2 ^ y)) (x * 2 ^ y)%Z
  end.
(** The value of an expression of integers, from left to right, and the values of the
    variables afterwards. *)
Fixpoint meaning (e : expr) (vs : vars) : option (Z * bool * vars) :=
  match e with
  | Num z => if int64 z then Some (z, fits B53 z, vs) else None
  | Var n => match vs n with Some z => if in_int z then Some (z, true, vs) else None | None => None end
  | Assign n e =>
      match meaning e vs with
      | Some (z, x, vs) => if fits B53 z then Some (z, x, upd vs n z) else None
      | None => None
      end
  | Neg e => match meaning e vs with Some (z, x, vs) => if int64 (- z) then Some ((- z)%Z, x, vs) else None | None => None end
  | Not e => match meaning e vs with Some (z, true, vs) => if in_int z then Some ((- z - 1)%Z, true, vs) else None | _ => None end
  | Bin o a b =>
      match meaning a vs with
      | Some (x, ex, vs) =>
          match meaning b vs with
          | Some (y, ey, vs) => match operation o (x, ex) (y, ey) with Some (z, ez) => Some (z, ez, vs) | None => None end
          | None => None
          end
      | None => None
      end
  | _ => None
  end.
(** The variables that an expression assigns. *)
Fixpoint targets (e : expr) : list cstr :=
  match e with
  | Assign n e => n :: targets e
  | Neg e | Not e | Fun _ e => targets e
  | Bin _ a b => targets a ++ targets b
  | _ => []
  end.

(** [shows t z]: [t] is how the number [z] is written in a variable. *)
Definition shows (t : cstr) (z : Z) : Prop := t = dec z \/ (z = 0%Z /\ t = s2l "-0").
Definition holds (e : env) (vs : vars) : Prop :=
  forall n z, nonul n -> vs n = Some z -> (z = 0%Z /\ value_of e n None) \/ (exists t, value_of e n (Some t) /\ shows t z).
(** Variables other than [l] are as they were. *)
Definition untouched (l : list cstr) (e e' : env) : Prop :=
  forall n v, nonul n -> (forall m, In m l -> same_nameb m n = false) -> value_of e n v -> value_of e' n v.

(** *** What is assumed of floating point numbers: whole numbers up to 2^53 are exact.
    [is d z]: [d] is the number [z] (zero may have a sign). *)
Record exact (F : fp) (is : D F -> Z -> Prop) : Prop := mkExact {
  ex_of_Z z : fits B53 z = true -> is (of_Z F z) z;
  ex_add a b x y : is a x -> is b y -> fits B53 (x + y) = true -> is (dadd F a b) (x + y)%Z;
  ex_sub a b x y : is a x -> is b y -> fits B53 (x - y) = true -> is (dsub F a b) (x - y)%Z;
  ex_mul a b x y : is a x -> is b y -> fits B53 (x * y) = true -> is (dmul F a b) (x * y)%Z;
  ex_div a b x y : is a x -> is b y -> y <> 0%Z -> Z.rem x y = 0%Z -> is (ddiv F a b) (Z.quot x y);
  ex_mod a b x y : is a x -> is b y -> y <> 0%Z -> is (dmod F a b) (Z.rem x y);
  ex_neg a x : is a x -> is (dneg F a) (- x)%Z;
  ex_trunc a x : is a x -> in_int x = true -> trunc F a = Some x;
  ex_atof t z : shows t z -> fits B53 z = true -> is (atof F t) z;
  ex_16 z : fits B53 z = true -> show16 F (of_Z F z) = dec z;
  ex_14 z : fits 99999999999999 z = true -> show14 F (of_Z F z) = dec z;
  ex_14' a z : is a z -> fits 99999999999999 z = true -> shows (show14 F a) z
}.

(** *** Floating point *)
Section Floats.
Variable F : fp.
(** Operations on bits leave out what is behind the point. *)
Definition whole (f : Z -> Z -> Z) (x y : D F) : option (D F) :=
  match trunc F x, trunc F y with Some i, Some j => Some (of_Z F (f i j)) | _, _ => None end.
(** The number that a variable is. *)
Inductive is_number : option cstr -> D F -> Prop :=
| re_none : is_number None (of_Z F 0)
| re_nan : is_number (Some (s2l "nan")) (dnan F)
| re_inf : is_number (Some (s2l "inf")) (dinf F)
| re_text t : t <> s2l "nan" -> t <> s2l "inf" -> is_number (Some t) (atof F t).
(** "x op= e" on floating point numbers *)
Definition left_float (c : ascii) (x y : D F) : option (D F) :=
  if ceq c "+"%char then Some (dadd F x y)
  else if ceq c "-"%char then Some (dsub F x y)
  else if ceq c "*"%char then Some (dmul F x y)
  else if ceq c "/"%char then Some (ddiv F x y)
  else if ceq c "%"%char then Some (dmod F x y)
  else None.
(** The value of an expression of numbers with a '.', constants and functions; integers may
    be operands. *)
Fixpoint fvalue (e : expr) : option (D F) :=
  let arg (e : expr) := match e with Num z => if int64 z then Some (of_Z F z) else None | _ => fvalue e end in
  match e with
  | Flt t => Some (strtod F t)
  | Const c => Some (constant F c)
  | Fun f e => option_map (func F f) (arg e)
  | Neg e => option_map (dneg F) (fvalue e)
  | Bin o a b =>
      match fvalue a, fvalue b with
      | None, None => None
      | _, _ =>
          match arg a, arg b, o with
          | Some x, Some y, OAdd => Some (dadd F x y)
          | Some x, Some y, OSub => Some (dsub F x y)
          | Some x, Some y, OMul => Some (dmul F x y)
          | Some x, Some y, ODiv => Some (ddiv F x y)
          | Some x, Some y, OMod => Some (dmod F x y)
          | Some x, Some y, OAnd => whole Z.land x y
          | Some x, Some y, OOr => whole Z.lor x y
          | Some x, Some y, OXor => whole Z.lxor x y
          | _, _, _ => None
          end
      end
  | _ => None
  end.
End Floats.

(** *** Assignments *)
(** Characters that change the meaning of the '=' behind them. *)
Definition left_ops : cstr := s2l "*/%+-^&|".
(** "x op= e" *)
Definition left_operation (c : ascii) (v z : Z) : option Z :=
  let bits (r : Z) := if in_int v && in_int z then Some r else None in
  let small (r : Z) := if fits B53 v && fits B53 z && fits 99999999999999 r then Some r else None in
  if ceq c "+"%char then small (v + z)%Z
  else if ceq c "-"%char then small (v - z)%Z
  else if ceq c "*"%char then small (v * z)%Z
  else if ceq c "/"%char then (if (z =? 0)%Z || negb (in_int (Z.quot v z)) then None else bits (Z.quot v z))
  else if ceq c "%"%char then (if (z =? 0)%Z then None else small (Z.rem v z))
  else if ceq c "^"%char then bits (Z.lxor v z)
  else if ceq c "&"%char then bits (Z.land v z)
  else if ceq c "|"%char then bits (Z.lor v z)
  else None.

(** *** The command *)
(** [item w line p rest]: the first expression of [line] is [p], which a comma outside
    double quotes or the end of the line ends; [rest] is behind it. *)
Definition item (w : xworld) (line p rest : cstr) : Prop :=
  exists a raw t, line = a ++ raw ++ rest /\ Forall blank a /\ raw <> [] /\ (forall c r, raw = c :: r -> ~ blank c) /\
    param_at (s2l """,") raw rest /\ bare (match rest with [] => true | _ => false end) raw t /\
    t <> s2l "^" /\ expands w t p.
(** The expressions are evaluated from left to right until one fails. *)
Inductive evaluates (one : xworld -> cstr -> outcome (Z * cstr * xworld)) : xworld -> cstr -> Z * cstr * xworld -> Prop :=
| ev_none w line : Forall blank line -> evaluates one w line (0%Z, [], w)
| ev_fails w line p rest z out w' : item w line p rest -> one w p = Ret (z, out, w') -> z <> 0%Z -> evaluates one w line (z, out, w')
| ev_next w line p rest out w' z out' w'' : item w line p rest -> one w p = Ret (0%Z, out, w') -> evaluates one w' rest (z, out', w'') ->
    evaluates one w line (z, out ++ out', w'').
(** What is written before '=' when it is only the name of a variable. *)
Definition plain_name (name : cstr) : Prop :=
  nonul name /\ ~ In "="%char name /\ (forall c r, name = c :: r -> ~ blank c) /\ (forall r c, name = r ++ [c] -> ~ In c left_ops).
(** The same for "name op=". *)
Definition before_op (c : ascii) (name : cstr) : Prop :=
  nonul name /\ ~ In "="%char name /\ (forall d r, name ++ [c] = d :: r -> ~ blank d) /\ In c left_ops /\
  (In c (s2l "&|") -> forall r, name <> r ++ [c]).
