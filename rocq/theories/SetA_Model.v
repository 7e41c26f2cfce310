(** SetA_Model.v -- model of SET /A (pbat/command/pBat_Set.c:54-94, 364-546) and of the
    evaluator of expressions (libfasteval/lib/scanner.l, parser.y, fasteval.c).  Growable
    strings are ideal strings, and no allocation fails.  The order of set_var and get_var
    is the one of the reductions of the parser.

    Floating point numbers are abstract: [fp] collects the operations of the C library and
    of the machine that are used; the theorems hold for every such collection, or for those
    that meet the stated facts. *)

From Verif Require Import Base Num_Model StrLib_Model Env_Model Var_Model Expand_Model Args_Model Params_Model Set_Model.

Record fp : Type := mkFP {
  D : Type;
  of_Z : Z -> D;                       (* (double) of an integer *)
  trunc : D -> option Z;               (* (int) of a double; None: out of range, undefined *)
  dadd : D -> D -> D; dsub : D -> D -> D; dmul : D -> D -> D; ddiv : D -> D -> D; dmod : D -> D -> D;
  dneg : D -> D;
  dnan : D; dinf : D;
  strtod : cstr -> D; atof : cstr -> D;
  constant : cstr -> D;                (* fasteval.c:111-136 [lookup_variable] *)
  func : cstr -> D -> D;               (* fasteval.c:75-109 [evaluate_function] *)
  show14 : D -> cstr; show16 : D -> cstr   (* printf "%.14g", "%.16g" *)
}.

Section SetA.
Variable F : fp.
Local Notation double := (D F).

(** *** scanner.l *)

(** parser.y:94-102: a number; [n_i] is used only when [n_double] is false. *)
Record num := mkNum { n_double : bool; n_i : Z; n_d : double }.
Inductive binop := OAdd | OSub | OMul | ODiv | OMod | OAnd | OOr | OXor | OLand | OLor | OShl | OShr.
Inductive token := TNum (n : num) | TFun (f : cstr) | TVar (v : cstr) | TOp (o : binop) | TTilde | TLpar | TRpar | TEq.

(** scanner.l:77 [nodelim] *)
Definition delims_a : cstr := s2l "+-*%/&>~<|=()^ " ++ ["009"%char; "010"%char].
Definition nodelim (c : ascii) : bool := negb (inset delims_a c).
Fixpoint span (p : ascii -> bool) (s : cstr) : cstr * cstr :=
  match s with
  | c :: r => if p c then let (a, b) := span p r in (c :: a, b) else ([], s)
  | [] => ([], [])
  end.
Definition is_hex (c : ascii) : bool := inset (s2l "0123456789abcdefABCDEF") c.
Definition is_oct (c : ascii) : bool := inset (s2l "01234567") c.
(** scanner.l:73 [integer] *)
Definition is_integer (w : cstr) : bool :=
  match w with
  | [] => false
  | _ => forallb is_digit w ||
         match w with
         | z :: x :: (_ :: _) => ceq z "0"%char && ceq x "x"%char && forallb is_hex (skipn 2 w)
         | _ => false
         end
  end.
(** scanner.l:74 [float]: the length of the longest match. *)
Definition float_exp (s : cstr) : nat :=
  match s with
  | e :: r =>
      if ceq e "e"%char || ceq e "E"%char then
        match r with
        | c :: r' =>
            if ceq c "+"%char || ceq c "-"%char
            then match fst (span is_digit r') with [] => 0 | d => 2 + length d end
            else match fst (span is_digit r) with [] => 0 | d => 1 + length d end
        | [] => 0
        end
      else 0
  | [] => 0
  end.
Definition float_len (s : cstr) : nat :=
  let (a, r) := span is_digit s in
  match r with
  | p :: r =>
      if ceq p "."%char then
        let (b, r) := span is_digit r in
        match a, b with
        | [], [] => 0
        | _, _ => length a + 1 + length b + float_exp r
        end
      else 0
  | [] => 0
  end.
(** C library [strtoll] with base 0, of a text that matches [integer]. *)
Definition hexval (c : ascii) : Z :=
  let n := Z.of_nat (nat_of_ascii c) in
  (if n <=? 57 then n - 48 else if n <=? 70 then n - 55 else n - 87)%Z.
Definition posval (base : Z) (s : cstr) : Z := fold_left (fun a c => a * base + hexval c)%Z s 0%Z.
Definition LLONG_MAX : Z := 9223372036854775807.
Definition LLONG_MIN : Z := (-9223372036854775808).
Definition strtoll (w : cstr) : Z :=
  Z.min LLONG_MAX
    (match w with
     | z :: r => if ceq z "0"%char then
                   match r with
                   | x :: h => if ceq x "x"%char then posval 16 h else posval 8 (fst (span is_oct w))
                   | [] => 0%Z
                   end
                 else posval 10 w
     | [] => 0%Z
     end).
(** scanner.l:75-76 *)
Definition constants : list cstr := map s2l (["e"; "log2e"; "log10e"; "ln2"; "ln10"; "pi"; "pi_2"; "pi_4"; "1_pi"; "2_pi"; "2_sqrtpi"; "sqrt2"; "sqrt1_2"]%string).
Definition functions : list cstr := map s2l (["exp"; "log"; "sqrt"; "sin"; "cos"; "tan"; "cot"; "sec"; "csc"; "asin"; "acos"; "atan"; "acot"; "asec"; "acsc";
  "sinh"; "cosh"; "tanh"; "coth"; "sech"; "csch"; "asinh"; "acosh"; "atanh"; "acoth"; "asech"; "acsch"; "abs"; "step"; "delta"; "nandelta"; "erf"]%string).

(** scanner.l:84-112: the token at a character of a word, which is the longest match or
    the first rule among the longest, and what follows it. *)
Definition scan_word (s : cstr) : token * cstr :=
  let (w, r) := span nodelim s in
  let fl := float_len s in
  if is_integer w then (TNum (mkNum false (strtoll w) (of_Z F (strtoll w))), r)
  else if length w <=? fl then (TNum (mkNum true 0 (strtod F (firstn fl s))), skipn fl s)
  else if existsb (streqb w) constants then (TNum (mkNum true 0 (constant F w)), r)
  else if existsb (streqb w) functions then (TFun w, r)
  else (TVar w, r).
(** scanner.l:114-181.  The default rule of flex copies a single '<' or '>' to the
    standard output (not modelled) and skips it. *)
Definition scan_op (c : ascii) (r : cstr) : option token * cstr :=
  let double (c : ascii) (one two : option token) :=
    match r with
    | c' :: r' => if ceq c' c then (two, r') else (one, r)
    | [] => (one, r)
    end in
  if ceq c "~"%char then (Some TTilde, r)
  else if ceq c ">"%char then double ">"%char None (Some (TOp OShr))
  else if ceq c "<"%char then double "<"%char None (Some (TOp OShl))
  else if ceq c "&"%char then double "&"%char (Some (TOp OAnd)) (Some (TOp OLand))
  else if ceq c "|"%char then double "|"%char (Some (TOp OOr)) (Some (TOp OLor))
  else if ceq c "^"%char then (Some (TOp OXor), r)
  else if ceq c "+"%char then (Some (TOp OAdd), r)
  else if ceq c "-"%char then (Some (TOp OSub), r)
  else if ceq c "*"%char then (Some (TOp OMul), r)
  else if ceq c "/"%char then (Some (TOp ODiv), r)
  else if ceq c "%"%char then (Some (TOp OMod), r)
  else if ceq c "("%char then (Some TLpar, r)
  else if ceq c ")"%char then (Some TRpar, r)
  else (Some TEq, r).
(** The tokens up to the first new line: fasteval.c:53-54 adds one, and the result is set
    as soon as it is read (parser.y:123-128). *)
Fixpoint scan (fuel : nat) (s : cstr) : outcome (list token) :=
  match fuel with
  | O => OutOfFuel
  | S f =>
      match s with
      | [] => Ret []
      | c :: r =>
          if ceq c nl then Ret []
          else if ceq c " "%char || ceq c "009"%char then scan f r
          else if nodelim c then let (t, r) := scan_word s in do l <- scan f r; Ret (t :: l)
          else let (t, r) := scan_op c r in do l <- scan f r; Ret (match t with Some t => t :: l | None => l end)
      end
  end.

(** *** parser.y: the operations *)
Definition i64 (z : Z) : outcome Z := if (LLONG_MIN <=? z)%Z && (z <=? LLONG_MAX)%Z then Ret z else Undef.
Definition cast (d : double) : outcome Z := match trunc F d with Some z => Ret z | None => Undef end.
Definition b2z (b : bool) : Z := if b then 1%Z else 0%Z.
(** An operation of INT_OP on [bits]-bit integers.  A shift of a negative number to the
    left, or one that overflows, is undefined. *)
Definition int_op2 (bits : Z) (o : binop) (x y : Z) : outcome Z :=
  match o with
  | OAnd => Ret (Z.land x y)
  | OOr => Ret (Z.lor x y)
  | OXor => Ret (Z.lxor x y)
  | OLand => Ret (b2z (negb (x =? 0)%Z && negb (y =? 0)%Z))
  | OLor => Ret (b2z (negb (x =? 0)%Z || negb (y =? 0)%Z))
  | OShr => if (0 <=? y)%Z && (y <? bits)%Z then Ret (Z.shiftr x y) else Undef
  | OShl => if (0 <=? y)%Z && (y <? bits)%Z && (0 <=? x)%Z && (Z.shiftl x y <? 2 ^ (bits - 1))%Z then Ret (Z.shiftl x y) else Undef
  | _ => Undef
  end.
(** parser.y:86-90 [INT_OP]; '&&' and '||' leave out their second operand. *)
Definition INT_OP (o : binop) (a b : num) : outcome num :=
  let dbl := n_double a || n_double b in
  do i <- (if dbl then Ret 0%Z else int_op2 64 o (n_i a) (n_i b));
  do x <- cast (n_d a);
  do y <- match o with
          | OLand => if (x =? 0)%Z then Ret 0%Z else cast (n_d b)
          | OLor => if (x =? 0)%Z then cast (n_d b) else Ret 0%Z
          | _ => cast (n_d b)
          end;
  do z <- int_op2 32 o x y;
  Ret (mkNum dbl i (of_Z F z)).
(** parser.y:79-83 [INT_FLOAT_OP], 145-153 for '%' *)
Definition INT_FLOAT_OP (o : binop) (a b : num) : outcome num :=
  let dbl := n_double a || n_double b in
  do i <- (if dbl then Ret 0%Z else
             match o with
             | OAdd => i64 (n_i a + n_i b)
             | OSub => i64 (n_i a - n_i b)
             | OMul => i64 (n_i a * n_i b)
             | ODiv => if (n_i b =? 0)%Z then Undef else i64 (Z.quot (n_i a) (n_i b))
             | _ => if (n_i b =? 0)%Z then Undef else do _ <- i64 (Z.quot (n_i a) (n_i b)); Ret (Z.rem (n_i a) (n_i b))
             end);
  Ret (mkNum dbl i (match o with
                    | OAdd => dadd F | OSub => dsub F | OMul => dmul F | ODiv => ddiv F | _ => dmod F
                    end (n_d a) (n_d b))).
Definition binary (o : binop) (a b : num) : outcome num :=
  match o with
  | OAdd | OSub | OMul | ODiv | OMod => INT_FLOAT_OP o a b
  | _ => INT_OP o a b
  end.
(** parser.y:179-186.  The rule for '!' is left out: the scanner makes no such token. *)
Definition negate (a : num) : outcome num :=
  do i <- (if n_double a then Ret 0%Z else i64 (- n_i a));
  Ret (mkNum (n_double a) i (dneg F (n_d a))).
(** parser.y:194-200 *)
Definition complement (a : num) : outcome num :=
  do x <- cast (n_d a);
  Ret (mkNum (n_double a) (if n_double a then 0%Z else Z.lnot (n_i a)) (of_Z F (Z.lnot x))).
(** parser.y:70 [AS_DOUBLE] *)
Definition as_double (a : num) : double := if n_double a then n_d a else of_Z F (n_i a).

(** *** Variables *)
(** The addresses of the name of a variable and of its copy, see Env_Model. *)
Variables ka na : Z.
(** pBat_Set.c:54-81 [_pBat_SetGetVar] *)
Definition get_var (e : env) (n : cstr) : outcome double :=
  do v <- pBat_GetEnv e n ka;
  Ret (match v with
       | Some t => if streqb t (s2l "nan") then dnan F else if streqb t (s2l "inf") then dinf F else atof F t
       | None => of_Z F 0
       end).
(** pBat_Set.c:85-94 [_pBat_SetSetVar] *)
Definition set_var_a (e : env) (n : cstr) (d : double) : outcome env := pBat_SetEnvEx e n ka na (Some (show16 F d)) false.

(** *** parser.y: the grammar.  The tables that bison makes from it reduce as soon as the
    operator that follows does not bind tighter (%left, 107-113), and before they notice
    that what follows is an error: that is precedence climbing, with the operations done
    on the way.  '=' binds tighter than the operators, so that what it assigns ends at the
    next one.  [None] is a syntax error. *)
Definition prec (o : binop) : nat :=
  match o with
  | OMul | ODiv | OMod => 4
  | OAdd | OSub => 3
  | OShl | OShr => 2
  | OAnd | OLand => 1
  | OOr | OLor | OXor => 0
  end.
Fixpoint p_expr (fuel : nat) (p : nat) (l : list token) (e : env) : outcome (option (num * list token) * env) :=
  match fuel with
  | O => OutOfFuel
  | S f =>
      do (r, e) <- p_unary f l e;
      match r with
      | None => Ret (None, e)
      | Some (n, l) => p_more f p n l e
      end
  end
with p_unary (fuel : nat) (l : list token) (e : env) : outcome (option (num * list token) * env) :=
  match fuel with
  | O => OutOfFuel
  | S f =>
      match l with
      | TNum n :: l => Ret (Some (n, l), e)
      | TOp OSub :: l =>
          do (r, e) <- p_unary f l e;
          match r with Some (n, l) => do n <- negate n; Ret (Some (n, l), e) | None => Ret (None, e) end
      | TTilde :: l =>
          do (r, e) <- p_unary f l e;
          match r with Some (n, l) => do n <- complement n; Ret (Some (n, l), e) | None => Ret (None, e) end
      | TFun g :: TLpar :: l =>
          do (r, e) <- p_expr f 0 l e;
          match r with
          | Some (n, TRpar :: l) => Ret (Some (mkNum true 0 (func F g (as_double n)), l), e)
          | _ => Ret (None, e)
          end
      | TLpar :: l =>
          do (r, e) <- p_expr f 0 l e;
          match r with
          | Some (n, TRpar :: l) => Ret (Some (n, l), e)
          | _ => Ret (None, e)
          end
      | TVar v :: TEq :: l =>
          do (r, e) <- p_unary f l e;
          match r with
          | Some (n, l) => do e <- set_var_a e v (as_double n); Ret (Some (n, l), e)
          | None => Ret (None, e)
          end
      | TVar v :: l =>
          do d <- get_var e v;
          do i <- cast d;
          Ret (Some (mkNum false i d, l), e)
      | _ => Ret (None, e)
      end
  end
with p_more (fuel : nat) (p : nat) (a : num) (l : list token) (e : env) : outcome (option (num * list token) * env) :=
  match fuel with
  | O => OutOfFuel
  | S f =>
      match l with
      | TOp o :: l' =>
          if p <=? prec o then
            do (r, e) <- p_expr f (S (prec o)) l' e;
            match r with
            | Some (b, l) => do n <- binary o a b; p_more f p n l e
            | None => Ret (None, e)
            end
          else Ret (Some (a, l), e)
      | _ => Ret (Some (a, l), e)
      end
  end.
(** fasteval.c:42-68 [fasteval_evaluate]: the value and whether it is a floating point
    number; after a syntax error, NAN and what [result.fmode] was. *)
Definition fasteval_evaluate (stale : bool) (e : env) (s : cstr) : outcome (double * bool * env) :=
  do l <- scan (S (length s)) s;
  do (r, e) <- p_expr (4 * length l + 4) 0 l e;
  Ret (match r with
       | Some (n, []) => (as_double n, n_double n, e)
       | _ => (dnan F, stale, e)
       end).

(** *** pBat_Set.c *)
Definition PBAT_EXPECTED_MORE : Z := 8.
Definition PBAT_INVALID_EXPRESSION : Z := 26.
(** pBat_Set.c:431-438 [OPERATE_INT] *)
Definition operate_int (o : binop) (x y : double) : outcome double :=
  do x <- cast x;
  do y <- match o with
          | OLand => if (x =? 0)%Z then Ret 0%Z else cast y
          | OLor => if (x =? 0)%Z then cast y else Ret 0%Z
          | _ => cast y
          end;
  do z <- match o with
          | ODiv => if (y =? 0)%Z then Undef else int_op (Z.quot x y)
          | _ => int_op2 32 o x y
          end;
  Ret (of_Z F z).
(** pBat_Set.c:441-531: the name of the variable and its new value. *)
Definition set_left (fm : bool) (e : env) (name : cstr) (res : double) : outcome (cstr * double) :=
  match rev name with
  | c :: before =>
      let short := rev before in
      let get := get_var e (pBat_AdjustVarName short) in
      let name' := pBat_AdjustVarName short in
      if ceq c "*"%char then do v <- get; Ret (name', dmul F v res)
      else if ceq c "/"%char then do v <- get; do r <- (if fm then Ret (ddiv F v res) else operate_int ODiv v res); Ret (name', r)
      else if ceq c "%"%char then do v <- get; Ret (name', dmod F v res)
      else if ceq c "+"%char then do v <- get; Ret (name', dadd F v res)
      else if ceq c "-"%char then do v <- get; Ret (name', dsub F v res)
      else if ceq c "^"%char then do v <- get; do r <- operate_int OXor v res; Ret (name', r)
      else if ceq c "&"%char || ceq c "|"%char then
        do v <- get;
        match before with
        | c' :: before' =>
            if ceq c' c
            then do r <- operate_int (if ceq c "|"%char then OLor else OLand) v res; Ret (rev before', r)
            else do r <- operate_int (if ceq c "|"%char then OOr else OAnd) v res; Ret (name', r)
        | [] => do r <- operate_int (if ceq c "|"%char then OOr else OAnd) v res; Ret (name', r)
        end
      else Ret (name, res)
  | [] => Ret (name, res)
  end.
(** pBat_Set.c:381-546 [pBat_CmdSetEval]: the error code, what is printed and the new state;
    [script] is bIsScript. *)
Definition pBat_CmdSetEval (stale script : bool) (w : xworld) (t : cstr) : outcome (Z * cstr * xworld) :=
  let s := pBat_SkipBlanks t in
  match s with
  | [] => Ret (PBAT_EXPECTED_MORE, [], w)
  | _ =>
      match strchr s "="%char with
      | None => Ret (PBAT_INVALID_EXPRESSION, [], w)
      | Some i =>
          do (res, fm, e) <- fasteval_evaluate stale (vw_env (x_var w)) (skipn (S i) s);
          do (name, v) <- set_left fm e (firstn i s) res;
          do e <- pBat_SetEnvEx e (firstn (length t - length s) t ++ name) ka na (Some (show14 F v)) false;
          Ret (0%Z, if script then [] else show14 F v, set_env w e)
      end
  end.
(** pBat_Set.c:364-379 [pBat_CmdSetA] *)
Fixpoint seta_loop (fuel : nat) (stale : bool) (script : bool) (w : xworld) (old line out : cstr) : outcome (Z * cstr * xworld) :=
  match fuel with
  | O => OutOfFuel
  | S f =>
      do (t, r, w) <- pBat_GetNextParameterEsD w (s2l """,") old line;
      match r with
      | None => Ret (0%Z, out, w)
      | Some rest =>
          do (z, o, w) <- pBat_CmdSetEval stale script w t;
          if (z =? 0)%Z then seta_loop f stale script w t rest (out ++ o) else Ret (z, out ++ o, w)
      end
  end.
Definition pBat_CmdSetA (stale script : bool) (w : xworld) (line : cstr) : outcome (Z * cstr * xworld) :=
  let line := pBat_SkipBlanks line in seta_loop (S (length line)) stale script w [] line [].
End SetA.
