(** If_Model.v -- model of the conditions of IF: pbat/command/pBat_If.c (up to the
    choice of the branch) and pbat/command/pBat_IfExp.c. *)

From Coq Require Import QArith.
From Verif Require Import Base Num_Model StrLib_Model Env_Model Var_Model Path_Model Expand_Model Args_Model.
Open Scope nat_scope.

(** ** Numbers *)

(** C library [strtol] with base 0: the value and what follows the number. *)
Definition digit_val (c : ascii) : Z :=
  (if is_digit c then code c - 48
   else let l := code (tolower c) in if (97 <=? l) && (l <=? 122) then l - 87 else 99)%Z.
Fixpoint read_num (base : Z) (s : cstr) (acc : Z) : Z * cstr :=
  match s with
  | c :: r => if (digit_val c <? base)%Z then read_num base r (acc * base + digit_val c)%Z else (acc, s)
  | [] => (acc, [])
  end.
Definition clip_long (z : Z) : Z :=
  (if z <? -9223372036854775808 then -9223372036854775808
   else if 9223372036854775807 <? z then 9223372036854775807 else z)%Z.
Definition unsigned0 (u : cstr) : option (Z * cstr) :=
  match u with
  | z :: x :: h :: _ =>
      if ceq z "0"%char && ceq (tolower x) "x"%char && (digit_val h <? 16)%Z then Some (read_num 16 (skipn 2 u) 0%Z)
      else if ceq z "0"%char then Some (read_num 8 u 0%Z)
      else if is_digit z then Some (read_num 10 u 0%Z) else None
  | z :: _ => if ceq z "0"%char then Some (read_num 8 u 0%Z)
              else if is_digit z then Some (read_num 10 u 0%Z) else None
  | [] => None
  end.
Definition strtol0 (s : cstr) : Z * cstr :=
  let t := skip_space s in
  let '(neg, u) := match t with
                   | c :: r => if ceq c "-"%char then (true, r) else if ceq c "+"%char then (false, r) else (false, t)
                   | [] => (false, [])
                   end in
  match unsigned0 u with
  | Some (v, e) => (clip_long (if neg then - v else v)%Z, e)
  | None => (0%Z, s)
  end.

(** The values of [double]; the sign of zero plays no part here. *)
Inductive dbl := DNaN | DInf (neg : bool) | DNum (q : Q).
(** Conversion of a [long] to [double]: 53 significant bits, to nearest, ties to even. *)
Definition round53 (z : Z) : Z :=
  (let n := Z.abs z in
   if n <? 2 ^ 53 then z
   else
     let p := 2 ^ (Z.log2 n - 52) in
     let q := n / p in
     let r := n mod p in
     let q' := if (p <? 2 * r) || ((p =? 2 * r) && Z.odd q) then q + 1 else q in
     Z.sgn z * (q' * p))%Z.
Definition dbl_of_Z (z : Z) : dbl := DNum (inject_Z (round53 z)).
Definition dcompare (a b : dbl) : option comparison :=
  match a, b with
  | DNaN, _ | _, DNaN => None
  | DInf x, DInf y => Some (if Bool.eqb x y then Eq else if x then Lt else Gt)
  | DInf x, DNum _ => Some (if x then Lt else Gt)
  | DNum _, DInf y => Some (if y then Gt else Lt)
  | DNum x, DNum y => Some (Qcompare x y)
  end.

(** C library [strcmp] *)
Fixpoint strcmp (a b : cstr) : Z :=
  match a, b with
  | [], [] => 0
  | [], y :: _ => - code y
  | x :: _, [] => code x
  | x :: a', y :: b' => if ceq x y then strcmp a' b' else code x - code y
  end%Z.

Section If.
(** C library [strtod]: the value and the number of characters read. *)
Variable strtod : cstr -> dbl * nat.
(** pBat_If.h:43-52: whether some file matches a path. *)
Variable exists_file : cstr -> bool.
(** The addresses of the names looked up in the environment (see Env_Model). *)
Variable ka : Z.

(** pBat_If.c:441-463 [pBat_GetCmpValue] *)
Definition pBat_GetCmpValue (s : cstr) : option dbl :=
  let '(v, e) := strtol0 s in
  match pBat_SkipBlanks e with
  | [] => Some (dbl_of_Z v)
  | _ => let '(d, k) := strtod s in
         match pBat_SkipBlanks (skipn k s) with
         | [] => Some d
         | _ => None
         end
  end.

(** pBat_If.c:477-563 [pBat_PerformExtendedTest]; [None] is -1.  [comp_type] is
    always 0. *)
Definition pBat_PerformExtendedTest (cmp a b : cstr) (i : bool) : option bool :=
  let '(x, y) := match pBat_GetCmpValue a, pBat_GetCmpValue b with
                 | Some x, Some y => (x, y)
                 | _, _ => (dbl_of_Z (if i then stricmp a b else strcmp a b), dbl_of_Z 0)
                 end in
  let is s := (stricmp cmp (s2l s) =? 0)%Z in
  let c := dcompare x y in
  if is "EQU"%string || is "=="%string then Some (match c with Some Eq => true | _ => false end)
  else if is "NEQ"%string then Some (match c with Some Eq => false | _ => true end)
  else if is "GEQ"%string then Some (match c with Some Eq | Some Gt => true | _ => false end)
  else if is "GTR"%string then Some (match c with Some Gt => true | _ => false end)
  else if is "LEQ"%string then Some (match c with Some Eq | Some Lt => true | _ => false end)
  else if is "LSS"%string then Some (match c with Some Lt => true | _ => false end)
  else None.

Definition word (t : cstr) (s : string) : bool := (stricmp t (s2l s) =? 0)%Z.

(** pBat_If.h:43-58: the tests EXIST, DEFINED and ERRORLEVEL.  A missing
    ERRORLEVEL variable makes the last compare with NULL. *)
Definition test_exist (w : xworld) (f : cstr) : bool :=
  exists_file (pBat_MakeFullPath (vw_cd (x_var w)) f 4096).
Definition test_defined (w : xworld) (n : cstr) : outcome bool :=
  do r <- pBat_GetEnv (vw_env (x_var w)) n ka; Ret (match r with Some _ => true | None => false end).
Definition test_errorlevel (w : xworld) (v : cstr) : outcome bool :=
  do r <- pBat_GetEnv (vw_env (x_var w)) (s2l "ERRORLEVEL") ka;
  match r with Some t => Ret (stricmp v t =? 0)%Z | None => Undef end.

(** ** pBat_IfExp.c *)

Definition is_open (t : cstr) : bool := streqb t (s2l "[").
Definition is_close (t : cstr) : bool := streqb t (s2l "]").

(** pBat_IfExp.c:167-223 [pBat_IfExp_ExecuteTest]; [None] is -1. *)
Definition pBat_IfExp_ExecuteTest (w : xworld) (l : list cstr) (i : bool) : outcome (option bool) :=
  match l with
  | [] => Undef                                           (* test->op, test == NULL *)
  | t0 :: l0 =>
      let neg := word t0 "NOT" in
      match (if neg then l0 else l) with
      | [] => Ret None
      | t :: l1 =>
          do r <- (if word t "DEFINED" then
                     match l1 with [] => Ret None | n :: l2 => do b <- test_defined w n; Ret (Some (b, l2)) end
                   else if word t "EXIST" then
                     match l1 with [] => Ret None | n :: l2 => Ret (Some (test_exist w n, l2)) end
                   else if word t "ERRORLEVEL" then
                     match l1 with [] => Ret None | n :: l2 => do b <- test_errorlevel w n; Ret (Some (b, l2)) end
                   else
                     match l1 with
                     | op :: b :: l2 => Ret (match pBat_PerformExtendedTest op t b i with
                                             | Some r => Some (r, l2)
                                             | None => None
                                             end)
                     | _ => Ret None
                     end);
          Ret (match r with
               | Some (b, []) => Some (if neg then negb b else b)
               | _ => None
               end)
      end
  end.

(** pBat_IfExp.c:300-349 [pBat_IfExp_SuppressOneBracketPair]: [None] if it does nothing.  With a
    lone bracket the element is freed twice. *)
Fixpoint pair_scan (count : nat) (l : list cstr) : bool :=
  match l with
  | [] => true
  | t :: r =>
      let count := if is_open t then S count else if is_close t then Nat.pred count else count in
      match count, r with
      | O, _ :: _ => false
      | _, _ => pair_scan count r
      end
  end.
Definition pBat_IfExp_SuppressOneBracketPair (l : list cstr) : outcome (option (list cstr)) :=
  match l with
  | t :: r =>
      if negb (is_open t) then Ret None
      else match r with
           | [] => Undef
           | _ => Ret (if pair_scan 1 r then Some (removelast r) else None)
           end
  | [] => Ret None
  end.
(** pBat_IfExp.c:294-298 [pBat_IfExp_SuppressBrackets] *)
Fixpoint suppress (fuel : nat) (l : list cstr) : outcome (list cstr) :=
  match fuel with
  | O => OutOfFuel
  | S f => do r <- pBat_IfExp_SuppressOneBracketPair l;
           match r with Some l' => suppress f l' | None => Ret l end
  end.
Definition pBat_IfExp_SuppressBrackets (l : list cstr) : outcome (list cstr) := suppress (S (length l)) l.

(** pBat_IfExp.c:351-394 [pBat_IfExp_Cut]: the parts before and after the first [tok] out of
    brackets.  When [tok] comes first it is freed, then used. *)
Fixpoint cut_loop (tok : string) (level : Z) (l : list cstr) : option (list cstr * list cstr) :=
  match l with
  | [] => None
  | t :: r =>
      let go level := match cut_loop tok level r with Some (a, b) => Some (t :: a, b) | None => None end in
      if is_open t then go (level + 1)%Z
      else if is_close t then go (level - 1)%Z
      else if (level =? 0)%Z && word t tok then Some ([], r)
      else go level
  end.
Definition pBat_IfExp_Cut (tok : string) (l : list cstr) : outcome (option (list cstr * list cstr)) :=
  match l with
  | [] => Undef
  | t :: r => if word t tok then Undef
              else Ret (match cut_loop tok (if is_open t then 1 else 0)%Z r with
                        | Some (a, b) => Some (t :: a, b)
                        | None => None
                        end)
  end.

(** pBat_IfExp.c:226-274 [pBat_IfExp_Parse] and [pBat_IfExp_FillChild]; [None] is NULL. *)
Inductive ifexp :=
| IfNone (ops : list cstr)
| IfNode (isand : bool) (c1 c2 : ifchild)
with ifchild := ChExp (e : ifexp) | ChOps (ops : list cstr).

Fixpoint parse_exp (fuel : nat) (l : list cstr) : outcome (option ifexp) :=
  match fuel with
  | O => OutOfFuel
  | S f =>
      let fill (l : list cstr) : outcome ifchild :=
        do l <- pBat_IfExp_SuppressBrackets l;
        do r <- parse_exp f l;
        match r with
        | Some e => Ret (ChExp e)
        | None =>
            (* the list has lost its end if a word was found in it *)
            do l' <- match l with
                     | [] => Ret []
                     | _ => do a <- pBat_IfExp_Cut "AND" l;
                            match a with
                            | Some (x, _) => Ret x
                            | None => do b <- pBat_IfExp_Cut "OR" l;
                                      Ret (match b with Some (x, _) => x | None => l end)
                            end
                     end;
            Ret (ChOps l')
        end in
      do l <- pBat_IfExp_SuppressBrackets l;
      match l with
      | [] => Ret None
      | _ =>
          do c <- pBat_IfExp_Cut "AND" l;
          match c with
          | Some (_, []) => Ret None
          | Some (a, b) => do x <- fill a; do y <- fill b; Ret (Some (IfNode true x y))
          | None =>
              do c <- pBat_IfExp_Cut "OR" l;
              match c with
              | Some (_, []) => Ret None
              | Some (a, b) => do x <- fill a; do y <- fill b; Ret (Some (IfNode false x y))
              | None => Ret (Some (IfNone l))
              end
          end
      end
  end.
Definition pBat_IfExp_Parse (l : list cstr) : outcome (option ifexp) := parse_exp (S (length l)) l.

(** pBat_IfExp.c:97-165 [pBat_IfExp_Evaluate].  The [else] of line 140 belongs to the inner
    [if]: after a true left side of AND, [res2] is read before it is set. *)
Fixpoint pBat_IfExp_Evaluate (w : xworld) (e : ifexp) (i : bool) : outcome (option bool) :=
  match e with
  | IfNone ops => pBat_IfExp_ExecuteTest w ops i
  | IfNode isand c1 c2 =>
      do r1 <- match c1 with
               | ChOps ops => pBat_IfExp_ExecuteTest w ops i
               | ChExp e1 => pBat_IfExp_Evaluate w e1 i
               end;
      match r1 with
      | None => Ret None
      | Some b1 =>
          if isand then (if b1 then Undef else Ret (Some false))
          else
            do r2 <- match c2 with
                     | ChOps ops => pBat_IfExp_ExecuteTest w ops i
                     | ChExp e2 => pBat_IfExp_Evaluate w e2 i
                     end;
            Ret (match r2 with None => None | Some b2 => Some (b1 || b2) end)
      end
  end.

(** pBat_IfExp.c:396-430 [pBat_IfExp_ParseLine] *)
Fixpoint parse_line (fuel : nat) (w : xworld) (level : Z) (line : cstr) : outcome (list cstr * option cstr * xworld) :=
  match fuel with
  | O => OutOfFuel
  | S f =>
      do (t, r, w1) <- pBat_GetNextParameterEs w [] line;
      match r with
      | None => Ret ([], None, w1)
      | Some rest =>
          let level := (if is_open t then level + 1 else if is_close t then level - 1 else level)%Z in
          if (level <=? 0)%Z then Ret ([t], Some rest, w1)
          else do (l, r', w2) <- parse_line f w1 level rest; Ret (t :: l, r', w2)
      end
  end.

(** pBat_IfExp.c:61-94 [pBat_IfExp_Compute] *)
Definition pBat_IfExp_Compute (w : xworld) (line : cstr) (i : bool) : outcome (option bool * option cstr * xworld) :=
  do (l, rest, w1) <- parse_line (S (length line)) w 0%Z line;
  match l with
  | [] => Ret (None, rest, w1)
  | _ => do e <- pBat_IfExp_Parse l;
         match e with
         | None => Ret (None, rest, w1)
         | Some e => do r <- pBat_IfExp_Evaluate w1 e i; Ret (r, rest, w1)
         end
  end.

(** ** pBat_If.c:43-319: the condition.  [IfStop code keep]: IF returns [code] at
    once, leaving the rest of the line to be run if [keep]; [IfGo b rest]: the
    value of the condition and what follows it. *)
Inductive ifres := IfStop (code : Z) (keep : bool) | IfGo (b : bool) (rest : cstr).
Definition PBAT_UNEXPECTED_ELEMENT : Z := 4.
Definition PBAT_EXPECTED_MORE : Z := 8.
Definition PBAT_INCOMPATIBLE_ARGS : Z := 9.
Definition PBAT_INVALID_IF_EXPRESSION : Z := 46.
Definition expected_more : ifres := IfStop PBAT_EXPECTED_MORE false.

(** pBat_If.c:228-256: the two sides of "==" found at [k] in the parameter. *)
Definition eq_sides (t : cstr) (k : nat) : outcome (cstr * cstr) :=
  let right := skipn (k + 2) t in
  match k with
  | O => Undef                                            (* lpToken2[-1] *)
  | S k1 =>
      match nth_error t k1 with
      | Some c => if ceq c dquote
                  then match right with
                       | [] => Undef                      (* past the end *)
                       | _ :: r => Ret (firstn k1 t, r)
                       end
                  else Ret (firstn k t, right)
      | None => Undef
      end
  end.

(** pBat_If.c:203-319: comparisons; [p] is the text after the switches. *)
Definition if_compare (w : xworld) (p : cstr) (i neg : bool) : outcome (ifres * xworld) :=
  do (t, nx, w1) <- pBat_GetNextParameterEs w [] p;
  if is_open t then
    do (r, rest, w2) <- pBat_IfExp_Compute w1 p i;
    match r with
    | None => Ret (IfStop PBAT_INVALID_IF_EXPRESSION false, w2)
    | Some b => match rest with
                | Some rest => Ret (IfGo b rest, w2)
                | None => Undef                           (* pBat_SkipBlanks(NULL) *)
                end
    end
  else
    match nx with
    | None => Ret (expected_more, w1)
    | Some rest =>
        match strstr t (s2l "==") with
        | Some k =>
            do (a, b) <- eq_sides t k;
            match pBat_PerformExtendedTest (s2l "==") a b i with
            | Some r => Ret (IfGo (if neg then negb r else r) rest, w1)
            | None => Undef                               (* impossible *)
            end
        | None =>
            do (op, r1, w2) <- pBat_GetNextParameter w1 rest 11;
            match r1 with
            | None => Ret (expected_more, w2)
            | Some rest1 =>
                do (b, r2, w3) <- pBat_GetNextParameterEs w2 [] rest1;
                match r2 with
                | None => Ret (expected_more, w3)
                | Some rest2 =>
                    match pBat_PerformExtendedTest op t b i with
                    | Some r => Ret (IfGo r rest2, w3)
                    | None => Ret (IfStop (-1) true, w3)
                    end
                end
            end
        end
    end.

(** pBat_If.c:137-201: EXIST, DEFINED, ERRORLEVEL. *)
Definition if_object (w : xworld) (p : cstr) (neg : bool) (test : xworld -> cstr -> outcome bool) : outcome (ifres * xworld) :=
  do (t, nx, w1) <- pBat_GetNextParameter w p 4096;
  match nx with
  | None => Ret (expected_more, w1)
  | Some rest => do b <- test w1 t; Ret (IfGo (if neg then negb b else b) rest, w1)
  end.

(** pBat_If.c:104-135: the keyword [t], read at [p] and followed by [nx]. *)
Definition if_kind (w : xworld) (p t nx : cstr) (i neg : bool) : outcome (ifres * xworld) :=
  let exist := word t "EXIST" in
  let defined := word t "DEFINED" in
  let errorlevel := word t "ERRORLEVEL" in
  if i && (exist || defined || errorlevel) then Ret (IfStop PBAT_INCOMPATIBLE_ARGS false, w)
  else if exist then if_object w nx neg (fun w f => Ret (test_exist w f))
  else if defined then if_object w nx neg test_defined
  else if errorlevel then if_object w nx neg test_errorlevel
  else if_compare w p i neg.

(** pBat_If.c:85-102: NOT *)
Definition if_not (w : xworld) (p t nx : cstr) (i : bool) : outcome (ifres * xworld) :=
  if word t "NOT" then
    do (t2, n2, w2) <- pBat_GetNextParameter w nx 11;
    match n2 with
    | None => Ret (expected_more, w2)
    | Some nx2 => if_kind w2 nx t2 nx2 i true
    end
  else if_kind w p t nx i false.

(** pBat_If.c:55-83: "/?" and "/i"; [cmd] starts with the two letters of IF. *)
Definition if_cond (w : xworld) (cmd : cstr) : outcome (ifres * xworld) :=
  let p := skipn 2 cmd in
  do (t, nx, w1) <- pBat_GetNextParameter w p 11;
  match nx with
  | None => if_compare w1 p false false
  | Some nx =>
      if streqb t (s2l "/?") then Ret (IfStop 0 true, w1)
      else if word t "/i" then
        do (t2, n2, w2) <- pBat_GetNextParameter w1 nx 11;
        match n2 with
        | None => Ret (expected_more, w2)
        | Some nx2 => if_not w2 nx t2 nx2 true
        end
      else if_not w1 p t nx false
  end.
End If.
