(** Timeout_Model.v -- model of TIMEOUT (pbat/command/pBat_Timeout.c:60-151), with the arithmetic of C's
    doubles.  The help, the error messages and the line feed at the end are left out; so is what
    pBat_Kbhit does to the terminal. *)

From Flocq Require Core.FLX IEEE754.BinarySingleNaN.
From Verif Require Import Base StrLib_Model Expand_Model Args_Model.

(** IEEE 754 binary64, to nearest *)
Notation dbl := (BinarySingleNaN.binary_float 53 1024).
Definition prec_pos : FLX.Prec_gt_0 53 := eq_refl.
Definition prec_small : BinarySingleNaN.Prec_lt_emax 53 1024 := eq_refl.
Definition dsub (x y : dbl) : dbl := @BinarySingleNaN.Bminus 53 1024 prec_pos prec_small BinarySingleNaN.mode_NE x y.
Definition dmul (x y : dbl) : dbl := @BinarySingleNaN.Bmult 53 1024 prec_pos prec_small BinarySingleNaN.mode_NE x y.
(** [x < y] in C *)
Definition dlt (x y : dbl) : bool := BinarySingleNaN.Bltb x y.
Definition dzero : dbl := BinarySingleNaN.B754_zero false.
Definition d1000 : dbl := @BinarySingleNaN.B754_finite 53 1024 false 8796093022208000 (-43) eq_refl.
Definition dminus1 : dbl := @BinarySingleNaN.B754_finite 53 1024 true 4503599627370496 (-52) eq_refl.
(** pBat_Timeout.c:56 SLEEP_GRANULARITY, 0.100: the double next to it *)
Definition granularity : dbl := @BinarySingleNaN.B754_finite 53 1024 false 7205759403792794 (-56) eq_refl.

(** (unsigned int) of a double: undefined unless the integral part fits *)
Definition to_uint (x : dbl) : outcome Z :=
  if BinarySingleNaN.is_finite x then
    let z := BinarySingleNaN.Btrunc x in
    if (0 <=? z)%Z && (z <? 2 ^ 32)%Z then Ret z else Undef
  else Undef.

(** What can be seen: the message that asks for a key (with /NOBREAK, for CTRL-C), the message with the
    number of seconds left, a sleep of so many milliseconds. *)
Inductive tev := TAsk (nobreak : bool) | TShow (nobreak : bool) (left : dbl) | TSleep (ms : Z).

Section Timeout.
(** pBat_Kbhit(fInput), the [n]-th time it is asked (from 0) *)
Variable key : nat -> bool.
(** C library [strtod]: the value and the number of characters read. *)
Variable strtod : cstr -> dbl * nat.

(** 113-114: [n] times asked so far *)
Fixpoint wait_key (fuel : nat) (nobreak : bool) (n : nat) : outcome (list tev) :=
  match fuel with
  | O => OutOfFuel
  | S f =>
      if nobreak || negb (key n) then
        do ms <- to_uint (dmul granularity d1000);
        do l <- wait_key f nobreak (S n);
        Ret (TSleep ms :: l)
      else Ret []
  end.

(** 121-143 *)
Fixpoint count_down (fuel : nat) (nobreak : bool) (n : nat) (s : dbl) : outcome (list tev) :=
  match fuel with
  | O => OutOfFuel
  | S f =>
      if dlt dzero s then
        do (l, s) <-
          if dlt granularity s then
            do ms <- to_uint (dmul granularity d1000);
            let s := dsub s granularity in
            Ret ([TSleep ms; TShow nobreak s], s)
          else
            do ms <- to_uint (dmul s d1000);
            Ret ([TSleep ms], dminus1);
        if negb nobreak && key n then Ret l
        else do l' <- count_down f nobreak (S n) s; Ret (l ++ l')
      else Ret []
  end.

(** 109-144 *)
Definition wait (fuel : nat) (nobreak : bool) (s : dbl) : outcome (list tev) :=
  if dlt s dzero then do l <- wait_key fuel nobreak 0; Ret (TAsk nobreak :: l)
  else do l <- count_down fuel nobreak 0 s; Ret (TShow nobreak s :: l).

(** [if (seconds)] *)
Definition nonzero (s : dbl) : bool := match s with BinarySingleNaN.B754_zero _ => false | _ => true end.
Inductive tparams := THelp | TBad | TWait (nobreak : bool) (s : dbl).
(** 71-107 *)
Fixpoint timeout_params (fuel : nat) (w : xworld) (old line : cstr) (nobreak : bool) (s : dbl) : outcome (tparams * xworld) :=
  match fuel with
  | O => OutOfFuel
  | S f =>
      do (p, rest, w) <- pBat_GetNextParameterEs w old line;
      match rest with
      | None => Ret (TWait nobreak s, w)
      | Some rest =>
          if (stricmp p (s2l "/?") =? 0)%Z then Ret (THelp, w)
          else if (stricmp p (s2l "/T") =? 0)%Z then timeout_params f w p rest nobreak s
          else if (stricmp p (s2l "/NOBREAK") =? 0)%Z then timeout_params f w p rest true s
          else if nonzero s then Ret (TBad, w)
          else
            let '(d, k) := strtod p in
            match skipn k p with
            | _ :: _ => Ret (TBad, w)
            | [] => timeout_params f w p rest nobreak d
            end
      end
  end.
Definition PBAT_UNEXPECTED_ELEMENT : Z := 4.
(** 60-151 [pBat_CmdTimeout]: the error level, what can be seen, the state; [line] follows the name.
    [fuel] is for the waiting. *)
Definition pBat_CmdTimeout (fuel : nat) (w : xworld) (line : cstr) : outcome (Z * list tev * xworld) :=
  do (p, w) <- timeout_params (S (length line)) w [] line false dzero;
  match p with
  | THelp => Ret (0%Z, [], w)
  | TBad => Ret (PBAT_UNEXPECTED_ELEMENT, [], w)
  | TWait nobreak s => do l <- wait fuel nobreak s; Ret (0%Z, l, w)
  end.
End Timeout.
