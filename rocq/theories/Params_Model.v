(** Params_Model.v -- model of the parameters of scripts: how they are passed
    (pbat/command/pBat_Call.c:293-341, pbat/init/pBat_Init.c:54-89 and 376-400), SHIFT
    (pbat/command/pBat_Shift.c) and EXIT (pbat/command/pBat_Exit.c).  Growable strings
    are ideal strings, and no allocation fails. *)

From Verif Require Import Base Num_Model StrLib_Model Path_Model Var_Model LocalVar_Model Expand_Model Args_Model.

(** '0' + i *)
Definition dchar (i : nat) : ascii := ascii_of_nat (48 + i).
Definition set_args (w : xworld) (b : block) : xworld :=
  mkX (x_var w) (x_ka w) b (x_locals w) (x_script w) (x_stat w) (x_cap w) (x_delayed w).
Definition set_arg (w : xworld) (c : ascii) (v : option cstr) : xworld := set_args w (pBat_SetLocalVar (x_args w) c v).

(** pBat_Errors.h:46 *)
Definition PBAT_UNEXPECTED_ELEMENT : Z := 4.

(** pBat_Shift.c:87-121 and 123-157: the digit behind "/s" or "/d". *)
Definition shift_digit (t : cstr) : option nat :=
  match (match t with c :: r => if ceq c ":"%char then r else t | [] => t end) with
  | [c] => if is_digit c then Some (Z.to_nat (code c - 48)) else None
  | _ => None
  end.
(** pBat_Shift.c:63-188: the options, from [n] (iBegin) and [k] (iDisplacement). *)
Inductive shiftopt := SHelp | SBad | SGo (n k : nat).
Fixpoint shift_options (fuel : nat) (w : xworld) (old line : cstr) (n k : nat) : outcome (shiftopt * xworld) :=
  match fuel with
  | O => OutOfFuel
  | S f =>
      do (t, rest, w) <- pBat_GetNextParameterEs w old line;
      match rest with
      | None => Ret (SGo n k, w)
      | Some rest =>
          match t with
          | s :: c :: r =>
              if negb (ceq s "/"%char) then Ret (SBad, w)
              else if is_digit c && negb (ceq c "7"%char) then shift_options f w t rest (Z.to_nat (code c - 48)) k
              else if ceq c "s"%char then
                match shift_digit r with
                | Some d => shift_options f w t rest d k
                | None => Ret (SBad, w)
                end
              else if ceq c "d"%char then
                match shift_digit r with
                | Some d => shift_options f w t rest n d
                | None => Ret (SBad, w)
                end
              else if ceq c "?"%char then Ret (SHelp, w)
              else Ret (SBad, w)
          | _ => Ret (SBad, w)
          end
      end
  end.

(** pBat_Shift.c:191-202: [m] is 10 - (iBegin + iDisplacement); gives iBegin. *)
Fixpoint shift_move (m i k : nat) (w : xworld) : outcome (nat * xworld) :=
  match m with
  | O => Ret (i, w)
  | S m =>
      do v <- pBat_GetLocalVarPointer (x_args w) (dchar (i + k));
      shift_move m (S i) k (set_arg w (dchar i) v)
  end.
(** pBat_Shift.c:214-220: [m] is 10 - iBegin; gives lpToken and iBegin. *)
Fixpoint shift_fill (m i : nat) (w : xworld) (old tok : cstr) : outcome (option cstr * nat * xworld) :=
  match m with
  | O => Ret (Some tok, i, w)
  | S m =>
      do (t, r, w) <- pBat_GetNextParameterEs w old tok;
      match r with
      | None => Ret (None, i, w)
      | Some tok => shift_fill m (S i) (set_arg w (dchar i) (Some t)) t tok
      end
  end.
(** pBat_Shift.c:231-237: [m] is 10 - iBegin. *)
Fixpoint args_empty (m i : nat) (w : xworld) : xworld :=
  match m with
  | O => w
  | S m => args_empty m (S i) (set_arg w (dchar i) (Some []))
  end.
(** pBat_Shift.c:190-237.  What lpEsArg holds when %+ is read does not matter, see
    [next_ok]: it is left out. *)
Definition shift_args (w : xworld) (n k : nat) : outcome xworld :=
  do (i, w) <- shift_move (10 - (n + k)) n k w;
  do (i, w) <-
    (if i <? 10 then
       match x_args w "+"%char with
       | Some ((_ :: _) as tok) =>
           do (r, i, w) <- shift_fill (10 - i) i w [] tok;
           Ret (i, set_arg w "+"%char (Some (match r with Some t => t | None => [] end)))
       | _ => Ret (i, w)
       end
     else Ret (i, w));
  Ret (args_empty (10 - i) i w).
(** pBat_Shift.c:53-243 [pBat_CmdShift]: the error level; [line] is what follows SHIFT. *)
Definition pBat_CmdShift (w : xworld) (line : cstr) : outcome (Z * xworld) :=
  do (o, w) <- shift_options (S (length line)) w [] line 0 1;
  match o with
  | SHelp => Ret (0%Z, w)
  | SBad => Ret (PBAT_UNEXPECTED_ELEMENT, w)
  | SGo n k => do w <- shift_args w n k; Ret (0%Z, w)
  end.

(** pBat_EsReplace with a text of one character, see C06. *)
Definition es_replace1 (c : ascii) (rep s : cstr) : outcome cstr := replace_text (S (length s)) s [c] rep.

(** pBat_Call.c:319-329: the parameters from the tenth on, for %+. *)
Definition call_escape (t : cstr) : outcome cstr :=
  do t <- es_replace1 " "%char (s2l "^ ") t;
  do t <- es_replace1 ";"%char (s2l "^;") t;
  do t <- es_replace1 ","%char (s2l "^,") t;
  do t <- es_replace1 "009"%char ["^"%char; "009"%char] t;
  es_replace1 dquote ["^"%char; dquote] t.
Fixpoint call_surplus (fuel : nat) (w : xworld) (old line acc : cstr) : outcome (cstr * xworld) :=
  match fuel with
  | O => OutOfFuel
  | S f =>
      do (t, r, w) <- pBat_GetNextParameterEs w old line;
      match r with
      | None => Ret (acc, w)
      | Some line => do t <- call_escape t; call_surplus f w t line (acc ++ t ++ s2l " ")
      end
  end.
(** 298-305: [m] is '9' + 1 - c, [i] is c - '0'. *)
Fixpoint call_first (m i : nat) (w : xworld) (old line : cstr) (b : block) : outcome (option cstr * nat * block * xworld) :=
  match m with
  | O => Ret (Some line, i, b, w)
  | S m =>
      do (t, r, w) <- pBat_GetNextParameterEs w old line;
      match r with
      | None => Ret (None, i, b, w)
      | Some line => call_first m (S i) w t line (pBat_SetLocalVar b (dchar i) (Some t))
      end
  end.
Fixpoint block_empty (m i : nat) (b : block) : block :=
  match m with
  | O => b
  | S m => block_empty m (S i) (pBat_SetLocalVar b (dchar i) (Some []))
  end.
(** pBat_Call.c:278, 289 and 293-341: the parameters of a script or of a label that is
    called, [zero] for %0 and [line] for the others.  When nine parameters were read the
    last read does not give NULL, so that 337-341 is not reached. *)
Definition call_args (w : xworld) (zero line : cstr) : outcome (block * xworld) :=
  let b := pBat_SetLocalVar pBat_GetLocalBlock "0"%char (Some zero) in
  do (t, w) <- pBat_GetEndOfLine w line;
  let b := pBat_SetLocalVar b "*"%char (Some t) in
  do (l, i, b, w) <- call_first 9 1 w t line b;
  if i <? 10 then Ret (pBat_SetLocalVar (block_empty (10 - i) i b) "+"%char (Some []), w)
  else
    match l with
    | Some l => do (s, w) <- call_surplus (S (length l)) w [] l []; Ret (pBat_SetLocalVar b "+"%char (Some s), w)
    | None => Ret (pBat_SetLocalVar b "+"%char (Some []), w)
    end.

(** pBat_Init.c:54-89 [pBat_AssignCommandLine]: the text made from parameters given
    to the interpreter. *)
Fixpoint assign_line (argv : list cstr) : outcome cstr :=
  match argv with
  | [] => Ret []
  | a :: r =>
      do p <- es_replace1 dquote ["^"%char; dquote] a;
      do t <- assign_line r;
      Ret ((match strpbrk a (s2l " ,;=" ++ "009"%char :: s2l "&|") with
            | Some _ => dquote :: p ++ dquote :: s2l " "
            | None => p ++ s2l " "
            end) ++ t)
  end.
(** pBat_Init.c:376-400: %1 ... %9 from [argv] (pBat_Run.c:707-714 does the same). *)
Fixpoint argv_first (m i : nat) (argv : list cstr) (b : block) : block * list cstr :=
  match m, argv with
  | S m, a :: r => argv_first m (S i) r (pBat_SetLocalVar b (dchar i) (Some a))
  | _, _ => (block_empty m i b, argv)
  end.
(** [zero] is set later, pBat.c:163. *)
Definition argv_args (zero : cstr) (argv : list cstr) : outcome block :=
  let '(b, rest) := argv_first 9 1 argv pBat_GetLocalBlock in
  do all <- assign_line argv;
  do s <- assign_line rest;
  Ret (pBat_SetLocalVar (pBat_SetLocalVar (pBat_SetLocalVar b "*"%char (Some all)) "+"%char (Some s)) "0"%char (Some zero)).

(** C library [atoi]: undefined when the number does not fit an [int]. *)
Definition atoi (s : cstr) : outcome Z :=
  let z := num_signed (skip_space s) in if in_int z then Ret z else Undef.

(** pBat_Exit.c:55-111 [pBat_CmdExit]; [line] is what follows EXIT.  [ExEnd] is the end
    of the thread or of the interpreter with a status. *)
Inductive exitres :=
| ExHelp
| ExBad
| ExLevel (ret : Z)
| ExEnd (ret : Z).
Definition pBat_CmdExit (w : xworld) (line : cstr) : outcome (exitres * xworld) :=
  let ret := vw_err (x_var w) in
  do (t, r, w) <- pBat_GetNextParameterEs w [] line;
  match r with
  | None => Ret (ExEnd ret, w)
  | Some line =>
      if (stricmp t (s2l "/?") =? 0)%Z then Ret (ExHelp, w)
      else if (stricmp t (s2l "/b") =? 0)%Z then
        do (t, r, w1) <- pBat_GetNextParameterEs w t line;
        match r with
        | None => Ret (ExLevel ret, w1)
        | Some [] => do n <- atoi t; Ret (ExLevel n, w1)
        | Some _ => Ret (ExBad, w1)
        end
      else do n <- atoi line; Ret (ExEnd n, w)
  end.
