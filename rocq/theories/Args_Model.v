(** Args_Model.v -- model of pbat/core/pBat_Args.c: splitting a line into
    parameters.  The growable strings are ideal strings (see C05, C06).  Places in
    the line are given by the text that starts there. *)

From Verif Require Import Base StrLib_Model Expand_Model.

(** libpBat.h: the usual delimiters, PBAT_DELIMITERS. *)
Definition PBAT_DELIMITERS : cstr := s2l " ;,""" ++ ["009"%char; "010"%char].

(** pBat_Args.c:48-78: the loop of [pBat_GetParameterPointers]; [base] is the
    offset of [lpLine] from [lpBegin] and [s] the text at [lpLine]. *)
Fixpoint param_end (fuel : nat) (delims : cstr) (base : nat) (s : cstr) : outcome (option nat) :=
  match fuel with
  | O => OutOfFuel
  | S f =>
    match pBat_SearchToken s delims with
    | None => Ret None
    | Some k =>
        match nth_error s k with
        | Some c =>
            if ceq c dquote then
              match pBat_SearchChar (skipn (S k) s) dquote with
              | Some j => param_end f delims (base + (S k + S j)) (skipn (S k + S j) s)
              | None => Ret None
              end
            else Ret (Some (base + k))
        | None => Undef
        end
    end
  end.

(** pBat_Args.c:34-85 [pBat_GetParameterPointers]: the text at [lpPBegin] and
    the distance to [lpPEnd]. *)
Definition pBat_GetParameterPointers (delims line : cstr) : outcome (option (cstr * option nat)) :=
  match pBat_SkipBlanks line with
  | [] => Ret None
  | b => do e <- param_end (S (length b)) delims 0 b; Ret (Some (b, e))
  end.

(** pBat_Args.c:201-261: copy of the parameter, without surrounding quotes; an
    [iSize] below zero is undefined. *)
Definition param_text (b : cstr) (e : option nat) : outcome cstr :=
  match e with
  | None =>
      match b with
      | q :: r =>
          if ceq q dquote then
            Ret (match pBat_SearchLastChar r dquote with
                 | Some k => match skipn (S k) r with [] => firstn k r | _ => r end
                 | None => r
                 end)
          else Ret b
      | [] => Ret []
      end
  | Some n =>
      match b with
      | q :: r =>
          if ceq q dquote then
            match n with
            | O => Undef                                 (* iSize - 1 *)
            | S n1 =>
                match nth_error b n1 with                (* *(lpEnd-1) *)
                | Some c => if ceq c dquote
                            then match n1 with O => Undef | S n2 => Ret (firstn n2 r) end
                            else Ret (firstn n1 r)
                | None => Undef
                end
            end
          else Ret (firstn n b)
      | [] => Undef
      end
  end.

(** pBat_Args.c:178-274 [pBat_GetNextParameterEsD]: what [lpReturn], which held
    [old], holds in the end, and what follows the parameter. *)
Fixpoint next_param (fuel : nat) (w : xworld) (delims old line : cstr) : outcome (cstr * option cstr * xworld) :=
  match fuel with
  | O => OutOfFuel
  | S f =>
      do p <- pBat_GetParameterPointers delims line;
      match p with
      | None => Ret (old, None, w)
      | Some (b, e) =>
          do t <- param_text b e;
          let rest := match e with Some n => skipn n b | None => [] end in
          if streqb t [caret] then next_param f w delims t rest
          else do (t', w') <- pBat_DelayedExpand w t; Ret (t', Some rest, w')
      end
  end.
Definition pBat_GetNextParameterEsD (w : xworld) (delims old line : cstr) : outcome (cstr * option cstr * xworld) :=
  next_param (S (length line)) w delims old line.
(** pBat_Args.h:43-44 *)
Definition pBat_GetNextParameterEs (w : xworld) (old line : cstr) : outcome (cstr * option cstr * xworld) :=
  pBat_GetNextParameterEsD w PBAT_DELIMITERS old line.

(** pBat_Args.c:97-107 [pBat_GetNextParameter]: the string left in a buffer of
    [n] characters (strings from the cache are empty, see C08). *)
Definition pBat_GetNextParameter (w : xworld) (line : cstr) (n : nat) : outcome (cstr * option cstr * xworld) :=
  do (t, rest, w') <- pBat_GetNextParameterEs w [] line;
  match n with
  | O => Undef                                   (* lpResponseBuffer[-1] *)
  | S m => Ret (firstn m t, rest, w')
  end.

(** pBat_Args.c:276-320 [pBat_GetParamList] *)
Fixpoint param_list (fuel : nat) (w : xworld) (line : cstr) : outcome (list cstr * xworld) :=
  match fuel with
  | O => OutOfFuel
  | S f =>
      do (t, r, w1) <- pBat_GetNextParameterEs w [] line;
      match r with
      | None => Ret ([], w1)
      | Some rest =>
          do (t', w2) <- pBat_DelayedExpand w1 t;
          do (l, w3) <- param_list f w2 rest;
          Ret (t' :: l, w3)
      end
  end.
Definition pBat_GetParamList (w : xworld) (line : cstr) : outcome (list cstr * xworld) :=
  param_list (S (length line)) w line.

(** pBat_Args.c:336-344 [pBat_GetEndOfLine] *)
Definition pBat_GetEndOfLine (w : xworld) (line : cstr) : outcome (cstr * xworld) := pBat_DelayedExpand w line.
