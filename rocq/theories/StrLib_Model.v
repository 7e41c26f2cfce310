(** StrLib_Model.v -- model of libpbat/cmdlib/pBat_String.c: searches that
    honour the escape character '^' and double quotes, and unescaping.

    Pointers are offsets relative to the string a function was called on;
    NULL is [None].  Character sets ([lpDelims]) and single characters are both
    represented by a predicate [p : ascii -> bool] ([strchr] and [strpbrk] only
    differ by that predicate). *)

From Verif Require Import Base.

Section Search.
Variable p : ascii -> bool.

(** pBat_String.c:65-73 (same text at 101-109, 172-180, 206-214, 308-316 and
    409-417): walk back over the characters between the match and the start of
    the current search, flipping [ok] for each '^'.  [r] is the reversed text
    between [lpCh] and [lpNxt]. *)
Fixpoint caret_ok (r : cstr) (ok : bool) : bool :=
  match r with
  | c :: r' => if ceq c caret then caret_ok r' (negb ok) else ok
  | [] => ok
  end.

(** pBat_String.c:52-87 [pBat_SearchChar] and 160-191 [pBat_SearchToken]: the
    outer [while] loop; [fuel] bounds the number of iterations. *)
Fixpoint search_loop (fuel : nat) (s : cstr) : outcome (option nat) :=
  match fuel with
  | O => OutOfFuel
  | S fuel' =>
    match find_idx p s with
    | None => Ret None
    | Some n =>
        if caret_ok (rev (firstn n s)) true then Ret (Some n)
        else do r <- search_loop fuel' (skipn (S n) s);
             Ret (match r with Some m => Some (S n + m) | None => None end)
    end
  end.

(** pBat_String.c:89-119 [pBat_SearchLastChar] and 193-224
    [pBat_SearchLastToken]; [base] is the offset of the current [lpCh] in the
    original string and [last] is [lpLastMatch]. *)
Fixpoint search_last_loop (fuel : nat) (base : nat) (last : option nat) (s : cstr)
  : outcome (option nat) :=
  match fuel with
  | O => OutOfFuel
  | S fuel' =>
    match find_idx p s with
    | None => Ret last
    | Some n =>
        let last' := if caret_ok (rev (firstn n s)) true then Some (base + n) else last in
        search_last_loop fuel' (base + S n) last' (skipn (S n) s)
    end
  end.

End Search.

(** Running the loops with enough fuel.  [StrLib_Proofs] shows that the
    [OutOfFuel] branch (mapped to [None] here) is never taken. *)
Definition finish {A} (d : A) (x : outcome A) : A :=
  match x with Ret a => a | _ => d end.

Definition search_pred (p : ascii -> bool) (s : cstr) : option nat :=
  finish None (search_loop p (S (length s)) s).
Definition search_last_pred (p : ascii -> bool) (s : cstr) : option nat :=
  finish None (search_last_loop p (S (length s)) 0 None s).

(** pBat_String.c:52-87 *)
Definition pBat_SearchChar (s : cstr) (c : ascii) : option nat :=
  search_pred (fun x => ceq x c) s.
(** pBat_String.c:160-191 *)
Definition pBat_SearchToken (s delims : cstr) : option nat :=
  search_pred (inset delims) s.
(** pBat_String.c:89-119 *)
Definition pBat_SearchLastChar (s : cstr) (c : ascii) : option nat :=
  search_last_pred (fun x => ceq x c) s.
(** pBat_String.c:193-224 *)
Definition pBat_SearchLastToken (s delims : cstr) : option nat :=
  search_last_pred (inset delims) s.

(** *** Unescaping *)

(** pBat_String.c:130-145: the [do ... while(1)] loop of [pBat_UnEscape].
    [s] is the text at [ch]; the result is what ends up from [un] on.
    Simplification: the in-place [memmove]s (the destination is always left of
    the source) are modelled by building the result. *)
Fixpoint unescape_loop (fuel : nat) (s : cstr) : outcome cstr :=
  match fuel with
  | O => OutOfFuel
  | S fuel' =>
    match s with
    | [] => Ret []                                  (* *ch == '\0' *)
    | _ :: s1 =>
        match strchr s1 caret with                  (* strchr(ch + 1, '^') *)
        | None => Ret s
        | Some k => do r <- unescape_loop fuel' (skipn (S (S k)) s);
                    Ret (firstn (S k) s ++ r)
        end
    end
  end.

(** pBat_String.c:121-146 [pBat_UnEscape]. *)
Definition pBat_UnEscape (s : cstr) : cstr :=
  match strchr s caret with
  | None => s
  | Some k => firstn k s ++ finish [] (unescape_loop (S (length s)) (skipn (S k) s))
  end.

(** pBat_String.c:148-158 [pBat_GetNextNonEscaped]: number of bytes skipped. *)
Definition pBat_GetNextNonEscaped (s : cstr) : nat :=
  match s with
  | c :: r =>
      if ceq c caret then match r with [] => 1 | _ :: _ => 2 end else 1
  | [] => 0
  end.

(** *** Blanks *)

(** pBat_String.c:27-40 [pBat_SkipBlanks]: the remaining text. *)
Fixpoint pBat_SkipBlanks (s : cstr) : cstr :=
  match s with
  | c :: r => if pBat_IsDelim c then pBat_SkipBlanks r else s
  | [] => []
  end.

(** pBat_String.c:42-50 [pBat_SkipAllBlanks]. *)
Fixpoint pBat_SkipAllBlanks (s : cstr) : cstr :=
  match s with
  | c :: r => if pBat_IsDelim c || ceq c "@"%char then pBat_SkipAllBlanks r else s
  | [] => []
  end.

(** pBat_String.c:452-468 [pBat_StripEndDelims]: [pos] is the offset of [str],
    [last] the start of the current run of delimiters. *)
Fixpoint strip_scan (s : cstr) (pos : nat) (last : option nat) : option nat :=
  match s with
  | [] => last
  | c :: r =>
      strip_scan r (S pos)
        (if negb (pBat_IsDelim c) then None
         else match last with None => Some pos | Some _ => last end)
  end.
Definition pBat_StripEndDelims (s : cstr) : cstr :=
  match strip_scan s 0 None with
  | Some n => firstn n s
  | None => s
  end.

(** *** Searches outside quotes *)

(** Shift an optional offset. *)
Definition oadd (k : nat) (o : option nat) : option nat :=
  match o with Some n => Some (k + n) | None => None end.

(** [pBat_SearchChar(p + off, QUOTE)] as an absolute offset in [s]. *)
Definition next_quote (s : cstr) (off : nat) : option nat :=
  oadd off (pBat_SearchChar (skipn off s) dquote).

(** pBat_String.c:252-265 and 358-371: move [lpNextQuote] past [nxt], counting
    parity in [i] ([true] for 1). *)
Fixpoint quote_loop (fuel : nat) (s : cstr) (nq : option nat) (nxt : nat) (i : bool)
  : outcome (option nat * bool) :=
  match fuel with
  | O => OutOfFuel
  | S fuel' =>
    match nq with
    | Some q => if q <=? nxt
                then quote_loop fuel' s (next_quote s (S q)) nxt (negb i)
                else Ret (nq, i)
    | None => Ret (None, i)
    end
  end.

(** pBat_String.c:238-326 and 344-424: main loop of the two [_OutQuotes]
    searches.  [cur] is the absolute offset of [lpCh]. *)
Fixpoint outq_loop (fuel : nat) (p : ascii -> bool) (s : cstr) (cur : nat) (nq : option nat)
  : outcome (option nat) :=
  match fuel with
  | O => OutOfFuel
  | S fuel' =>
    match oadd cur (find_idx p (skipn cur s)) with
    | None => Ret None
    | Some nxt =>
        let check (nq' : option nat) :=
          if caret_ok (rev (firstn (nxt - cur) (skipn cur s))) true
          then Ret (Some nxt)
          else outq_loop fuel' p s (S nxt) nq' in
        match nq with
        | Some q =>
            if q <=? nxt then
              do (nq', i) <- quote_loop (S (length s)) s nq nxt true;
              match nq', i with
              | None, false => Ret None
              | Some q', false => outq_loop fuel' p s (S q') (next_quote s (S q'))
              | _, true => check nq'
              end
            else check nq
        | None => check nq
        end
    end
  end.

Definition search_outq (p : ascii -> bool) (s : cstr) : option nat :=
  finish None (outq_loop (S (length s)) p s 0 (next_quote s 0)).

(** pBat_String.c:226-330 *)
Definition pBat_SearchChar_OutQuotes (s : cstr) (c : ascii) : option nat :=
  search_outq (fun x => ceq x c) s.
(** pBat_String.c:332-428 *)
Definition pBat_SearchToken_OutQuotes (s delims : cstr) : option nat :=
  search_outq (inset delims) s.

(** pBat_String.c:430-450 [pBat_SearchToken_Hybrid]. *)
Definition pBat_SearchToken_Hybrid (s delims qdelims : cstr) : option nat :=
  match pBat_SearchToken s delims, pBat_SearchToken_OutQuotes s qdelims with
  | None, None => None
  | res, Some q =>
      match res with
      | None => Some q
      | Some r => if q <? r then Some q else Some r
      end
  | res, None => res
  end.
