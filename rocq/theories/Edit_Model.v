(** Edit_Model.v -- model of the line editor (pbat/linenoise/linenoise.c, pbat/linenoise/utf8.c,
    pbat/linenoise/pBat_LineNoise.c), as pBat uses it: UTF-8, multi-line mode, no hints.

    Simplifications: the input is the list of the bytes that are going to arrive; a [read] of
    [n] bytes waits for all of them, unless the input ends; no call fails.  What is drawn on the
    terminal is left out, but for the scan over the line that it takes ([columns]).  The key TAB
    (the completion, C84) is not modelled here: it is an [Undef] outcome.  The buffer is the
    list of its first [len] bytes; the byte behind them is always a NUL. *)

From Verif Require Import Base.

Section Edit.
(** utf8.c:390-395 isCombiningChar, and the table utf8.c:162-375: any set of code points *)
Variable comb : Z -> bool.
(** linenoise.c:1023: the size of the buffer less one; linenoise.c:167: history_max_len *)
Variables (buflen max : nat).

(** utf8.c:408-438 utf8BytesToCodePoint for the bytes [s]; [None] is that zero is returned, and
    the code point is not set.  The bytes behind the first one are not checked. *)
Definition low (b : ascii) : Z := Z.land (code b) 63.
Definition utf8BytesToCodePoint (s : cstr) : option (Z * nat) :=
  match s with
  | [] => None
  | a :: s =>
    if (code a <? 128)%Z then Some (code a, 1)
    else if (Z.land (code a) 224 =? 192)%Z then
      match s with b :: _ => Some (Z.lor (Z.shiftl (Z.land (code a) 31) 6) (low b), 2) | _ => None end
    else if (Z.land (code a) 240 =? 224)%Z then
      match s with b :: c :: _ => Some (Z.lor (Z.lor (Z.shiftl (Z.land (code a) 15) 12) (Z.shiftl (low b) 6)) (low c), 3) | _ => None end
    else if (Z.land (code a) 248 =? 240)%Z then
      match s with b :: c :: d :: _ => Some (Z.lor (Z.lor (Z.lor (Z.shiftl (Z.land (code a) 7) 18) (Z.shiftl (low b) 12)) (Z.shiftl (low c) 6)) (low d), 4) | _ => None end
    else None
  end.

(** utf8.c:399-404 prevUtf8CharLen for the bytes before the cursor, the last one first: how many
    of them continue a code point *)
Definition cont (c : ascii) : bool := (Z.land (code c) 192 =? 128)%Z.
Fixpoint conts (l : cstr) : nat :=
  match l with c :: l => if cont c then S (conts l) else 0 | [] => 0 end.

(** utf8.c:442-459 linenoiseUtf8NextCharLen for the bytes [s] behind the cursor: a code point,
    and the marks that combine with it *)
Fixpoint marks (fuel : nat) (s : cstr) : outcome nat :=
  match s, fuel with
  | [], _ => Ret 0
  | _, 0 => OutOfFuel
  | _, S fuel =>
    match utf8BytesToCodePoint s with
    | None => Undef
    | Some (cp, k) => if comb cp then do r <- marks fuel (skipn k s) ; Ret (k + r) else Ret 0
    end
  end.
Definition nextCharLen (s : cstr) : outcome nat :=
  match utf8BytesToCodePoint s with
  | None => Undef
  | Some (cp, k) => if comb cp then Ret 0 else do r <- marks (length s) (skipn k s) ; Ret (k + r)
  end.

(** utf8.c:463-478 linenoiseUtf8PrevCharLen for the bytes before the cursor, the last one first;
    [None] is that the beginning of the line is reached *)
Fixpoint prev (fuel : nat) (l : cstr) : outcome (option nat) :=
  match l, fuel with
  | [], _ => Ret None
  | _, 0 => OutOfFuel
  | _, S fuel =>
    let k := S (conts l) in
    if length l <? k then Undef (* the position gets negative *)
    else match utf8BytesToCodePoint (rev (firstn k l)) with
         | None => Undef
         | Some (cp, _) => if comb cp then do r <- prev fuel (skipn k l) ; Ret (option_map (Nat.add k) r) else Ret (Some k)
         end
  end.
Definition prevCharLen (l : cstr) : outcome nat :=
  do r <- prev (length l) l ; Ret (match r with Some k => k | None => 0 end).

(** linenoise.c:287-312 columnPosForMultiLine with the position at the end, and
    linenoise.c:274-284 columnPos: all of the line is read.  If the length of a character is
    zero, a variable that was not set is read (and the loop goes on forever). *)
Fixpoint columns (fuel : nat) (s : cstr) : outcome unit :=
  match s, fuel with
  | [], _ => Ret tt
  | _, 0 => OutOfFuel
  | _, S fuel => do k <- nextCharLen s ; if k =? 0 then Undef else columns fuel (skipn k s)
  end.

(** linenoise.c:174-187 struct linenoiseState, and the history, the oldest line first *)
Record ed := Ed { buf : cstr; pos : nat; hist : list cstr; idx : nat }.

(** linenoise.c:766-867 refreshLine: the state does not change. *)
Definition refreshLine (e : ed) : outcome ed := do _ <- columns (length (buf e)) (buf e) ; Ret e.
Definition with_line (e : ed) (b : cstr) (p : nat) : ed := Ed b p (hist e) (idx e).
Definition with_pos (e : ed) (p : nat) : ed := with_line e (buf e) p.
Definition before (e : ed) : cstr := firstn (pos e) (buf e).
Definition behind (e : ed) : cstr := skipn (pos e) (buf e).

(** linenoise.c:872-896 linenoiseEditInsert *)
Definition linenoiseEditInsert (e : ed) (c : cstr) : outcome ed :=
  if length (buf e) + length c <=? buflen then
    refreshLine (with_line e (before e ++ c ++ behind e) (pos e + length c))
  else Ret e.
(** linenoise.c:899-904 linenoiseEditMoveLeft *)
Definition linenoiseEditMoveLeft (e : ed) : outcome ed :=
  if 0 <? pos e then do k <- prevCharLen (rev (before e)) ; refreshLine (with_pos e (pos e - k)) else Ret e.
(** linenoise.c:907-912 linenoiseEditMoveRight *)
Definition linenoiseEditMoveRight (e : ed) : outcome ed :=
  if negb (pos e =? length (buf e)) then do k <- nextCharLen (behind e) ; refreshLine (with_pos e (pos e + k)) else Ret e.
(** linenoise.c:915-920 linenoiseEditMoveHome *)
Definition linenoiseEditMoveHome (e : ed) : outcome ed :=
  if negb (pos e =? 0) then refreshLine (with_pos e 0) else Ret e.
(** linenoise.c:923-928 linenoiseEditMoveEnd *)
Definition linenoiseEditMoveEnd (e : ed) : outcome ed :=
  if negb (pos e =? length (buf e)) then refreshLine (with_pos e (length (buf e))) else Ret e.

(** A string of C ends at the first NUL. *)
Fixpoint to_nul (s : cstr) : cstr :=
  match s with c :: s => if ceq c "000" then [] else c :: to_nul s | [] => [] end.
(** history[i] = line *)
Definition set_nth (i : nat) (x : cstr) (l : list cstr) : list cstr := firstn i l ++ x :: skipn (S i) l.
(** linenoise.c:934-954 linenoiseEditHistoryNext; [up] is LINENOISE_HISTORY_PREV.  [strncpy]
    into the buffer, and the NUL at [buflen - 1]. *)
Definition linenoiseEditHistoryNext (e : ed) (up : bool) : outcome ed :=
  let n := length (hist e) in
  if 1 <? n then
    if n - 1 <? idx e then Undef
    else
      let h := set_nth (n - 1 - idx e) (to_nul (buf e)) (hist e) in
      if up then
        if n <=? S (idx e) then Ret (Ed (buf e) (pos e) h (n - 1))
        else let b := firstn (buflen - 1) (nth (n - 1 - S (idx e)) h []) in refreshLine (Ed b (length b) h (S (idx e)))
      else
        match idx e with
        | 0 => Ret (Ed (buf e) (pos e) h 0)
        | S i => let b := firstn (buflen - 1) (nth (n - 1 - i) h []) in refreshLine (Ed b (length b) h i)
        end
  else Ret e.

(** linenoise.c:958-966 linenoiseEditDelete *)
Definition linenoiseEditDelete (e : ed) : outcome ed :=
  if (0 <? length (buf e)) && (pos e <? length (buf e)) then
    do k <- nextCharLen (behind e) ;
    if length (behind e) <? k then Undef else refreshLine (with_line e (before e ++ skipn k (behind e)) (pos e))
  else Ret e.
(** linenoise.c:969-978 linenoiseEditBackspace *)
Definition linenoiseEditBackspace (e : ed) : outcome ed :=
  if (0 <? pos e) && (0 <? length (buf e)) then
    do k <- prevCharLen (rev (before e)) ;
    refreshLine (with_line e (firstn (pos e - k) (buf e) ++ behind e) (pos e - k))
  else Ret e.
(** linenoise.c:982-994 linenoiseEditDeletePrevWord; the bytes before the cursor, the last one
    first *)
Fixpoint skip_while (f : ascii -> bool) (l : cstr) : cstr :=
  match l with c :: l' => if f c then skip_while f l' else l | [] => [] end.
Definition linenoiseEditDeletePrevWord (e : ed) : outcome ed :=
  let l := rev (skip_while (fun c => negb (ceq c " ")) (skip_while (fun c => ceq c " ") (rev (before e)))) in
  refreshLine (with_line e (l ++ behind e) (length l)).
(** linenoise.c:1086-1094: the key CTRL_T *)
Definition swap (e : ed) : outcome ed :=
  if (0 <? pos e) && (pos e <? length (buf e)) then
    match rev (before e), behind e with
    | a :: l, b :: r => refreshLine (with_line e (rev l ++ b :: a :: r) (if pos e =? length (buf e) - 1 then pos e else S (pos e)))
    | _, _ => Undef
    end
  else Ret e.

(** utf8.c:482-507 linenoiseUtf8ReadCode; [None] is that nothing more is to be read, or an
    error *)
Definition readCode (inp : cstr) : outcome (option (cstr * Z * cstr)) :=
  match inp with
  | [] => Ret None
  | a :: rest =>
    let n := if (code a <? 128)%Z then Some 0
             else if (Z.land (code a) 224 =? 192)%Z then Some 1
             else if (Z.land (code a) 240 =? 224)%Z then Some 2
             else if (Z.land (code a) 248 =? 240)%Z then Some 3 else None in
    match n with
    | None => Ret None
    | Some n =>
      if (0 <? n) && (length rest =? 0) then Ret None
      else if length rest <? n then Undef (* bytes that were not read *)
      else match utf8BytesToCodePoint (a :: firstn n rest) with
           | Some (cp, _) => Ret (Some (a :: firstn n rest, cp, skipn n rest))
           | None => Undef
           end
    end
  end.

(** linenoise.c:1107-1160: the key ESC, and the bytes that follow it *)
Definition escape (e : ed) (inp : cstr) : outcome (ed * cstr) :=
  match inp with
  | a :: b :: inp =>
    if ceq a "[" then
      if (48 <=? code b)%Z && (code b <=? 57)%Z then
        match inp with
        | c :: inp => do e <- (if ceq c "~" && ceq b "3" then linenoiseEditDelete e else Ret e) ; Ret (e, inp)
        | [] => Undef
        end
      else
        do e <- (if ceq b "A" then linenoiseEditHistoryNext e true
                 else if ceq b "B" then linenoiseEditHistoryNext e false
                 else if ceq b "C" then linenoiseEditMoveRight e
                 else if ceq b "D" then linenoiseEditMoveLeft e
                 else if ceq b "H" then linenoiseEditMoveHome e
                 else if ceq b "F" then linenoiseEditMoveEnd e
                 else Ret e) ; Ret (e, inp)
    else if ceq a "O" then
      do e <- (if ceq b "H" then linenoiseEditMoveHome e else if ceq b "F" then linenoiseEditMoveEnd e else Ret e) ; Ret (e, inp)
    else Ret (e, inp)
  | _ => Undef
  end.

(** What a key does: go on, or return -- the line, if there is one, and the history *)
Inductive next := Go (e : ed) (inp : cstr) | Done (line : option cstr) (h : list cstr) (inp : cstr).
Definition go (inp : cstr) (o : outcome ed) : outcome next := do e <- o ; Ret (Go e inp).

(** linenoise.c:1035-1189: the body of the loop of linenoiseEdit; a return of the length of the
    line means the bytes of the buffer as a string (linenoise.c:1300-1302). *)
Definition key (e : ed) (inp : cstr) : outcome next :=
  do r <- readCode inp ;
  match r with
  | None => Ret (Done (Some (to_nul (buf e))) (hist e) inp)
  | Some (c, cp, inp) =>
    if (cp =? 9)%Z then Undef (* C84 *)
    else if (cp =? 13)%Z then Ret (Done (Some (to_nul (buf e))) (removelast (hist e)) inp)
    else if (cp =? 3)%Z then Ret (Done None (hist e) inp)
    else if (cp =? 127)%Z || (cp =? 8)%Z then go inp (linenoiseEditBackspace e)
    else if (cp =? 4)%Z then
      if 0 <? length (buf e) then go inp (linenoiseEditDelete e) else Ret (Done None (removelast (hist e)) inp)
    else if (cp =? 20)%Z then go inp (swap e)
    else if (cp =? 2)%Z then go inp (linenoiseEditMoveLeft e)
    else if (cp =? 6)%Z then go inp (linenoiseEditMoveRight e)
    else if (cp =? 16)%Z then go inp (linenoiseEditHistoryNext e true)
    else if (cp =? 14)%Z then go inp (linenoiseEditHistoryNext e false)
    else if (cp =? 27)%Z then do (e, inp) <- escape e inp ; Ret (Go e inp)
    else if (cp =? 21)%Z then go inp (refreshLine (with_line e [] 0))
    else if (cp =? 11)%Z then go inp (refreshLine (with_line e (before e) (pos e)))
    else if (cp =? 1)%Z then go inp (linenoiseEditMoveHome e)
    else if (cp =? 5)%Z then go inp (linenoiseEditMoveEnd e)
    else if (cp =? 12)%Z then go inp (refreshLine e)
    else if (cp =? 23)%Z then go inp (linenoiseEditDeletePrevWord e)
    else go inp (linenoiseEditInsert e c)
  end.
(** linenoise.c:1035-1189: the loop; each turn takes a byte, at least. *)
Fixpoint loop (fuel : nat) (e : ed) (inp : cstr) : outcome (option cstr * list cstr * cstr) :=
  match fuel with
  | 0 => OutOfFuel
  | S fuel => do n <- key e inp ; match n with Go e inp => loop fuel e inp | Done l h inp => Ret (l, h, inp) end
  end.

(** linenoise.c:1341-1368 linenoiseHistoryAdd *)
Definition linenoiseHistoryAdd (h : list cstr) (line : cstr) : list cstr :=
  if max =? 0 then h
  else if negb (length h =? 0) && streqb (last h []) line then h
  else (if length h =? max then tl h else h) ++ [line].

(** pBat_LineNoise.c:32-62 pBat_LineNoise, linenoise.c:1279-1304 linenoise, and
    linenoise.c:1004-1034: the line ([None]: the end of the input), the history, and what is left
    of the input *)
Definition pBat_LineNoise (h : list cstr) (inp : cstr) : outcome (option cstr * list cstr * cstr) :=
  do (l, h, inp) <- loop (S (length inp)) (Ed [] 0 (linenoiseHistoryAdd h []) 0) inp ;
  Ret (l, match l with Some line => linenoiseHistoryAdd h line | None => h end, inp).
End Edit.
