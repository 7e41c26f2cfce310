(** Block_Model.v -- model of pbat/core/pBat_ParseBlock.c: finding the blocks of
    commands between parentheses.  Places in the line are given by the text that
    starts there; NULL is [None]. *)

From Verif Require Import Base StrLib_Model.

Definition delim_at (s : cstr) (n : nat) : bool :=
  match nth_error s n with Some c => pBat_IsDelim c | None => false end.

(** pBat_ParseBlock.c:74-76 and 221-223: IF, FOR and DEF. *)
Definition block_cmd (s : cstr) : bool :=
  ((strnicmp s (s2l "if") 2 =? 0)%Z && delim_at s 2) ||
  ((strnicmp s (s2l "for") 3 =? 0)%Z && delim_at s 3) ||
  ((strnicmp s (s2l "def") 3 =? 0)%Z && delim_at s 3).

(** pBat_ParseBlock.c:60-61 *)
Fixpoint skip_at (s : cstr) : cstr :=
  match s with
  | c :: r => if (pBat_IsDelim c || ceq c "@"%char) && negb (ceq c nl) then skip_at r else s
  | [] => []
  end.

(** The three loops: the body of [pBat_GetNextBlockEnd] after its '(' (176-195),
    [pBat_GetBlockLineEndEx] (51-160), and the loop of the latter (104-159). *)
Inductive mode := MBlock | MLine (par_end : bool) | MText (par_end : bool).

Fixpoint scan (fuel : nat) (m : mode) (s : cstr) : outcome (option cstr) :=
  match fuel with
  | O => OutOfFuel
  | S f =>
    match m with
    | MBlock =>
        do r <- scan f (MLine true) s;
        match r with
        | None => Ret None
        | Some [] => Ret None
        | Some (c :: p) =>
            let q := if ceq c ")"%char then c :: p else p in
            match q with
            | [] => Ret None
            | d :: _ => if ceq d ")"%char then Ret (Some q) else scan f MBlock q
            end
        end
    | MLine par =>
        let s := skip_at s in
        match s with
        | c :: t =>
            if ceq c "("%char then
              do r <- scan f MBlock t;
              Ret (match r with Some p => Some (skipn 1 p) | None => None end)
            else if block_cmd s then scan f (MText par) s
            else Ret (Some (match pBat_SearchToken_Hybrid s [nl] (s2l (if par then ")&|" else "&|")) with
                            | Some n => skipn n s
                            | None => []
                            end))
        | [] => Ret (Some [])
        end
    | MText par =>
        match pBat_SearchToken_Hybrid s [nl] (s2l (if par then "()&|" else "(&|")) with
        | None => Ret (Some [])
        | Some n =>
            match skipn n s with
            | c :: t =>
                if ceq c "("%char then
                  do r <- scan f MBlock t;
                  match r with
                  | None => Ret None
                  | Some p => match skipn 1 p with
                              | [] => Ret (Some [])
                              | q => scan f (MText par) q
                              end
                  end
                else Ret (Some (c :: t))
            | [] => Undef
            end
        end
    end
  end.

Definition scan_fuel (s : cstr) : nat := 3 * length s + 3.

(** pBat_ParseBlock.c:51-160 [pBat_GetBlockLineEndEx] *)
Definition pBat_GetBlockLineEndEx (s : cstr) (par_end : bool) : outcome (option cstr) :=
  scan (scan_fuel s) (MLine par_end) s.

(** pBat_ParseBlock.c:167-196 [pBat_GetNextBlockEnd] *)
Definition pBat_GetNextBlockEnd (s : cstr) : outcome (option cstr) :=
  match s with
  | c :: t => if ceq c "("%char then scan (scan_fuel s) MBlock t else Ret None
  | [] => Ret None
  end.

(** pBat_ParseBlock.c:217-256: the loop of [pBat_GetNextBlockBeginEx]. *)
Fixpoint begin_loop (fuel : nat) (s : cstr) : outcome (option cstr) :=
  match fuel with
  | O => OutOfFuel
  | S f =>
      let s := pBat_SkipAllBlanks s in
      let opens := match s with c :: _ => ceq c "("%char | [] => false end in
      match pBat_SearchToken_Hybrid s [nl] (s2l (if block_cmd s || opens then "(&|" else "&|")) with
      | None => Ret None
      | Some n =>
          match skipn n s with
          | c :: t =>
              if ceq c nl then begin_loop f t
              else if ceq c "("%char then Ret (Some (c :: t))
              else begin_loop f (match t with d :: u => if ceq d c then u else t | [] => t end)
          | [] => Undef
          end
      end
  end.

(** pBat_ParseBlock.c:201-258 [pBat_GetNextBlockBeginEx] *)
Definition pBat_GetNextBlockBeginEx (s : cstr) (bIsBlockCmd : bool) : outcome (option cstr) :=
  if bIsBlockCmd then
    Ret (match pBat_SearchToken_Hybrid s [] (s2l "()") with
         | Some n => match skipn n s with
                     | c :: t => if ceq c "("%char then Some (c :: t) else None
                     | [] => None
                     end
         | None => None
         end)
  else begin_loop (S (length s)) s.
