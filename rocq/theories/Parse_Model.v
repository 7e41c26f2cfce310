(** Parse_Model.v -- model of pbat/core/pBat_Parse.c: operators between commands
    and redirections.  The growable strings are ideal strings (see C05, C06) and
    allocations succeed. *)

From Verif Require Import Base StrLib_Model Var_Model Expand_Model Args_Model Path_Model Block_Model.

(** pBat_Parse.h: PARSED_STREAM_NODE_*. *)
Inductive node := NODE_NONE | NODE_YES | NODE_NOT | NODE_PIPE.

(** Offset in [s] of a text that ends it. *)
Definition offset_of (s q : cstr) : nat := length s - length q.
Definition char_at (s : cstr) (i : nat) (c : ascii) : bool :=
  match nth_error s i with Some d => ceq d c | None => false end.
Definition block_at (base : nat) (s : cstr) (r : option cstr) : option nat :=
  match r with Some q => Some (base + offset_of s q) | None => None end.

(** pBat_Parse.c:294-416 [pBat_ParseOperators], its loop: [ch], [search] and
    [blk] are the offsets of [lpCh], [lpSearchBegin] and [lpNextBlock].  [None]
    is the error PBAT_MALFORMED_BLOCKS.  The '\0' written over operators are
    behind every place that is read afterwards, so [s] is left as it is. *)
Fixpoint ops_loop (fuel : nat) (s : cstr) (ch search : nat) (blk : option nat) (ty : node) (acc : list (node * cstr))
  : outcome (option (list (node * cstr))) :=
  match fuel with
  | O => OutOfFuel
  | S f =>
    match pBat_SearchToken_OutQuotes (skipn search s) (s2l "|&") with
    | None => Ret (Some (rev ((ty, skipn ch s) :: acc)))
    | Some k =>
        let tok := search + k in
        match (match blk with Some b => if b <=? tok then Some b else None | None => None end) with
        | Some b =>
            do e <- pBat_GetNextBlockEnd (skipn b s);
            match e with
            | None => Ret None
            | Some q =>
                let e := offset_of s q in
                do nb <- pBat_GetNextBlockBeginEx (skipn (e + 1) s) true;
                ops_loop f s ch e (block_at (e + 1) (skipn (e + 1) s) nb) ty acc
            end
        | None =>
            if char_at s tok "&"%char && (1 <=? tok) && char_at s (tok - 1) ">"%char
            then ops_loop f s ch (tok + 1) blk ty acc
            else
              let acc := (ty, firstn (tok - ch) (skipn ch s)) :: acc in
              if char_at s tok "|"%char then
                if char_at s (tok + 1) "|"%char then ops_loop f s (tok + 2) (tok + 2) blk NODE_NOT acc
                else ops_loop f s (tok + 1) (tok + 1) blk NODE_PIPE acc
              else
                if char_at s (tok + 1) "&"%char then ops_loop f s (tok + 2) (tok + 2) blk NODE_YES acc
                else ops_loop f s (tok + 1) (tok + 1) blk NODE_NONE acc
        end
    end
  end.

Definition pBat_ParseOperators (s : cstr) : outcome (option (list (node * cstr))) :=
  do nb <- pBat_GetNextBlockBeginEx s false;
  ops_loop (S (length s)) s 0 0 (block_at 0 s nb) NODE_NONE [].

(** pBat_Parse.h:32-39 PARSED_STREAM; [true] for PARSED_STREAM_MODE_TRUNCATE. *)
Inductive redir := RE_NONE | RE_ERR2OUT | RE_OUT2ERR.
Record stream := mkSt { st_out : option (cstr * bool); st_err : option (cstr * bool); st_in : option cstr; st_redir : redir }.
Inductive perr := PBAT_MALFORMED_BLOCKS | PBAT_ALREADY_REDIRECTED | PBAT_INVALID_REDIRECTION.

(** The line is a buffer in which '\0' are written: the string at an offset. *)
Fixpoint upto_nul (s : cstr) : cstr :=
  match s with c :: r => if ceq c "000"%char then [] else c :: upto_nul r | [] => [] end.
Definition str_at (buf : cstr) (n : nat) : cstr := upto_nul (skipn n buf).
Definition put_nul (buf : cstr) (n : nat) : cstr := firstn n buf ++ "000"%char :: skipn (S n) buf.

Definition re_delims : cstr := PBAT_DELIMITERS ++ s2l "&|><)".

Section Output.
Variable cur : cstr.    (* lpCurrentDir *)

(** pBat_Parse.c:178-232 and 234-268: the file of a redirection, read at [nt]:
    its full name, the offset behind it and the parameter. *)
Definition re_file (w : xworld) (buf : cstr) (nt : nat) (old : cstr) : outcome (option (cstr * nat * cstr) * xworld) :=
  let s := str_at buf nt in
  do (t, rest, w') <- pBat_GetNextParameterEsD w re_delims old s;
  Ret (match rest with
       | Some r => Some (pBat_FullPathDup cur t, nt + offset_of s r, t)
       | None => None
       end, w').

(** pBat_Parse.c:55-292 [pBat_ParseOutput], its loop; [fin] and [par] are
    [lpesFinal] and [lpesParam]. *)
Fixpoint output_loop (fuel : nat) (w : xworld) (buf : cstr) (ch search : nat) (blk : option nat) (fin par : cstr) (st : stream)
  : outcome ((perr + cstr * stream) * xworld) :=
  match fuel with
  | O => OutOfFuel
  | S f =>
    match pBat_SearchToken_OutQuotes (str_at buf search) (s2l "12<>") with
    | None => Ret (inr (fin ++ str_at buf ch, st), w)
    | Some k =>
        let tok := search + k in
        match (match blk with Some b => if b <=? tok then Some b else None | None => None end) with
        | Some b =>
            do e <- pBat_GetNextBlockEnd (str_at buf b);
            match e with
            | None => Ret (inl PBAT_MALFORMED_BLOCKS, w)
            | Some q =>
                let e := b + offset_of (str_at buf b) q in
                do nb <- pBat_GetNextBlockBeginEx (str_at buf (e + 1)) true;
                output_loop f w buf ch e (block_at (e + 1) (str_at buf (e + 1)) nb) fin par st
            end
        | None =>
            match nth_error buf tok with
            | None => Undef
            | Some c =>
                let buf := put_nul buf tok in
                let fin := fin ++ str_at buf ch in
                let nt := tok + 1 in
                let go_on ch fin par st w := output_loop f w buf ch ch blk fin par st in
                let output nt :=
                  match (if ceq c "2"%char then st_err st else st_out st) with
                  | Some _ => Ret (inl PBAT_ALREADY_REDIRECTED, w)
                  | None =>
                      let trunc := negb (prefixb (s2l ">") (str_at buf nt)) in
                      do (r, w') <- re_file w buf (if trunc then nt else nt + 1) par;
                      match r with
                      | None => Ret (inl PBAT_INVALID_REDIRECTION, w')
                      | Some (file, ch, par) =>
                          go_on ch fin par (if ceq c "2"%char then mkSt (st_out st) (Some (file, trunc)) (st_in st) (st_redir st)
                                            else mkSt (Some (file, trunc)) (st_err st) (st_in st) (st_redir st)) w'
                      end
                  end in
                let reset r :=
                  match st_redir st with
                  | RE_NONE => go_on (nt + 3) fin par (mkSt (st_out st) (st_err st) (st_in st) r) w
                  | _ => Ret (inl PBAT_ALREADY_REDIRECTED, w)
                  end in
                if ceq c "2"%char && prefixb (s2l ">&1") (str_at buf nt) then reset RE_ERR2OUT
                else if (ceq c "2"%char || ceq c "1"%char) && prefixb (s2l ">&2") (str_at buf nt) then reset RE_OUT2ERR
                else if ceq c "2"%char || ceq c "1"%char then
                  if negb (prefixb (s2l ">") (str_at buf nt)) then go_on nt (fin ++ [c]) par st w
                  else output (nt + 1)
                else if ceq c ">"%char then output nt
                else
                  match st_in st with
                  | Some _ => Ret (inl PBAT_ALREADY_REDIRECTED, w)
                  | None =>
                      do (r, w') <- re_file w buf nt par;
                      match r with
                      | None => Ret (inl PBAT_INVALID_REDIRECTION, w')
                      | Some (file, ch, par) => go_on ch fin par (mkSt (st_out st) (st_err st) (Some file) (st_redir st)) w'
                      end
                  end
            end
        end
    end
  end.

Definition no_redir : stream := mkSt None None None RE_NONE.

Definition pBat_ParseOutput (w : xworld) (s : cstr) : outcome ((perr + cstr * stream) * xworld) :=
  do nb <- pBat_GetNextBlockBeginEx s false;
  output_loop (S (length s)) w s 0 0 (block_at 0 s nb) [] [] no_redir.

(** pBat_Parse.c:30-53 [pBat_ParseLine] *)
Fixpoint parse_outputs (w : xworld) (l : list (node * cstr)) : outcome ((perr + list (node * cstr * stream)) * xworld) :=
  match l with
  | [] => Ret (inr [], w)
  | (n, s) :: l' =>
      do (r, w1) <- pBat_ParseOutput w s;
      match r with
      | inl e => Ret (inl e, w1)
      | inr (t, st) =>
          do (r', w2) <- parse_outputs w1 l';
          Ret (match r' with inl e => inl e | inr l2 => inr ((n, t, st) :: l2) end, w2)
      end
  end.
Definition pBat_ParseLine (w : xworld) (s : cstr) : outcome ((perr + list (node * cstr * stream)) * xworld) :=
  do r <- pBat_ParseOperators s;
  match r with
  | None => Ret (inl PBAT_MALFORMED_BLOCKS, w)
  | Some l => parse_outputs w l
  end.
End Output.
