(** For_Model.v -- model of FOR: pbat/command/pBat_For.c:85-618 and 1155-1627, apart
    from running the body, which is in Run_Model.

    What the file system and other programs give is a parameter, [forio].
    Simplified: the names of files are made absolute by [pBat_MakeFullPathEs] (the
    variant in place can use memory it has given back, see C49); allocations and
    pipes do not fail; descriptors FOR reads from are not in the table of
    descriptors; lines hold no NUL. *)

From Verif Require Import Base Num_Model StrLib_Model Path_Model LocalVar_Model Var_Model Expand_Model Args_Model Block_Model
  Parse_Model Stream_Model If_Model ForTok_Model Body_Model.

(** The files a mask stands for, as they are given to the variable; whether a file
    can be opened for reading; its lines; the lines that come out of pipe [n]; whether
    CMDLYCORRECT is set. *)
Record forio := mkFio {
  fio_glob : list event -> xworld -> cstr -> list cstr;
  fio_open : list event -> cstr -> bool;
  fio_file : list event -> cstr -> nat -> option cstr;
  fio_pipe : list event -> nat -> nat -> option cstr;
  fio_cmdly : list event -> bool }.

Definition set_locals (w : xworld) (b : block) : xworld :=
  mkX (x_var w) (x_ka w) (x_args w) b (x_script w) (x_stat w) (x_cap w) (x_delayed w).
Definition set_local (w : xworld) (c : ascii) (v : option cstr) : xworld := set_locals w (pBat_SetLocalVar (x_locals w) c v).

(** Where the lines of FOR /F come from: a text; a file of which [k] lines were read and
    the files that follow; the pipe [n] of which [k] lines were read. *)
Inductive source := SText (s : cstr) | SFiles (cur : cstr) (k : nat) (later : list cstr) | SPipe (n k : nat).
(** A loop between two turns: FOR /L after the value [i] -- or before it when no turn was
    run; FOR with the files and the text that are left; FOR /F. *)
Inductive fstate :=
| FL (c : ascii) (turned : bool) (i inc stop : Z)
| FS (c : ascii) (files : list cstr) (rest : option cstr)
| FF (info : forinfo) (skip : Z) (src : source).
(** The next turn: none, none yet, or one in the given state. *)
Inductive turn := TDone | TSkip (s : fstate) | TTurn (w : xworld) (s : fstate).

(** pBat_For.c:536-554: the next turn of [pBat_CmdForL]. *)
Definition next_l (w : xworld) (c : ascii) (turned : bool) (i inc stop : Z) : outcome turn :=
  do i <- (if turned then if in_int (i + inc) then Ret (i + inc)%Z else Undef else Ret i);
  if (i <=? stop)%Z then Ret (TTurn (set_local w c (Some (dec i))) (FL c true i inc stop)) else Ret TDone.

(** pBat_For.c:327: the delimiters of [pBat_CmdForSimple]. *)
Definition FOR_DELIMS : cstr := s2l " ,:;" ++ ["010"%char; "009"%char; dquote].
(** pBat_For.c:412-434: the mask without quotes around. *)
Definition no_quotes (t : cstr) : cstr :=
  match t with
  | q :: r => if ceq q dquote
              then match rev r with q' :: r' => if ceq q' dquote then rev r' else r | [] => r end
              else t
  | [] => t
  end.
(** pBat_For.c:378-474: the next turn of [pBat_CmdForSimple]. *)
Definition next_s (io : forio) (log : list event) (w : xworld) (c : ascii) (files : list cstr) (rest : option cstr) : outcome turn :=
  match files with
  | x :: l => Ret (TTurn (set_local w c (Some x)) (FS c l rest))
  | [] =>
      match rest with
      | None => Ret TDone
      | Some line =>
          do p <- pBat_GetParameterPointers FOR_DELIMS line;
          match p with
          | None => Ret TDone
          | Some (b, e) =>
              let t := match e with Some n => firstn n b | None => b end in
              let rest := match e with Some n => Some (skipn n b) | None => None end in
              match strpbrk t (s2l "*?") with
              | Some _ => Ret (TSkip (FS c (fio_glob io log w (no_quotes t)) rest))
              | None => Ret (TTurn (set_local w c (Some t)) (FS c [] rest))
              end
          end
      end
  end.

(** pBat_For.c:1410-1432 [pBat_ForGetStringInput]: the next line and the rest. *)
Definition string_input (s : cstr) : option (cstr * cstr) :=
  match s with
  | [] => None
  | _ => match find_idx (fun c => ceq c nl) s with
         | Some k => Some (firstn k s, skipn (S k) s)
         | None => Some (s, [])
         end
  end.
(** pBat_For.c:1434-1515 [pBat_ForGetInputLine] and the loop of [pBat_CmdForF], 579-609:
    what to do with a line that was read. *)
Definition line_f (io : forio) (log : list event) (w : xworld) (info : forinfo) (skip : Z) (line : cstr) (src : source) : outcome turn :=
  if fio_cmdly io log && match pBat_SkipBlanks line with [] => true | _ => false end then Ret (TSkip (FF info skip src))
  else if (0 <? skip)%Z then Ret (TSkip (FF info (skip - 1) src))
  else if match fi_eol info with
          | [] => false
          | _ => match line with c :: _ => inset (fi_eol info) c | [] => true end     (* strchr finds the NUL *)
          end then Ret (TSkip (FF info skip src))
  else do b <- pBat_ForSplitTokens line info (x_locals w); Ret (TTurn (set_locals w b) (FF info skip src)).
Definition next_f (io : forio) (log : list event) (w : xworld) (info : forinfo) (skip : Z) (src : source) : outcome turn :=
  match src with
  | SText s =>
      match string_input s with
      | None => Ret TDone
      | Some (line, s') => line_f io log w info skip line (SText s')
      end
  | SFiles cur k later =>
      match fio_file io log cur k with
      | Some line => line_f io log w info skip line (SFiles cur (S k) later)
      | None =>
          match later with
          | [] => Ret TDone
          | p :: l => if fio_open io log p then Ret (TSkip (FF info skip (SFiles p 0 l)))
                      else Undef                       (* 1461-1474, then fclose(NULL), 1567 *)
          end
      end
  | SPipe n k =>
      match fio_pipe io log n k with
      | Some line => line_f io log w info skip line (SPipe n (S k))
      | None => Ret TDone
      end
  end.
Definition for_next (io : forio) (log : list event) (w : xworld) (s : fstate) : outcome turn :=
  match s with
  | FL c turned i inc stop => next_l w c turned i inc stop
  | FS c files rest => next_s io log w c files rest
  | FF info skip src => next_f io log w info skip src
  end.

(** pBat_For.c:476-477, 556, 611-612: what is left of the variables in the end. *)
Definition for_end (s : fstate) (w : xworld) : xworld :=
  match s with
  | FL c _ _ _ _ | FS c _ _ => set_local w c None
  | FF info _ _ => set_locals w (pBat_ForVarUnassign info (x_locals w))
  end.

Definition PBAT_SPECIAL_VAR_NON_ASCII : Z := 16.
Definition PBAT_ARGUMENT_NOT_BLOCK : Z := 17.
Definition PBAT_FOR_USEBACKQ_VIOLATION : Z := 20.
Definition PBAT_FOR_BAD_INPUT_SPECIFIER : Z := 24.
Definition PBAT_FOR_TRY_REASSIGN_VAR : Z := 25.
Definition PBAT_FILE_ERROR : Z := 1.

(** pBat_For.c:499-533: start, step and end of FOR /L.  [got] are the numbers met. *)
Fixpoint l_params (fuel : nat) (w : xworld) (old line : cstr) (got : list Z) : outcome ((Z + list Z) * xworld) :=
  match fuel with
  | O => OutOfFuel
  | S f =>
      do (t, rest, w) <- pBat_GetNextParameterEs w old line;
      match rest with
      | None => Ret (inr got, w)
      | Some rest =>
          if 3 <=? length got then Ret (inl PBAT_FOR_BAD_INPUT_SPECIFIER, w)
          else let '(z, next) := strtol0 t in
               match next with
               | [] => l_params f w t rest (got ++ [to_int z])
               | _ => Ret (inl PBAT_FOR_BAD_INPUT_SPECIFIER, w)
               end
      end
  end.
Definition init_l (w : xworld) (c : ascii) (input : cstr) : outcome ((Z + fstate) * xworld) :=
  do (r, w) <- l_params (S (length input)) w [] input [];
  match r with
  | inl e => Ret (inl e, w)
  | inr got => Ret (inr (FL c false (nth 0 got 0%Z) (nth 1 got 0%Z) (nth 2 got 0%Z)), w)
  end.

(** pBat_For.c:1317-1348 [pBat_ForAdjustInput]: the text between the quotes, if they are
    closed; what comes behind is dropped. *)
Definition adjust_input (s : cstr) : option cstr :=
  match s with
  | q :: r => match find_idx (fun c => ceq c q) r with Some k => Some (firstn k r) | None => None end
  | [] => None
  end.
(** pBat_For.c:1517-1548 [pBat_ForInputParseFileList]; at most 128 files. *)
Fixpoint file_list (fuel : nat) (w : xworld) (line : cstr) (n : nat) : outcome (list cstr * xworld) :=
  match fuel with
  | O => OutOfFuel
  | S f =>
      do (t, rest, w) <- pBat_GetNextParameterEs w [] line;
      match rest with
      | None => Ret ([], w)
      | Some rest =>
          match n with
          | O => Ret ([], w)
          | S m => do (l, w') <- file_list f w rest m; Ret (pBat_MakeFullPathEs (vw_cd (x_var w)) t :: l, w')
          end
      end
  end.
Definition FILE_LIST_T_BUFSIZ : nat := 128.
(** pBat_For.c:1183-1315 [pBat_ForMakeInputInfo]; with the command to start. *)
Definition make_input (io : forio) (log : list event) (w : xworld) (backq : bool) (input : cstr)
  : outcome ((Z + source * option cstr) * xworld) :=
  let text := match adjust_input input with
              | Some t => Ret (inr (SText t, None), w)
              | None => Ret (inl (-1)%Z, w)
              end in
  let command := match adjust_input input with
                 | Some t => Ret (inr (SPipe (length log) 0, Some t), w)
                 | None => Ret (inl (-1)%Z, w)
                 end in
  let files := do (l, w) <- file_list (S (length input)) w input FILE_LIST_T_BUFSIZ;
               match l with
               | [] => Ret (inl (-1)%Z, w)
               | p :: later => if fio_open io log p then Ret (inr (SFiles p 0 later, None), w) else Ret (inl PBAT_FILE_ERROR, w)
               end in
  match input with
  | c :: _ =>
      if ceq c "'"%char then if backq then text else command
      else if ceq c "`"%char then if backq then command else Ret (inl PBAT_FOR_USEBACKQ_VIOLATION, w)
      else if ceq c dquote then if backq then files else text
      else files
  | [] => files
  end.
(** pBat_For.c:564-577 and 1155-1177 [pBat_ForVarCheckAssignment] *)
Definition init_f (io : forio) (log : list event) (w : xworld) (info : forinfo) (input : cstr)
  : outcome ((Z + fstate * option cstr) * xworld) :=
  do v <- pBat_GetLocalVarPointer (x_locals w) (fi_first info);
  match v with
  | Some _ => Ret (inl PBAT_FOR_TRY_REASSIGN_VAR, w)
  | None =>
      do (r, w) <- make_input io log w (fi_backq info) input;
      match r with
      | inl e => Ret (inl e, w)
      | inr (src, cmd) => Ret (inr (FF info (fi_skip info) src, cmd), w)
      end
  end.

(** pBat_For.c:1588-1627 [pBat_CmdForDeprecatedWrapper]: FOR /R and FOR /D. *)
Definition old_info (c : ascii) : forinfo := mkFI (s2l " ") [] 0 c false 1 (131071%Z :: repeat 0%Z 95).
Definition init_old (io : forio) (log : list event) (w : xworld) (c : ascii) (attr dir mask : cstr)
  : outcome ((Z + fstate * option cstr) * xworld) :=
  do d <- pBat_Canonicalize dir;
  do (r, w) <- init_f io log w (old_info c) (s2l "'DIR /b /s " ++ attr ++ s2l " " ++ d ++ s2l "/" ++ mask ++ s2l "'");
  match r with
  | inl _ => Ret (inl (-1)%Z, w)
  | inr x => Ret (inr x, w)
  end.

Inductive fkind := KSimple | KL | KF | KR | KD.
Definition is_word (t : cstr) (k : String.string) : bool := (stricmp t (s2l k) =? 0)%Z.
(** pBat_For.c:113-142: the options; the parameter that ends them -- none at the end
    of the line -- and what follows it; nothing for "/?". *)
Fixpoint for_kind (fuel : nat) (w : xworld) (old line : cstr) (k : fkind) : outcome (option (fkind * cstr * option cstr) * xworld) :=
  match fuel with
  | O => OutOfFuel
  | S f =>
      do (t, rest, w) <- pBat_GetNextParameterEs w old line;
      match rest with
      | None => Ret (Some (k, t, None), w)
      | Some rest =>
          if is_word t "/F" then for_kind f w t rest KF
          else if is_word t "/L" then for_kind f w t rest KL
          else if is_word t "/R" then for_kind f w t rest KR
          else if is_word t "/D" then for_kind f w t rest KD
          else if streqb t (s2l "/?") then Ret (None, w)
          else Ret (Some (k, t, Some rest), w)
      end
  end.

(** pBat_For.c:144-224: the variable; before it the directory of FOR /R and FOR /D or the
    options of FOR /F. *)
Fixpoint for_var (fuel : nat) (w : xworld) (k : fkind) (t : cstr) (rest : option cstr) (dir : cstr) (info : forinfo)
  : outcome ((Z + ascii * cstr * cstr * cstr * forinfo) * xworld) :=
  match fuel with
  | O => OutOfFuel
  | S f =>
      match rest with
      | None => Ret (inl PBAT_EXPECTED_MORE, w)
      | Some rest =>
          match t with
          | "%"%char :: v =>
              let v := match v with "%"%char :: v' => v' | _ => v end in
              let c := match v with c :: _ => c | [] => "000"%char end in
              if name_ok c then Ret (inr (c, t, rest, dir, info), w) else Ret (inl PBAT_SPECIAL_VAR_NON_ASCII, w)
          | _ =>
              if match k with KSimple | KL => true | _ => match dir with [] => false | _ => true end end
              then Ret (inl PBAT_UNEXPECTED_ELEMENT, w)
              else
                do r <- match k with
                        | KF => do i <- pBat_ForMakeInfo t info; Ret (match i with inl e => inl e | inr i => inr (dir, i) end)
                        | _ => Ret (inr (t, info))
                        end;
                match r with
                | inl e => Ret (inl e, w)
                | inr (dir, info) =>
                    do (t', rest, w) <- pBat_GetNextParameterEs w t rest;
                    for_var f w k t' rest dir info
                end
          end
      end
  end.

(** How FOR starts: an error; an error found after the line was rewritten to its body;
    the body, the loop and a command to start. *)
Inductive fhead := FStop (code : Z) | FFail (body : cstr) (code : Z) | FRun (body : cstr) (s : fstate) (cmd : option cstr).

Definition with_first (info : forinfo) (c : ascii) : forinfo :=
  mkFI (fi_delims info) (fi_eol info) (fi_skip info) c (fi_backq info) (fi_nb info) (fi_tokens info).
(** pBat_For.c:321-347 *)
Definition init_loop (io : forio) (log : list event) (w : xworld) (k : fkind) (c : ascii) (dir input : cstr) (info : forinfo)
  : outcome ((Z + fstate * option cstr) * xworld) :=
  match k with
  | KSimple => Ret (inr (FS c [] (Some input), None), w)
  | KL => do (r, w) <- init_l w c input; Ret (match r with inl e => inl e | inr s => inr (s, None) end, w)
  | KF => init_f io log w (with_first info c) input
  | KR => init_old io log w c (s2l "/A:-D") dir input
  | KD => init_old io log w c (s2l "/A:D") dir input
  end.

(** pBat_Args.c:159-176 [pBat_GetNextBlockEs]; the pointer returned is beyond the text if
    the block is not closed. *)
Definition pBat_GetNextBlockEs (w : xworld) (s : cstr) : outcome (cstr * cstr * xworld) :=
  do (b, e) <- pBat_GetNextBlock s;
  do (t, w) <- pBat_DelayedExpand w b;
  match e with
  | [] => Undef
  | _ :: r => Ret (t, r, w)
  end.

(** pBat_For.c:85-362 [pBat_CmdFor], up to the loops; [line] is what the command starts with. *)
Definition for_head (io : forio) (log : list event) (w : xworld) (line : cstr) : outcome (fhead * xworld) :=
  do (k, w) <- for_kind (S (length line)) w [] (skipn 3 line) KSimple;
  match k with
  | None => Ret (FStop 0, w)
  | Some (k, t, rest) =>
      do (v, w) <- for_var (S (length line)) w k t rest [] forInfo;
      match v with
      | inl e => Ret (FStop e, w)
      | inr (c, t, rest, dir, info) =>
          do (t, rest, w) <- pBat_GetNextParameterEs w t rest;
          match rest with
          | None => Ret (FStop PBAT_EXPECTED_MORE, w)
          | Some rest =>
              if negb (is_word t "IN") then Ret (FStop PBAT_EXPECTED_MORE, w)
              else
                let rest := skip_st rest in
                if negb (opens rest) then Ret (FStop PBAT_ARGUMENT_NOT_BLOCK, w)
                else
                  do (input, rest, w) <- pBat_GetNextBlockEs w rest;
                  do (t, rest, w) <- pBat_GetNextParameterEs w t rest;
                  match rest with
                  | None => Ret (FStop PBAT_EXPECTED_MORE, w)
                  | Some rest =>
                      if negb (is_word t "DO") then Ret (FStop PBAT_UNEXPECTED_ELEMENT, w)
                      else
                        do (b, e) <- body_of (pBat_SkipBlanks rest);
                        match after_par e with
                        | _ :: _ => Ret (FStop PBAT_UNEXPECTED_ELEMENT, w)
                        | [] =>
                            do (r, w) <- init_loop io log w k c dir input info;
                            match r with
                            | inl code => Ret (FFail b code, w)
                            | inr (s, cmd) => Ret (FRun b s cmd, w)
                            end
                        end
                  end
          end
      end
  end.
