(** Find_Model.v -- model of FIND (pbat/command/pBat_Find.c).  Growable strings are ideal
    strings, no allocation fails; UTF-8 mode. *)

From Verif Require Import Base Num_Model StrLib_Model Path_Model Var_Model Expand_Model Args_Model Params_Model For_Model Glob_Model Wc_Model.

(** pBat_Errors.h:50, 85 *)
Definition PBAT_EXPECTED_MORE : Z := 8.
Definition PBAT_NO_VALID_FILE : Z := 43.

(** pBat_Find.c:55-72 [pBat_strcasestr]; only whether something is found is used. *)
Fixpoint casestr (s : cstr) (c : ascii) (find : cstr) : bool :=
  match s with
  | [] => false
  | sc :: s => (ceq (tolower sc) c && (strnicmp s find (length find) =? 0)%Z) || casestr s c find
  end.
Definition pBat_strcasestr (s find : cstr) : bool :=
  match find with
  | [] => true
  | c :: find => casestr s (tolower c) find
  end.

(** pBat_Read.c:296-311 [pBat_RmTrailingNl] (Linux) *)
Definition pBat_RmTrailingNl (s : cstr) : cstr :=
  match rev s with
  | c :: r => if ceq c nl then rev r else s
  | [] => s
  end.

(** The flags: count (0, 1 for /N, 2 for /C), /I, /E, /V. *)
Record fmode := mkF { f_count : nat; f_icase : bool; f_regexp : bool; f_reverse : bool }.

(** pBat_Find.c:102-122, 132: the function that searches. *)
Definition find_in (m : fmode) (str line : cstr) : outcome bool :=
  match str with
  | [] => Ret false
  | _ =>
      if f_regexp m then (if f_icase m then pBat_RegExpCaseMatch true str line else pBat_RegExpMatch true str line)
      else if f_icase m then Ret (pBat_strcasestr line str)
      else Ret (match strstr line str with Some _ => true | None => false end)
  end.
(** pBat_Find.c:124-148: [ls] are the lines as [pBat_EsGet] gives them (C07); [line] and [i] are ints. *)
Fixpoint find_lines (m : fmode) (str : cstr) (ls : list cstr) (line i : Z) (out : cstr) : outcome (Z * cstr) :=
  match ls with
  | [] => Ret (i, out)
  | l :: ls =>
      do line <- int_op (line + 1);
      let l := pBat_RmTrailingNl l in
      do res <- find_in m str l;
      if xorb (negb (f_reverse m)) (negb res) then
        do j <- int_op (i + 1);
        find_lines m str ls line j
          (out ++ match f_count m with
                  | 1 => "["%char :: dec line ++ "]"%char :: l ++ [nl]
                  | 0 => l ++ [nl]
                  | _ => []
                  end)
      else find_lines m str ls line i out
  end.
(** pBat_Find.c:74-160 [pBat_FileFind]: the status and what is printed.  [None]: the file cannot be
    opened, and 154 closes NULL. *)
Definition pBat_FileFind (m : fmode) (str : cstr) (ls : option (list cstr)) : outcome (Z * cstr) :=
  match ls with
  | None => Undef
  | Some ls =>
      do (i, out) <- find_lines m str ls 0 0 [];
      Ret (if (i =? 0)%Z then 1%Z else 0%Z, out ++ match f_count m with 2 => dec i ++ [nl] | _ => [] end)
  end.

(** A file: its name, whether it is a directory, and its lines unless it cannot be opened. *)
Record ffile := mkFF { ff_name : cstr; ff_dir : bool; ff_lines : option (list cstr) }.

Section Search.
(** [pBat_GetMatchFileList] of the full path of a name or a pattern. *)
Variable search : cstr -> list ffile.

Inductive fopt := FHelp | FFail (e : Z) | FGo (m : fmode) (str : option cstr) (l : list ffile) (passed : bool).
(** pBat_Find.c:195-273: the options, the string and the files. *)
Fixpoint find_params (fuel : nat) (w : xworld) (old line : cstr) (m : fmode) (str : option cstr) (l : list ffile) (passed : bool)
  : outcome (fopt * xworld) :=
  match fuel with
  | O => OutOfFuel
  | S f =>
      do (t, rest, w) <- pBat_GetNextParameterEs w old line;
      match rest with
      | None => Ret (FGo m str l passed, w)
      | Some rest =>
          if streqb t (s2l "/?") then Ret (FHelp, w)
          else if (stricmp t (s2l "/C") =? 0)%Z then find_params f w t rest (mkF 2 (f_icase m) (f_regexp m) (f_reverse m)) str l passed
          else if (stricmp t (s2l "/N") =? 0)%Z then find_params f w t rest (mkF 1 (f_icase m) (f_regexp m) (f_reverse m)) str l passed
          else if (stricmp t (s2l "/I") =? 0)%Z then find_params f w t rest (mkF (f_count m) true (f_regexp m) (f_reverse m)) str l passed
          else if (stricmp t (s2l "/E") =? 0)%Z then find_params f w t rest (mkF (f_count m) (f_icase m) true (f_reverse m)) str l passed
          else if (stricmp t (s2l "/V") =? 0)%Z then find_params f w t rest (mkF (f_count m) (f_icase m) (f_regexp m) true) str l passed
          else match str with
               | None => find_params f w t rest m (Some t) l passed
               | Some _ =>
                   match search t with
                   | [] => Ret (FFail PBAT_NO_MATCH, w)
                   | items => find_params f w t rest m str (l ++ items) true
                   end
               end
      end
  end.
(** pBat_Find.c:328-335 *)
Fixpoint find_files (m : fmode) (str : cstr) (l : list ffile) (status : Z) (out : cstr) : outcome (Z * cstr) :=
  match l with
  | [] => Ret (status, out)
  | f :: l =>
      do (s, o) <- pBat_FileFind m str (ff_lines f);
      find_files m str l (Z.lor status s) (out ++ s2l "---------- " ++ ff_name f ++ nl :: o)
  end.
(** pBat_Find.c:177-352 [pBat_CmdFind]: the error level and what is printed; [line] is what follows
    FIND, [stdin] are the lines of the standard input.  The help and the error messages
    are left out. *)
Definition pBat_CmdFind (w : xworld) (stdin : list cstr) (line : cstr) : outcome (Z * cstr * xworld) :=
  do (o, w) <- find_params (S (length line)) w [] line (mkF 0 false false false) None [] false;
  match o with
  | FHelp => Ret (0%Z, [], w)
  | FFail e => Ret (e, [], w)
  | FGo m None _ _ => Ret (PBAT_EXPECTED_MORE, [], w)
  | FGo m (Some str) l passed =>
      let l := filter (fun f => negb (ff_dir f)) l in
      match l with
      | [] =>
          if passed then Ret (PBAT_NO_VALID_FILE, [], w)
          else do (s, o) <- pBat_FileFind m str (Some stdin); Ret (s, o, w)
      | [f] => do (s, o) <- pBat_FileFind m str (ff_lines f); Ret (s, o, w)
      | _ => do (s, o) <- find_files m str l 0 []; Ret (s, o, w)
      end
  end.
End Search.
