(** Cd_Model.v -- model of CD (pbat/command/pBat_Cd.c:219-311, the version for Linux) and of PUSHD and
    POPD (pbat/command/pBat_Pushd.c:51-123) from their lines on.  [pBat_SetCurrentDir] and the stack are in
    Path_Model.  Messages and the help are left out.  CD may also cut the line it was given,
    which is not used any more then (287). *)

From Verif Require Import Base StrLib_Model Path_Model Var_Model Expand_Model Args_Model.

(** pBat_Errors.h *)
Definition PBAT_DIRECTORY_ERROR : Z := 2.

(** lpCurrentDir is [vw_cd] *)
Definition set_cd (w : xworld) (c : cstr) : xworld :=
  let v := x_var w in set_var w (mkVW (vw_env v) c (vw_err v) (vw_rand v) (vw_date v) (vw_time v)).

Section Cd.
Variable exists_dir : cstr -> bool.
Definition go_to (w : xworld) (d : cstr) : outcome (Z * xworld) :=
  do (st, c) <- pBat_SetCurrentDir exists_dir (vw_cd (x_var w)) d;
  Ret (st, set_cd w c).

(** pBat_Cd.c:245 *)
Fixpoint skip_spaces (s : cstr) : cstr :=
  match s with c :: r => if ceq c " "%char || ceq c "009"%char then skip_spaces r else s | [] => [] end.
(** 258-287: the blanks (and quotes) at the end are cut off.  [lpNext] is not NULL before the loop, so
    nothing is cut if there is nothing else. *)
Definition at_end (quotes : bool) (c : ascii) : bool := ceq c " "%char || ceq c "009"%char || (quotes && ceq c dquote).
Fixpoint cut (quotes : bool) (s : cstr) : cstr :=
  match s with
  | [] => []
  | c :: r => if at_end quotes c && forallb (at_end quotes) r then [] else c :: cut quotes r
  end.
Definition cut_end (quotes : bool) (s : cstr) : cstr := if forallb (at_end quotes) s then s else cut quotes s.
(** 249-295: the directory *)
Definition cd_dir (t : cstr) : cstr :=
  match pBat_SkipBlanks t with
  | [] => []
  | c :: r => if ceq c dquote then cut_end true r else cut_end false (c :: r)
  end.
(** 219-311 [pBat_CmdCd_nix]: the error level, what is printed, the state; [line] follows the name. *)
Definition pBat_CmdCd (w : xworld) (line : cstr) : outcome (Z * cstr * xworld) :=
  do (p, rest, w) <- pBat_GetNextParameterEs w [] line;
  match rest with
  | None => Ret (0%Z, vw_cd (x_var w), w)
  | Some rest =>
      if streqb p (s2l "/?") then Ret (0%Z, [], w)
      else
        let line := if (stricmp p (s2l "/d") =? 0)%Z then rest else line in
        do (t, w) <- pBat_GetEndOfLine w (skip_spaces line);
        do (st, w) <- go_to w (cd_dir t);
        Ret (if (st =? 0)%Z then 0%Z else PBAT_DIRECTORY_ERROR, [], w)
  end.

(** pBat_Pushd.c:76-92: the loop, with the parameter [d] *)
Fixpoint pushd_params (fuel : nat) (w : xworld) (stack : list cstr) (d line : cstr) : outcome (Z * xworld * list cstr) :=
  match fuel with
  | O => OutOfFuel
  | S f =>
      do (st, w') <- go_to w d;
      if (st =? 0)%Z then
        let stack := vw_cd (x_var w) :: stack in
        do (d, rest, w) <- pBat_GetNextParameterEs w' d line;
        match rest with
        | None => Ret (0%Z, w, stack)
        | Some rest => pushd_params f w stack d rest
        end
      else Ret (PBAT_DIRECTORY_ERROR, w', stack)
  end.
(** 51-97 [pBat_CmdPushd]: the error level, what is printed, the state and the stack *)
Definition pBat_CmdPushd (w : xworld) (stack : list cstr) (line : cstr) : outcome (Z * cstr * xworld * list cstr) :=
  do (d, rest, w) <- pBat_GetNextParameterEs w [] line;
  match rest with
  | None => Ret (0%Z, concat (map (fun d => d ++ [nl]) stack), w, stack)
  | Some rest =>
      if prefixb (s2l "/?") d then Ret (0%Z, [], w, stack)
      else do (z, w, stack) <- pushd_params (S (length rest)) w stack d rest; Ret (z, [], w, stack)
  end.
(** 99-123 [pBat_CmdPopd] *)
Definition pBat_CmdPopd (w : xworld) (stack : list cstr) (line : cstr) : outcome (Z * xworld * list cstr) :=
  if prefixb (s2l "/?") (pBat_SkipBlanks line) then Ret (0%Z, w, stack)
  else match stack with
       | [] => Ret ((-1)%Z, w, [])
       | d :: stack => do (st, w) <- go_to w d; Ret (if (st =? 0)%Z then 0%Z else PBAT_DIRECTORY_ERROR, w, stack)
       end.
End Cd.
