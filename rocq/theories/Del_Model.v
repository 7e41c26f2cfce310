(** Del_Model.v -- model of DEL (pbat/command/pBat_Del.c) and RD (pbat/command/pBat_Rmdir.c).
    No allocation fails; messages and the help are left out. *)

From Verif Require Import Base StrLib_Model Path_Model Var_Model Expand_Model Args_Model Params_Model Glob_Model Attr_Model For_Model Wc_Model Fs_Model Search_Model Copy_Model.

(** pBat_Errors.h *)
Definition PBAT_UNABLE_RMDIR : Z := 51.
(** libpBat.h:458 *)
Definition PBAT_ATTR_NO_READONLY : N := N.lor PBAT_CMD_ATTR_READONLY PBAT_CMD_ATTR_READONLY_N.

Section Del.
Variable fails : nat -> bool.
(** The permissions of files and the sizes of directories (see [info]) *)
Variables (perm : place -> bool * bool) (dsize : place -> N).

(** pBat_Del.c:309-322 [pBat_DelFile], pBat_Rmdir.c:269-283 [pBat_Rmdir] *)
Definition pBat_DelFile (s : sys) (file : cstr) : Z * sys :=
  match sys_remove fails s file with (true, s) => (0%Z, s) | (false, s) => ((-1)%Z, s) end.
Definition pBat_Rmdir (s : sys) (dir : cstr) : Z * sys :=
  match sys_rmdir fails s dir with (true, s) => (0%Z, s) | (false, s) => (PBAT_UNABLE_RMDIR, s) end.

(** pBat_Del.c:272-307 [pBat_CmdDelFile] with [act] = [pBat_DelFile] and pBat_Rmdir.c:242-267
    [pBat_CmdRmdirFile] with [act] = [pBat_Rmdir]; gives the status and [*choice].
    PBAT_FILE_READONLY is 0 here (libpBat.h:103), so pBat_Del.c:289-298 do nothing, and neither
    does the skipping of read-only files in 240-247. *)
Definition confirmed (act : sys -> cstr -> Z * sys) (s : sys) (file : cstr) (ask : bool) (choice : Z) : outcome (Z * Z * sys) :=
  do (res, choice, s) <- (if (choice =? 0)%Z && ask
                          then do (a, input) <- pBat_AskConfirmation true PBAT_ASK_NO (s_in s);
                               Ret (a, if (a =? PBAT_ASK_ALL)%Z then a else choice, mkS (s_fs s) (s_tick s) input)
                          else Ret (choice, choice, s));
  if ((res =? PBAT_ASK_ALL)%Z || (res =? PBAT_ASK_YES)%Z)%bool
  then let '(z, s) := act s file in Ret (z, choice, s)
  else Ret (0%Z, choice, s).
(** pBat_Del.c:237-253, pBat_Rmdir.c:201-220: the loops over the files *)
Fixpoint confirm_all (act : sys -> cstr -> Z * sys) (s : sys) (l : list cstr) (ask : bool) (choice status : Z) : outcome (Z * Z * sys) :=
  match l with
  | [] => Ret (status, choice, s)
  | x :: l => do (z, choice, s) <- confirmed act s x ask choice; confirm_all act s l ask choice (Z.lor status z)
  end.
(** pBat_Del.c:171-201, pBat_Rmdir.c:167-193: the files that all the names stand for *)
Fixpoint gather (f : fsys) (rec dirmode : bool) (names : list cstr) : outcome (option (list cstr)) :=
  match names with
  | [] => Ret (Some [])
  | n :: names =>
      do l <- pBat_GetMatchFileList f rec true dirmode n;
      match l with
      | [] => Ret None
      | _ => do m <- gather f rec dirmode names; Ret (option_map (app l) m)
      end
  end.

Inductive dopts := DHelp | DGo (force rec quiet : bool) (attr : N) (names : list cstr).
(** pBat_Del.c:88-161: the parameters; PBAT_ASK_CONFIRMATION (/P, /S) has an effect only when
    [choice] is 0, and then it is set anyway (214-220), so it is left out. *)
Fixpoint del_params (fuel : nat) (w : xworld) (old line : cstr) (force rec quiet : bool) (attr : N) (names : list cstr) : outcome (dopts * xworld) :=
  match fuel with
  | O => OutOfFuel
  | S f =>
      do (t, rest, w) <- pBat_GetNextParameterEs w old line;
      match rest with
      | None => Ret (DGo force rec quiet attr names, w)
      | Some rest =>
          if (stricmp t (s2l "/P") =? 0)%Z then del_params f w t rest force rec quiet attr names
          else if (stricmp t (s2l "/F") =? 0)%Z then del_params f w t rest true rec quiet attr names
          else if (stricmp t (s2l "/S") =? 0)%Z then del_params f w t rest force true quiet attr names
          else if (stricmp t (s2l "/Q") =? 0)%Z then del_params f w t rest force rec true attr names
          else if (strnicmp t (s2l "/A") 2 =? 0)%Z then
            del_params f w t rest force rec quiet
              (pBat_MakeFileAttributes (match skipn 2 t with c :: r => if ceq c ":"%char then r else c :: r | [] => [] end)) names
          else if streqb (s2l "/?") t then Ret (DHelp, w)
          else del_params f w t rest force rec quiet attr (names ++ [pBat_FullPathDup (vw_cd (x_var w)) t])
      end
  end.
(** 47-270 [pBat_CmdDel]: the error level; [line] is what follows the name of the command. *)
Definition pBat_CmdDel (w : xworld) (s : sys) (line : cstr) : outcome (Z * xworld * sys) :=
  do (o, w) <- del_params (S (length line)) w [] line false false false 0 [];
  match o with
  | DHelp => Ret (0%Z, w, s)
  | DGo _ _ _ _ [] => Ret ((-1)%Z, w, s)
  | DGo force rec quiet attr names =>
      do l <- gather (s_fs s) rec true names;
      match l with
      | None => Ret (PBAT_NO_MATCH, w, s)
      | Some l =>
          let joker := existsb (existsb is_joker) names in
          let attr := if (attr =? 0)%N then N.lor (if force then 0 else PBAT_ATTR_NO_READONLY) (if rec then 0 else PBAT_ATTR_NO_DIR) else attr in
          let choice := if joker && negb quiet then 0%Z else PBAT_ASK_ALL in
          let st := info perm dsize (s_fs s) in
          let l := filter (fun x => pBat_CheckFileAttributes attr (st x)) l in
          let l := filter (fun x => pBat_CheckFileAttributes PBAT_ATTR_NO_DIR (st x)) l in
          do (z, _, s) <- confirm_all pBat_DelFile s l true choice 0;
          Ret (z, w, s)
      end
  end.

(** pBat_Rmdir.c:97-150: the parameters *)
Fixpoint rd_params (fuel : nat) (w : xworld) (old line : cstr) (rec quiet : bool) (names : list cstr) : outcome (dopts * xworld) :=
  match fuel with
  | O => OutOfFuel
  | S f =>
      do (t, rest, w) <- pBat_GetNextParameterEs w old line;
      match rest with
      | None => Ret (DGo false rec quiet 0 names, w)
      | Some rest =>
          if streqb t (s2l "/?") then Ret (DHelp, w)
          else if (stricmp t (s2l "/S") =? 0)%Z then rd_params f w t rest true quiet names
          else if (stricmp t (s2l "/Q") =? 0)%Z then rd_params f w t rest rec true names
          else rd_params f w t rest rec quiet (names ++ [pBat_FullPathDup (vw_cd (x_var w)) t])
      end
  end.
(** 58-240 [pBat_CmdRmdir]: the error level.  For one directory the status of
    [pBat_CmdRmdirFile] is dropped (156). *)
Definition pBat_CmdRmdir (w : xworld) (s : sys) (line : cstr) : outcome (Z * xworld * sys) :=
  do (o, w) <- rd_params (S (length line)) w [] line false false [];
  match o with
  | DHelp => Ret (0%Z, w, s)
  | DGo _ rec quiet _ names =>
      match rec, names with
      | false, [n] => do (_, _, s) <- confirmed pBat_Rmdir s n (negb quiet) PBAT_ASK_ALL; Ret (0%Z, w, s)
      | _, [] => Ret (PBAT_EXPECTED_MORE, w, s)
      | _, _ =>
          do l <- gather (s_fs s) rec false names;
          match l with
          | None => Ret (PBAT_NO_MATCH, w, s)
          | Some l =>
              let dir x := pBat_CheckFileAttributes PBAT_CMD_ATTR_DIR (info perm dsize (s_fs s) x) in
              do (z, choice, s) <- confirm_all pBat_DelFile s (filter (fun x => negb (dir x)) l) (negb quiet) (if quiet then PBAT_ASK_ALL else 0%Z) 0;
              do (z, _, s) <- confirm_all pBat_Rmdir s (filter dir l) (negb quiet) choice z;
              Ret (z, w, s)
          end
      end
  end.
End Del.
