(** Mkdir_Model.v -- model of MD (pbat/command/pBat_Mkdir.c) and REN (pbat/command/pBat_Ren.c).
    Messages and the help are left out.  That [pBat_EsToFullPath] may read freed memory is C49. *)

From Verif Require Import Base StrLib_Model Path_Model Var_Model Expand_Model Args_Model Params_Model Attr_Model For_Model Wc_Model Fs_Model Copy_Model.

(** pBat_Errors.h *)
Definition PBAT_UNABLE_RENAME : Z := 10.
Definition PBAT_MKDIR_ERROR : Z := 13.
Definition PBAT_MOVE_NOT_RENAME : Z := 52.

Section Mk.
Variable fails : nat -> bool.

(** pBat_Mkdir.c:92-121: the loop; [dir] is what was passed, [str] is left. *)
Fixpoint mkdirs_loop (s : sys) (dir str : cstr) : sys :=
  match str with
  | [] => s
  | c :: r =>
      let s := if ceq c "/"%char && match dir with [] => false | _ => true end
               then if pBat_DirExists (s_fs s) dir then s else snd (sys_mkdir fails s dir)
               else s in
      mkdirs_loop s (dir ++ [c]) r
  end.
(** 85-134 [pBat_CmdMakeDirs] *)
Definition pBat_CmdMakeDirs (s : sys) (dir : cstr) : Z * sys :=
  let s := mkdirs_loop s [] dir in
  if pBat_DirExists (s_fs s) dir then (0%Z, s)
  else match sys_mkdir fails s dir with (true, s) => (0%Z, s) | (false, s) => (PBAT_MKDIR_ERROR, s) end.

(** 65-77: the loop over the parameters *)
Fixpoint md_loop (fuel : nat) (w : xworld) (s : sys) (old line : cstr) : outcome (Z * xworld * sys) :=
  match fuel with
  | O => OutOfFuel
  | S f =>
      do (t, rest, w) <- pBat_GetNextParameterEs w old line;
      match rest with
      | None => Ret (0%Z, w, s)
      | Some rest =>
          if streqb t (s2l "/?") then Ret (0%Z, w, s)
          else match pBat_CmdMakeDirs s (pBat_FullPathDup (vw_cd (x_var w)) t) with
               | (0%Z, s) => md_loop f w s t rest
               | (z, s) => Ret (z, w, s)
               end
      end
  end.
(** 52-83 [pBat_CmdMkdir]: the error level; [line] has the name of the command. *)
Definition pBat_CmdMkdir (w : xworld) (s : sys) (line : cstr) : outcome (Z * xworld * sys) :=
  do (t, rest, w) <- pBat_GetNextParameterEs w [] line;
  match rest with
  | None => Ret (PBAT_EXPECTED_MORE, w, s)
  | Some rest => md_loop (S (length rest)) w s t rest
  end.

(** pBat_Ren.c:92-103: what is before the name, up to the last '\' or '/' *)
Fixpoint dir_part (s : cstr) : cstr :=
  match s with
  | [] => []
  | c :: r => if existsb (fun x => ceq x "\"%char || ceq x "/"%char)%bool r then c :: dir_part r
              else if ceq c "\"%char || ceq c "/"%char then [c] else []
  end.
(** [strrchr] gives the end of the string 0 when there is none, and then nothing is cut. *)
Definition without_name (s : cstr) : cstr :=
  if existsb (fun x => ceq x "\"%char || ceq x "/"%char)%bool s then dir_part s else s.
(** 46-127 [pBat_CmdRen]: the error level; [line] is what follows the name of the command.  The
    [strncat] of 106 writes past the end of the buffer when the new name does not fit. *)
Definition pBat_CmdRen (w : xworld) (s : sys) (line : cstr) : outcome (Z * xworld * sys) :=
  do (t, rest, w) <- pBat_GetNextParameterEs w [] line;
  match rest with
  | None => Ret (PBAT_EXPECTED_MORE, w, s)
  | Some rest =>
      let file := firstn (FILENAME_MAX - 1) (pBat_FullPathDup (vw_cd (x_var w)) t) in
      do (t, rest, w) <- pBat_GetNextParameterEs w t rest;
      match rest with
      | None => Ret (PBAT_EXPECTED_MORE, w, s)
      | Some _ =>
          if existsb (fun x => ceq x "/"%char || ceq x "\"%char)%bool t then Ret (PBAT_MOVE_NOT_RENAME, w, s)
          else
            let dest := without_name file in
            if FILENAME_MAX <=? length dest + length t then Undef
            else match sys_rename fails s file (dest ++ t) with
                 | (true, s) => Ret (0%Z, w, s)
                 | (false, s) => Ret (PBAT_UNABLE_RENAME, w, s)
                 end
      end
  end.
End Mk.
