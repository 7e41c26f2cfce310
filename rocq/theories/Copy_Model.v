(** Copy_Model.v -- model of COPY and MOVE (pbat/command/pBat_Copy.c).  No allocation fails;
    file descriptors are places; messages and the help are left out. *)

From Verif Require Import Base StrLib_Model Path_Model Var_Model Expand_Model Args_Model Params_Model Attr_Model For_Model Wc_Model Fs_Model.

(** pBat_Errors.h *)
Definition PBAT_EXPECTED_MORE : Z := 8.
Definition PBAT_INCOMPATIBLE_ARGS : Z := 9.
Definition PBAT_UNABLE_MOVE : Z := 47.
Definition PBAT_UNABLE_COPY : Z := 48.
Definition PBAT_UNABLE_CAT : Z := 58.

Section Copy.
Variables (fails : nat -> bool) (chunk : nat -> nat).

(** pBat_Copy.c:567-581 and 671-685: the loop of write.  [writen] is a size_t, to which -1 is
    added when write fails: the error is seen when it was 0, else one byte is written again.
    [None] is the error; [pos] is the offset in the file. *)
Fixpoint write_loop (fuel : nat) (s : sys) (q : place) (append : bool) (pos writen : nat) (buf : cstr) : outcome (option nat * sys) :=
  match fuel with
  | O => OutOfFuel
  | S f =>
      match sys_write fails chunk s q append pos (skipn writen buf) with
      | (Some n, s) =>
          if writen + n =? length buf then Ret (Some (pos + n), s) else write_loop f s q append (pos + n) (writen + n) buf
      | (None, s) =>
          match writen with
          | O => Ret (None, s)
          | S w => write_loop f s q append pos w buf
          end
      end
  end.
(** pBat_Copy.c:550-583 and 654-687: the loop of read; 0 or the error [err] *)
Fixpoint copy_loop (fuel : nat) (s : sys) (old new : place) (append : bool) (rpos wpos : nat) (err : Z) : outcome (Z * sys) :=
  match fuel with
  | O => OutOfFuel
  | S f =>
      match sys_read fails chunk s old rpos 2048 with
      | (None, s) => Ret (err, s)
      | (Some [], s) => Ret (0%Z, s)
      | (Some buf, s) =>
          do (r, s) <- write_loop (S f) s new append wpos 0 buf;
          match r with
          | None => Ret (err, s)
          | Some wpos => copy_loop f s old new append (rpos + length buf) wpos err
          end
      end
  end.
(** pBat_Copy.c:507-596 [pBat_CopyFile]; fstat (520) is left out *)
Definition pBat_CopyFile (fuel : nat) (s : sys) (file dest : cstr) : outcome (Z * sys) :=
  match sys_open fails s file with
  | (None, s) => Ret ((-1)%Z, s)
  | (Some old, s) =>
      match sys_create fails s dest true with
      | (None, s) => Ret (PBAT_UNABLE_COPY, s)
      | (Some new, s) => copy_loop fuel s old new false 0 0 PBAT_UNABLE_COPY
      end
  end.
(** pBat_Copy.c:598-700 [pBat_CatFile]; [second] is PBAT_COPY_CAT_2ND, which is set from then on *)
Definition pBat_CatFile (fuel : nat) (s : sys) (file dest : cstr) (second : bool) : outcome (Z * bool * sys) :=
  match sys_open fails s file with
  | (None, s) => Ret (PBAT_UNABLE_CAT, second, s)
  | (Some old, s) =>
      match sys_create fails s dest (negb second) with
      | (None, s) => Ret (PBAT_UNABLE_CAT, true, s)
      | (Some new, s) => do (z, s) <- copy_loop fuel s old new second 0 0 PBAT_UNABLE_CAT; Ret (z, true, s)
      end
  end.
(** pBat_Copy.c:491-505 [pBat_MoveFile] *)
Definition pBat_MoveFile (s : sys) (file dest : cstr) : Z * sys :=
  if pBat_FileExists (s_fs s) dest then
    match sys_remove fails s dest with
    | (false, s) => (PBAT_UNABLE_MOVE, s)
    | (true, s) => match sys_rename fails s file dest with (true, s) => (0%Z, s) | (false, s) => (PBAT_UNABLE_MOVE, s) end
    end
  else match sys_rename fails s file dest with (true, s) => (0%Z, s) | (false, s) => (PBAT_UNABLE_MOVE, s) end.

(** The flags PBAT_COPY_SILENCE, _MULTIPLE, _MOVE, _CAT, _CAT_2ND *)
Record cflags := mkC { c_silent : bool; c_multiple : bool; c_move : bool; c_cat : bool; c_second : bool }.
(** pBat_Copy.c:328-399 [pBat_CmdCopyFile] *)
Definition pBat_CmdCopyFile (fuel : nat) (s : sys) (file dest : cstr) (fl : cflags) : outcome (Z * cflags * sys) :=
  do real <- (if c_multiple fl && negb (c_cat fl)
              then do (_, _, name, ext) <- pBat_SplitPath file;
                   if length name + length ext <? FILENAME_MAX then Ret (pBat_MakePath dest (name ++ ext)) else Undef
              else Ret dest);
  do (ok, fl, s) <- (if pBat_FileExists (s_fs s) real && negb (c_silent fl)
                     then do (a, input) <- pBat_AskConfirmation true PBAT_ASK_NO (s_in s);
                          let s := mkS (s_fs s) (s_tick s) input in
                          Ret (negb (a =? PBAT_ASK_NO)%Z,
                               if (a =? PBAT_ASK_ALL)%Z then mkC true (c_multiple fl) (c_move fl) (c_cat fl) (c_second fl) else fl, s)
                     else Ret (true, fl, s));
  if negb ok then Ret (0%Z, fl, s)
  else if c_move fl then let '(z, s) := pBat_MoveFile s file real in Ret (z, fl, s)
  else if c_cat fl then
    do (z, second, s) <- pBat_CatFile fuel s file real (c_second fl);
    Ret (z, mkC (c_silent fl) (c_multiple fl) (c_move fl) (c_cat fl) second, s)
  else do (z, s) <- pBat_CopyFile fuel s file real; Ret (z, fl, s).

(** What follows 306-311: all the files *)
Fixpoint copy_files (fuel : nat) (s : sys) (l : list cstr) (dest : cstr) (fl : cflags) (status : Z) : outcome (Z * sys) :=
  match l with
  | [] => Ret (status, s)
  | file :: l => do (z, fl, s) <- pBat_CmdCopyFile fuel s file dest fl; copy_files fuel s l dest fl (Z.lor status z)
  end.

(** A file that was found: its name and what [pBat_GetFileMode] and [pBat_GetFileSize] say *)
Definition item := (cstr * fileinfo)%type.
(** libpBat.h:452 *)
Definition PBAT_ATTR_NO_DIR : N := N.lor PBAT_CMD_ATTR_DIR PBAT_CMD_ATTR_DIR_N.
(** pBat_Copy.c:90-98 [pBat__EndWithDirectoryMark] *)
Definition pBat__EndWithDirectoryMark (p : cstr) : bool := match rev p with c :: _ => is_sep c | [] => false end.
(** pBat_Copy.c:285-286: [i] is the number of sources before. *)
Fixpoint count (i : nat) (l : list cstr) : nat :=
  match l with
  | [] => i
  | _ :: l => if i <? 2 then count (S i) l else S i
  end.

Section Search.
(** [pBat_GetMatchFileList] of a full path *)
Variable search : fsys -> cstr -> list item.
(** [pBat_CmdCopyRecursive], for /R *)
Variable recursive : sys -> list cstr -> cstr -> N -> cflags -> outcome (Z * sys).

(** pBat_Copy.c:238-263: the files of the sources *)
Fixpoint sources (f : fsys) (l : list cstr) : option (list item) :=
  match l with
  | [] => Some []
  | n :: l =>
      match search f n with
      | [] => None
      | items => option_map (app items) (sources f l)
      end
  end.
Inductive copts := CHelp | CFail (e : Z) | CGo (silent rec cat : bool) (attr : N) (files : list cstr).
(** pBat_Copy.c:132-208: the parameters; [files] are full paths, the current directory is [vw_cd]. *)
Fixpoint copy_params (fuel : nat) (w : xworld) (move : bool) (old line : cstr) (silent rec cat : bool) (attr : N) (files : list cstr) : outcome (copts * xworld) :=
  match fuel with
  | O => OutOfFuel
  | S f =>
      do (t, rest, w) <- pBat_GetNextParameterEs w old line;
      match rest with
      | None => Ret (CGo silent rec cat attr files, w)
      | Some rest =>
          if ((stricmp (s2l "/Y") t =? 0)%Z || (stricmp (s2l "/-Y") t =? 0)%Z)%bool then
            copy_params f w move t rest (silent || match skipn 1 t with c :: _ => ceq c "-"%char | [] => false end) rec cat attr files
          else if (strnicmp (s2l "/A") t 2 =? 0)%Z then
            copy_params f w move t rest silent rec cat
              (pBat_MakeFileAttributes (match skipn 2 t with c :: r => if ceq c ":"%char then r else c :: r | [] => [] end)) files
          else if (stricmp (s2l "/R") t =? 0)%Z then copy_params f w move t rest silent true cat attr files
          else if streqb t (s2l "/?") then Ret (CHelp, w)
          else if streqb t (s2l "+") then
            if move then Ret (CFail PBAT_UNEXPECTED_ELEMENT, w) else copy_params f w move t rest silent rec true attr files
          else copy_params f w move t rest silent rec cat attr (files ++ [pBat_FullPathDup (vw_cd (x_var w)) t])
      end
  end.
(** pBat_Copy.c:100-326 [pBat_CmdCopy]: the error level; [move] for MOVE, [line] is what follows the
    name of the command. *)
Definition pBat_CmdCopy (fuel : nat) (move : bool) (w : xworld) (s : sys) (line : cstr) : outcome (Z * xworld * sys) :=
  do (o, w) <- copy_params (S (length line)) w move [] line false false false 0 [];
  match o with
  | CHelp => Ret (0%Z, w, s)
  | CFail e => Ret (e, w, s)
  | CGo silent rec cat attr files =>
      if length files <? 2 then Ret (PBAT_EXPECTED_MORE, w, s)
      else
        let from := removelast files in
        let dest := last files [] in
        if rec && cat then Ret (PBAT_INCOMPATIBLE_ARGS, w, s)
        else if rec then do (z, s) <- recursive s from dest attr (mkC silent false move cat false); Ret (z, w, s)
        else
          match sources (s_fs s) from with
          | None => Ret (PBAT_NO_MATCH, w, s)
          | Some items =>
              let l := map fst (filter (fun x => pBat_CheckFileAttributes (N.lor attr PBAT_ATTR_NO_DIR) (snd x)) items) in
              let multiple := pBat_DirExists (s_fs s) dest || pBat__EndWithDirectoryMark dest in
              let several := count (length from) (tl l) =? 3 in
              let cat := cat || several && negb multiple && negb move in
              let multiple := multiple || several && (multiple || move) in
              do (z, s) <- copy_files fuel s l dest (mkC silent multiple move cat false) 0;
              Ret (z, w, s)
          end
  end.
End Search.
End Copy.
