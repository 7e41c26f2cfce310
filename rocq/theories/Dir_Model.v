(** Dir_Model.v -- model of DIR (pbat/command/pBat_Dir.c) and of the sizes that it shows
    (libpbat/dir/pBat_Dir.c:828-844).  No allocation fails; the help, and the buffer given to a
    terminal (74-87, 244-252), are left out. *)

From Verif Require Import Base Num_Model StrLib_Model Path_Model Var_Model Expand_Model Args_Model Params_Model Glob_Model Attr_Model For_Model Wc_Model Fs_Model Search_Model Copy_Model.

Definition TAB : ascii := "009"%char.
(** libpbat/dir/pBat_Dir.c:828-844 [pBat_FormatFileSize], into [len] bytes; the parameter is an
    unsigned int, and so the loop of 833-837 turns at most three times: [fuel] is 4.  The format
    %.2d shows at least two digits. *)
Definition unit_ (i : nat) : cstr := nth i [s2l "o"; s2l "ko"; s2l "mo"; s2l "go"] [].
Definition dec2 (z : Z) : cstr := if (z <? 10)%Z then "0"%char :: dec z else dec z.
Fixpoint size_loop (fuel : nat) (i : nat) (last size : Z) : outcome (nat * Z * Z) :=
  if (1000 <=? size)%Z then
    match fuel with
    | O => OutOfFuel
    | S f => size_loop f (S i) (size mod 1000)%Z (size / 1000)%Z
    end
  else Ret (i, last, size).
Definition pBat_FormatFileSize (len : nat) (n : N) : outcome cstr :=
  do (i, last, size) <- size_loop 4 0 0 (Z.of_N n mod 4294967296)%Z;
  let u := " "%char :: unit_ (Nat.modulo i 4) in
  Ret (firstn (len - 1)
        (if (100 <=? size)%Z then " "%char :: dec size ++ u
         else if (10 <=? size)%Z then s2l "  " ++ dec size ++ u
         else dec size ++ ","%char :: dec2 (last / 10)%Z ++ u)).

Inductive diropts := LHelp | LFail (err : Z) | LGo (simple rec : bool) (attr : N) (name : cstr) (nsize : nat).
(** pBat_Dir.c:89-134: the parameters; PBAT_SEARCH_NO_STAT is set only when the attributes are
    not looked at, and left out.  [name] is [lpFileName]. *)
Fixpoint dir_params (fuel : nat) (w : xworld) (old line : cstr) (simple rec : bool) (attr : N) (name : cstr) (nsize : nat) : outcome (diropts * xworld) :=
  match fuel with
  | O => OutOfFuel
  | S f =>
      do (t, rest, w) <- pBat_GetNextParameterEs w old line;
      match rest with
      | None => Ret (LGo simple rec attr name nsize, w)
      | Some rest =>
          if streqb t (s2l "/?") then Ret (LHelp, w)
          else if (stricmp (s2l "/b") t =? 0)%Z then dir_params f w t rest true rec attr name nsize
          else if (stricmp (s2l "/s") t =? 0)%Z then dir_params f w t rest simple true attr name nsize
          else if (strnicmp (s2l "/a") t 2 =? 0)%Z then
            dir_params f w t rest simple rec
              (pBat_MakeFileAttributes (match skipn 2 t with c :: r => if ceq c ":"%char then r else c :: r | [] => [] end)) name nsize
          else match name with
               | _ :: _ => Ret (LFail PBAT_UNEXPECTED_ELEMENT, w)
               | [] => let cur := vw_cd (x_var w) in
                       dir_params f w t rest simple rec attr (pBat_MakeFullPath cur t FILENAME_MAX)
                         (if PBAT_TEST_ABSOLUTE_PATH t then 0 else length cur + 1)
               end
      end
  end.

(** A loop that writes *)
Fixpoint prints (g : cstr -> outcome cstr) (l : list cstr) : outcome cstr :=
  match l with
  | [] => Ret []
  | x :: l => do a <- g x; do b <- prints g l; Ret (a ++ b)
  end.
(** [item->lpFileName + nSize]: beyond the NUL is beyond the string. *)
Definition past (nsize : nat) (x : cstr) : outcome cstr := if nsize <=? length x then Ret (skipn nsize x) else Undef.

Section Dir.
(** The permissions of files and the sizes of directories (see [info]); the times of the files,
    as strftime shows them *)
Variables (perm : place -> bool * bool) (dsize : place -> N) (time : place -> cstr).
(** lpDirListTitle, lpDirNoFileFound, lpDirFile, lpDirDir *)
Variables (title nofile files_ dirs_ : cstr).
Variable bCmdlyCorrect : bool.

(** 180-219: one file, not /B; PBAT_FILE_READONLY, _HIDDEN, _SYSTEM and _ARCHIVE are 0 here
    (libpBat.h:97-103). *)
Definition long_line (f : fsys) (nsize : nat) (x : cstr) : outcome cstr :=
  let i := info perm dsize f x in
  do size <- (if f_dir i then Ret (s2l "<REP>" ++ [TAB])
              else do z <- pBat_FormatFileSize 8 (f_size i); Ret (s2l "       " ++ z));
  do n <- past nsize x;
  Ret (time (place_of x) ++ " "%char :: size ++ TAB :: (if f_dir i then s2l "D      " else s2l "       ") ++ TAB :: n ++ [nl]).
(** 223-226: one file, with /B *)
Definition bare_line (rec : bool) (nsize : nat) (x : cstr) : outcome cstr :=
  if bCmdlyCorrect && rec then Ret (x ++ [nl]) else do n <- past nsize x; Ret (n ++ [nl]).
(** 234-236, with the counts of 184 and 194 *)
Definition totals (f : fsys) (l : list cstr) : cstr :=
  let isdir x := f_dir (info perm dsize f x) in
  [TAB; TAB; TAB; TAB] ++ dec (Z.of_nat (length (filter (fun x => negb (isdir x)) l))) ++ " "%char :: files_ ++ [nl] ++
  [TAB; TAB; TAB; TAB] ++ dec (Z.of_nat (length (filter isdir l))) ++ " "%char :: dirs_ ++ [nl].
(** 136-240 *)
Definition dir_list (f : fsys) (cur : cstr) (simple rec : bool) (attr : N) (name : cstr) (nsize : nat) : outcome cstr :=
  let '(name, nsize) := match name with [] => (firstn (FILENAME_MAX - 1) (cur ++ s2l "/*"), length cur + 1) | _ => (name, nsize) end in
  do l <- pBat_GetMatchFileList f rec simple true name;
  let m := filter (fun x => pBat_CheckFileAttributes attr (info perm dsize f x)) l in
  if simple then prints (bare_line rec nsize) m
  else match l with
       | [] => Ret (nl :: title ++ [nl] ++ nofile ++ [nl])
       | _ => do t <- prints (long_line f nsize) m; Ret (nl :: title ++ [nl] ++ t ++ totals f m)
       end.
(** 44-254 [pBat_CmdDir]: the error level and what is written; [line] is what follows the name of
    the command. *)
Definition pBat_CmdDir (w : xworld) (f : fsys) (line : cstr) : outcome (Z * cstr * xworld) :=
  do (o, w) <- dir_params (S (length line)) w [] line false false 0 [] 0;
  match o with
  | LHelp => Ret (0%Z, [], w)
  | LFail e => Ret (e, [], w)
  | LGo simple rec attr name nsize =>
      do t <- dir_list f (vw_cd (x_var w)) simple rec attr name nsize; Ret (0%Z, t, w)
  end.
End Dir.
