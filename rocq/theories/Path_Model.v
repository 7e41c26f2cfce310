(** Path_Model.v -- model of path handling: pbat/core/pBat_SplitPath.c,
    pbat/core/pBat_FilePath.c, pbat/core/pBat_OsStream.c, pbat/command/pBat_Cd.c,
    pbat/core/pBat_DirStack.c and pbat/command/pBat_Pushd.c (Linux build: the
    separator is '/', there are no drives).

    The file system is an oracle: [exists] answers [pBat_FileExists] and
    [pBat_DirExists]; it does not change during the calls modelled. *)

From Verif Require Import Base Num_Model StrLib_Model.

(** stdio.h, glibc *)
Definition FILENAME_MAX : nat := 4096.

(** ** pBat_OsStream.c:47-81 [_pBat_GetOsStreamName], the macro [TRANS]. *)

(** C library [strtol], base 10: value clamped to the range of [long], and the
    text after the number (the whole text if there is no number). *)
Fixpoint skip_digits (s : cstr) : cstr :=
  match s with c :: r => if is_digit c then skip_digits r else s | [] => [] end.
Definition starts_digit (s : cstr) : bool := match s with c :: _ => is_digit c | [] => false end.
Definition clamp_long (z : Z) : Z :=
  Z.max (-9223372036854775808) (Z.min 9223372036854775807 z).
Definition strtol (s : cstr) : Z * cstr :=
  let t := skip_space s in
  let u := match t with c :: r => if ceq c "-"%char || ceq c "+"%char then r else t | [] => t end in
  if starts_digit u then (clamp_long (num_signed t), skip_digits u) else (0%Z, s).

(** The [switch] of CHOOSE_STREAM: cases 0 to 10. *)
Definition choose_stream (base : cstr) (i : Z) : option cstr :=
  if (0 <=? i)%Z && (i <=? 10)%Z then Some (base ++ dec i) else None.

Definition numbered (str prefix base : cstr) : option cstr :=
  if (strnicmp str prefix 3 =? 0)%Z then
    let (v, e) := strtol (skipn 3 str) in
    match e with [] => choose_stream base (to_int (v - 1)) | _ => None end
  else None.

Definition TRANS (str : cstr) : cstr :=
  if (stricmp str (s2l "NUL") =? 0)%Z then s2l "/dev/null"
  else if (stricmp str (s2l "CON") =? 0)%Z then s2l "/dev/tty"
  else if (stricmp str (s2l "PRN") =? 0)%Z then s2l "/dev/lpt0"
  else match numbered str (s2l "LPT") (s2l "/dev/lpt") with
       | Some d => d
       | None => match numbered str (s2l "COM") (s2l "/dev/ttyS") with
                 | Some d => d
                 | None => str
                 end
       end.

(** ** libpBat.h:389-392, non-WIN32 *)
Definition is_sep (c : ascii) : bool := ceq c "/"%char.
Definition test_sep (p : cstr) : bool := match p with c :: _ => is_sep c | [] => false end.
Definition PBAT_TEST_ABSOLUTE_PATH (p : cstr) : bool := test_sep p && negb (test_sep (skipn 1 p)).

(** ** pBat_SplitPath.c:26-102.  Gives drive, directory, name and extension.  The
    buffers have FILENAME_MAX bytes; [strncpy] leaves no NUL in a buffer that is
    too small, which is [Undef] here.  The NUL put in the path and removed again
    is not modelled. *)
Definition buf_strncpy (s : cstr) : outcome cstr :=
  if length s <? FILENAME_MAX then Ret s else Undef.
Definition pBat_SplitPath (path : cstr) : outcome (cstr * cstr * cstr * cstr) :=
  let '(disk, tok) :=
    match path with
    | c :: r => if prefixb (s2l ":\") r || prefixb (s2l ":/") r
                then ([c; ":"%char], skipn 3 path) else ([], path)
    | [] => ([], path)
    end in
  do (dir, tok) <-
    match pBat_SearchLastToken tok (s2l "\/") with
    | Some k => do d <- buf_strncpy (firstn (S k) tok); Ret (d, skipn (S k) tok)
    | None => Ret ([], tok)
    end;
  match pBat_SearchLastChar tok "."%char with
  | Some k => do n <- buf_strncpy (firstn k tok);
              Ret (disk, dir, n, firstn (FILENAME_MAX - 1) ("."%char :: skipn (S k) tok))
  | None => do n <- buf_strncpy tok; Ret (disk, dir, n, [])
  end.

(** ** pBat_FilePath.c *)

(** 87-112 [pBat_MakeFullPathEs]; [cur] is [lpCurrentDir]. *)
Definition pBat_MakeFullPathEs (cur p : cstr) : cstr :=
  let partial := TRANS p in
  if PBAT_TEST_ABSOLUTE_PATH partial then partial else cur ++ "/"%char :: partial.

(** 66-85 [pBat_MakeFullPath], into a buffer of [size] bytes. *)
Definition pBat_MakeFullPath (cur p : cstr) (size : nat) : cstr :=
  firstn (size - 1) (pBat_MakeFullPathEs cur p).

(** 169-215 [pBat_FullPathDup]. *)
Definition pBat_FullPathDup := pBat_MakeFullPathEs.

(** 114-167 [pBat_EsToFullPath]: [len] is the capacity of the string.  When the
    string has to grow it is reallocated and then read through the old pointer
    ([Undef]), unless [TRANS] gave another string. *)
Definition pBat_EsToFullPath (cur s : cstr) (len : nat) : outcome cstr :=
  let p := TRANS s in
  if PBAT_TEST_ABSOLUTE_PATH p then Ret s
  else if (len <? length p + 1 + length cur + 1) && streqb p s then Undef
  else Ret (cur ++ "/"%char :: p).

(** 312-335 [pBat_GetPathNextPart]: the part and the rest. *)
Definition pBat_GetPathNextPart (path : option cstr) : option (cstr * cstr) :=
  match path with
  | None | Some [] => None
  | Some s => match strchr s ":"%char with
              | None => Some (s, [])
              | Some k => Some (firstn k s, skipn (S k) s)
              end
  end.

(** 337-376 [pBat_MakePath] of two parts: in the first turn the string is empty,
    in the second a separator is added unless the string is empty or ends with
    one. *)
Definition pBat_MakePath (a b : cstr) : cstr :=
  a ++ (match rev a with [] => [] | c :: _ => if is_sep c then [] else ["/"%char] end) ++ b.

Section Files.
Variable exists_file : cstr -> bool.

(** 253-280: the inner loop over PATHEXT; [ext] is [lpPathExtToken]. *)
Fixpoint try_exts (fuel : nat) (tmp : cstr) (ext : option cstr) : outcome (option cstr) :=
  match fuel with
  | O => OutOfFuel
  | S f =>
    match pBat_GetPathNextPart ext with
    | Some (part, rest) =>
        if exists_file (tmp ++ part) then Ret (Some (tmp ++ part)) else try_exts f tmp (Some rest)
    | None => Ret (if exists_file tmp then Some tmp else None)
    end
  end.

(** 239-286: the outer loop, after its first turn; [path] is [lpPathToken]. *)
Fixpoint try_path (fuel : nat) (partial : cstr) (path : option cstr) (ext : cstr) (bLoop : bool)
  : outcome (option cstr) :=
  match fuel with
  | O => OutOfFuel
  | S f =>
    match pBat_GetPathNextPart path with
    | Some (part, rest) =>
        if bLoop then
          do r <- try_exts (S (length ext)) (pBat_MakePath part partial) (Some ext);
          match r with
          | Some x => Ret (Some x)
          | None => try_path f partial (Some rest) ext bLoop
          end
        else Ret None
    | None => Ret None
    end
  end.

(** 217-309 [pBat_GetFilePath]: [None] is the result -1. *)
Definition pBat_GetFilePath (cur : cstr) (PATH PATHEXT : option cstr) (partial : cstr) (size : nat)
  : outcome (option cstr) :=
  let ext := match PATHEXT with Some e => e | None => [] end in
  let bLoop := negb (PBAT_TEST_ABSOLUTE_PATH partial) &&
               match strpbrk partial (s2l "/") with Some _ => false | None => true end in
  do r <- try_exts (S (length ext)) (pBat_MakeFullPathEs cur partial) (Some ext);
  do r <- match r with
          | Some x => Ret (Some x)
          | None => match PATH with
                    | None => Ret None
                    | Some p => try_path (S (length p)) partial PATH ext bLoop
                    end
          end;
  Ret (match r with Some x => Some (firstn (size - 1) x) | None => None end).
End Files.

(** ** pBat_Cd.c:71-156 [pBat_Canonicalize].  The path is [rev pre ++ rest],
    [path] pointing to the first character of [rest]. *)

(** 94-105: the end of the separators and "." components to swallow. *)
Fixpoint swallow (s : cstr) : cstr :=
  match s with
  | c :: r =>
      if is_sep c then swallow r
      else if ceq c "."%char then
        match r with
        | [] => []
        | d :: _ => if is_sep d then swallow r else s
        end
      else s
  | [] => []
  end.

(** 112-113: ".." followed by a separator or the end; gives what follows. *)
Definition dotdot (s : cstr) : option cstr :=
  match s with
  | a :: b :: r => if ceq a "."%char && ceq b "."%char && (test_sep r || match r with [] => true | _ => false end)
                   then Some r else None
  | _ => None
  end.

(** 116-118: the last separator before [path], in the reversed prefix: gives the
    reversed prefix before it. *)
Fixpoint previous_sep (rpre : cstr) : option cstr :=
  match rpre with
  | [] => None
  | c :: r => if is_sep c then Some r else previous_sep r
  end.

Fixpoint canon_loop (fuel : nat) (rpre rest : cstr) : outcome cstr :=
  match fuel with
  | O => OutOfFuel
  | S f =>
    match rest with
    | [] => Ret (rev rpre)
    | c :: r =>
        if is_sep c then
          let r' := swallow r in
          match dotdot r' with
          | Some r3 =>
              match previous_sep rpre with
              | Some p => canon_loop f p r3
              | None => (* 120-128, then 142-145 *)
                  match rpre with
                  | [] => Ret [c]
                  | _ => Ret (rev rpre)
                  end
              end
          | None =>
              match r', rpre with
              | [], _ :: _ => Ret (rev rpre)
              | _, _ => canon_loop f (c :: rpre) r'
              end
          end
        else canon_loop f (c :: rpre) r
    end
  end.
Definition pBat_Canonicalize (path : cstr) : outcome cstr := canon_loop (S (length path)) [] path.

Section Dirs.
Variable exists_dir : cstr -> bool.

(** pBat_Cd.c:158-217 [pBat_SetCurrentDir]: [cur] is [lpCurrentDir], a buffer of
    FILENAME_MAX bytes; gives the result (0 or -1) and the new [lpCurrentDir]. *)
Definition pBat_SetCurrentDir (cur line : cstr) : outcome (Z * cstr) :=
  if PBAT_TEST_ABSOLUTE_PATH line && exists_dir line then
    do c <- pBat_Canonicalize (firstn (FILENAME_MAX - 1) line); Ret (0%Z, c)
  else
    let remain := FILENAME_MAX - (length cur + 1) in
    let full := firstn (FILENAME_MAX - 1) (cur ++ "/"%char :: line) in
    if (0 <? remain) && exists_dir full then do c <- pBat_Canonicalize full; Ret (0%Z, c)
    else Ret ((-1)%Z, cur).

(** The directory stack, pBat_DirStack.c:47-91, the last directory first
    (allocation failures are not modelled). *)
Record dworld := mkDW { d_cur : cstr; d_stack : list cstr }.
Definition pBat_PushDir (w : dworld) (dir : cstr) : dworld := mkDW (d_cur w) (dir :: d_stack w).
Definition pBat_PopDir (w : dworld) : option (cstr * dworld) :=
  match d_stack w with
  | [] => None
  | p :: s => Some (p, mkDW (d_cur w) s)
  end.

(** pBat_Pushd.c:51-97 [pBat_CmdPushd] with parameters [dirs] (not empty, the
    first one not starting with /?): gives whether it succeeded. *)
Fixpoint pushd_loop (dirs : list cstr) (w : dworld) : outcome (bool * dworld) :=
  match dirs with
  | [] => Ret (true, w)
  | d :: ds =>
      do (st, c) <- pBat_SetCurrentDir (d_cur w) d;
      if (st =? 0)%Z then pushd_loop ds (pBat_PushDir (mkDW c (d_stack w)) (d_cur w))
      else Ret (false, mkDW c (d_stack w))
  end.
Definition pBat_CmdPushd := pushd_loop.

(** pBat_Pushd.c:99-123 [pBat_CmdPopd] *)
Definition pBat_CmdPopd (w : dworld) : outcome (bool * dworld) :=
  match pBat_PopDir w with
  | None => Ret (false, w)
  | Some (p, w') =>
      do (st, c) <- pBat_SetCurrentDir (d_cur w') p;
      Ret ((st =? 0)%Z, mkDW c (d_stack w'))
  end.
End Dirs.
