(** Type_Model.v -- model of TYPE (pbat/command/pBat_Type.c).  Everything that is written
    arrives, no allocation fails, and growable strings are ideal strings (that
    [pBat_EsToFullPath] may read freed memory is C49).  Messages, the help and the buffers of
    terminals are left out. *)

From Verif Require Import Base StrLib_Model Path_Model Var_Model Expand_Model Args_Model Params_Model Glob_Model Attr_Model For_Model Wc_Model Find_Model Fs_Model Search_Model Copy_Model.

(** pBat_Type.c:55 and 68: the size of the buffer *)
Definition BUF : nat := N.to_nat 1024.

Section Type_.
(** Whether the n-th system call fails; a call to fread counts for one.  The permissions of
    files and the sizes of directories are as in [info]. *)
Variable fails : nat -> bool.
Variables (perm : place -> bool * bool) (dsize : place -> N).

(** pBat_Type.c:58-59 and 81-82: the loop; [rest] is what was not read.  fread gives 0 bytes at
    the end and when it fails. *)
Fixpoint type_loop (fuel : nat) (tick : nat) (rest : cstr) : outcome (cstr * nat) :=
  match fuel with
  | O => OutOfFuel
  | S f =>
      match (if fails tick then [] else firstn BUF rest) with
      | [] => Ret ([], S tick)
      | buf => do (out, tick) <- type_loop f (S tick) (skipn (length buf) rest); Ret (buf ++ out, tick)
      end
  end.
Definition type_text (tick : nat) (text : cstr) : outcome (cstr * nat) := type_loop (S (length text)) tick text.

(** pBat_Type.c:65-87 [pBat_TypeFile]: the status and what is printed; a directory can be opened
    and not read. *)
Definition pBat_TypeFile (f : fsys) (tick : nat) (file : cstr) : outcome (Z * cstr * nat) :=
  match get f (place_of file) with
  | None => Ret (PBAT_FILE_ERROR, [], S tick)
  | Some n =>
      if fails tick then Ret (PBAT_FILE_ERROR, [], S tick)
      else do (out, tick) <- type_text (S tick) (match n with File t => t | Dir => [] end); Ret (0%Z, out, tick)
  end.
(** pBat_Type.c:194-203: several files *)
Fixpoint type_files (f : fsys) (tick : nat) (l : list cstr) (status : Z) : outcome (Z * cstr) :=
  match l with
  | [] => Ret (status, [])
  | x :: l =>
      do (z, o, tick) <- pBat_TypeFile f tick x;
      do (status, out) <- type_files f tick l (Z.lor status z);
      Ret (status, s2l "---------- " ++ x ++ [nl] ++ o ++ out)
  end.

Inductive topts := THelp | TFail (e : Z) | TGo (l : list cstr).
(** pBat_Type.c:120-151: the parameters; [l] is the list that starts at pBegin.  pEnd stays at its
    first element, so that a list that is added replaces what follows that one. *)
Fixpoint type_params (fuel : nat) (w : xworld) (f : fsys) (old line : cstr) (l : list cstr) : outcome (topts * xworld) :=
  match fuel with
  | O => OutOfFuel
  | S k =>
      do (t, rest, w) <- pBat_GetNextParameterEs w old line;
      match rest with
      | None => Ret (TGo l, w)
      | Some rest =>
          if streqb t (s2l "/?") then Ret (THelp, w)
          else
            let t := pBat_MakeFullPathEs (vw_cd (x_var w)) t in
            do m <- pBat_GetMatchFileList f false false false t;
            match m with
            | [] => Ret (TFail PBAT_NO_MATCH, w)
            | _ => type_params k w f t rest (match l with [] => m | x :: _ => x :: m end)
            end
      end
  end.
(** pBat_Type.c:89-225 [pBat_CmdType]: the error level and what is printed; [line] is what follows
    TYPE, [input] the standard input. *)
Definition pBat_CmdType (w : xworld) (s : sys) (input line : cstr) : outcome (Z * cstr * xworld) :=
  do (o, w) <- type_params (S (length line)) w (s_fs s) [] line [];
  match o with
  | THelp => Ret (0%Z, [], w)
  | TFail e => Ret (e, [], w)
  | TGo [] => do (out, _) <- type_text (s_tick s) input; Ret (0%Z, out, w)
  | TGo l =>
      match filter (fun x => pBat_CheckFileAttributes PBAT_ATTR_NO_DIR (info perm dsize (s_fs s) x)) l with
      | [] => Ret (PBAT_NO_VALID_FILE, [], w)
      | [x] => do (z, out, _) <- pBat_TypeFile (s_fs s) (s_tick s) x; Ret (z, out, w)
      | l => do (z, out) <- type_files (s_fs s) (s_tick s) l 0; Ret (z, out, w)
      end
  end.
End Type_.
