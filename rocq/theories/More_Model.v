(** More_Model.v -- model of MORE (pbat/command/pBat_More.c) when its output is no terminal.
    Everything that is written arrives, files that are open can be read to their ends, no
    allocation fails, and growable strings are ideal strings (that [pBat_EsToFullPath] may read
    freed memory is C49).  Messages and the help are left out. *)

From Verif Require Import Base Num_Model StrLib_Model Path_Model Var_Model Expand_Model If_Model Args_Model Params_Model Glob_Model Attr_Model For_Model Wc_Model Find_Model Fs_Model Search_Model Copy_Model.

(** pBat_Errors.h:86 *)
Definition PBAT_INVALID_NUMBER : Z := 44%Z.

(** pBat_More.h:27-31: the flags, and the size of tabs *)
Record mflags := mkMF { f_squeeze : bool; f_u8 : bool; f_ansi : bool; f_tab : Z }.
(** pBat_More.c:371-372: the static variables, which live on from a call to the next *)
Record mstate := mkM { m_blank : bool; m_cr : bool }.
(** Where the characters are read: at line 392, 420 or 428 *)
Inductive mode := Plain | Esc | Csi.
Definition TAB : ascii := "009"%char.
Definition ESC : ascii := "027"%char.
(** pBat_More.c:441 *)
Definition following (c : ascii) : bool := (128 <=? N_of_ascii c)%N && (N_of_ascii c <? 192)%N.
(** pBat_More.c:428 *)
Definition final (c : ascii) : bool := (64 <=? N_of_ascii c)%N && (N_of_ascii c <=? 126)%N.

(** The status, what is printed, what was not read and the static variables *)
Definition mres := outcome (bool * cstr * cstr * mstate).
Definition put_ (o : cstr) (r : mres) : mres := do (k, out, rest, st) <- r; Ret (k, o ++ out, rest, st).
(** pBat_More.c:392-493: one line.  With a size of tabs that is not positive, line 398 divides by
    zero or the loop of line 404 goes on until its counter overflows. *)
Fixpoint write_line (fl : mflags) (m : mode) (col : Z) (st : mstate) (inp : cstr) : mres :=
  match m with
  | Plain =>
      if (col <? 79)%Z then
        match inp with
        | [] => Ret (false, [], [], st)
        | c :: r =>
            if ceq c TAB then
              if (f_tab fl <=? 0)%Z then Undef
              else
                let ncol := (f_tab fl - col mod f_tab fl)%Z in
                if (col + ncol <? 80)%Z then put_ (repeat " "%char (Z.to_nat ncol)) (write_line fl Plain (col + ncol) (mkM false false) r)
                else Ret (true, [nl], r, mkM false (m_cr st))
            else if f_ansi fl && ceq c ESC then put_ [c] (write_line fl Esc col st r)
            else if f_u8 fl && following c then put_ [c] (write_line fl Plain col (mkM (m_blank st) false) r)
            else if ceq c nl then
              if (col =? 0)%Z then
                if m_blank st && f_squeeze fl then write_line fl Plain col st r
                else if m_cr st then write_line fl Plain col st r
                else Ret (true, [nl], r, mkM true (m_cr st))
              else Ret (true, [nl], r, mkM false (m_cr st))
            else put_ [c] (write_line fl Plain (col + 1) (mkM false false) r)
        end
      else Ret (true, [nl], inp, mkM (m_blank st) true)
  | Esc =>
      match inp with
      | [] => Ret (false, [], [], mkM (m_blank st) false)
      | c :: r => if ceq c "["%char then put_ [c] (write_line fl Csi col st r) else put_ [c] (write_line fl Plain col (mkM (m_blank st) false) r)
      end
  | Csi =>
      match inp with
      | [] => Ret (false, ["255"%char], [], mkM (m_blank st) false)
      | c :: r => if final c then put_ [c] (write_line fl Plain col (mkM (m_blank st) false) r) else put_ [c] (write_line fl Csi col st r)
      end
  end.
(** pBat_More.c:365-495 [pBat_MoreWriteLine]; [begin] is the number of lines that are not
    printed. *)
Definition pBat_MoreWriteLine (fl : mflags) (begin : Z) (st : mstate) (inp : cstr) : outcome (bool * Z * cstr * cstr * mstate) :=
  if (begin =? 0)%Z then do (k, out, rest, st) <- write_line fl Plain 0 st inp; Ret (k, 0%Z, out, rest, st)
  else if (begin =? INT_MIN)%Z then Undef
  else do (k, _, rest, st) <- write_line fl Plain 0 st inp; Ret (k, (begin - 1)%Z, [], rest, st).
(** pBat_More.c:274: all the lines *)
Fixpoint more_loop (fuel : nat) (fl : mflags) (begin : Z) (st : mstate) (inp : cstr) : outcome (cstr * mstate) :=
  match fuel with
  | O => OutOfFuel
  | S f =>
      do (k, begin, out, rest, st) <- pBat_MoreWriteLine fl begin st inp;
      if k : bool then do (more, st) <- more_loop f fl begin st rest; Ret (out ++ more, st) else Ret (out, st)
  end.
Definition more_text (fl : mflags) (begin : Z) (st : mstate) (inp : cstr) : outcome (cstr * mstate) := more_loop (S (length inp)) fl begin st inp.

Section More.
(** Whether a file can be opened.  The permissions of files and the sizes of directories are as
    in [info]. *)
Variable opens : cstr -> bool.
Variables (perm : place -> bool * bool) (dsize : place -> N).

(** pBat_More.c:242-313 [pBat_MoreFile], with a name; if the file cannot be opened, line 307
    closes NULL.  It always gives 0. *)
Definition pBat_MoreFile (f : fsys) (fl : mflags) (begin : Z) (st : mstate) (file : cstr) : outcome (cstr * mstate) :=
  match get f (place_of file) with
  | None => Undef
  | Some n => if opens file then more_text fl begin st (match n with File t => t | Dir => [] end) else Undef
  end.
(** pBat_More.c:224-229: the files *)
Fixpoint more_files (f : fsys) (fl : mflags) (begin : Z) (st : mstate) (l : list cstr) : outcome (cstr * mstate) :=
  match l with
  | [] => Ret ([], st)
  | x :: l =>
      do (o, st) <- pBat_MoreFile f fl begin st x;
      do (out, st) <- more_files f fl begin st l;
      Ret (o ++ out, st)
  end.

Inductive mopts := MHelp | MFail (e : Z) | MGo (fl : mflags) (begin : Z) (l : list cstr).
(** pBat_More.c:67-164: the parameters.  /C and /P only set flags that are not used here. *)
Fixpoint more_params (fuel : nat) (w : xworld) (f : fsys) (old line : cstr) (fl : mflags) (begin : Z) (l : list cstr) : outcome (mopts * xworld) :=
  match fuel with
  | O => OutOfFuel
  | S k =>
      do (t, rest, w) <- pBat_GetNextParameterEs w old line;
      match rest with
      | None => Ret (MGo fl begin l, w)
      | Some rest =>
          if streqb t (s2l "/?") then Ret (MHelp, w)
          else if (stricmp t (s2l "/E") =? 0)%Z then more_params k w f t rest fl begin l
          else if (stricmp t (s2l "/C") =? 0)%Z then more_params k w f t rest fl begin l
          else if (stricmp t (s2l "/P") =? 0)%Z then more_params k w f t rest fl begin l
          else if (stricmp t (s2l "/S") =? 0)%Z then more_params k w f t rest (mkMF true (f_u8 fl) (f_ansi fl) (f_tab fl)) begin l
          else if (stricmp t (s2l "/U") =? 0)%Z then more_params k w f t rest (mkMF (f_squeeze fl) false (f_ansi fl) (f_tab fl)) begin l
          else if (stricmp t (s2l "/A") =? 0)%Z then more_params k w f t rest (mkMF (f_squeeze fl) (f_u8 fl) false (f_tab fl)) begin l
          else if (strnicmp t (s2l "/T") 2 =? 0)%Z then
            let p := skipn 2 t in
            let p := match p with c :: r => if ceq c ":"%char then r else p | [] => p end in
            match strtol0 p with
            | (z, []) => more_params k w f t rest (mkMF (f_squeeze fl) (f_u8 fl) (f_ansi fl) (to_int z)) begin l
            | _ => Ret (MFail PBAT_INVALID_NUMBER, w)
            end
          else if (match t with c :: _ => ceq c "+"%char | [] => false end) then
            match strtol0 t with
            | (z, []) => more_params k w f t rest fl (to_int z) l
            | _ => Ret (MFail PBAT_INVALID_NUMBER, w)
            end
          else
            let t := pBat_MakeFullPathEs (vw_cd (x_var w)) t in
            do m <- pBat_GetMatchFileList f false false false t;
            match m with
            | [] => Ret (MFail PBAT_NO_MATCH, w)
            | _ => more_params k w f t rest fl begin (l ++ m)
            end
      end
  end.
(** pBat_More.c:47-240 [pBat_CmdMore]: the error level and what is printed; [line] is what follows
    MORE, [input] the standard input. *)
Definition pBat_CmdMore (w : xworld) (f : fsys) (st : mstate) (input line : cstr) : outcome (Z * cstr * mstate * xworld) :=
  do (o, w) <- more_params (S (length line)) w f [] line (mkMF false true true 8) 0 [];
  match o with
  | MHelp => Ret (0%Z, [], st, w)
  | MFail e => Ret (e, [], st, w)
  | MGo fl begin [] => do (out, st) <- more_text fl begin st input; Ret (0%Z, out, st, w)
  | MGo fl begin l =>
      match filter (fun x => pBat_CheckFileAttributes PBAT_ATTR_NO_DIR (info perm dsize f x)) l with
      | [] => Ret (PBAT_NO_MATCH, [], st, w)
      | l => do (out, st) <- more_files f fl begin st l; Ret (0%Z, out, st, w)
      end
  end.
End More.
