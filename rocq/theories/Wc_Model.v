(** Wc_Model.v -- model of WC (pbat/command/pBat_Wc.c).  Growable strings are ideal
    strings, and no allocation fails. *)

From Verif Require Import Base Num_Model Path_Model Var_Model Expand_Model Args_Model Params_Model For_Model.

(** pBat_Wc.h:25-30 [struct wc_count_t]; the counters are [size_t], of 64 bits. *)
Record wc_count_t := mkC { lines : Z; words : Z; bytes : Z; chars : Z }.
Definition size_t (z : Z) : Z := (z mod 2 ^ 64)%Z.
Definition count0 : wc_count_t := mkC 0 0 0 0.

(** A file: its name, its size as [stat] gives it, and what it gives when it is read:
    the results of the calls to [read] (pBat_Wc.c:93; [None]: -1, [Some []]: the end), or
    [None] when it cannot be opened. *)
Record wfile := mkWF { wf_name : cstr; wf_size : Z; wf_reads : option (list (option cstr)) }.

(** pBat_Wc.h:34-37 *)
Inductive wckind := WLines | WChars | WBytes | WWords.
Definition wcmode := wckind -> bool.
Definition mode0 : wcmode := fun _ => false.
Definition kind_eqb (a b : wckind) : bool :=
  match a, b with
  | WLines, WLines | WChars, WChars | WBytes, WBytes | WWords, WWords => true
  | _, _ => false
  end.
(** mode |= k *)
Definition mode_add (m : wcmode) (k : wckind) : wcmode := fun j => kind_eqb k j || m j.
(** mode == 0 and mode == PBAT_WC_BYTES *)
Definition mode_none (m : wcmode) : bool := negb (m WLines || m WChars || m WBytes || m WWords).
Definition mode_bytes (m : wcmode) : bool := m WBytes && negb (m WLines || m WChars || m WWords).

(** pBat_Wc.c:109: !(c & 0x80) || (c & 0xC0) == 0xC0 *)
Definition wc_char (c : ascii) : bool := (Z.land (code c) 128 =? 0)%Z || (Z.land (code c) 192 =? 192)%Z.
(** pBat_Wc.c:114-131 *)
Definition wc_delims : cstr := nl :: " "%char :: "009"%char :: "013"%char :: s2l ",.;".
(** pBat_Wc.c:102-144: one buffer; the flag is inword. *)
Fixpoint count_buf (buf : cstr) (inword : bool) (n : wc_count_t) : bool * wc_count_t :=
  match buf with
  | [] => (inword, n)
  | c :: r =>
      let n := if wc_char c then mkC (lines n) (words n) (bytes n) (size_t (chars n + 1)) else n in
      let n := if ceq c nl then mkC (size_t (lines n + 1)) (words n) (bytes n) (chars n) else n in
      if inset wc_delims c then
        if inword then count_buf r false (mkC (lines n) (size_t (words n + 1)) (bytes n) (chars n))
        else count_buf r inword n
      else count_buf r true n
  end.
(** pBat_Wc.c:93-146 *)
Fixpoint count_reads (rs : list (option cstr)) (inword : bool) (n : wc_count_t) : wc_count_t :=
  match rs with
  | Some ((_ :: _) as buf) :: rs =>
      let n := mkC (lines n) (words n) (size_t (bytes n + Z.of_nat (length buf))) (chars n) in
      let (inword, n) := count_buf buf inword n in
      count_reads rs inword n
  | _ => n
  end.
(** pBat_Wc.c:65-157 [pBat_FileCounts]: [None] when the file cannot be opened
    (PBAT_FILE_ERROR).  Closing the file is left out. *)
Definition pBat_FileCounts (rs : option (list (option cstr))) : option wc_count_t :=
  match rs with
  | None => None
  | Some rs => Some (count_reads rs false count0)
  end.
(** pBat_Wc.c:159-165 *)
Definition pBat_AddCounts (res val : wc_count_t) : wc_count_t :=
  mkC (size_t (lines res + lines val)) (size_t (words res + words val))
      (size_t (bytes res + bytes val)) (size_t (chars res + chars val)).
(** pBat_Wc.c:167-187: what is printed. *)
Definition pBat_PrintCounts (mode : wcmode) (n : wc_count_t) (file : option cstr) : cstr :=
  (if mode WLines then udec (lines n) ++ [" "%char] else []) ++
  (if mode WWords then udec (words n) ++ [" "%char] else []) ++
  (if mode WBytes then udec (bytes n) ++ [" "%char] else []) ++
  (if mode WChars then udec (chars n) ++ [" "%char] else []) ++
  (match file with Some f => f | None => [] end) ++ [nl].

(** pBat_Errors.h:84 *)
Definition PBAT_NO_MATCH : Z := 42.

Section Search.
(** pBat_Wc.c:253-278: the files that match a name or a pattern and are not directories;
    [] stands for both tests that end with PBAT_NO_MATCH. *)
Variable search : cstr -> list wfile.

Inductive wcopt := WHelp | WFail (e : Z) | WGo (mode : wcmode) (l : list (nat * wfile)).
(** pBat_Wc.c:206-294: the options and the files, each with the length of what is left
    out of its name.  That [pBat_EsToFullPath] may read freed memory is C49. *)
Fixpoint wc_params (fuel : nat) (w : xworld) (old line : cstr) (mode : wcmode) (l : list (nat * wfile)) : outcome (wcopt * xworld) :=
  match fuel with
  | O => OutOfFuel
  | S f =>
      do (t, rest, w) <- pBat_GetNextParameterEs w old line;
      match rest with
      | None => Ret (WGo mode l, w)
      | Some rest =>
          let file := let size := if PBAT_TEST_ABSOLUTE_PATH t then 0 else length (vw_cd (x_var w)) + 1 in
                      match search t with
                      | [] => Ret (WFail PBAT_NO_MATCH, w)
                      | items => wc_params f w t rest mode (l ++ map (fun i => (size, i)) items)
                      end in
          match t with
          | [s; c] =>
              if ceq s "/"%char then
                if ceq c "?"%char then Ret (WHelp, w)
                else if ceq c "L"%char || ceq c "l"%char then wc_params f w t rest (mode_add mode WLines) l
                else if ceq c "C"%char || ceq c "c"%char then wc_params f w t rest (mode_add mode WBytes) l
                else if ceq c "M"%char || ceq c "m"%char then wc_params f w t rest (mode_add mode WChars) l
                else if ceq c "W"%char || ceq c "w"%char then wc_params f w t rest (mode_add mode WWords) l
                else Ret (WFail PBAT_UNEXPECTED_ELEMENT, w)
              else file
          | _ => file
          end
      end
  end.

(** item->lpFileName + size: beyond the end of the name this is not a string. *)
Definition wc_shown (size : nat) (name : cstr) : outcome cstr :=
  if size <=? length name then Ret (skipn size name) else Undef.
(** pBat_Wc.c:307-344: [nb] is the number of files so far. *)
Fixpoint wc_files (mode : wcmode) (l : list (nat * wfile)) (nb : nat) (total : wc_count_t) (status r : Z) (out : cstr) : outcome (Z * cstr) :=
  match l with
  | [] => Ret (status, out ++ if 1 <? nb then pBat_PrintCounts mode total (Some (s2l "Total")) else [])
  | (size, item) :: l =>
      if mode_bytes mode then
        do f <- wc_shown size (wf_name item);
        wc_files mode l (S nb) (mkC (lines total) (words total) (size_t (bytes total + wf_size item)) (chars total))
          (Z.lor status r) r (out ++ udec (size_t (wf_size item)) ++ " "%char :: f ++ [nl])
      else
        match pBat_FileCounts (wf_reads item) with
        | None => wc_files mode l (S nb) total (Z.lor status PBAT_FILE_ERROR) PBAT_FILE_ERROR out
        | Some n =>
            do f <- wc_shown size (wf_name item);
            wc_files mode l (S nb) (pBat_AddCounts total n) (Z.lor status 0) 0 (out ++ pBat_PrintCounts mode n (Some f))
        end
  end.
(** pBat_Wc.c:189-354 [pBat_CmdWc]: the error level and what is printed; [line] is what
    follows WC, [stdin] what reading the standard input gives.  The help and the error
    messages are left out. *)
Definition pBat_CmdWc (w : xworld) (stdin : list (option cstr)) (line : cstr) : outcome (Z * cstr * xworld) :=
  do (o, w) <- wc_params (S (length line)) w [] line mode0 [];
  match o with
  | WHelp => Ret (0%Z, [], w)
  | WFail e => Ret (e, [], w)
  | WGo mode l =>
      let out := match l with
                 | [] => pBat_PrintCounts mode (count_reads stdin false count0) None
                 | _ => []
                 end in
      let mode := if mode_none mode then mode_add mode0 WBytes else mode in
      do (e, out) <- wc_files mode l 0 count0 0 0 out;
      Ret (e, out, w)
  end.
End Search.
