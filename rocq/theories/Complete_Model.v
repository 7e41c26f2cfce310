(** Complete_Model.v -- model of the completion of names (pbat/core/pBat_Completion.c) and of the
    key TAB (pbat/linenoise/linenoise.c:461-582).  Growable strings are ideal strings (that
    [pBat_EsToFullPath] may read freed memory is C49), no allocation fails, and the files do not
    change meanwhile. *)

From Verif Require Import Base StrLib_Model Path_Model Glob_Model Attr_Model Fs_Model Search_Model.

(** pBat_Completion.c:199-201: how far two names are the same *)
Fixpoint alike (p q : cstr) : nat :=
  match p, q with
  | a :: p, b :: q => if ceq a b then S (alike p q) else 0
  | _, _ => 0
  end.
(** 188-216 [pBat_GetLongestCommonMatch]: [p] is the first name, [None] is -1. *)
Fixpoint longest_common (p : cstr) (files : list cstr) (min : nat) (longest : option nat) : option nat :=
  match files with
  | [] => longest
  | q :: files =>
      let m := alike p q in
      let l := match longest with Some l => if m <? l then m else l | None => m end in
      if l =? min then Some min else longest_common p files min (Some l)
  end.

(** pBat_Completion.c:108-118 and 157-167: the name at the end of a path *)
Fixpoint base_name (name pch : cstr) : cstr :=
  match pch with
  | [] => name
  | c :: r => if ceq c "/"%char || ceq c "\"%char then base_name r r else base_name name r
  end.
Definition name_of (p : cstr) : cstr := base_name p p.
Definition crlf : cstr := ["013"%char; "010"%char].
(** 169: "%-*s"; that the width is no int is left out *)
Definition padded (width : nat) (s : cstr) : cstr := s ++ repeat " "%char (width - length s).
(** 154-178: the names; [cols] is 80. *)
Fixpoint print_names (per width count : nat) (files : list cstr) : cstr :=
  match files with
  | [] => if (count mod per =? 0)%nat then [] else crlf
  | p :: files => padded width (name_of p) ++ (if (S count mod per =? 0)%nat then crlf else []) ++ print_names per width (S count) files
  end.
(** 92-186 [pBat_PrintCompletionList]; [yes] is the answer to the question of line 133, which
    is asked if there are more than 20 names.  Line 172 divides by the number of names in a row. *)
Definition pBat_PrintCompletionList (yes : bool) (files : list cstr) : outcome cstr :=
  let max := list_max (map (fun p => length (name_of p)) files) in
  if (20 <? length files) && negb yes then Ret (crlf ++ ["010"%char])
  else
    let max := if 80 <? max then 79 else max in
    let per := 80 / S max in
    match files, per with
    | _ :: _, O => Undef
    | _, _ => Ret (crlf ++ print_names per (S max) 0 files ++ crlf)
    end.

(** What the handler gives: NULL, -1 or a text *)
Inductive subst := SNone | SList | SText (x : cstr).
(** 218-268 [pBat_CompletionHandler], with a place for the text; [cur] is the current directory.
    A name that is shorter than [len] is read behind its end. *)
Definition pBat_CompletionHandler (f : fsys) (cur inp : cstr) : outcome subst :=
  let name := pBat_MakeFullPathEs cur inp in
  let len := length name in
  do files <- pBat_GetMatchFileList f false true false (name ++ ["*"%char]);
  match files with
  | [] => Ret SNone
  | p :: l =>
      match longest_common p l len None with
      | None => if length p <? len then Undef else Ret (SText (skipn len p))
      | Some m => if len <? m then Ret (SText (firstn (m - len) (skipn len p))) else Ret SList
      end
  end.
(** 242-251, with NULL; without files, line 235 writes to NULL.  The prompt is left out. *)
Definition list_handler (f : fsys) (cur inp : cstr) (yes : bool) : outcome cstr :=
  do files <- pBat_GetMatchFileList f false true false (pBat_MakeFullPathEs cur inp ++ ["*"%char]);
  match files with
  | [] => Undef
  | _ => pBat_PrintCompletionList yes files
  end.

(** linenoise.c:473-490: how much of [rev before] is in the item *)
Fixpoint item_size (quotes : bool) (rb : cstr) : nat :=
  match rb with
  | [] => 0
  | c :: rb =>
      if ceq c dquote then S (item_size (negb quotes) rb)
      else if negb quotes && existsb (ceq c) ("009"%char :: s2l " &|") then 0
      else S (item_size quotes rb)
  end.
(** linenoise.c:461-507 [xlibcu8_completion_get_item]: the text before the cursor, and behind it *)
Definition get_item (before after : cstr) : cstr :=
  let size := item_size (match after with c :: _ => ceq c dquote | [] => false end) (rev before) in
  let w := skipn (length before - size) before in
  match w with
  | c :: r => if ceq c dquote then r else w
  | [] => []
  end.
(** linenoise.c:509-525 [xlibcu8_completion_insert]: what is before the cursor and behind it.
    memcpy may not be used if the two parts overlap. *)
Definition insert (x before after : cstr) (room : nat) : outcome (cstr * cstr) :=
  if room <? length x then Ret (before, after)
  else if (negb (length after =? 0) && (length x <? length after))%nat then Undef
  else Ret (before ++ x, after).
(** linenoise.c:532-582 [completeLine]: the line, and what is printed; [buflen] is the size of the
    buffer without its last byte. *)
Definition completeLine (f : fsys) (cur : cstr) (buflen : nat) (yes : bool) (before after : cstr) : outcome (cstr * cstr * option cstr) :=
  let item := get_item before after in
  do s <- pBat_CompletionHandler f cur item;
  match s with
  | SNone => Ret (before, after, None)
  | SList => do o <- list_handler f cur item yes; Ret (before, after, Some o)
  | SText x => do (b, a) <- insert x before after (buflen - (length before + length after)); Ret (b, a, None)
  end.
