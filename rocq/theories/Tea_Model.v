(** Tea_Model.v -- model of the reading of documents by tea (tea/src/Tea_Load.c, Tea_Node.c), which makes pBat's
    help pages.  The handler (strings are converted to another encoding there) is taken to do nothing;
    failing allocations and messages are left out.  Ending the program with exit(-1) is [None]. *)

From Verif Require Import Base.

Definition bslash : ascii := "\"%char.
Definition tab : ascii := "009"%char.

(** Tea_Load.c:33-88 [Tea_PageLoad]: the lines that make the text.  [bom]: the text mode is UTF-8; iFirstline is cleared by a
    byte order mark only. *)
Definition BOM : cstr := ["239"; "187"; "191"]%char.
Fixpoint Tea_ReadLines (bom : bool) (lines : list cstr) : cstr :=
  match lines with
  | [] => []
  | l :: r =>
      if bom && streqb (firstn 3 l) BOM then
        match skipn 3 l with
        | c :: _ => if ceq c "#"%char then [] else skipn 3 l
        | [] => []
        end ++ Tea_ReadLines false r
      else match l with
           | c :: _ => if ceq c "#"%char then Tea_ReadLines bom r else l ++ Tea_ReadLines bom r
           | [] => Tea_ReadLines bom r
           end
  end.

(** strstr for two characters *)
Fixpoint strstr2 (a b : ascii) (s : cstr) : option nat :=
  match s with
  | [] => None
  | c :: r =>
      if ceq c a && match r with d :: _ => ceq d b | [] => false end then Some 0
      else option_map S (strstr2 a b r)
  end.
(** 236-258 [Tea_SeekNextDelimiter] with lpTeaOpenDelimiters: the first of "{{" (false) and "${" (true) *)
Definition seek_open (s : cstr) : option (nat * bool) :=
  match strstr2 "{" "{" s, strstr2 "$" "{" s with
  | Some i, Some j => if j <? i then Some (j, true) else Some (i, false)
  | Some i, None => Some (i, false)
  | None, Some j => Some (j, true)
  | None, None => None
  end.
(** 260-295 [Tea_SeekNextClosingBrace] *)
Fixpoint Tea_SeekNextClosingBrace (lvl : nat) (s : cstr) : option nat :=
  match s with
  | [] => None
  | c :: r =>
      if ceq c bslash then
        match r with
        | [] => None
        | _ :: r' => option_map (fun n => S (S n)) (Tea_SeekNextClosingBrace lvl r')
        end
      else if ceq c "{"%char then option_map S (Tea_SeekNextClosingBrace (S lvl) r)
      else if ceq c "}"%char then
        match lvl with O => Some 0 | S l => option_map S (Tea_SeekNextClosingBrace l r) end
      else option_map S (Tea_SeekNextClosingBrace lvl r)
  end.

(** Tea.h:31-33 *)
Inductive kind := Para | Code | Head.
(** 90-178 [Tea_ParseStringBlock] *)
Fixpoint parse_blocks (fuel : nat) (s : cstr) : outcome (option (list (kind * cstr))) :=
  match fuel with
  | O => OutOfFuel
  | S f =>
      match seek_open s with
      | None => Ret (Some [(Para, s)])
      | Some (k, code) =>
          let t := skipn (k + 2) s in
          match (if code then Tea_SeekNextClosingBrace 0 t else strstr2 "}" "}" t) with
          | None => Ret None
          | Some j =>
              do r <- parse_blocks f (skipn (j + (if code then 1 else 2)) t);
              Ret (match r with
                   | Some l => Some ((Para, firstn k s) :: (if code then Code else Head, firstn j t) :: l)
                   | None => None
                   end)
          end
      end
  end.
Definition Tea_ParseStringBlock (s : cstr) : outcome (option (list (kind * cstr))) := parse_blocks (S (length s)) s.

(** 344-393 [Tea_BreakParagraph]: what is split off, and the rest.  [k] characters of [s] were searched. *)
Fixpoint strchr_from (k : nat) (s : cstr) : option nat :=
  match k, s with
  | O, c :: r => if ceq c nl then Some 0 else option_map S (strchr_from 0 r)
  | S k, _ :: r => option_map S (strchr_from k r)
  | _, [] => None
  end.
Fixpoint skip_sp (s : cstr) : cstr := match s with c :: r => if ceq c " "%char || ceq c tab then skip_sp r else s | [] => [] end.
Fixpoint break_loop (fuel : nat) (k : nat) (s : cstr) : outcome (list cstr) :=
  match fuel with
  | O => OutOfFuel
  | S f =>
      match strchr_from k s with
      | None => Ret [s]
      | Some j =>
          match skip_sp (skipn (S j) s) with
          | c :: _ => if ceq c nl then do l <- break_loop f 0 (skipn (j + 2) s); Ret (firstn j s :: l) else break_loop f (S j) s
          | [] => break_loop f (S j) s
          end
      end
  end.
Definition Tea_BreakParagraph (s : cstr) : outcome (list cstr) := break_loop (S (length s)) 0 s.

(** 442-494 [Tea_SweepSpace] ([node] = false) and Tea_Node.c:202-246 [Tea_SweepSpaceNode] ([node] = true): the text, and what
    iSweepBegin is.  [seen] is the part of the buffer that was read (with blanks for tabs and ends of lines), [out] what was
    written over it.  With a '\' at the end nothing ends the text that was written. *)
Fixpoint sweep (node : bool) (first group : bool) (seen out s : cstr) : cstr * bool :=
  match s with
  | [] => (out, group)
  | c :: r =>
      if ceq c bslash then
        match r with
        | [] => (out ++ skipn (length out) (seen ++ [c]), first)
        | d :: r' => sweep node first (if node then false else group) (seen ++ [c; d]) (out ++ [d]) r'
        end
      else if ceq c nl || ceq c tab || ceq c " "%char then
        if group then sweep node first true (seen ++ [" "%char]) out r
        else sweep node first true (seen ++ [" "%char]) (out ++ [" "%char]) r
      else sweep node first false (seen ++ [c]) (out ++ [c]) r
  end.
Definition Tea_SweepSpace (s : cstr) : cstr := fst (sweep false true true [] [] s).
Definition Tea_SweepSpaceNode (begin : bool) (s : cstr) : cstr * bool := sweep true begin begin [] [] s.
(** 496-505 [Tea_SweepCodeTabs] *)
Definition Tea_SweepCodeTabs (s : cstr) : cstr := map (fun c => if ceq c tab then " "%char else c) s.

(** 297-320 [Tea_PurifyPage].  The pieces of a paragraph are visited too, and are not broken again (see
    Tea_Proofs). *)
Fixpoint Tea_PurifyPage (l : list (kind * cstr)) : outcome (list (kind * cstr)) :=
  match l with
  | [] => Ret []
  | (Para, s) :: l => do ps <- Tea_BreakParagraph s; do r <- Tea_PurifyPage l; Ret (map (pair Para) ps ++ r)
  | (Head, s) :: l => do r <- Tea_PurifyPage l; Ret ((Head, Tea_SweepSpace s) :: r)
  | (Code, s) :: l => do r <- Tea_PurifyPage l; Ret ((Code, Tea_SweepCodeTabs s) :: r)
  end.

(** 507-586 [Tea_MakeLevels]; [escape] is iEscapeFound, [last] iLastLevel.  A block is its kind, level, whether it has no mark, and its
    text. *)
Fixpoint skip_white (s : cstr) : cstr := match s with c :: r => if ceq c " "%char || ceq c tab || ceq c nl then skip_white r else s | [] => [] end.
Fixpoint dashes (s : cstr) : nat := match s with c :: r => if ceq c "-"%char then S (dashes r) else 0 | [] => 0 end.
Record block := mkB { b_kind : kind; b_level : nat; b_nomark : bool; b_text : cstr }.
Fixpoint Tea_MakeLevels (escape : bool) (last : nat) (l : list (kind * cstr)) : list block :=
  match l with
  | [] => []
  | (Para, s) :: l =>
      match skip_white s with
      | [] => mkB Para 0 false s :: Tea_MakeLevels escape last l
      | c :: r =>
          let nomark := ceq c "@"%char in
          let t := if nomark then r else c :: r in
          let n := dashes t in
          let escape := escape || nomark || (0 <? n) in
          let t := if nomark then skipn n t else skipn (n - 1) t in
          mkB Para n nomark (if escape then t else s) :: Tea_MakeLevels escape n l
      end
  | (Code, s) :: l => mkB Code last false s :: Tea_MakeLevels escape last l
  | (Head, s) :: l => mkB Head 0 false s :: Tea_MakeLevels escape 0 l
  end.

(** 395-440 [Tea_RemoveVoidBlocks] *)
Definition Tea_RemoveVoidBlocks (l : list block) : list block := filter (fun b => match skip_white (b_text b) with [] => false | _ => true end) l.

(** Tea_Node.c:57-81 [Tea_SeekNodeDelim] *)
Fixpoint Tea_SeekNodeDelim (d : ascii) (s : cstr) : option nat :=
  match s with
  | [] => None
  | c :: r =>
      if ceq c bslash then
        match r with
        | [] => None
        | _ :: r' => option_map (fun n => S (S n)) (Tea_SeekNodeDelim d r')
        end
      else if ceq c d then Some 0
      else option_map S (Tea_SeekNodeDelim d r)
  end.
(** Tea.h:28-30 *)
Inductive node := Plain (t : cstr) | Emphasis (t : cstr) | Link (target t : cstr).
(** 83-189 [Tea_ParseStringNode] *)
Fixpoint parse_nodes (fuel : nat) (s : cstr) : outcome (option (list node)) :=
  match fuel with
  | O => OutOfFuel
  | S f =>
      match Tea_SeekNodeDelim "{" s with
      | None => Ret (Some [Plain s])
      | Some k =>
          let t := skipn (S k) s in
          match Tea_SeekNodeDelim "}" t with
          | None => Ret None
          | Some j =>
              let i := firstn j t in
              let x := match Tea_SeekNodeDelim "|" i with
                       | None => Emphasis i
                       | Some m => Link (firstn m i) (skipn (S m) i)
                       end in
              do r <- parse_nodes f (skipn (S j) t);
              Ret (option_map (fun l => Plain (firstn k s) :: x :: l) r)
          end
      end
  end.
Definition Tea_ParseStringNode (s : cstr) : outcome (option (list node)) := parse_nodes (S (length s)) s.
Definition text_of (x : node) : cstr := match x with Plain t | Emphasis t | Link _ t => t end.
Definition with_text (x : node) (t : cstr) : node := match x with Plain _ => Plain t | Emphasis _ => Emphasis t | Link a _ => Link a t end.
(** 191-200 [Tea_PurifyNode] *)
Fixpoint Tea_PurifyNode (begin : bool) (l : list node) : list node :=
  match l with
  | [] => []
  | x :: l => let '(t, begin) := Tea_SweepSpaceNode begin (text_of x) in with_text x t :: Tea_PurifyNode begin l
  end.
(** 248-281 [Tea_RemoveVoidNode] *)
Definition Tea_RemoveVoidNode (l : list node) : list node := filter (fun x => match text_of x with [] => false | _ => true end) l.

(** Tea_Load.c:322-342 [Tea_ParseParagraphs], for one block *)
Definition parse_paragraph (b : block) : outcome (option (block * list node)) :=
  match b_kind b with
  | Para => do r <- Tea_ParseStringNode (b_text b); Ret (option_map (fun l => (b, Tea_RemoveVoidNode (Tea_PurifyNode true l))) r)
  | _ => Ret (Some (b, []))
  end.
Fixpoint Tea_ParseParagraphs (l : list block) : outcome (option (list (block * list node))) :=
  match l with
  | [] => Ret (Some [])
  | b :: l =>
      do x <- parse_paragraph b;
      match x with
      | None => Ret None
      | Some x => do r <- Tea_ParseParagraphs l; Ret (option_map (cons x) r)
      end
  end.
(** Tea_Load.c:72-82 [Tea_PageLoad], the part after the text was read *)
Definition Tea_Page (s : cstr) : outcome (option (list (block * list node))) :=
  do l <- Tea_ParseStringBlock s;
  match l with
  | None => Ret None
  | Some l => do l <- Tea_PurifyPage l; Tea_ParseParagraphs (Tea_RemoveVoidBlocks (Tea_MakeLevels false 0 l))
  end.
