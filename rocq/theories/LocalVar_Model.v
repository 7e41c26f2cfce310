(** LocalVar_Model.v -- model of one-letter variables (parameters %0 ... %9, %*,
    %+ and FOR variables), pbat/core/pBat_Var.c. *)

From Verif Require Import Base Num_Model StrLib_Model Path_Model.

(** A block of 128 strings ([None] is NULL). *)
Definition block := ascii -> option cstr.

(** pBat_Var.h:42 [pBat_GetLocalBlock]: [calloc]. *)
Definition pBat_GetLocalBlock : block := fun _ => None.

(** pBat_Var.c:48-59 [pBat_TestLocalVarName]: true when it gives 0 ([char] is
    signed, so the second test covers 0x80 and above too). *)
Definition name_ok (c : ascii) : bool := negb (128 <=? code c)%Z && negb (code c <=? 32)%Z.

(** Reading an element; out of the block for characters not in ASCII. *)
Definition at_block (b : block) (c : ascii) : outcome (option cstr) :=
  if (code c <? 128)%Z then Ret (b c) else Undef.

(** pBat_Var.c:322-329 [pBat_GetLocalVarPointer] *)
Definition pBat_GetLocalVarPointer (b : block) (c : ascii) : outcome (option cstr) :=
  if name_ok c then at_block b c else Ret None.

(** pBat_Var.c:331-367 [pBat_SetLocalVar] (no failing allocation). *)
Definition pBat_SetLocalVar (b : block) (c : ascii) (v : option cstr) : block :=
  if name_ok c then fun x => if ceq x c then v else b x else b.

(** pBat_Var.c:600-624 [pBat_DuplicateLocalVar] *)
Definition pBat_DuplicateLocalVar (b : block) : block := fun c => match b c with Some v => Some v | None => None end.

(** What [stat] tells; [fi_time] is the formatted access time. *)
Record finfo := mkInfo { fi_dir : bool; fi_size : Z; fi_time : cstr }.

Section Get.
(** [cur]: [lpCurrentDir]; [script]: [ifIn.lpFileName]; [stat]: the file system;
    [cap]: the capacity of [lpRecieve] once it holds a text. *)
Variables (cur script : cstr) (stat : cstr -> option finfo) (cap : cstr -> nat).

(** pBat_Var.c:408-414 *)
Definition PBAT_VAR_MAX_OPTION : nat := 16.
Fixpoint flags_run (room : nat) (s : cstr) : cstr :=
  match room, s with
  | S r, c :: s' => if inset (s2l "fdnpxzta") c then c :: flags_run r s' else []
  | _, _ => []
  end.

(** 421-447: try the flags as variable names, from the last one. *)
Fixpoint backtrack (b : block) (i : nat) (flags : cstr) : option nat :=
  match i with
  | O => None
  | S j => match nth_error flags j with
           | Some c => match b c with Some _ => Some j | None => backtrack b j flags end
           | None => None
           end
  end.

(** 474-490: [strrchr] of the first character, then shift to the left until a
    NUL is met. *)
Fixpoint strrchr_from (s : cstr) (c : ascii) (pos : nat) (last : option nat) : option nat :=
  match s with
  | [] => last
  | x :: r => strrchr_from r c (S pos) (if ceq x c then Some pos else last)
  end.
Definition strip_quotes (s : cstr) : cstr :=
  match s with
  | q :: r =>
      if ceq q """"%char || ceq q "'"%char then
        match strrchr_from s q 0 None with
        | Some O => r
        | Some (S k) => firstn k r
        | None => r
        end
      else s
  | [] => []
  end.

(** 492-506 and 508-519: the name of the file.  [pBat_EsToFullPath] works on the
    string of capacity [cap]. *)
Definition file_of (c : ascii) (text : cstr) : outcome cstr :=
  if ceq c "0"%char then Ret script else pBat_EsToFullPath cur text (cap text).

Definition nextflag (r : cstr) : option ascii := match r with c :: _ => Some c | [] => None end.
Definition is_flag (o : option ascii) (c : ascii) : bool := match o with Some d => ceq d c | None => false end.
Definition tab_unless (r : cstr) (c : option ascii) : cstr :=
  match nextflag r with
  | None => []
  | Some d => match c with
              | Some e => if ceq d e then [] else ["009"%char]
              | None => ["009"%char]
              end
  end.

(** 521-595; [info] is uninitialised ([None]) if [stat] failed. *)
Fixpoint render_flags (flags : cstr) (full disk dir name ext : cstr) (info : option finfo) : outcome cstr :=
  match flags with
  | [] => Ret []
  | c :: r =>
      do part <-
        (if ceq c "f"%char then Ret (full ++ tab_unless r None)
         else if ceq c "d"%char then Ret (disk ++ tab_unless r (Some "p"%char))
         else if ceq c "p"%char then Ret (dir ++ tab_unless r (Some "n"%char))
         else if ceq c "n"%char then Ret (name ++ tab_unless r (Some "x"%char))
         else if ceq c "x"%char then Ret (ext ++ tab_unless r None)
         else match info with
              | None => Undef
              | Some i =>
                  if ceq c "z"%char then Ret (dec (to_int (fi_size i)) ++ tab_unless r None)
                  else if ceq c "t"%char then Ret (fi_time i ++ tab_unless r None)
                  else Ret ((if fi_dir i then s2l "D      " else s2l "       ") ++ tab_unless r None)
              end);
      do t <- render_flags r full disk dir name ext info;
      Ret (part ++ t)
  end.

(** 452-595: the text for variable [c], of content [v], with [flags]. *)
Definition local_text (c : ascii) (v : cstr) (flags : cstr) : outcome cstr :=
  let text := strip_quotes v in
  let bSeekFile := existsb (inset (s2l "azt")) flags in
  let bSplitPath := existsb (inset (s2l "fdnpx")) flags in
  do (text, info) <-
    (if bSeekFile then do t <- file_of c text; Ret (t, stat t) else Ret (text, None));
  do (text, parts) <-
    (if bSplitPath then do t <- file_of c text; do p <- pBat_SplitPath t; Ret (t, p)
     else Ret (text, ([], [], [], [])));
  match flags with
  | [] => Ret text
  | _ => let '(disk, dir, name, ext) := parts in
         render_flags flags (firstn (FILENAME_MAX - 1) text) disk dir name ext info
  end.

(** pBat_Var.c:370-598 [pBat_GetLocalVar]: [None] for NULL, else the text put in
    [lpRecieve] and what follows the name. *)
Definition pBat_GetLocalVar (b : block) (s : cstr) : outcome (option (cstr * cstr)) :=
  match s with
  | [] => Ret None
  | c :: r =>
      if negb (ceq c "~"%char) then
        if name_ok c then
          do v <- at_block b c;
          Ret (match v with Some t => Some (t, r) | None => None end)
        else Ret None
      else match r with
      | [] => Ret None
      | _ =>
          let flags := flags_run PBAT_VAR_MAX_OPTION r in
          let i := length flags in
          let after := skipn i r in
          do direct <- match after with
                       | d :: rest => if name_ok d then do v <- at_block b d;
                                        Ret (match v with Some t => Some (d, t, rest) | None => None end)
                                      else Ret None
                       | [] => Ret None
                       end;
          match direct with
          | Some (d, t, rest) => do x <- local_text d t flags; Ret (Some (x, rest))
          | None =>
              match backtrack b i flags with
              | None => Ret None
              | Some j =>
                  match nth_error flags j with
                  | Some d => match b d with
                              | Some t => do x <- local_text d t (firstn j flags); Ret (Some (x, skipn (S j) r))
                              | None => Undef
                              end
                  | None => Undef
                  end
              end
          end
      end
  end.
End Get.
