(** Attr_Model.v -- model of libpbat/dir/pBat_Attr.c: file attribute tests and the
    splitting of a linked file list (non Windows build). *)

From Verif Require Import Base.

Local Open Scope N_scope.

(** libpBat.h:437-448 *)
Definition PBAT_CMD_ATTR_READONLY : N := 1.    Definition PBAT_CMD_ATTR_READONLY_N : N := 2.
Definition PBAT_CMD_ATTR_VOID : N := 4.        Definition PBAT_CMD_ATTR_VOID_N : N := 8.
Definition PBAT_CMD_ATTR_HIDEN : N := 16.      Definition PBAT_CMD_ATTR_HIDEN_N : N := 32.
Definition PBAT_CMD_ATTR_SYSTEM : N := 64.     Definition PBAT_CMD_ATTR_SYSTEM_N : N := 128.
Definition PBAT_CMD_ATTR_ARCHIVE : N := 256.   Definition PBAT_CMD_ATTR_ARCHIVE_N : N := 512.
Definition PBAT_CMD_ATTR_DIR : N := 1024.      Definition PBAT_CMD_ATTR_DIR_N : N := 2048.

(** pBat_Attr.c:30-52: the switch on the (upper-cased) letter; a '-' falls
    through to [default] and so gives 0 too. *)
Definition letter_flag (c : ascii) : N :=
  let u := toupper c in
  if ceq u "I"%char then PBAT_CMD_ATTR_VOID
  else if ceq u "A"%char then PBAT_CMD_ATTR_ARCHIVE
  else if ceq u "R"%char then PBAT_CMD_ATTR_READONLY
  else if ceq u "H"%char then PBAT_CMD_ATTR_HIDEN
  else if ceq u "S"%char then PBAT_CMD_ATTR_SYSTEM
  else if ceq u "D"%char then PBAT_CMD_ATTR_DIR
  else 0.

(** pBat_Attr.c:24-62 [pBat_MakeFileAttributes]: the loop, with [wAttr] and
    [bNeg]. *)
Fixpoint make_attr (s : cstr) (bNeg : bool) (wAttr : N) : N :=
  match s with
  | [] => wAttr
  | c :: r =>
      let bNeg := if ceq c "-"%char then true else bNeg in
      let wFlag := letter_flag c in
      if bNeg && negb (wFlag =? 0) then make_attr r false (N.lor wAttr (N.lor wFlag (N.shiftl wFlag 1)))
      else make_attr r bNeg (N.lor wAttr wFlag)
  end.
Definition pBat_MakeFileAttributes (s : cstr) : N := make_attr s false 0.

(** What [pBat_GetFileMode] and [pBat_GetFileSize] report: S_IFDIR, S_IRUSR and
    S_IWUSR bits of the mode, and the size.  PBAT_FILE_ARCHIVE, _HIDDEN and
    _SYSTEM are 0 on this platform (libpBat.h:97-102). *)
Record fileinfo := mkFile { f_dir : bool; f_read : bool; f_write : bool; f_size : N }.

Definition has (w flag : N) : bool := negb (N.land w flag =? 0).
Definition PBAT_FILE_ARCHIVE_bit : bool := false.
Definition PBAT_FILE_HIDDEN_bit : bool := false.
Definition PBAT_FILE_SYSTEM_bit : bool := false.

(** pBat_Attr.c:64-126 [pBat_CheckFileAttributes]. *)
Definition pBat_CheckFileAttributes (w : N) (f : fileinfo) : bool :=
  if w =? 0 then true
  else
    let step (iReturn : bool) (flag flag_n : N) (iResult : bool) :=
      if has w flag then iReturn && (if has w flag_n then negb iResult else iResult) else iReturn in
    let r := true in
    let r := step r PBAT_CMD_ATTR_ARCHIVE PBAT_CMD_ATTR_ARCHIVE_N PBAT_FILE_ARCHIVE_bit in
    let r := step r PBAT_CMD_ATTR_HIDEN PBAT_CMD_ATTR_HIDEN_N PBAT_FILE_HIDDEN_bit in
    let r := step r PBAT_CMD_ATTR_SYSTEM PBAT_CMD_ATTR_HIDEN_N PBAT_FILE_SYSTEM_bit in
    let r := step r PBAT_CMD_ATTR_VOID PBAT_CMD_ATTR_HIDEN_N (f_size f =? 0) in
    let r := step r PBAT_CMD_ATTR_DIR PBAT_CMD_ATTR_DIR_N (f_dir f) in
    step r PBAT_CMD_ATTR_READONLY PBAT_CMD_ATTR_READONLY_N (f_read f && negb (f_write f)).

Local Close Scope N_scope.

(** The linked list: nodes are numbers, [heap] gives [lpflNext]. *)
Definition heap := nat -> option nat.
Definition set_next (h : heap) (n : nat) (v : option nat) : heap :=
  fun x => if x =? n then v else h x.

(** pBat_Attr.c:131-186 [pBat_AttributesSplitFileList]; [check] is the test of a
    node.  Returns the heap, [*pSelected] and [*pRemaining]. *)
Fixpoint split_loop (fuel : nat) (check : nat -> bool) (h : heap)
  (pIn pMatch pUnMatch sel rem : option nat) : outcome (heap * option nat * option nat) :=
  match fuel with
  | O => OutOfFuel
  | S f =>
      match pIn with
      | None =>
          let h := match pMatch with Some m => set_next h m None | None => h end in
          let h := match pUnMatch with Some m => set_next h m None | None => h end in
          Ret (h, sel, rem)
      | Some n =>
          if check n then
            match pMatch with
            | None => split_loop f check h (h n) (Some n) pUnMatch (Some n) rem
            | Some m => let h' := set_next h m (Some n) in
                        split_loop f check h' (h' n) (Some n) pUnMatch sel rem
            end
          else
            match pUnMatch with
            | None => split_loop f check h (h n) pMatch (Some n) sel (Some n)
            | Some m => let h' := set_next h m (Some n) in
                        split_loop f check h' (h' n) pMatch (Some n) sel rem
            end
      end
  end.
Definition pBat_AttributesSplitFileList (fuel : nat) (check : nat -> bool) (h : heap) (pIn : option nat) :=
  split_loop fuel check h pIn None None None None.
