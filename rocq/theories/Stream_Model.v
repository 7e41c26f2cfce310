(** Stream_Model.v -- model of pbat/core/pBat_Stream.c and of the redirections
    made for a command (pbat/core/pBat_Run.c): the table of descriptors, the
    three streams of the interpreter and the stack of what has been redirected.

    Simplified: [dup], [dup2] and [pipe] only fail on descriptors that are not
    open (a failure ends the process; here it is [Undef]); buffers and file
    offsets are not represented. *)

From Verif Require Import Base StrLib_Model Expand_Model Parse_Model.

(** What a descriptor refers to: something the interpreter was given at start,
    a file it opened (emptied first or not), or the reading end of a pipe. *)
Inductive dest := DStd (n : nat) | DFile (name : cstr) (trunc : bool) | DPipe (n : nat).

(** The table of descriptors of the process; [open] and [dup] take the lowest
    free one (POSIX). *)
Definition fdtab := list (option dest).
Definition fd_get (t : fdtab) (n : nat) : option dest := nth n t None.
Fixpoint fd_put (t : fdtab) (n : nat) (v : option dest) : fdtab :=
  match n, t with
  | O, [] => [v]
  | O, _ :: r => v :: r
  | S k, [] => None :: fd_put [] k v
  | S k, x :: r => x :: fd_put r k v
  end.
Fixpoint fd_free (t : fdtab) : nat :=
  match t with
  | Some _ :: r => S (fd_free r)
  | _ => 0
  end.

Definition sys_new (t : fdtab) (d : dest) : nat * fdtab := (fd_free t, fd_put t (fd_free t) (Some d)).
Definition sys_dup (t : fdtab) (n : nat) : outcome (nat * fdtab) :=
  match fd_get t n with Some d => Ret (sys_new t d) | None => Undef end.
Definition sys_dup2 (t : fdtab) (a b : nat) : outcome fdtab :=
  match fd_get t a with Some d => Ret (fd_put t b (Some d)) | None => Undef end.
Definition sys_close (t : fdtab) (n : nat) : fdtab := fd_put t n None.

(** pBat_Stream.h:107-113 [STREAMSTACK]; [None] stands for the number -1.
    [fr_subst] holds the two bits of pBat_Stream.h:116-125. *)
Inductive std := STDIN | STDOUT | STDERR.
Record frame := mkFrame { fr_fd : option std; fr_old : nat; fr_subst : bool * bool; fr_lock : bool }.

(** The descriptors of [fInput], [_fOutput] and [_fError], whether [fOutput] and
    [fError] are [_fOutput] (and not [_fError]), and [lppsStreamStack]. *)
Record io := mkIo {
  io_tab : fdtab; io_in : nat; io_out : nat; io_err : nat;
  io_o : bool; io_e : bool; io_stk : list frame }.

Definition set_tab (s : io) (t : fdtab) : io := mkIo t (io_in s) (io_out s) (io_err s) (io_o s) (io_e s) (io_stk s).
Definition set_ptrs (s : io) (o e : bool) : io := mkIo (io_tab s) (io_in s) (io_out s) (io_err s) o e (io_stk s).
Definition set_stk (s : io) (k : list frame) : io := mkIo (io_tab s) (io_in s) (io_out s) (io_err s) (io_o s) (io_e s) k.
Definition io_fd (s : io) (x : std) : nat :=
  match x with STDIN => io_in s | STDOUT => io_out s | STDERR => io_err s end.

(** pBat_Stream.h:100-104 *)
Definition get_lock (k : list frame) : bool := match k with f :: _ => fr_lock f | [] => true end.
Definition set_lock (k : list frame) (b : bool) : list frame :=
  match k with f :: r => mkFrame (fr_fd f) (fr_old f) (fr_subst f) b :: r | [] => [] end.

(** pBat_Stream.c:76-155 [pBat_OpenOutput]; [can_open] says whether [open] works. *)
Definition pBat_OpenOutput (can_open : cstr -> std -> bool -> bool) (s : io) (name : cstr) (x : std) (trunc : bool) : outcome io :=
  if negb (can_open name x trunc) then Ret s
  else
    let '(newfd, t1) := sys_new (io_tab s) (DFile name trunc) in
    let subst := (io_o s, io_e s) in
    do (old, t2) <- sys_dup t1 (io_fd s x);
    do t3 <- sys_dup2 t2 newfd (io_fd s x);
    let t4 := sys_close t3 newfd in
    let '(o, e) := match x with
                   | STDIN => (io_o s, io_e s)
                   | STDOUT => (true, io_e s)
                   | STDERR => (io_o s, false)
                   end in
    Ret (mkIo t4 (io_in s) (io_out s) (io_err s) o e (mkFrame (Some x) old subst false :: io_stk s)).

(** pBat_Stream.c:157-201 [pBat_OpenOutputD] *)
Definition pBat_OpenOutputD (s : io) (newfd : nat) (x : option std) : outcome io :=
  let subst := (io_o s, io_e s) in
  match x with
  | Some y =>
      do (old, t2) <- sys_dup (io_tab s) (io_fd s y);
      do t3 <- sys_dup2 t2 newfd (io_fd s y);
      Ret (set_stk (set_tab s t3) (mkFrame x old subst false :: io_stk s))
  | None => Ret (set_stk s (mkFrame None 0 subst false :: io_stk s))
  end.

(** pBat_Stream.c:204-244 [pBat_PopStreamStack] for an unlocked element. *)
Definition pop_frame (f : frame) (s : io) : outcome io :=
  do t <- match fr_fd f with
          | Some x => do t1 <- sys_dup2 (io_tab s) (fr_old f) (io_fd s x); Ret (sys_close t1 (fr_old f))
          | None => Ret (io_tab s)
          end;
  Ret (set_ptrs (set_tab s t) (fst (fr_subst f)) (snd (fr_subst f))).

(** pBat_Stream.c:246-252 [pBat_PopStreamStackUntilLock] *)
Fixpoint pop_frames (k : list frame) (s : io) : outcome io :=
  match k with
  | [] => Ret (set_stk s [])
  | f :: r => if fr_lock f then Ret (set_stk s k) else do s' <- pop_frame f s; pop_frames r s'
  end.
Definition pBat_PopStreamStackUntilLock (s : io) : outcome io := pop_frames (io_stk s) s.

(** pBat_Run.c:245-302 [pBat_ExecOutput] *)
Definition pBat_ExecOutput (can_open : cstr -> std -> bool -> bool) (st : stream) (s : io) : outcome io :=
  do s <- match st_in st with Some f => pBat_OpenOutput can_open s f STDIN false | None => Ret s end;
  do s <- match st_out st with Some (f, t) => pBat_OpenOutput can_open s f STDOUT t | None => Ret s end;
  do s <- match st_err st with Some (f, t) => pBat_OpenOutput can_open s f STDERR t | None => Ret s end;
  match st_redir st with
  | RE_NONE => Ret s
  | RE_ERR2OUT => do s <- pBat_OpenOutputD s 0 None; Ret (set_ptrs s (io_o s) true)
  | RE_OUT2ERR => do s <- pBat_OpenOutputD s 0 None; Ret (set_ptrs s false (io_e s))
  end.

(** What a command reads from and writes to. *)
Definition reads (s : io) : option dest := fd_get (io_tab s) (io_in s).
Definition writes (s : io) : option dest := fd_get (io_tab s) (if io_o s then io_out s else io_err s).
Definition complains (s : io) : option dest := fd_get (io_tab s) (if io_e s then io_out s else io_err s).
