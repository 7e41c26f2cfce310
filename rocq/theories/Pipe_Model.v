(** Pipe_Model.v -- model of a chain of pipes, [c0 | c1 | ... | cm]: pBat_Run.c:108-243
    pBat_ExecOperators and pBat_LaunchPipe, pBat_Clone.c pBat_CloneInstance,
    pBat_ExitInt.c pBat_Exit, with the operations on streams of pBat_Stream.c, as threads of one
    process, which share one table of descriptors.

    The thread [k] (for [k < m]) runs the command [ck], the thread [m] is the one that reads the
    line: it runs [cm] itself.  A step is a call of the system (or what no other thread can see);
    every order of steps is possible.

    Simplifications: a command is an automaton that reads and writes bytes and stops; what it
    writes is not buffered (fflush is called before each dup2, pBat_Stream.h:72).  It makes no
    redirections (C25) and runs no processes (C87) of its own.  No call fails for want of
    descriptors; the numbers of new ones are any free ones.  The three [dup] of
    pBat_Clone.c:149-151 are one step.  Errors written by commands are left out. *)

From Verif Require Import Base.

(** what a descriptor stands for: the streams that the interpreter had (0, 1, 2), or an end of
    the pipe [k], between the threads [k] and [k + 1] *)
Inductive file := Std (x : nat) | Rd (k : nat) | Wr (k : nat).

Section Pipe.
Variable Q : Type.
(** what a command does next: it reads a byte ([None]: the end), writes one ([false]: nobody can
    read it any more, EPIPE), or stops *)
Inductive action := ARead (f : option ascii -> Q) | AWrite (c : ascii) (f : bool -> Q) | AStop.
Variable act : nat -> Q -> action.
Variable q0 : nat -> Q.
(** the number of pipes, and how many bytes a pipe can hold *)
Variables (m cap : nat).

(** How far a thread is.  [Idle]: not yet there.  [MPipe j], [MClone j a b]: the loop of
    pBat_Run.c:157-196, before the pipe [j] is made, and with its two descriptors.  [O1]-[O3]: the output is
    redirected (pBat_Run.c:211-212, pBat_Stream.c:184-187), [I1]-[I3]: the input (214-217, 198-202,
    pBat_Stream.c:179-182).  [Run]: the command runs.  [P1]-[P4]: streams are given back
    (pBat_Stream.c:204-243), [C1]-[C3]: they are closed (pBat_ExitInt.c:42-44). *)
Inductive place :=
| Idle | MPipe (j : nat) | MClone (j a b : nat)
| O1 | O2 | O3 | I1 | I2 | I3 | Run | P1 | P2 | P3 | P4 | C1 | C2 | C3 | End.

(** A thread: its streams fInput, fOutput, fError; the descriptors of the pipes it was given
    ([has]: there is one to read from); those kept by the redirections; the state of its command.
    The rest are records for the proofs, that no step looks at: the bytes that were read and
    written; and, until a write fails for the first time ([broken]), what was read, whether
    the end was read, and the state. *)
Record thread := T {
  pc : place; fin : nat; fout : nat; ferr : nat; ro : nat; ri : nat; has : bool; oo : nat; oi : nat;
  q : Q; rgot : cstr; sent : cstr; broken : bool; got : cstr; heof : bool; hq : Q }.
Definition with_pc (t : thread) (p : place) : thread :=
  T p (fin t) (fout t) (ferr t) (ro t) (ri t) (has t) (oo t) (oi t) (q t) (rgot t) (sent t) (broken t) (got t) (heof t) (hq t).
Definition with_oo (t : thread) (f : nat) : thread :=
  T O2 (fin t) (fout t) (ferr t) (ro t) (ri t) (has t) f (oi t) (q t) (rgot t) (sent t) (broken t) (got t) (heof t) (hq t).
Definition with_oi (t : thread) (f : nat) : thread :=
  T I2 (fin t) (fout t) (ferr t) (ro t) (ri t) (has t) (oo t) f (q t) (rgot t) (sent t) (broken t) (got t) (heof t) (hq t).
Definition with_in (t : thread) (j f : nat) : thread :=
  T (MPipe j) (fin t) (fout t) (ferr t) (ro t) f true (oo t) (oi t) (q t) (rgot t) (sent t) (broken t) (got t) (heof t) (hq t).
(** a byte, or the end, is read *)
Definition reads (t : thread) (x : option ascii) (n : Q) : thread :=
  let keep := broken t in
  T Run (fin t) (fout t) (ferr t) (ro t) (ri t) (has t) (oo t) (oi t) n
    (match x with Some c => rgot t ++ [c] | None => rgot t end) (sent t) (broken t)
    (if keep then got t else match x with Some c => got t ++ [c] | None => got t end)
    (if keep then heof t else match x with Some _ => heof t | None => true end)
    (if keep then hq t else n).
(** a byte is written, or the write fails *)
Definition writes (t : thread) (c : ascii) (n : Q) : thread :=
  T Run (fin t) (fout t) (ferr t) (ro t) (ri t) (has t) (oo t) (oi t) n (rgot t) (sent t ++ [c]) (broken t) (got t) (heof t)
    (if broken t then hq t else n).
Definition fails (t : thread) (n : Q) : thread :=
  T Run (fin t) (fout t) (ferr t) (ro t) (ri t) (has t) (oo t) (oi t) n (rgot t) (sent t) true (got t) (heof t) (hq t).

(** the table of descriptors, what is in the pipes, the threads, and what is still to be read from
    the input of the interpreter, and what was written to its output *)
Record st := S_ { tab : nat -> option file; cont : nat -> cstr; th : nat -> thread; inp : cstr; outp : cstr }.
Definition upd {A} (g : nat -> A) (i : nat) (x : A) : nat -> A := fun j => if j =? i then x else g j.
Definition set_th (s : st) (k : nat) (t : thread) : st := S_ (tab s) (cont s) (upd (th s) k t) (inp s) (outp s).
Definition set_tab (s : st) (f : nat) (x : option file) : st := S_ (upd (tab s) f x) (cont s) (th s) (inp s) (outp s).
Definition set_cont (s : st) (k : nat) (c : cstr) : st := S_ (tab s) (upd (cont s) k c) (th s) (inp s) (outp s).
Definition set_inp (s : st) (i : cstr) : st := S_ (tab s) (cont s) (th s) i (outp s).
Definition set_outp (s : st) (o : cstr) : st := S_ (tab s) (cont s) (th s) (inp s) o.

(** The descriptor is open, somewhere. *)
Definition is_open (s : st) (x : file) : Prop := exists f, tab s f = Some x.

(** where a thread goes after its output was redirected (pBat_Run.c:214), after the command
    stopped (pBat_Stream.c:56-73: the streams are given back, the last redirection first), and after
    the input was given back *)
Definition after_out (t : thread) : place := if has t then I1 else Run.
Definition after_in (k : nat) : place := if k =? m then End else P3.
Definition stopped (k : nat) (t : thread) : place := if has t then P1 else after_in k.

(** pBat_Clone.c:41-60, 135-151: a thread as it begins, with copies of the streams of [t] *)
Definition new (k f1 f2 f3 b : nat) (t : thread) : thread :=
  T O1 f1 f2 f3 b (ri t) (has t) 0 0 (q0 k) [] [] false [] false (q0 k).

Inductive step (s : st) (k : nat) : st -> Prop :=
(** pBat_Run.c:165; 187 and pBat_Clone.c:149-151; 190; 157-159 *)
| s_pipe : forall j a b, pc (th s k) = MPipe j -> j < m -> tab s a = None -> tab s b = None -> a <> b ->
    step s k (set_cont (set_th (set_tab (set_tab s a (Some (Rd j))) b (Some (Wr j))) k (with_pc (th s k) (MClone j a b))) j [])
| s_clone : forall j a b f1 f2 f3 x1 x2 x3, pc (th s k) = MClone j a b ->
    tab s f1 = None -> tab s f2 = None -> tab s f3 = None -> f1 <> f2 -> f1 <> f3 -> f2 <> f3 ->
    tab s (fin (th s k)) = Some x1 -> tab s (fout (th s k)) = Some x2 -> tab s (ferr (th s k)) = Some x3 ->
    step s k (set_th (set_th (set_tab (set_tab (set_tab s f1 (Some x1)) f2 (Some x2)) f3 (Some x3)) k (with_in (th s k) (S j) a))
                     j (new j f1 f2 f3 b (th s k)))
| s_last : pc (th s k) = MPipe m ->
    step s k (set_th s k (with_pc (th s k) (after_out (th s k))))
(** pBat_Stream.c:185 dup, 186 dup2; pBat_Run.c:212 close *)
| s_o1 : forall f x, pc (th s k) = O1 -> tab s f = None -> tab s (fout (th s k)) = Some x ->
    step s k (set_th (set_tab s f (Some x)) k (with_oo (th s k) f))
| s_o2 : forall x, pc (th s k) = O2 -> tab s (ro (th s k)) = Some x ->
    step s k (set_th (set_tab s (fout (th s k)) (Some x)) k (with_pc (th s k) O3))
| s_o3 : pc (th s k) = O3 ->
    step s k (set_th (set_tab s (ro (th s k)) None) k (with_pc (th s k) (after_out (th s k))))
(** pBat_Stream.c:180, 181; pBat_Run.c:216, 201 *)
| s_i1 : forall f x, pc (th s k) = I1 -> tab s f = None -> tab s (fin (th s k)) = Some x ->
    step s k (set_th (set_tab s f (Some x)) k (with_oi (th s k) f))
| s_i2 : forall x, pc (th s k) = I2 -> tab s (ri (th s k)) = Some x ->
    step s k (set_th (set_tab s (fin (th s k)) (Some x)) k (with_pc (th s k) I3))
| s_i3 : pc (th s k) = I3 ->
    step s k (set_th (set_tab s (ri (th s k)) None) k (with_pc (th s k) Run))
(** the command: a byte or the end is read from a pipe, or from the input of the interpreter; the end
    is seen if the pipe is empty, and nobody can write to it *)
| s_read : forall f j c r, pc (th s k) = Run -> act k (q (th s k)) = ARead f -> tab s (fin (th s k)) = Some (Rd j) -> cont s j = c :: r ->
    step s k (set_cont (set_th s k (reads (th s k) (Some c) (f (Some c)))) j r)
| s_eof : forall f j, pc (th s k) = Run -> act k (q (th s k)) = ARead f -> tab s (fin (th s k)) = Some (Rd j) -> cont s j = [] -> ~ is_open s (Wr j) ->
    step s k (set_th s k (reads (th s k) None (f None)))
| s_get : forall f c r, pc (th s k) = Run -> act k (q (th s k)) = ARead f -> tab s (fin (th s k)) = Some (Std 0) -> inp s = c :: r ->
    step s k (set_inp (set_th s k (reads (th s k) (Some c) (f (Some c)))) r)
| s_getend : forall f, pc (th s k) = Run -> act k (q (th s k)) = ARead f -> tab s (fin (th s k)) = Some (Std 0) -> inp s = [] ->
    step s k (set_th s k (reads (th s k) None (f None)))
(** it writes to a pipe that is not full, to one nobody can read from, to the output *)
| s_write : forall c f j, pc (th s k) = Run -> act k (q (th s k)) = AWrite c f -> tab s (fout (th s k)) = Some (Wr j) -> is_open s (Rd j) -> length (cont s j) < cap ->
    step s k (set_cont (set_th s k (writes (th s k) c (f true))) j (cont s j ++ [c]))
| s_epipe : forall c f j, pc (th s k) = Run -> act k (q (th s k)) = AWrite c f -> tab s (fout (th s k)) = Some (Wr j) -> ~ is_open s (Rd j) ->
    step s k (set_th s k (fails (th s k) (f false)))
| s_put : forall c f, pc (th s k) = Run -> act k (q (th s k)) = AWrite c f -> tab s (fout (th s k)) = Some (Std 1) ->
    step s k (set_outp (set_th s k (writes (th s k) c (f true))) (outp s ++ [c]))
| s_stop : pc (th s k) = Run -> act k (q (th s k)) = AStop ->
    step s k (set_th s k (with_pc (th s k) (stopped k (th s k))))
(** pBat_Stream.c:221-222, 226-227 *)
| s_p1 : forall x, pc (th s k) = P1 -> tab s (oi (th s k)) = Some x ->
    step s k (set_th (set_tab s (fin (th s k)) (Some x)) k (with_pc (th s k) P2))
| s_p2 : pc (th s k) = P2 ->
    step s k (set_th (set_tab s (oi (th s k)) None) k (with_pc (th s k) (after_in k)))
| s_p3 : forall x, pc (th s k) = P3 -> tab s (oo (th s k)) = Some x ->
    step s k (set_th (set_tab s (fout (th s k)) (Some x)) k (with_pc (th s k) P4))
| s_p4 : pc (th s k) = P4 ->
    step s k (set_th (set_tab s (oo (th s k)) None) k (with_pc (th s k) C1))
(** pBat_ExitInt.c:42-44 *)
| s_c1 : pc (th s k) = C1 -> step s k (set_th (set_tab s (fin (th s k)) None) k (with_pc (th s k) C2))
| s_c2 : pc (th s k) = C2 -> step s k (set_th (set_tab s (fout (th s k)) None) k (with_pc (th s k) C3))
| s_c3 : pc (th s k) = C3 -> step s k (set_th (set_tab s (ferr (th s k)) None) k (with_pc (th s k) End)).

(** at the beginning: the interpreter has its three streams, and nothing else is open *)
Definition begins (input : cstr) (f0 f1 f2 : nat) : st :=
  S_ (upd (upd (upd (fun _ => None) f0 (Some (Std 0))) f1 (Some (Std 1))) f2 (Some (Std 2))) (fun _ => [])
     (fun k => T (if k =? m then MPipe 0 else Idle) f0 f1 f2 0 0 false 0 0 (q0 k) [] [] false [] false (q0 k)) input [].

Inductive exec (s0 : st) : st -> Prop :=
| ex_none : exec s0 s0
| ex_more : forall s k s', exec s0 s -> k <= m -> step s k s' -> exec s0 s'.
End Pipe.
Arguments ARead {Q} f.
Arguments AWrite {Q} c f.
Arguments AStop {Q}.
