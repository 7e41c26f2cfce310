(** Exec_Model.v -- model of how programs are started (pbat/core/pBat_Exec.c): threads of the
    interpreter (the commands of a pipe, C24, each run in one) call pBat_ExecuteFile, and their
    processes run at the same time as they do.

    A state of the system says, for each call, how far the thread is, and how far the processes
    are that it forked; a step is a call of the system, of one thread or process.  Every order of
    steps is possible.

    Simplifications: pipe never fails (if it did, the whole interpreter would end), read and
    waitpid are not interrupted (the interpreter handles no signal: pBat.c:114,121 ignore two),
    all descriptors are below 2048 (line 309), and threads share descriptors, but no numbers.
    What a process does between fork and exec is one step, if no other thread sees it: variables
    (C47), streams (C25) and the directory are left out.  That a failed [chdir] is not noticed by
    pBat_RunFile is left out, too. *)

From Verif Require Import Base.

(** pBat_Exec.h:52-59 EXECINFO.flags: PBAT_EXEC_WAIT, PBAT_EXEC_SEPARATE_WINDOW; and whether the
    variable PBAT_START_SCRIPT is set *)
Record job := Job { wait : bool; window : bool; script : bool }.

(** pBat_Errors.h:45,44 *)
Definition PBAT_COMMAND_ERROR : Z := 3.
Definition PBAT_DIRECTORY_ERROR : Z := 2.

(** <sys/wait.h>: the status of a process that called exit, or that was killed by a signal; and
    WEXITSTATUS *)
Definition exited (n : Z) : Z := (Z.land n 255 * 256)%Z.
Definition killed (sig : Z) : Z := Z.land sig 127.
Definition WEXITSTATUS (ws : Z) : Z := Z.land (Z.shiftr ws 8) 255.

(** A process that was forked: line 296-338 for pBat_RunFile, line 554-599 for pBat_StartFile.
    [Forked]: nothing was done yet; [Ready]: before execv; [Running]: the program runs;
    [Failing]: execv failed; [Wrote]: the byte was written; [Dead]: it ended; [Reaped]: waitpid
    told about it. *)
Inductive stage := NoChild | Forked | Ready | Running | Failing | Wrote | Dead (ws : Z) | Reaped (ws : Z).
(** the pipes (by the number of the call) whose end for writing the process holds open *)
Record child := Child { at_stage : stage; held : list nat }.

(** How far a thread is: before pipe (289), fork (294), close (343; [ok]: fork did not fail),
    read (355), waitpid (366); before fork and waitpid of pBat_StartFile (552, 611); at the end *)
Inductive place := Pipe | Fork | Close (ok : bool) | Read | Wait | SFork | SWait | Done (z : Z).
(** a call: the thread, the processes of pBat_RunFile and pBat_StartFile, and whether a byte is in
    the pipe *)
Record call := Call { pc : place; rc : child; sc : child; byte : bool }.

(** Between pipe and close, the interpreter itself holds the end for writing. *)
Definition opened (p : place) : bool := match p with Fork | Close _ => true | _ => false end.

Definition state := nat -> call.
Definition set (s : state) (i : nat) (c : call) : state := fun j => if j =? i then c else s j.
(** what a process gets that is forked now, with [n] calls *)
Definition inherited (n : nat) (s : state) : list nat := filter (fun j => opened (pc (s j))) (seq 0 n).
(** Someone could still write to the pipe of [i]. *)
Definition writer (n : nat) (s : state) (i : nat) : Prop :=
  opened (pc (s i)) = true \/ exists j, j < n /\ (In i (held (rc (s j))) \/ In i (held (sc (s j)))).

Section Exec.
Variable n : nat.
Variable jobs : nat -> job.

(** 40-99 pBat_ExecuteFile: where a call begins.  pBat_RunFile fails at once if a window of its own
    is wanted (281-287); then, without a script, it is called again without that (60-77). *)
Definition begin (j : job) : place := if window j then if script j then SFork else Pipe else Pipe.
(** 60-96: pBat_RunFile failed *)
Definition failed (j : job) : place := if script j then SFork else Done PBAT_COMMAND_ERROR.

Definition none : child := Child NoChild [].
Definition init : state := fun i => Call (begin (jobs i)) none none false.

(** What can be seen of a step: a process could not be forked for the program, the program was not
    started, was started, ended; the same of the script; the call returned *)
Inductive event :=
| Refused (i : nat) | Started (i : nat) | Ended (i : nat) (ws : Z)
| ScriptRefused (i : nat) | ScriptStarted (i : nat) | ScriptEnded (i : nat) (ws : Z)
| Returned (i : nat) (z : Z) | Tau.

Definition done (i : nat) (p : place) : event := match p with Done z => Returned i z | _ => Tau end.

Inductive step (s : state) (i : nat) : event -> state -> Prop :=
(** pBat_RunFile: the thread *)
| st_pipe : forall r c b, s i = Call Pipe r c b ->
    step s i Tau (set s i (Call Fork r c false))
| st_fork : forall r c b, s i = Call Fork r c b ->
    step s i Tau (set s i (Call (Close true) (Child Forked (inherited n s)) c b))
| st_nofork : forall r c b, s i = Call Fork r c b ->
    step s i (Refused i) (set s i (Call (Close false) r c b))
| st_close : forall r c b, s i = Call (Close true) r c b ->
    step s i Tau (set s i (Call Read r c b))
| st_closef : forall r c b, s i = Call (Close false) r c b ->
    step s i (done i (failed (jobs i))) (set s i (Call (failed (jobs i)) r c b))
| st_read : forall r c, s i = Call Read r c true ->
    step s i (done i (failed (jobs i))) (set s i (Call (failed (jobs i)) r c true))
| st_eof : forall r c, s i = Call Read r c false -> ~ writer n s i -> wait (jobs i) = true ->
    step s i Tau (set s i (Call Wait r c false))
| st_eofn : forall r c, s i = Call Read r c false -> ~ writer n s i -> wait (jobs i) = false ->
    step s i (Returned i (WEXITSTATUS 0)) (set s i (Call (Done (WEXITSTATUS 0)) r c false))
| st_wait : forall ws h c b, s i = Call Wait (Child (Dead ws) h) c b ->
    step s i (Returned i (WEXITSTATUS ws)) (set s i (Call (Done (WEXITSTATUS ws)) (Child (Reaped ws) h) c b))
(** pBat_StartFile: the thread; its status is that of waitpid (611-615) *)
| st_sfork : forall r c b, s i = Call SFork r c b -> wait (jobs i) = true ->
    step s i Tau (set s i (Call SWait r (Child Forked (inherited n s)) b))
| st_sforkn : forall r c b, s i = Call SFork r c b -> wait (jobs i) = false ->
    step s i (Returned i 0%Z) (set s i (Call (Done 0%Z) r (Child Forked (inherited n s)) b))
| st_nosfork : forall r c b, s i = Call SFork r c b ->
    step s i (Returned i PBAT_COMMAND_ERROR) (set s i (Call (Done PBAT_COMMAND_ERROR) r c b))
| st_swait : forall ws h r b, s i = Call SWait r (Child (Dead ws) h) b ->
    step s i (Returned i ws) (set s i (Call (Done ws) r (Child (Reaped ws) h) b))
(** pBat_RunFile: the process.  It closes all descriptors but its own pipe (309-311); that one is
    closed by execv (302). *)
| st_ready : forall p h c b, s i = Call p (Child Forked h) c b ->
    step s i Tau (set s i (Call p (Child Ready [i]) c b))
| st_exec : forall p h c b, s i = Call p (Child Ready h) c b ->
    step s i (Started i) (set s i (Call p (Child Running []) c b))
| st_noexec : forall p h c b, s i = Call p (Child Ready h) c b ->
    step s i (Refused i) (set s i (Call p (Child Failing h) c b))
| st_write : forall p h c b, s i = Call p (Child Failing h) c b ->
    step s i Tau (set s i (Call p (Child Wrote h) c true))
| st_exit : forall p h c b, s i = Call p (Child Wrote h) c b ->
    step s i Tau (set s i (Call p (Child (Dead (exited (-1))) []) c b))
| st_end : forall p h c b ws, s i = Call p (Child Running h) c b ->
    step s i (Ended i ws) (set s i (Call p (Child (Dead ws) []) c b))
(** pBat_StartFile: the process.  It closes nothing; [ws]: the directory was not found, or the
    script (pBat_Errors.c:282). *)
| st_sexec : forall p h r b, s i = Call p r (Child Forked h) b ->
    step s i (ScriptStarted i) (set s i (Call p r (Child Running h) b))
| st_nosexec : forall p h r b e, s i = Call p r (Child Forked h) b -> e = PBAT_DIRECTORY_ERROR \/ e = PBAT_COMMAND_ERROR ->
    step s i (ScriptRefused i) (set s i (Call p r (Child (Dead (exited e)) []) b))
| st_send : forall p h r b ws, s i = Call p r (Child Running h) b ->
    step s i (ScriptEnded i ws) (set s i (Call p r (Child (Dead ws) []) b)).

(** an execution: what was seen, the first one first, and the state at its end *)
Inductive exec : list event -> state -> Prop :=
| ex_init : exec [] init
| ex_step : forall tr s i e s', exec tr s -> i < n -> step s i e s' -> exec (tr ++ [e]) s'.
End Exec.
