(** Exec_Spec.v -- what is expected of calls that run programs at the same time, in terms of what
    can be seen: [tr] is a list of events, the first one first. *)

From Verif Require Import Base Exec_Model.

(** An exit with code [c] gives the status 256 * [c]; here is the code of a status. *)
Definition code_of (ws : Z) : Z := ((ws / 256) mod 256)%Z.

Definition running (i : nat) (tr : list event) : Prop := In (Started i) tr /\ forall ws, ~ In (Ended i ws) tr.
Definition script_running (i : nat) (tr : list event) : Prop := In (ScriptStarted i) tr /\ forall ws, ~ In (ScriptEnded i ws) tr.
Definition returned (i : nat) (tr : list event) : Prop := exists z, In (Returned i z) tr.

(** What it may tell if the file was given to the script *)
Inductive by_script_told (j : job) (i : nat) (pre : list event) (z : Z) : Prop :=
| script_waited : wait j = true -> In (ScriptStarted i) pre -> In (ScriptEnded i z) pre -> by_script_told j i pre z
| script_refused : wait j = true -> In (ScriptRefused i) pre -> z = exited PBAT_COMMAND_ERROR \/ z = exited PBAT_DIRECTORY_ERROR -> by_script_told j i pre z
| script_not_waited : wait j = false -> z = 0%Z -> by_script_told j i pre z
| script_no_process : ~ In (ScriptStarted i) pre -> z = PBAT_COMMAND_ERROR -> by_script_told j i pre z.

(** What a call may tell: [pre] is what was seen before it returned [z], [tr] all that was ever
    seen. *)
Inductive told (j : job) (i : nat) (pre tr : list event) (z : Z) : Prop :=
| ran_waited : forall ws, wait j = true -> In (Started i) pre -> In (Ended i ws) pre -> z = code_of ws ->
    told j i pre tr z
| ran_not_waited : wait j = false -> In (Started i) pre -> z = 0%Z ->
    told j i pre tr z
| not_run : script j = false -> ~ In (Started i) tr -> In (Refused i) pre -> z = PBAT_COMMAND_ERROR ->
    told j i pre tr z
(** The file is given to the script, if the variable is set, instead of being run in a window of
    its own, or if it cannot be run. *)
| by_script : script j = true -> ~ In (Started i) tr -> window j = true \/ In (Refused i) pre -> by_script_told j i pre z ->
    told j i pre tr z.

(** An event happens once, at most. *)
Definition once (e : event) (tr : list event) : Prop :=
  forall a b, tr = a ++ e :: b -> ~ In e a /\ ~ In e b.

(** The end of a program or a script: the only thing that does not depend on the interpreter *)
Definition an_end (e : event) : Prop :=
  match e with Ended _ _ | ScriptEnded _ _ => True | _ => False end.
