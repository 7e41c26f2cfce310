(** EnvStack_Spec.v -- what SETLOCAL, ENDLOCAL and the environment block are
    expected to do. *)

From Verif Require Import Base Lex Env_Model Env_Spec EnvStack_Model.

Definition is_word (p : cstr) (w : string) : Prop := same_name p (s2l w).

(** The parameters after which SETLOCAL saves the variables. *)
Definition plain_word (p : cstr) : Prop :=
  is_word p "ENABLEEXTENSIONS" \/ is_word p "DISABLEEXTENSION".
Definition option_word (p : cstr) : Prop :=
  is_word p "ENABLEDELAYEDEXPANSION" \/ is_word p "DISABLEDELAYEDEXPANSION" \/
  is_word p "CMDLYCORRECT" \/ is_word p "CMDLYINCORRECT" \/ plain_word p.
Definition saves (params : list cstr) : Prop := Forall option_word params.

(** [b'] is the state of a switch that was [b] once the options [params] have
    been obeyed, the last one of [yes] and [no] winning. *)
Inductive switched (yes no : string) : list cstr -> bool -> bool -> Prop :=
| sw_nil b : switched yes no [] b b
| sw_yes p r b b' : is_word p yes -> switched yes no r true b' -> switched yes no (p :: r) b b'
| sw_no p r b b' : is_word p no -> switched yes no r false b' -> switched yes no (p :: r) b b'
| sw_other p r b b' : ~ is_word p yes -> ~ is_word p no -> switched yes no r b b' -> switched yes no (p :: r) b b'.

(** Histories: assignments and removals, entries and exits of procedures,
    SETLOCAL and ENDLOCAL. *)
Inductive ev :=
| EvOp (o : op)
| EvEnter (addr : nat -> Z)
| EvLeave
| EvSetlocal (addr : nat -> Z) (params : list cstr)
| EvEndlocal (line : cstr).

Definition on_env (f : env -> outcome env) (w : world) : outcome world :=
  do e <- f (w_env w); Ret (mkWorld e (w_stack w) (w_delayed w) (w_cmdly w)).
Definition ev_run (x : ev) (w : world) : outcome world :=
  match x with
  | EvOp o => on_env (op_run o) w
  | EvEnter addr => on_env (pBat_PushEnvLocals addr) w
  | EvLeave => on_env pBat_PopEnvLocals w
  | EvSetlocal addr params => Ret (pBat_CmdSetLocal addr params w)
  | EvEndlocal line => Ret (pBat_CmdEndLocal line w)
  end.
Fixpoint evs_run (l : list ev) (w : world) : outcome world :=
  match l with
  | [] => Ret w
  | x :: r => do w' <- ev_run x w; evs_run r w'
  end.

(** ENDLOCAL, but not ENDLOCAL /? *)
Definition ends (line : cstr) : Prop := ~ exists r, line = s2l "/?" ++ r.

(** Histories in which every SETLOCAL has its ENDLOCAL. *)
Inductive balanced_evs : list ev -> Prop :=
| ba_nil : balanced_evs []
| ba_op o r : balanced_evs r -> balanced_evs (EvOp o :: r)
| ba_enter a r : balanced_evs r -> balanced_evs (EvEnter a :: r)
| ba_leave r : balanced_evs r -> balanced_evs (EvLeave :: r)
| ba_pair a params h line r :
    saves params -> ends line -> balanced_evs h -> balanced_evs r ->
    balanced_evs (EvSetlocal a params :: h ++ EvEndlocal line :: r).

(** *** The environment block *)

(** One "name=value" string per variable, each with its NUL, and a last NUL. *)
Fixpoint block_bytes (l : list (cstr * cstr)) : list ascii :=
  match l with
  | [] => ["000"%char]
  | (n, v) :: r => n ++ "="%char :: v ++ "000"%char :: block_bytes r
  end.
(** The variables of a table, in order. *)
Fixpoint variables (l : list var) : list (cstr * cstr) :=
  match l with
  | [] => []
  | v :: r => match v_name v with
              | Some (n, _) => (n, v_content v) :: variables r
              | None => variables r
              end
  end.
