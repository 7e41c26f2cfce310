(** EnvStack_Model.v -- model of pbat/core/pBat_EnvStack.c, of
    pbat/command/pBat_Setlocal.c and of [pBat_GetEnvBlock] (pBat_Env.c).

    Simplifications: a command line is given as the list of its parameters (as
    [pBat_GetNextParameter] yields them one after the other); messages and help
    texts are not modelled. *)

From Verif Require Import Base Env_Model.

(** pBat_EnvStack.h [ENVSTACK], without the link to the previous item. *)
Record item := mkItem { i_env : env; i_delayed : bool; i_cmdly : bool }.

(** The globals [lpeEnv], [lpesEnv] (as a list, head first), [bDelayedExpansion]
    and [bCmdlyCorrect]. *)
Record world := mkWorld { w_env : env; w_stack : list item; w_delayed : bool; w_cmdly : bool }.

(** pBat_EnvStack.c:24-41 [pBat_PushEnvStack] *)
Definition pBat_PushEnvStack (addr : nat -> Z) (w : world) : world :=
  mkWorld (pBat_EnvDup addr (w_env w))
    (mkItem (w_env w) (w_delayed w) (w_cmdly w) :: w_stack w) (w_delayed w) (w_cmdly w).

(** pBat_EnvStack.c:43-59 [pBat_PopEnvStack] *)
Definition pBat_PopEnvStack (w : world) : world :=
  match w_stack w with
  | [] => w
  | i :: r => mkWorld (i_env i) r (i_delayed i) (i_cmdly i)
  end.

(** pBat_EnvStack.c:61-77 [pBat_FreeEnvStack] *)
Fixpoint free_stack (l : list item) (w : world) : world :=
  match l with
  | [] => mkWorld (w_env w) [] (w_delayed w) (w_cmdly w)
  | i :: r => free_stack r (mkWorld (i_env i) r (i_delayed i) (i_cmdly i))
  end.
Definition pBat_FreeEnvStack (w : world) : world := free_stack (w_stack w) w.

Definition set_delayed (w : world) (b : bool) : world := mkWorld (w_env w) (w_stack w) b (w_cmdly w).
Definition set_cmdly (w : world) (b : bool) : world := mkWorld (w_env w) (w_stack w) (w_delayed w) b.

(** pBat_Setlocal.c:58-131 [pBat_CmdSetLocal], with PBAT_STATIC_CMDLYCORRECT not
    defined.  [push]: the variable of the same name. *)
Fixpoint setlocal (addr : nat -> Z) (params : list cstr) (push : bool) (w : world) : world :=
  match params with
  | [] => if push then pBat_PushEnvStack addr w else w
  | p :: r =>
      if streqb p (s2l "/?") then w
      else if (stricmp p (s2l "/Q") =? 0)%Z then setlocal addr r false w
      else if (stricmp p (s2l "ENABLEDELAYEDEXPANSION") =? 0)%Z then setlocal addr r push (set_delayed w true)
      else if (stricmp p (s2l "DISABLEDELAYEDEXPANSION") =? 0)%Z then setlocal addr r push (set_delayed w false)
      else if (stricmp p (s2l "CMDLYCORRECT") =? 0)%Z then setlocal addr r push (set_cmdly w true)
      else if (stricmp p (s2l "CMDLYINCORRECT") =? 0)%Z then setlocal addr r push (set_cmdly w false)
      else if (stricmp p (s2l "ENABLEEXTENSIONS") =? 0)%Z || (stricmp p (s2l "DISABLEEXTENSION") =? 0)%Z
        then setlocal addr r push w
      else w
  end.
Definition pBat_CmdSetLocal (addr : nat -> Z) (params : list cstr) (w : world) : world :=
  setlocal addr params true w.

(** pBat_Setlocal.c:138-154 [pBat_CmdEndLocal]; [line] is the text after the
    command name with leading blanks skipped. *)
Definition pBat_CmdEndLocal (line : cstr) (w : world) : world :=
  if (strnicmp line (s2l "/?") 2 =? 0)%Z then w else pBat_PopEnvStack w.

(** *** The block given to a child process *)

(** A block from [malloc]: [None] is a byte never written.  Writing out of the
    block, or reading a byte which was not written, is [Undef]. *)
Definition mem := list (option ascii).
Definition malloc (n : nat) : mem := repeat None n.
Definition poke (m : mem) (p : nat) (c : ascii) : outcome mem :=
  if p <? length m then Ret (update m p (Some c)) else Undef.
Definition peek (m : mem) (p : nat) : outcome ascii :=
  match nth_error m p with Some (Some c) => Ret c | _ => Undef end.

Definition NULc : ascii := "000"%char.
Fixpoint mem_strcpy (m : mem) (p : nat) (s : cstr) : outcome mem :=
  match s with
  | [] => poke m p NULc
  | c :: r => do m' <- poke m p c; mem_strcpy m' (S p) r
  end.
Fixpoint mem_strend (fuel : nat) (m : mem) (p : nat) : outcome nat :=
  match fuel with
  | O => OutOfFuel
  | S f => do c <- peek m p; if ceq c NULc then Ret p else mem_strend f m (S p)
  end.
Definition mem_strcat (m : mem) (p : nat) (s : cstr) : outcome mem :=
  do e <- mem_strend (S (length m)) m p; mem_strcpy m e s.

(** pBat_Env.c:446-489 [pBat_GetEnvBlock] *)
Definition entry_size (v : var) : nat :=
  match v_name v with Some (n, _) => length (v_content v) + length n + 2 | None => 0 end.
Fixpoint fill_block (m : mem) (p : nat) (l : list var) : outcome (mem * nat) :=
  match l with
  | [] => Ret (m, p)
  | v :: r =>
      match v_name v with
      | None => fill_block m p r
      | Some (n, _) =>
          do m1 <- mem_strcpy m p n;
          do m2 <- mem_strcat m1 p (s2l "=");
          do m3 <- mem_strcat m2 p (v_content v);
          fill_block m3 (p + entry_size v) r
      end
  end.
Definition pBat_GetEnvBlock (e : env) : outcome (mem * nat) :=
  let size := S (fold_right (fun v n => entry_size v + n) 0 (e_buf e)) in
  do (m, p) <- fill_block (malloc size) 0 (e_buf e);
  do m' <- poke m p NULc;
  Ret (m', size).
