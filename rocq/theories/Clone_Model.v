(** Clone_Model.v -- model of the instances of the interpreter that run at the same time: pBat_CloneInstance and
    pBat_DuplicateData (pbat/core/pBat_Clone.c:41-154) and what they call.  Pipes, FOR /F ('command'), START /B of a
    command and scripts run without CALL make them (pBat_Run.c:187, 786, pBat_For.c:1400, pBat_Start.c:99).
    The memory is modelled with its pointers.  Streams are in C88 and left out, and so are the order in which the
    parts of a structure are allocated, and running out of memory. *)

From Verif Require Import Base.

(** ** The memory: blocks of fields.  An address is not used again, so that using a block that was freed is always noticed. *)
Inductive field := Null | Ptr (l : nat) | Int (z : Z) | Text (s : cstr) | Junk.
Definition cell := list field.
Definition heap := list (option cell).
Definition alloc (c : cell) (h : heap) : field * heap := (Ptr (length h), h ++ [Some c]).
Definition get (h : heap) (p : field) : outcome cell :=
  match p with
  | Ptr l => match nth_error h l with Some (Some c) => Ret c | _ => Undef end
  | _ => Undef
  end.
Definition load (h : heap) (p : field) (i : nat) : outcome field :=
  do c <- get h p; match nth_error c i with Some x => Ret x | None => Undef end.
Definition strdup (p : field) (h : heap) : outcome (field * heap) :=
  do x <- load h p 0; match x with Text s => Ret (alloc [Text s] h) | _ => Undef end.
Definition strdup_opt (p : field) (h : heap) : outcome (field * heap) :=
  match p with Null => Ret (Null, h) | _ => strdup p h end.
(** The same for each of the pointers *)
Fixpoint dup_each (f : field -> heap -> outcome (field * heap)) (l : list field) (h : heap) : outcome (list field * heap) :=
  match l with
  | [] => Ret ([], h)
  | p :: r => do (q, h) <- f p h; do (qs, h) <- dup_each f r h; Ret (q :: qs, h)
  end.

(** ** The environment: ENVVAR is [name; content; previous; inherit; size], ENVBUF is [nb; index; envbuf] (pBat_Env.h:26-43) *)
(** pBat_Env.c:106-135 [pBat_AllocEnvVar] of the name and content of a variable *)
Definition dup_var (v : field) (h : heap) : outcome (field * heap) :=
  do n <- load h v 0; do c <- load h v 1;
  match n, c with
  | Null, _ | _, Null => Ret (alloc [Null; Null; Null; Int 0; Junk] h)
  | _, _ => do (n, h) <- strdup n h; do (c, h) <- strdup c h; Ret (alloc [n; c; Null; Int 0; Junk] h)
  end.
(** pBat_Env.c:80-104 [pBat_EnvDup] *)
Definition pBat_EnvDup (e : field) (h : heap) : outcome (field * heap) :=
  do nb <- load h e 0; do index <- load h e 1; do buf <- load h e 2;
  do vars <- get h buf;
  match nb, index with
  | Int nb, Int index =>
      if (0 <=? index)%Z && (index <=? nb)%Z && (Z.to_nat index <=? length vars) then
        do (l, h) <- dup_each dup_var (firstn (Z.to_nat index) vars) h;
        let '(b, h) := alloc (l ++ repeat Junk (Z.to_nat nb - Z.to_nat index)) h in
        Ret (alloc [Int nb; Int index; b] h)
      else Undef
  | _, _ => Undef
  end.

(** ** The commands: COMMANDLIST is [name; flag; length; procedure; left; right]; the procedure is a text if the flag
    says that it was defined by DEF, and the address of a function otherwise *)
Definition is_def (flag : Z) : bool := Z.testbit flag 31.
(** pBat_CmdList.c:348-412 [pBat_DuplicateCommandList]; [fuel] is the depth *)
Fixpoint pBat_DuplicateCommandList (fuel : nat) (p : field) (h : heap) : outcome (field * heap) :=
  match fuel with
  | O => OutOfFuel
  | S f =>
      match p with
      | Null => Ret (Null, h)
      | _ =>
          do name <- load h p 0; do flag <- load h p 1; do len <- load h p 2; do proc <- load h p 3;
          do lft <- load h p 4; do rgt <- load h p 5;
          match flag, len with
          | Int flag, Int len =>
              do (name, h) <- strdup name h;
              do (proc, h) <- (if is_def flag then strdup proc h else match proc with Int z => Ret (Int z, h) | _ => Undef end);
              do (lft, h) <- pBat_DuplicateCommandList f lft h;
              do (rgt, h) <- pBat_DuplicateCommandList f rgt h;
              Ret (alloc [name; Int flag; Int len; proc; lft; rgt] h)
          | _, _ => Undef
          end
      end
  end.

(** ** pBat_Var.c:600-624 [pBat_DuplicateLocalVar] *)
Definition LOCAL_VAR_BLOCK_SIZE : nat := 128.
Definition pBat_DuplicateLocalVar (b : field) (h : heap) : outcome (field * heap) :=
  do l <- get h b;
  if length l =? LOCAL_VAR_BLOCK_SIZE then do (l, h) <- dup_each strdup_opt l h; Ret (alloc l h) else Undef.

(** pBat_DirStack.c:96-137 [pBat_DirStackCopy]: [paths] of [count] texts *)
Definition pBat_DirStackCopy (paths : field) (count : nat) (h : heap) : outcome (field * heap) :=
  match count with
  | O => Ret (alloc [] h)
  | _ => do l <- get h paths;
         if count <=? length l then do (l, h) <- dup_each strdup (firstn count l) h; Ret (alloc l h) else Undef
  end.

(** ** What an instance has in variables of its thread: [i_state] are those without pointers that are copied
    (error level, echo, delayed expansion, current directory, colour, position in the script ...), [i_setlocal] is lpesEnv.
    Left out are bIgnoreExit, ifIn.batch and lpAltPromptString, which are reset, and the cache of strings, which is new.
    All of them are __thread variables (pBat_Globals.c:56-93); lppBatPath and lppBatExec, which all instances share, do not change. *)
Record instance := mkI { i_commands : field; i_locals : field; i_args : field; i_paths : field; i_count : nat; i_env : field; i_setlocal : field; i_state : list Z }.
(** pBat_Clone.c:109-154 and 62-106: the copy; lpesEnv is NULL in a new thread.  (The code exits if there are no commands at all.) *)
Definition pBat_DuplicateData (fuel : nat) (i : instance) (h : heap) : outcome (instance * heap) :=
  do (commands, h) <- pBat_DuplicateCommandList fuel (i_commands i) h;
  do (locals, h) <- pBat_DuplicateLocalVar (i_locals i) h;
  do (args, h) <- pBat_DuplicateLocalVar (i_args i) h;
  do (paths, h) <- pBat_DirStackCopy (i_paths i) (i_count i) h;
  do (env, h) <- pBat_EnvDup (i_env i) h;
  Ret (mkI commands locals args paths (i_count i) env Null (i_state i), h).

(** ** Several instances.  Whatever an instance does to the memory consists of these steps; [r] are places for values
    of the instance, numbered from 0 on.  What is computed with numbers and texts is any value. *)
Inductive op :=
| OLoad (r p i : nat)        (* r = p[i] *)
| OStore (p i r : nat)       (* p[i] = r *)
| OAlloc (r : nat) (n : nat) (* r = malloc of n fields *)
| OFree (p : nat)
| OMove (r s : nat)
| OValue (r : nat) (v : field).
Record thread := mkT { t_inst : instance; t_regs : nat -> field }.
Definition system := (heap * list thread)%type.
Definition set_at {A} (i : nat) (x : A) (l : list A) : list A := firstn i l ++ x :: skipn (S i) l.
(** The places: 0 to 5 are lpclCommands, lpvLocalVars, lpvArguments, the directories, lpeEnv and lpesEnv *)
Definition inst_field (i : instance) (r : nat) : option field :=
  nth_error [i_commands i; i_locals i; i_args i; i_paths i; i_env i; i_setlocal i] r.
Definition set_inst (i : instance) (r : nat) (v : field) : instance :=
  match r with
  | 0 => mkI v (i_locals i) (i_args i) (i_paths i) (i_count i) (i_env i) (i_setlocal i) (i_state i)
  | 1 => mkI (i_commands i) v (i_args i) (i_paths i) (i_count i) (i_env i) (i_setlocal i) (i_state i)
  | 2 => mkI (i_commands i) (i_locals i) v (i_paths i) (i_count i) (i_env i) (i_setlocal i) (i_state i)
  | 3 => mkI (i_commands i) (i_locals i) (i_args i) v (i_count i) (i_env i) (i_setlocal i) (i_state i)
  | 4 => mkI (i_commands i) (i_locals i) (i_args i) (i_paths i) (i_count i) v (i_setlocal i) (i_state i)
  | _ => mkI (i_commands i) (i_locals i) (i_args i) (i_paths i) (i_count i) (i_env i) v (i_state i)
  end.
Definition reg (t : thread) (r : nat) : field :=
  match inst_field (t_inst t) r with Some v => v | None => t_regs t (r - 6) end.
Definition set_reg (t : thread) (r : nat) (v : field) : thread :=
  if r <? 6 then mkT (set_inst (t_inst t) r v) (t_regs t) else mkT (t_inst t) (fun j => if j =? r - 6 then v else t_regs t j).
Definition set_state (t : thread) (n : nat) (l : list Z) : thread :=
  let i := t_inst t in mkT (mkI (i_commands i) (i_locals i) (i_args i) (i_paths i) n (i_env i) (i_setlocal i) l) (t_regs t).
Definition no_pointer (v : field) : Prop := forall l, v <> Ptr l.
(** One step of a thread; nothing follows a wrong use of the memory. *)
Inductive does : op -> heap -> thread -> heap -> thread -> Prop :=
| do_load r p i h t q x : reg t p = q -> load h q i = Ret x -> does (OLoad r p i) h t h (set_reg t r x)
| do_store p i r h t l x c : reg t p = Ptr l -> reg t r = x -> nth_error h l = Some (Some c) -> i < length c ->
    does (OStore p i r) h t (set_at l (Some (set_at i x c)) h) t
| do_alloc r n h t : does (OAlloc r n) h t (h ++ [Some (repeat Junk n)]) (set_reg t r (Ptr (length h)))
| do_free p h t l c : reg t p = Ptr l -> nth_error h l = Some (Some c) -> does (OFree p) h t (set_at l None h) t
| do_move r s h t x : reg t s = x -> does (OMove r s) h t h (set_reg t r x)
| do_value r v h t : no_pointer v -> does (OValue r v) h t h (set_reg t r v).
(** A step of the system: [k] is the thread that does it.  A new instance gets the texts [args] of its task in blocks of their own
    (pBat_Run.c:177-187, 768-786, pBat_For.c:1391-1400, pBat_Start.c:96-99). *)
Inductive step : system -> nat -> system -> Prop :=
| st_op h ts k t o h' t' : nth_error ts k = Some t -> does o h t h' t' -> step (h, ts) k (h', set_at k t' ts)
| st_state h ts k t n l : nth_error ts k = Some t -> step (h, ts) k (h, set_at k (set_state t n l) ts)
| st_clone h ts k t fuel i h1 args : nth_error ts k = Some t -> pBat_DuplicateData fuel (t_inst t) h = Ret (i, h1) ->
    step (h, ts) k (h1 ++ map (fun s => Some [Text s]) args, ts ++ [mkT i (fun j => if j <? length args then Ptr (length h1 + j) else Null)]).
Inductive steps : system -> system -> Prop :=
| ss_end s : steps s s
| ss_next s k s1 s2 : steps s s1 -> step s1 k s2 -> steps s s2.
