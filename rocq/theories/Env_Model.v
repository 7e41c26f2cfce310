(** Env_Model.v -- model of pbat/core/pBat_Env.c (the table of environment
    variables) and pbat/core/pBat_EnvStack.c.

    Addresses.  The comparison function of the table subtracts name *pointers*
    when one of the names is NULL and returns the difference as an [int]
    (pBat_Env.c:39-40).  A name therefore carries [Z], the value of its address
    converted to [int].  Allocation failures end the program and are not
    modelled. *)

From Verif Require Import Base.

(** A name: its text and its address as an [int]. *)
Definition nm := (cstr * Z)%type.

(** A value saved by [pBat_PushEnvLocals]: the rest of the [previous] chain is
    the rest of the list. *)
Record saved := mkSaved { s_name : nm; s_content : cstr; s_inherit : bool }.

(** pBat_Env.h [ENVVAR]; [v_name = None] is the NULL name of a removed
    variable. *)
Record var := mkVar {
  v_name : option nm; v_content : cstr; v_inherit : bool; v_prev : list saved }.

(** pBat_Env.h [ENVBUF]: [e_buf] holds the [index] entries in use. *)
Record env := mkEnv { e_buf : list var; e_nb : nat }.
Definition e_index (e : env) : nat := length (e_buf e).

(** pBat_Env.c:35-43 [pBat_EnvCompName], on names. *)
Definition comp_nm (a b : option nm) : Z :=
  match a, b with
  | Some (x, _), Some (y, _) => stricmp x y
  | None, None => 0
  | None, Some (_, p) => p
  | Some (_, p), None => - p
  end.
Definition pBat_EnvCompName (v w : var) : Z := comp_nm (v_name v) (v_name w).

(** [*name] as a signed char; 0 for the empty string. *)
Definition schar (c : ascii) : Z := if (code c <? 128)%Z then code c else (code c - 256)%Z.
Definition PBAT_ENV_LOCAL_PREFIX : ascii := "_"%char.

(** pBat_Env.c:45-53 [pBat_EnvCompLocal]; the first argument is not used. *)
Definition pBat_EnvCompLocal (w : var) : Z :=
  match v_name w with
  | None => - code PBAT_ENV_LOCAL_PREFIX
  | Some ([], _) => - code PBAT_ENV_LOCAL_PREFIX
  | Some (c :: _, _) => schar c - code PBAT_ENV_LOCAL_PREFIX
  end.

(** [bsearch] of the C library (the usual implementation: bisect [l, u)); [k] is
    the comparison of the key with an element. *)
Fixpoint bsearch_loop {A} (fuel : nat) (k : A -> Z) (buf : list A) (l u : nat) : outcome (option nat) :=
  match fuel with
  | O => OutOfFuel
  | S f =>
      if l <? u then
        let idx := (l + u) / 2 in
        match nth_error buf idx with
        | None => Undef
        | Some x =>
            if (k x <? 0)%Z then bsearch_loop f k buf l idx
            else if (k x >? 0)%Z then bsearch_loop f k buf (S idx) u
            else Ret (Some idx)
        end
      else Ret None
  end.
Definition bsearch {A} (k : A -> Z) (buf : list A) : outcome (option nat) :=
  bsearch_loop (S (length buf)) k buf 0 (length buf).

(** [qsort]: modelled by a stable insertion sort.  It only matters that, for an
    order relation, the result is a sorted permutation. *)
Fixpoint sort_insert (x : var) (l : list var) : list var :=
  match l with
  | [] => [x]
  | y :: l' => if (pBat_EnvCompName x y <=? 0)%Z then x :: l else y :: sort_insert x l'
  end.
Fixpoint qsort (l : list var) : list var :=
  match l with [] => [] | x :: l' => sort_insert x (qsort l') end.

Fixpoint update {A} (l : list A) (i : nat) (x : A) : list A :=
  match l, i with
  | [], _ => []
  | _ :: r, O => x :: r
  | y :: r, S i' => y :: update r i' x
  end.

(** pBat_Env.c:137-152 [pBat_AdjustVarName]: drop the blanks at the end, unless
    there is nothing else. *)
Definition env_blank (c : ascii) : bool := ceq c space || ceq c tab.
Fixpoint last_nonblank (s : cstr) (pos : nat) (last : option nat) : option nat :=
  match s with
  | [] => last
  | c :: r => last_nonblank r (S pos) (if env_blank c then last else Some pos)
  end.
Definition pBat_AdjustVarName (s : cstr) : cstr :=
  match last_nonblank s 0 None with
  | Some n => firstn (S n) s
  | None => s
  end.

(** pBat_Env.c:225-242 [pBat_GetEnv]; [ka] is the address of the name asked for.
    [Undef] if the entry found has a NULL content, which cannot happen as a key
    with a name never compares equal to an entry without one unless [ka] is 0. *)
Definition find_name (e : env) (name : cstr) (ka : Z) : outcome (option nat) :=
  bsearch (fun v => comp_nm (Some (name, ka)) (v_name v)) (e_buf e).
Definition find_free (e : env) : outcome (option nat) :=
  bsearch (fun v => comp_nm None (v_name v)) (e_buf e).

Definition pBat_GetEnv (e : env) (name : cstr) (ka : Z) : outcome (option cstr) :=
  do r <- find_name e name ka;
  match r with
  | None => Ret None
  | Some i => match nth_error (e_buf e) i with
              | Some v => Ret (match v_name v with Some _ => Some (v_content v) | None => None end)
              | None => Undef
              end
  end.

(** pBat_Env.c:358-379 [pBat_UnSetEnv]. *)
Definition pBat_UnSetEnv (e : env) (name : cstr) (ka : Z) : outcome env :=
  do r <- find_name e name ka;
  match r with
  | None => Ret e
  | Some i => match nth_error (e_buf e) i with
              | None => Undef
              | Some v =>
                  match v_prev v with
                  | [] => Ret (mkEnv (qsort (update (e_buf e) i (mkVar None [] (v_inherit v) []))) (e_nb e))
                  | _ :: _ => Ret e
                  end
              end
  end.

(** pBat_Env.c:57-78 [pBat_ReAllocEnvBuf]: the new capacity. *)
Definition pBat_ReAllocEnvBuf (nb : nat) : nat := (nb / 128) * 128 + 128.

(** pBat_Env.c:254-350 [pBat_SetEnvEx]; [content = None] is NULL, [ka] the address
    of [name] and [na] that of its copy. *)
Definition pBat_SetEnvEx (e : env) (name : cstr) (ka na : Z) (content : option cstr) (inherit : bool)
  : outcome env :=
  match content with
  | None | Some [] => pBat_UnSetEnv e name ka
  | Some text =>
      let namecpy := pBat_AdjustVarName name in
      do r <- find_name e namecpy na;
      match r with
      | Some i =>
          match nth_error (e_buf e) i with
          | None => Undef
          | Some v => Ret (mkEnv (update (e_buf e) i
                              (mkVar (v_name v) text (v_inherit v || inherit) (v_prev v))) (e_nb e))
          end
      | None =>
          do f <- find_free e;
          match f with
          | Some i =>
              match nth_error (e_buf e) i with
              | None => Undef
              | Some v => Ret (mkEnv (qsort (update (e_buf e) i
                                  (mkVar (Some (namecpy, na)) text (v_inherit v || inherit) []))) (e_nb e))
              end
          | None =>
              let nb := if e_index e =? e_nb e then pBat_ReAllocEnvBuf (S (e_nb e)) else e_nb e in
              Ret (mkEnv (qsort (e_buf e ++ [mkVar (Some (namecpy, na)) text inherit []])) nb)
          end
      end
  end.

(** pBat_Env.c:80-104 [pBat_EnvDup] and 106-135 [pBat_AllocEnvVar]; [addr i] is the
    address of the i-th copied name. *)
Fixpoint dup_vars (addr : nat -> Z) (i : nat) (l : list var) : list var :=
  match l with
  | [] => []
  | v :: r =>
      match v_name v with
      | Some (n, _) => mkVar (Some (n, addr i)) (v_content v) false []
      | None => mkVar None [] false []
      end :: dup_vars addr (S i) r
  end.
Definition pBat_EnvDup (addr : nat -> Z) (e : env) : env :=
  mkEnv (dup_vars addr 0 (e_buf e)) (e_nb e).

(** pBat_Env.c:154-217 [pBat_InitEnv]: one string of the process environment.
    Trailing blanks are dropped before the '=' is cut.  [None]: no '=' (the
    program ends). *)
Definition init_var (s : cstr) (a : Z) : option var :=
  match strchr s "="%char with
  | None => None
  | Some k => let t := pBat_AdjustVarName s in
              Some (mkVar (Some (firstn k t, a)) (skipn (S k) t) false [])
  end.
Fixpoint init_vars (l : list (cstr * Z)) : option (list var) :=
  match l with
  | [] => Some []
  | (s, a) :: r => match init_var s a, init_vars r with
                   | Some v, Some vs => Some (v :: vs)
                   | _, _ => None
                   end
  end.
(** [nb] counts the terminating NULL too (line 162). *)
Definition pBat_InitEnv (l : list (cstr * Z)) : option env :=
  match init_vars l with
  | Some vs => Some (mkEnv (qsort vs) (pBat_ReAllocEnvBuf (S (length l))))
  | None => None
  end.

(** *** Local variables of procedures *)

Definition is_local (v : var) : bool :=
  match v_name v with Some (c :: _, _) => ceq c PBAT_ENV_LOCAL_PREFIX | _ => false end.

(** The two loops of pBat_Env.c:513-536 (and 588-610): from the entry found, go
    left while the entries are local, then right; [f i v] is the new entry. *)
Fixpoint walk_right (f : nat -> var -> var) (i : nat) (l : list var) : list var :=
  match l with
  | [] => []
  | v :: r => if is_local v then f i v :: walk_right f (S i) r else l
  end.
Fixpoint walk_left (f : nat -> var -> var) (i : nat) (rl : list var) : list var :=   (* reversed *)
  match rl with
  | [] => []
  | v :: r => if is_local v then f i v :: walk_left f (i - 1) r else rl
  end.
Definition walk (f : nat -> var -> var) (buf : list var) (i : nat) : list var :=
  rev (walk_left f i (rev (firstn (S i) buf))) ++ walk_right f (S i) (skipn (S i) buf).

(** pBat_Env.c:491-498 [PBAT_PUSH_ENVVAR]; [a] is the address of the new name. *)
Definition push_var (a : Z) (v : var) : var :=
  match v_name v with
  | Some (n, a0) => mkVar (Some (n, a)) (v_content v) false
                      (mkSaved (n, a0) (v_content v) (v_inherit v) :: v_prev v)
  | None => v
  end.

(** pBat_Env.c:500-537 [pBat_PushEnvLocals] *)
Definition find_local (e : env) : outcome (option nat) := bsearch pBat_EnvCompLocal (e_buf e).
Definition pBat_PushEnvLocals (addr : nat -> Z) (e : env) : outcome env :=
  do r <- find_local e;
  match r with
  | None => Ret e
  | Some i => Ret (mkEnv (walk (fun j => push_var (addr j)) (e_buf e) i) (e_nb e))
  end.

(** pBat_Env.c:540-571 [PBAT_POP_ENVVAR] *)
Definition pop_var (v : var) : var :=
  match v_prev v with
  | [] => if v_inherit v then v else mkVar None [] (v_inherit v) []
  | s :: p => if v_inherit v then mkVar (v_name v) (v_content v) (v_inherit v) p
              else mkVar (Some (s_name s)) (s_content s) (s_inherit s) p
  end.

(** Number of entries without a name. *)
Definition count_null (buf : list var) : nat :=
  length (filter (fun v => match v_name v with None => true | _ => false end) buf).

(** pBat_Env.c:573-614 [pBat_PopEnvLocals]; [sort] is set when an entry loses its
    name. *)
Definition pBat_PopEnvLocals (e : env) : outcome env :=
  do r <- find_local e;
  match r with
  | None => Ret e
  | Some i =>
      let buf := walk (fun _ => pop_var) (e_buf e) i in
      Ret (mkEnv (if count_null buf =? count_null (e_buf e) then buf else qsort buf) (e_nb e))
  end.
