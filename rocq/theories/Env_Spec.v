(** Env_Spec.v -- what the environment table is expected to be and to do. *)

From Coq Require Import Sorted.
From Verif Require Import Base Lex Env_Model.

(** Sign of the addresses of names (as [int]); [true]: all positive, so that
    removed entries sort last; [false]: all negative, they sort first. *)
Definition addr_ok (sg : bool) (a : Z) : Prop := if sg then (0 < a)%Z else (a < 0)%Z.

Definition same_nameb (a b : cstr) : bool := streqb (map tolower a) (map tolower b).

(** [v] comes before [w] in the table: strictly by name ignoring case, removed
    entries being all at one end. *)
Definition ahead (sg : bool) (v w : var) : Prop :=
  match v_name v, v_name w with
  | Some (a, _), Some (b, _) => lex (key a) (key b) = Lt
  | Some _, None => sg = true
  | None, Some _ => sg = false
  | None, None => True
  end.

Definition var_ok (sg : bool) (v : var) : Prop :=
  match v_name v with
  | Some (n, a) =>
      nonul n /\ addr_ok sg a /\
      Forall (fun s => nonul (fst (s_name s)) /\ same_name n (fst (s_name s)) /\ addr_ok sg (snd (s_name s)))
        (v_prev v)
  | None => v_prev v = []
  end.

(** A well formed table: strictly sorted (so without duplicates) and within its
    capacity. *)
Definition table_ok (sg : bool) (e : env) : Prop :=
  StronglySorted (ahead sg) (e_buf e) /\ Forall (var_ok sg) (e_buf e) /\ e_index e <= e_nb e.

(** No procedure is running: no value is saved. *)
Definition toplevel (e : env) : Prop := Forall (fun v => v_prev v = []) (e_buf e).

(** *** Histories *)

(** Assignments [SET name=content] (an empty content removes the variable)
    and explicit removals; [ka], [na] are the addresses of the name given and of
    its copy. *)
Inductive op :=
| OSet (name : cstr) (ka na : Z) (content : cstr) (inherit : bool)
| OUnset (name : cstr) (ka : Z).

Definition op_run (o : op) (e : env) : outcome env :=
  match o with
  | OSet n ka na c i => pBat_SetEnvEx e n ka na (Some c) i
  | OUnset n ka => pBat_UnSetEnv e n ka
  end.
Fixpoint ops_run (l : list op) (e : env) : outcome env :=
  match l with
  | [] => Ret e
  | o :: r => do e' <- op_run o e; ops_run r e'
  end.

Definition op_ok (sg : bool) (o : op) : Prop :=
  match o with
  | OSet n ka na c _ => nonul n /\ addr_ok sg ka /\ addr_ok sg na
  | OUnset n ka => nonul n /\ addr_ok sg ka
  end.

(** A name without the blanks at its end (kept if it is all blanks). *)
Definition is_trimmed (n t : cstr) : Prop :=
  exists b, n = t ++ b /\ Forall (fun c => c = " "%char \/ c = "009"%char) b /\
    ((Forall (fun c => c = " "%char \/ c = "009"%char) n /\ b = []) \/
     (exists t' c, t = t' ++ [c] /\ c <> " "%char /\ c <> "009"%char)).

(** The value the last relevant operation gave to variable [n]. *)
Fixpoint expected (trim : cstr -> cstr) (l : list op) (n : cstr) (v0 : option cstr) : option cstr :=
  match l with
  | [] => v0
  | OSet m _ _ [] _ :: r => expected trim r n (if same_nameb m n then None else v0)
  | OSet m _ _ c _ :: r => expected trim r n (if same_nameb (trim m) n then Some c else v0)
  | OUnset m _ :: r => expected trim r n (if same_nameb m n then None else v0)
  end.

(** *** The initial environment *)

(** [v] without the blanks at its end. *)
Definition is_rstripped (v w : cstr) : Prop :=
  exists b, v = w ++ b /\ Forall (fun c => c = " "%char \/ c = "009"%char) b /\
    forall w' c, w = w' ++ [c] -> c <> " "%char /\ c <> "009"%char.

(** *** Procedures *)

(** Names for which the search for local variables works: local names, and names
    starting with a capital letter or a byte above 127. *)
Definition good_name (n : cstr) : Prop :=
  match n with
  | [] => False
  | c :: _ => c = "_"%char \/ is_upper c = true \/ (128 <= code c)%Z
  end.
Definition local_name (n : cstr) : Prop := exists r, n = "_"%char :: r.

(** What a procedure does to the environment: assignments, removals and calls of
    other procedures; [addr] gives the addresses of the names copied at the
    call. *)
Inductive act :=
| ASet (name : cstr) (ka na : Z) (content : cstr) (inherit : bool)
| AUnset (name : cstr) (ka : Z)
| ACall (addr : nat -> Z) (body : list act).

(** pBat_Run.c:466-468: a procedure is run between [pBat_PushEnvLocals] and
    [pBat_PopEnvLocals]. *)
Fixpoint act_run (a : act) (e : env) : outcome env :=
  match a with
  | ASet n ka na c i => pBat_SetEnvEx e n ka na (Some c) i
  | AUnset n ka => pBat_UnSetEnv e n ka
  | ACall addr body =>
      do e1 <- pBat_PushEnvLocals addr e;
      do e2 <- (fix run (l : list act) (e : env) : outcome env :=
                  match l with
                  | [] => Ret e
                  | a :: r => do e' <- act_run a e; run r e'
                  end) body e1;
      pBat_PopEnvLocals e2
  end.
Fixpoint acts_run (l : list act) (e : env) : outcome env :=
  match l with
  | [] => Ret e
  | a :: r => do e' <- act_run a e; acts_run r e'
  end.

(** Every name assigned is good, and the addresses are positive. *)
Fixpoint act_ok (trim : cstr -> cstr) (a : act) : Prop :=
  match a with
  | ASet n ka na c _ => nonul n /\ addr_ok true ka /\ addr_ok true na /\ good_name (trim n)
  | AUnset n ka => nonul n /\ addr_ok true ka
  | ACall addr body =>
      (forall i, addr_ok true (addr i)) /\
      (fix all (l : list act) : Prop := match l with [] => True | a :: r => act_ok trim a /\ all r end) body
  end.

(** Somewhere inside, variable [n] is assigned with SET /X. *)
Fixpoint marks (trim : cstr -> cstr) (n : cstr) (a : act) : bool :=
  match a with
  | ASet m _ _ (_ :: _) true => same_nameb (trim m) n
  | ASet _ _ _ _ _ => false
  | AUnset _ _ => false
  | ACall _ body =>
      (fix any (l : list act) : bool := match l with [] => false | a :: r => marks trim n a || any r end) body
  end.

Definition table_good (e : env) : Prop :=
  Forall (fun v => match v_name v with Some (n, _) => good_name n | None => True end) (e_buf e).

(** Somewhere inside, a variable is assigned with SET /X. *)
Fixpoint uses_x (a : act) : bool :=
  match a with
  | ASet _ _ _ _ i => i
  | AUnset _ _ => false
  | ACall _ body =>
      (fix any (l : list act) : bool := match l with [] => false | a :: r => uses_x a || any r end) body
  end.
Definition unmarked (e : env) : Prop :=
  Forall (fun v => v_inherit v = false /\ Forall (fun s => s_inherit s = false) (v_prev v)) (e_buf e).

(** Dynamic scoping, as a function from names to values: a procedure may change
    what it wants, but when it returns the variables whose names start with an
    underscore are as they were before the call.  [prot n]: [n] belongs to a
    caller, and cannot be removed. *)
Definition localb (n : cstr) : bool := match n with c :: _ => ceq c "_"%char | [] => false end.
Definition present {A} (o : option A) : bool := match o with Some _ => true | None => false end.

Fixpoint sem (trim : cstr -> cstr) (prot : cstr -> bool) (a : act) (s : cstr -> option cstr) : cstr -> option cstr :=
  match a with
  | ASet m _ _ (c :: t) _ => fun n => if same_nameb (trim m) n then Some (c :: t) else s n
  | ASet m _ _ [] _ | AUnset m _ => fun n => if same_nameb m n && negb (prot n) then None else s n
  | ACall _ body =>
      let prot' n := localb n && present (s n) in
      let s' := (fix run (l : list act) (s : cstr -> option cstr) :=
                   match l with [] => s | a :: r => run r (sem trim prot' a s) end) body s in
      fun n => if localb n then s n else s' n
  end.
Fixpoint sems (trim : cstr -> cstr) (prot : cstr -> bool) (l : list act) (s : cstr -> option cstr) :=
  match l with [] => s | a :: r => sems trim prot r (sem trim prot a s) end.
