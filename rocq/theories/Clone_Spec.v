(** Clone_Spec.v -- what an instance knows, and what it can reach. *)

From Verif Require Import Base Clone_Model.

Definition text_at (h : heap) (p : field) (s : cstr) : Prop := exists l, p = Ptr l /\ nth_error h l = Some (Some [Text s]).
(** A variable: nothing (it was removed), or name and value *)
Definition var_at (h : heap) (p : field) (v : option (cstr * cstr)) : Prop :=
  exists l n c r, p = Ptr l /\ nth_error h l = Some (Some (n :: c :: r)) /\
    match v with Some (a, b) => text_at h n a /\ text_at h c b | None => n = Null end.
Definition env_at (h : heap) (p : field) (vars : list (option (cstr * cstr))) : Prop :=
  exists l a nb fs, p = Ptr l /\ nth_error h l = Some (Some [Int nb; Int (Z.of_nat (length vars)); Ptr a]) /\ nth_error h a = Some (Some fs) /\
    (Z.of_nat (length vars) <= nb)%Z /\ length vars <= length fs /\ Forall2 (var_at h) (firstn (length vars) fs) vars.
(** One-letter variables *)
Definition opt_text_at (h : heap) (p : field) (o : option cstr) : Prop :=
  match o with Some s => text_at h p s | None => p = Null end.
Definition block_at (h : heap) (p : field) (b : list (option cstr)) : Prop :=
  exists l fs, p = Ptr l /\ nth_error h l = Some (Some fs) /\ length fs = LOCAL_VAR_BLOCK_SIZE /\ Forall2 (opt_text_at h) fs b.
Definition dirs_at (h : heap) (p : field) (n : nat) (ds : list cstr) : Prop :=
  n = length ds /\ (ds <> [] -> exists l fs, p = Ptr l /\ nth_error h l = Some (Some fs) /\ length ds <= length fs /\ Forall2 (text_at h) (firstn (length ds) fs) ds).
(** The commands, built in or defined *)
Inductive procedure := Builtin (address : Z) | Defined (text : cstr).
Inductive commands := None_ | Command (name : cstr) (flag len : Z) (p : procedure) (lft rgt : commands).
Fixpoint depth (c : commands) : nat := match c with None_ => 0 | Command _ _ _ _ l r => S (max (depth l) (depth r)) end.
Inductive commands_at (h : heap) : field -> commands -> Prop :=
| ca_none : commands_at h Null None_
| ca_command a n flag len pr l r name proc lft rgt :
    nth_error h a = Some (Some [n; Int flag; Int len; pr; l; r]) -> text_at h n name ->
    match proc with Builtin z => is_def flag = false /\ pr = Int z | Defined s => is_def flag = true /\ text_at h pr s end ->
    commands_at h l lft -> commands_at h r rgt -> commands_at h (Ptr a) (Command name flag len proc lft rgt).

(** What an instance knows *)
Record knowledge := mkK { k_commands : commands; k_locals : list (option cstr); k_args : list (option cstr); k_dirs : list cstr; k_env : list (option (cstr * cstr)); k_state : list Z }.
Definition knows (h : heap) (i : instance) (k : knowledge) : Prop :=
  commands_at h (i_commands i) (k_commands k) /\ block_at h (i_locals i) (k_locals k) /\ block_at h (i_args i) (k_args k) /\
  dirs_at h (i_paths i) (i_count i) (k_dirs k) /\ env_at h (i_env i) (k_env k) /\ i_state i = k_state k.

(** The blocks that a thread can reach *)
Inductive reaches (h : heap) (t : thread) : nat -> Prop :=
| re_here r l : reg t r = Ptr l -> reaches h t l
| re_next l c l' : reaches h t l -> nth_error h l = Some (Some c) -> In (Ptr l') c -> reaches h t l'.
(** Nobody has an address that was never given out. *)
Definition honest (s : system) : Prop :=
  (forall c l, In (Some c) (fst s) -> In (Ptr l) c -> l < length (fst s)) /\
  (forall t r l, In t (snd s) -> reg t r = Ptr l -> l < length (fst s)).

(** The interpreter starts with one instance. *)
Definition started (s : system) : Prop := honest s /\ exists t, snd s = [t].
(** What happens while [u] does nothing *)
Inductive meanwhile (u : nat) : system -> system -> Prop :=
| mw_end s : meanwhile u s s
| mw_next s k s1 s2 : meanwhile u s s1 -> k <> u -> step s1 k s2 -> meanwhile u s s2.
