(** Def_Spec.v -- what DEF defines and what a line that names a procedure runs. *)

From Verif Require Import Base Lex StrLib_Spec Env_Model Env_Spec Var_Model LocalVar_Model Expand_Model Args_Model Args_Spec CmdList_Model CmdList_Spec Prompt_Spec Set_Spec.

(** ** The text of a procedure *)
(** A piece of the text: a character, or a reference $c where [c] is one of [*123456789:]. *)
Inductive piece := Lit (c : ascii) | Par (c : ascii).
Definition refs : list ascii := s2l "*123456789:".
Definition render (l : list piece) : cstr := flat_map (fun x => match x with Lit c => [c] | Par c => ["$"%char; c] end) l.
(** A dollar sign stands for itself when a character follows that makes no reference, or
    nothing at all. *)
Inductive template : list piece -> Prop :=
| tm_nil : template []
| tm_lit c l : c <> "$"%char -> template l -> template (Lit c :: l)
| tm_dollar d l : ~ In d refs -> template (Lit d :: l) -> template (Lit "$"%char :: Lit d :: l)
| tm_last : template [Lit "$"%char]
| tm_par c l : In c refs -> template l -> template (Par c :: l).
(** $* stands for the whole text behind the name, $1 to $9 and $: for the parameters, which
    are empty when they are missing. *)
Definition meaning (text : cstr) (ps : list cstr) (c : ascii) : cstr :=
  if ceq c "*"%char then text else nth (Z.to_nat (code c - 49)) ps [].
Definition filled (text : cstr) (ps : list cstr) (l : list piece) : cstr :=
  flat_map (fun x => match x with Lit c => [c] | Par c => meaning text ps c end) l.

(** ** The line of a definition *)
(** [from line rest]: [rest] is [line] without the blanks and @ at its beginning. *)
Definition skipped (c : ascii) : Prop := blank c \/ c = "@"%char.
Definition from (line rest : cstr) : Prop := exists a, line = a ++ rest /\ Forall skipped a /\ forall c r, rest = c :: r -> ~ skipped c.
(** The first '=' without a caret in front ends the name. *)
Definition defines (rest name body : cstr) : Prop :=
  rest = name ++ "="%char :: body /\ first_pos (live (fun c => Ascii.eqb c "="%char) rest) (Some (length name)).
(** [def_line w line force list rest]: whether /f and /l are given, and what follows. *)
Inductive def_line (w : xworld) : cstr -> bool -> bool -> cstr -> Prop :=
| dl_rest line p next rest : leads w line p next -> nonul p -> p <> s2l "/?" -> ~ same_name p (s2l "/f") -> ~ same_name p (s2l "/l") ->
    from line rest -> def_line w line false false rest
| dl_end line : Forall blank line -> def_line w line false false line
| dl_force line p next f l rest : leads w line p next -> nonul p -> same_name p (s2l "/f") -> def_line w next f l rest -> def_line w line true l rest
| dl_list line p next f l rest : leads w line p next -> nonul p -> same_name p (s2l "/l") -> def_line w next f l rest -> def_line w line f true rest.
Definition procedure (name body : cstr) : entry := mkEntry name body (length name) true false.
(** A command of the table answers to a line. *)
Definition answers (e : entry) (line : cstr) : Prop := exists rest, starts_with line (e_name e) rest /\ (e_limit e <> 0 -> stops rest).
(** The procedures whose names start with [prefix]. *)
Definition lists (t : tree) (prefix out : cstr) : Prop :=
  exists l, NoDup l /\ (forall e, In e l <-> In e (entries t) /\ e_def e = true /\ starts prefix (e_name e)) /\
    out = flat_map (fun e => e_name e ++ "="%char :: e_proc e ++ [nl]) l.

(** ** Running a procedure *)
(** [inside addr w w1]: the state in which the text runs.  It has no variables of loops, and
    the variables that start with an underscore are saved (C20). *)
Definition inside (addr : nat -> Z) (w w1 : xworld) : Prop :=
  x_locals w1 = pBat_GetLocalBlock /\ pBat_PushEnvLocals addr (vw_env (x_var w)) = Ret (vw_env (x_var w1)) /\
  vw_cd (x_var w1) = vw_cd (x_var w) /\ vw_err (x_var w1) = vw_err (x_var w) /\ vw_rand (x_var w1) = vw_rand (x_var w) /\
  vw_date (x_var w1) = vw_date (x_var w) /\ vw_time (x_var w1) = vw_time (x_var w) /\ x_ka w1 = x_ka w /\
  x_args w1 = x_args w /\ x_script w1 = x_script w /\ x_stat w1 = x_stat w /\ x_cap w1 = x_cap w /\ x_delayed w1 = x_delayed w.
(** [outside w w' w'']: afterwards, when the text has left [w'].  The environment is another matter. *)
Definition outside (w w' w'' : xworld) : Prop :=
  x_locals w'' = x_locals w /\ vw_cd (x_var w'') = vw_cd (x_var w') /\ vw_err (x_var w'') = vw_err (x_var w') /\ vw_rand (x_var w'') = vw_rand (x_var w') /\
  vw_date (x_var w'') = vw_date (x_var w') /\ vw_time (x_var w'') = vw_time (x_var w') /\ x_ka w'' = x_ka w' /\
  x_args w'' = x_args w' /\ x_script w'' = x_script w' /\ x_stat w'' = x_stat w' /\ x_cap w'' = x_cap w' /\ x_delayed w'' = x_delayed w'.
