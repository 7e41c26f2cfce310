(** Call_Spec.v -- what CALL does. *)

From Verif Require Import Base Lex StrLib_Spec Path_Model Env_Model Var_Model LocalVar_Model Expand_Model Args_Spec Prompt_Spec Set_Spec Script_Model Params_Spec.

(** *** What is called: a file, a label, or a label of a file. *)
(** [role p file label]: what the parameter [p] is. *)
Inductive role : cstr -> cstr -> cstr -> Prop :=
| role_label t : nonul t -> role (":"%char :: t) [] (":"%char :: t)
| role_file c t : c <> ":"%char -> nonul (c :: t) -> ~ same_name (c :: t) (s2l "/?") -> ~ same_name (c :: t) (s2l "/e") -> role (c :: t) (c :: t) [].
(** What follows is no request for help. *)
Definition no_help (w : xworld) (rest : cstr) : Prop :=
  Forall blank rest \/ exists q r, leads w rest q r /\ nonul q /\ ~ same_name q (s2l "/?").
Definition extended (w : xworld) (line rest : cstr) : Prop := exists o, leads w line o rest /\ nonul o /\ same_name o (s2l "/e").
(** [asks w line file label rest]: the line asks for [file], [label] (empty: none), with the
    parameters [rest]. *)
Inductive asks (w : xworld) (line : cstr) : cstr -> cstr -> cstr -> Prop :=
| as_one p rest file label :
    leads w line p rest -> role p file label -> no_help w rest -> asks w line file label rest
| as_extended r0 p rest file label :
    extended w line r0 -> leads w r0 p rest -> role p file label -> Forall blank rest -> asks w line file label rest
| as_two r0 p1 r1 p2 rest file label :
    extended w line r0 -> leads w r0 p1 r1 -> leads w r1 p2 rest ->
    (role p1 file [] /\ role p2 [] label \/ role p1 [] label /\ role p2 file []) -> no_help w rest ->
    asks w line file label rest.

(** *** The state in which the script runs, and the one afterwards *)
Definition begins (w w0 : xworld) (script zero : cstr) (ps : list cstr) (text : cstr) : Prop :=
  holds w0 (zero :: ps) /\ x_args w0 "*"%char = Some text /\ (forall c, x_locals w0 c = None) /\
  x_var w0 = x_var w /\ x_delayed w0 = x_delayed w /\ x_script w0 = script.
(** The parameters and the variables of loops are those of the caller, the others
    are as the called script left them. *)
Definition resumes (w w' w'' : xworld) : Prop :=
  x_args w'' = x_args w /\ x_locals w'' = x_locals w /\ x_script w'' = x_script w /\
  x_var w'' = x_var w' /\ x_delayed w'' = x_delayed w'.

(** [finds ex ka w f p]: [p] is the file that the lookup of programs (C36) finds for [f]. *)
Definition finds (ex : cstr -> bool) (ka : Z) (w : xworld) (f : cstr) (p : option cstr) : Prop :=
  exists PATH PATHEXT, pBat_GetEnv (vw_env (x_var w)) (s2l "PATH") ka = Ret PATH /\ pBat_GetEnv (vw_env (x_var w)) (s2l "PATHEXT") ka = Ret PATHEXT /\
    pBat_GetFilePath ex (vw_cd (x_var w)) PATH PATHEXT f FILENAME_MAX = Ret p.
Definition has_extension (p e : cstr) : Prop := exists d dir n, pBat_SplitPath p = Ret (d, dir, n, e).
Definition is_batch (p : cstr) : Prop := exists e, has_extension p e /\ nonul e /\ (same_name e (s2l ".bat") \/ same_name e (s2l ".cmd")).
(** The absolute name of a file that exists. *)
Definition existing (ex : cstr -> bool) (p : cstr) : Prop := PBAT_TEST_ABSOLUTE_PATH p = true /\ TRANS p = p /\ ex p = true /\ length p < FILENAME_MAX.
(** [locates ex w f p]: [p] is the absolute name of the existing file [f]. *)
Definition locates (ex : cstr -> bool) (w : xworld) (f p : cstr) : Prop :=
  existing ex f /\ p = f \/
  PBAT_TEST_ABSOLUTE_PATH f = false /\ TRANS f = f /\ p = vw_cd (x_var w) ++ "/"%char :: f /\ ex p = true /\ length p < FILENAME_MAX.
