(** Extern_Spec.v -- what a line which names a program or a script runs. *)

From Verif Require Import Base Lex StrLib_Spec Var_Model LocalVar_Model Expand_Model Args_Spec Prompt_Spec Set_Spec CmdList_Model Params_Spec Params_Model For_Model Def_Spec Call_Spec.

(** No internal command or DEF is meant. *)
Definition foreign (table : tree) (line : cstr) : Prop := pBat_GetCommandProc line table = Ret None.
(** [words w line p args text]: the words of [line] are [p] and [args], none of which another expansion
    changes; [text] is the line after one. *)
Definition words (w : xworld) (line p : cstr) (args : list cstr) (text : cstr) : Prop :=
  written w line (p :: args) /\ Forall (fun v => expands w v v) (p :: args) /\ expands w line text.
(** The same state but for the parameters and the variables of loops: what a script begins with *)
Definition inside (w : xworld) (a : block) : xworld := set_locals (set_args w a) (fun _ => None).
(** [tail_of w text r]: whatever the parameters are, [r] is what follows the first word of [text],
    without the blanks at its beginning. *)
Definition tail_of (w : xworld) (text r : cstr) : Prop := forall a, exists q rest, leads (inside w a) text q rest /\ behind rest r.
(** A file which is no script *)
Definition not_batch (f : cstr) : Prop := exists e, has_extension f e /\ nonul e /\ ~ same_name e (s2l ".bat") /\ ~ same_name e (s2l ".cmd").
(** [names w ex table ka cmd line p args text f]: the text [cmd] is the command line [line], no internal command,
    with these words, and [f] is the file (or that there is none) that the lookup of programs (C36) finds for
    the first one. *)
Definition names (ex : cstr -> bool) (table : tree) (ka : Z) (w : xworld) (cmd line p : cstr) (args : list cstr) (text : cstr) (f : option cstr) : Prop :=
  from cmd line /\ foreign table line /\ words w line p args text /\ finds ex ka w p f.
Definition missing (ex : cstr -> bool) (table : tree) (ka : Z) (w : xworld) (cmd line : cstr) : Prop :=
  exists p args text, names ex table ka w cmd line p args text None.
(** [name] is [line] up to the first space, tab or end of line. *)
Definition up_to_space (line name : cstr) : Prop :=
  exists r, line = name ++ r /\ (forall c, In c name -> ~ In c [" "; "009"; "010"]%char) /\ (forall c r', r = c :: r' -> In c [" "; "009"; "010"]%char).
(** The same state with another error level *)
Definition with_level (w : xworld) (z : Z) : xworld :=
  let v := x_var w in
  mkX (mkVW (vw_env v) (vw_cd v) z (vw_rand v) (vw_date v) (vw_time v)) (x_ka w) (x_args w) (x_locals w) (x_script w) (x_stat w) (x_cap w) (x_delayed w).
