(** Main_Spec.v -- what the interpreter makes of its command line. *)

From Verif Require Import Base StrLib_Spec Args_Spec Expand_Model LocalVar_Model Params_Spec Main_Model.

(** [is_switch a c r]: the parameter [a] is the switch [c] (in any case) followed by [r] *)
Definition is_switch (a : cstr) (c : ascii) (r : cstr) : Prop := exists k, a = "/"%char :: k :: r /\ tolower k = c.
(** The letters of /A: a colon before them is left out. *)
Definition letters (r l : cstr) : Prop := r = ":"%char :: l \/ r = l /\ forall t, r <> ":"%char :: t.
Definition has (c : ascii) (l : cstr) : Prop := exists k, In k l /\ tolower k = c.

(** What was asked for: modes, quietness (no titles), a command, and staying after it *)
Record asked := mkA { a_modes : modes; a_quiet : bool; a_cmd : option cstr; a_stay : bool }.
Definition nothing_asked : asked := mkA first_modes false None false.
(** [told var q argv q' rest]: with [q] asked for, the switches before [rest] ask for [q'];
    [var] is the value of __PBAT_COMMAND__. *)
Inductive told (var : cstr) : asked -> list cstr -> asked -> list cstr -> Prop :=
| to_end q argv : told var q argv q argv
| to_modes q a r l rest m quiet q' rest' :
    is_switch a "a"%char r -> letters r l ->
    (m_delayed m = true <-> m_delayed (a_modes q) = true \/ has "v"%char l) ->
    (m_echo m = true <-> m_echo (a_modes q) = true /\ ~ has "e"%char l) ->
    (m_correct m = true <-> m_correct (a_modes q) = true \/ has "c"%char l) ->
    (quiet = true <-> has "q"%char l) ->
    told var (mkA m quiet (a_cmd q) (a_stay q)) rest q' rest' -> told var q (a :: rest) q' rest'
| to_command q a r rest q' rest' :
    is_switch a "c"%char r -> a_cmd q = None ->
    told var (mkA (a_modes q) (a_quiet q) (Some var) (a_stay q)) rest q' rest' -> told var q (a :: s2l "@" :: rest) q' rest'
| to_command_stay q a r rest q' rest' :
    is_switch a "k"%char r -> a_cmd q = None ->
    told var (mkA (a_modes q) (a_quiet q) (Some var) true) rest q' rest' -> told var q (a :: s2l "@" :: rest) q' rest'.

(** The command comes first; then nothing more, unless there was none or one stays. *)
Definition tasks (q : asked) (last : task) : list task :=
  match a_cmd q with
  | None => [last]
  | Some t => if a_stay q then [Line t; last] else [Line t]
  end.
(** A script and its parameters: the name does not look like a switch, or // is before it. *)
Inductive names_script : list cstr -> cstr -> list cstr -> Prop :=
| ns_plain file args : file <> [] -> (forall r, file <> "/"%char :: r) -> names_script (file :: args) file args
| ns_ended a r file args : file <> [] -> is_switch a "/"%char r -> names_script (a :: file :: args) file args.
(** A word that goes through /C unchanged *)
Definition sound (v : cstr) : Prop :=
  v <> [] /\ (forall c, In c v -> ~ In c (dquote :: s2l "^%!")) /\
  ((exists c, In c v /\ In c [" "%char; "009"%char; "010"%char]) \/ forall c, In c v -> ~ In c (s2l ",;")).
