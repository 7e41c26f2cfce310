(** Set_Spec.v -- what SET does. *)

From Coq Require Import Sorted.
From Verif Require Import Base Lex StrLib_Spec Env_Model Env_Spec Var_Model Expand_Model Args_Model Args_Spec Prompt_Spec Set_Model.

(** [leads w line p rest]: the first parameter of [line] is [p]; [rest] is behind it. *)
Definition leads (w : xworld) (line p rest : cstr) : Prop :=
  exists a raw t, line = a ++ raw ++ rest /\ Forall blank a /\ raw <> [] /\ (forall c r, raw = c :: r -> ~ blank c) /\
    param_at PBAT_DELIMITERS raw rest /\ bare (match rest with [] => true | _ => false end) raw t /\
    t <> s2l "^" /\ expands w t p.
(** [behind line text]: [text] is [line] without the blanks at its beginning. *)
Definition behind (line text : cstr) : Prop :=
  exists a, line = a ++ text /\ Forall blank a /\ forall c r, text = c :: r -> ~ blank c.
Definition set_option (p : cstr) : Prop := exists o, In o [s2l "/?"; s2l "/a"; s2l "/p"; s2l "/x"] /\ same_name p o.

(** The text of an assignment: what is between a double quote at the beginning and the
    last one, if there are two. *)
Inductive unquoted : cstr -> cstr -> Prop :=
| uq_plain v : (forall r, v <> dquote :: r) -> unquoted v v
| uq_open v : ~ In dquote v -> unquoted (dquote :: v) (dquote :: v)
| uq_quotes v junk : ~ In dquote junk -> unquoted (dquote :: v ++ dquote :: junk) v.
(** [assigns t name value]: the first '=' ends the name. *)
Definition assigns (t name value : cstr) : Prop :=
  t = name ++ "="%char :: value /\ ~ In "="%char name.

(** The value of a variable. *)
Definition value_of (e : env) (n : cstr) (v : option cstr) : Prop :=
  exists sg ka, addr_ok sg ka /\ table_ok sg e /\ pBat_GetEnv e n ka = Ret v.
(** [changed e name value e']: the variable [name], without the blanks behind it, has the
    value and the others are unchanged; an empty value removes the variable. *)
Definition changed (e : env) (name value : cstr) (e' : env) : Prop :=
  forall n v t, nonul n -> value_of e n v -> is_trimmed name t ->
    value_of e' n (if same_nameb (match value with [] => name | _ => t end) n then match value with [] => None | _ => Some value end else v).

(** The variables whose names start with [prefix], in the order of their names, as they
    are printed. *)
Definition starts (prefix n : cstr) : Prop := exists a b, n = a ++ b /\ same_name a prefix.
Definition listing (e : env) (prefix : cstr) (out : cstr) : Prop :=
  exists l, StronglySorted (fun x y => lex (key (fst x)) (key (fst y)) = Lt) l /\
    (forall n v, In (n, v) l -> starts prefix n /\ value_of e n (Some v)) /\
    (forall n v, nonul n -> starts prefix n -> value_of e n (Some v) -> exists m, same_name m n /\ In (m, v) l) /\
    out = concat (map (fun x => fst x ++ "="%char :: snd x ++ [nl]) l).
(** Nothing but the environment differs. *)
Definition same_but_env (w w' : xworld) : Prop :=
  let v := x_var w in let v' := x_var w' in
  (vw_cd v', vw_err v', vw_rand v', vw_date v', vw_time v') = (vw_cd v, vw_err v, vw_rand v, vw_date v, vw_time v) /\
  (x_ka w', x_args w', x_locals w', x_script w', x_stat w', x_cap w', x_delayed w') =
  (x_ka w, x_args w, x_locals w, x_script w, x_stat w, x_cap w, x_delayed w).
(** Some place of the table is not in use: a variable was removed. *)
Definition has_hole (e : env) : Prop := exists v, In v (e_buf e) /\ v_name v = None.
