(** Cd_Spec.v -- what CD, PUSHD and POPD do. *)

From Verif Require Import Base StrLib_Spec Path_Spec Path_Model Var_Model Expand_Model Args_Spec Set_Spec Cd_Model.

(** A current directory as the interpreter keeps it; the root may be the empty text. *)
Definition current (c : cstr) : Prop := c = [] \/ normal_dir c.
(** [place up d c]: [c] is reached by walking along [d], starting where the directories [up] are
    (nearest first). *)
Definition place (up : list cstr) (d c : cstr) : Prop := current c /\ comps c = rev (walk up (comps d)).
(** [arrives ex cur d c]: from [cur] one comes to [c] by [d], since this directory is there. *)
Inductive arrives (ex : cstr -> bool) (cur d : cstr) : cstr -> Prop :=
| ar_root c : absolute d -> ex d = true -> place [] d c -> arrives ex cur d c
| ar_below c : (absolute d -> ex d = false) -> ex (cur ++ "/"%char :: d) = true -> place (rev (comps cur)) d c -> arrives ex cur d c.
(** There is no such directory. *)
Definition nowhere (ex : cstr -> bool) (cur d : cstr) : Prop := (absolute d -> ex d = false) /\ ex (cur ++ "/"%char :: d) = false.

Definition space (c : ascii) : Prop := c = " "%char \/ c = "009"%char.
(** [names t d]: the text behind CD names the directory [d]. *)
Inductive names : cstr -> cstr -> Prop :=
| nm_plain a d c e : Forall blank a -> Forall space e -> ~ space c -> (forall x r, d ++ [c] = x :: r -> ~ blank x /\ x <> dquote) ->
    names (a ++ (d ++ [c]) ++ e) (d ++ [c])
| nm_quoted a d c e : Forall blank a -> Forall (fun x => space x \/ x = dquote) e -> ~ space c -> c <> dquote ->
    names (a ++ dquote :: (d ++ [c]) ++ e) (d ++ [c])
| nm_none a : Forall blank a -> names a [].

(** [spelled w line ps]: the parameters of [line] are [ps], whatever the current directory *)
Inductive spelled (w : xworld) : cstr -> list cstr -> Prop :=
| sp_end s : Forall blank s -> spelled w s []
| sp_next line p rest ps : (forall c, leads (set_cd w c) line p rest) -> spelled w rest ps -> spelled w line (p :: ps).
(** [pushes ex cur stack ds z cur' stack']: PUSHD goes along [ds] and keeps the directories it leaves; it ends
    with the error [z]. *)
Inductive pushes (ex : cstr -> bool) : cstr -> list cstr -> list cstr -> Z -> cstr -> list cstr -> Prop :=
| pu_end cur stack : pushes ex cur stack [] 0 cur stack
| pu_next cur stack d ds c z cur' stack' : arrives ex cur d c -> pushes ex c (cur :: stack) ds z cur' stack' ->
    pushes ex cur stack (d :: ds) z cur' stack'
| pu_fail cur stack d ds : nowhere ex cur d -> pushes ex cur stack (d :: ds) PBAT_DIRECTORY_ERROR cur stack.
(** The length of directories, each with a separator *)
Fixpoint total (ds : list cstr) : nat := match ds with [] => 0 | d :: l => 1 + length d + total l end.
