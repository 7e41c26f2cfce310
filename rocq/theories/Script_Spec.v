(** Script_Spec.v -- scripts, their labels, and how they are run. *)

From Verif Require Import Base Lex Args_Spec Block_Spec Estr_Spec Var_Model Expand_Model Body_Model Stream_Model CmdList_Model If_Model For_Model Run_Model RunBlock_Spec.
Open Scope nat_scope.

(** What a script is made of. *)
Inductive entry := Cmd (t : cstr) | Label (t : cstr).
Definition not_blank (t : cstr) : Prop := exists c r, t = c :: r /\ ~ blank c.
(** What a line is: nothing for blank lines, comments and the "#!" of a first line; a label
    without the blanks around it; a command without the blanks before it, and with an
    end of line. *)
Inductive is_line (first : bool) : cstr -> option entry -> Prop :=
| il_blank l : Forall blank l -> is_line first l None
| il_shebang b r : Forall blank b -> first = true -> is_line first (b ++ "#"%char :: "!"%char :: r) None
| il_comment b r : Forall blank b -> is_line first (b ++ ":"%char :: ":"%char :: r) None
| il_label b n e : Forall blank b -> Forall blank e -> (forall r, n <> ":"%char :: r) -> (forall u c, n = u ++ [c] -> ~ blank c) ->
    is_line first (b ++ ":"%char :: n ++ e) (Some (Label (":"%char :: n)))
| il_cmd b t : Forall blank b -> not_blank t -> (forall r, t <> ":"%char :: r) -> (first = true -> forall r, t <> "#"%char :: "!"%char :: r) ->
    In "010"%char t -> is_line first (b ++ t) (Some (Cmd t))
| il_last b t : Forall blank b -> not_blank t -> (forall r, t <> ":"%char :: r) -> (first = true -> forall r, t <> "#"%char :: "!"%char :: r) ->
    ~ In "010"%char t -> is_line first (b ++ t) (Some (Cmd (t ++ ["010"%char]))).
Inductive is_script : bool -> list cstr -> list entry -> Prop :=
| is_nil first : is_script first [] []
| is_skip first l ls es : is_line first l None -> is_script false ls es -> is_script first (l :: ls) es
| is_cons first l e ls es : is_line first l (Some e) -> is_script false ls es -> is_script first (l :: ls) (e :: es).

Definition commands (es : list entry) : list cstr := flat_map (fun e => match e with Cmd t => [t] | Label _ => [] end) es.
(** The labels, each with the commands before it. *)
Inductive labels : list cstr -> list entry -> list (cstr * list cstr) -> Prop :=
| lb_nil before : labels before [] []
| lb_cmd before t es l : labels (before ++ [t]) es l -> labels before (Cmd t :: es) l
| lb_label before t es l : labels before es l -> labels before (Label t :: es) ((t, before) :: l).

(** [t] is a label that the name [n] stands for: the name, in any case, and then nothing
    or a blank and anything. *)
Definition label_for (n t : cstr) : Prop :=
  exists k r, t = k ++ r /\ same_name k n /\ (r = [] \/ exists c x, r = c :: x /\ blank c).
(** The commands behind the first of the labels. *)
Inductive after_label (n : cstr) : list entry -> list cstr -> Prop :=
| al_here t es : label_for n t -> after_label n (Label t :: es) (commands es)
| al_other t es l : ~ label_for n t -> after_label n es l -> after_label n (Label t :: es) l
| al_cmd t es l : after_label n es l -> after_label n (Cmd t :: es) l.

(** Lines read one after the other, their variables replaced (C35 says how): the text
    they make. *)
Inductive replaced : xworld -> list cstr -> cstr -> xworld -> Prop :=
| rp_nil w : replaced w [] [] w
| rp_cons w l t w1 ls u w2 : pBat_ReplaceVars w l = Ret (t, w1) -> t <> [] -> replaced w1 ls u w2 -> replaced w (l :: ls) (t ++ u) w2.
(** Lines that make commands with complete blocks; [l] is the text. *)
Definition group (w : xworld) (g : list cstr) (l : cstr) (w' : xworld) : Prop := replaced w g (l ++ ["010"%char]) w' /\ bline l.
(** A block is opened and nothing closes it. *)
Definition unclosed (w : xworld) (g : list cstr) (w' : xworld) : Prop :=
  exists b u, replaced w g (b ++ "("%char :: u) w' /\ lead b /\ ~ In ")"%char u.

Section S.
Variable leaf : list event -> xworld -> cstr -> leafres.
Variable can_open : list event -> cstr -> std -> bool -> bool.
Variable fio : forio.
Variable table : tree.
Variable strtod : cstr -> dbl * nat.
Variable exists_file : list event -> cstr -> bool.
Variable ka : Z.
Variable jumped : list event -> option (cstr * option cstr).
Variable es : list entry.

(** What a line that was run looks for: a label of the script. *)
Definition goes_to (r r1 : rst) : option (cstr * option cstr) := if length (r_log r1) =? length (r_log r) then None else jumped (r_log r1).
Definition with_x (r : rst) (w : xworld) : rst := mkR (r_io r) w (r_abort r) (r_log r).

(** The rest of a script, run in [r], ends in [r']: the commands are run one after the
    other, those behind a label after a jump to it. *)
Inductive script_goes : list cstr -> rst -> rst -> Prop :=
| sg_end r : script_goes [] r r
| sg_unclosed g r w : g <> [] -> unclosed (r_x r) g w -> script_goes g r (with_x r w)
| sg_next g l ls r w r1 r2 : group (r_x r) g l w ->
    line_goes leaf can_open fio table strtod exists_file ka l (with_x r w) r1 ->
    goes_to r r1 = None -> r_abort r1 <> (-1)%Z -> script_goes ls (go_on r1) r2 -> script_goes (g ++ ls) r r2
| sg_goto g l ls r w r1 r2 n ls' : group (r_x r) g l w ->
    line_goes leaf can_open fio table strtod exists_file ka l (with_x r w) r1 ->
    goes_to r r1 = Some (n, None) -> nonul n -> after_label n es ls' -> r_abort r1 <> (-1)%Z -> script_goes ls' (go_on r1) r2 -> script_goes (g ++ ls) r r2
| sg_leave g l ls r w r1 : group (r_x r) g l w ->
    line_goes leaf can_open fio table strtod exists_file ka l (with_x r w) r1 ->
    goes_to r r1 = None -> r_abort r1 = (-1)%Z -> script_goes (g ++ ls) r r1.
End S.

(** Words without quotes, escapes and variables, and texts of such words. *)
Definition calm_line (n : cstr) : Prop := Forall (fun c => ~ In c (s2l "^%!""")) n.
Definition calm_word (n : cstr) : Prop := calm_line n /\ Forall (fun c => ~ blank c) n.
(** The options of GOTO, in front of the label; [full] makes paths from names of files.
    The last /F counts. *)
Inductive goto_opts (full : cstr -> cstr) : option cstr -> cstr -> option cstr -> Prop :=
| go_none f : goto_opts full f [] f
| go_quiet f a k u f' : Forall blank a -> a <> [] -> same_name k (s2l "/q") -> goto_opts full f u f' -> goto_opts full f (a ++ k ++ u) f'
| go_file f a k p u f' : Forall blank a -> a <> [] -> same_name k (s2l "/f") -> calm_word p -> (forall q, p <> ":"%char :: q) ->
    goto_opts full (Some (full p)) u f' -> goto_opts full f (a ++ k ++ p ++ u) f'
| go_file' f a k p u f' : Forall blank a -> a <> [] -> same_name k (s2l "/f:") -> calm_word p ->
    goto_opts full (Some (full p)) u f' -> goto_opts full f (a ++ k ++ p ++ u) f'.
(** A name may be written with its ':' or without. *)
Definition label_name (n l : cstr) : Prop := (n = l /\ exists r, l = ":"%char :: r) \/ ((forall r, n <> ":"%char :: r) /\ l = ":"%char :: n).
