(** Start_Spec.v -- what START runs. *)

From Verif Require Import Base Lex StrLib_Spec Path_Model Path_Spec Var_Model Expand_Model Args_Spec Prompt_Spec Set_Spec CmdList_Model Params_Spec Call_Spec Copy_Spec Start_Model.

(** *** The options *)
Record srequest := mkS { s_wait : bool; s_window : bool; s_dir : option cstr; s_title : option cstr }.
(** Without options: do not wait, another window, the current directory, no title. *)
Definition no_option : srequest := mkS false true None None.
Definition one_of (p : cstr) (l : list string) : Prop := exists o, In o l /\ option_is p (s2l o).
Definition ignored : list string := ["/normal"; "/shared"; "/separate"; "/high"; "/low"; "/realtime"; "/abovenormal"; "/belownormal"]%string.
Definition start_option (p : cstr) : Prop := one_of p (["/?"; "/wait"; "/w"; "/b"; "/node"; "/affinity"; "/d"]%string ++ ignored).
(** [line] begins with a double quote, blanks aside *)
Definition quoted (line : cstr) : Prop := exists r, behind line (dquote :: r).
(** The first text in quotes is the title. *)
Definition a_title (q : srequest) (line p : cstr) : Prop := nonul p /\ ~ start_option p /\ quoted line /\ s_title q = None.
(** What is neither an option nor the title is to be run. *)
Definition a_program (q : srequest) (line p : cstr) : Prop := nonul p /\ ~ start_option p /\ (quoted line -> s_title q <> None).
(** The directory [d] that [p] is the name of, a short enough one (see C49) *)
Definition directory (w : xworld) (p d : cstr) : Prop :=
  nonul p /\ ordinary p /\ from_dir (vw_cd (x_var w)) p d /\ length d < x_cap w p.

(** [start_asked w q line q' line']: with [q] asked for, the options at the beginning of [line]
    ask for [q']; [line'] is behind them. *)
Inductive start_asked (w : xworld) : srequest -> cstr -> srequest -> cstr -> Prop :=
| sa_end q line : start_asked w q line q line
| sa_wait q line p rest q' line' : leads w line p rest -> one_of p ["/wait"; "/w"]%string ->
    start_asked w (mkS true (s_window q) (s_dir q) (s_title q)) rest q' line' -> start_asked w q line q' line'
| sa_here q line p rest q' line' : leads w line p rest -> one_of p ["/b"]%string ->
    start_asked w (mkS (s_wait q) false (s_dir q) (s_title q)) rest q' line' -> start_asked w q line q' line'
| sa_ignored q line p rest q' line' : leads w line p rest -> one_of p ignored -> start_asked w q rest q' line' -> start_asked w q line q' line'
| sa_ignored_two q line p r1 x rest q' line' : leads w line p r1 -> one_of p ["/node"; "/affinity"]%string -> leads w r1 x rest ->
    start_asked w q rest q' line' -> start_asked w q line q' line'
| sa_dir q line p r1 x rest d q' line' : leads w line p r1 -> one_of p ["/d"]%string -> s_dir q = None -> leads w r1 x rest -> directory w x d ->
    start_asked w (mkS (s_wait q) (s_window q) (Some d) (s_title q)) rest q' line' -> start_asked w q line q' line'
| sa_title q line p rest q' line' : leads w line p rest -> a_title q line p ->
    start_asked w (mkS (s_wait q) (s_window q) (s_dir q) (Some p)) rest q' line' -> start_asked w q line q' line'.

(** *** What is run *)
(** The parameters in [text], none of which a second expansion changes, and the whole
    of it after one expansion *)
Definition gives (w : xworld) (text : cstr) (args : list cstr) (cmdline : cstr) : Prop :=
  written w text args /\ args <> [] /\ Forall (fun v => expands w v v) args /\
  exists t, expands w text t /\ behind t cmdline.
Definition execution (w : xworld) (q : srequest) (file : cstr) (args : list cstr) (cmdline : cstr) : execinfo :=
  mkE (s_title q) (match s_dir q with Some d => d | None => vw_cd (x_var w) end) file args cmdline (s_wait q) (s_window q).
(** scheme:... ; a single letter before the colon is no scheme. *)
Definition uri (p : cstr) : Prop := In ":"%char p /\ forall a r, p <> a :: ":"%char :: r.
(** The file that a name stands for: the one that the lookup of programs finds (C36), or else the
    name itself, from the current directory. *)
Definition stands_for (ex : cstr -> bool) (ka : Z) (w : xworld) (p file : cstr) : Prop :=
  exists f, finds ex ka w p f /\ file = match f with Some x => x | None => pBat_MakeFullPath (vw_cd (x_var w)) p FILENAME_MAX end.
(** The interpreter is asked for quietness, and to be as this one is. *)
Definition same_state (echo correct : bool) : cstr := s2l "/a:q" ++ (if echo then [] else s2l "e") ++ (if correct then s2l "c" else []).
(** A name without blanks, quotes or characters that expansion looks at *)
Definition simple_name (p : cstr) : Prop := p <> [] /\ forall c, In c p -> ~ In c (dquote :: blanks ++ s2l "^%!").
