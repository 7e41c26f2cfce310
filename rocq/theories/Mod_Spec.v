(** Mod_Spec.v -- what MOD does with its words. *)

From Verif Require Import Base Lex Path_Spec Mod_Model.

(** [under d p q]: [q] is [p] in the directory [d]. *)
Definition under (d p q : cstr) : Prop :=
  (d = [] /\ q = p) \/ (exists e, d = e ++ ["/"%char] /\ q = d ++ p) \/
  ((exists e c, d = e ++ [c] /\ c <> "/"%char) /\ q = d ++ "/"%char :: p).
(** [place home p q]: the file [q] is meant by the word [p]. *)
Definition place (home p q : cstr) : Prop :=
  (absolute p /\ q = p) \/ (~ absolute p /\ exists d, under home (s2l "modules") d /\ under d p q).
Definition option_of (o : string) (p : cstr) : Prop := same_name p (s2l o).
Definition word (p : cstr) : Prop := ~ option_of "/l" p /\ p <> s2l "/?" /\ ~ option_of "/q" p.
Definition loaded (m : cstr) (mods : list cstr) : Prop := Exists (same_name m) mods.

Section M.
Variable exists_file : cstr -> bool.
Variable load : list cstr -> cstr -> answer.
Variable home : cstr.
(** [goes quiet mods ps status l mods']: the words [ps] are done one after the other; the modules [mods] are loaded before and
    [mods'] behind; [l] can be seen. *)
Inductive goes : bool -> list cstr -> list cstr -> Z -> list mev -> list cstr -> Prop :=
| g_end q mods : goes q mods [] 0 [] mods
| g_list q mods p ps : option_of "/l" p -> goes q mods (p :: ps) 0 [MList mods] mods
| g_help q mods ps : goes q mods (s2l "/?" :: ps) 0 [MHelp] mods
| g_quiet q mods p ps z l m' : option_of "/q" p -> goes true mods ps z l m' -> goes q mods (p :: ps) z l m'
| g_load q mods p ps f z l m' : word p -> place home p f -> exists_file f = true -> ~ loaded f mods -> load mods f = Loads ->
    goes q (f :: mods) ps z l m' -> goes q mods (p :: ps) z (MCall f :: l) m'
| g_again mods p ps f z l m' : word p -> place home p f -> exists_file f = true -> loaded f mods ->
    goes true mods ps z l m' -> goes true mods (p :: ps) z l m'
| g_twice mods p ps f : word p -> place home p f -> exists_file f = true -> loaded f mods ->
    goes false mods (p :: ps) 61 [MError 61 f] mods
| g_missing q mods p ps f : word p -> place home p f -> exists_file f = false -> goes q mods (p :: ps) 1 [MError 1 f] mods
| g_cannot q mods p ps f : word p -> place home p f -> exists_file f = true -> ~ loaded f mods -> load mods f = Cannot ->
    goes q mods (p :: ps) 59 [MError 59 f] mods
| g_bad q mods p ps f : word p -> place home p f -> exists_file f = true -> ~ loaded f mods -> load mods f = Incompatible ->
    goes q mods (p :: ps) 60 [MCall f; MError 60 f] mods.
End M.

(** No two modules have the same name. *)
Inductive apart : list cstr -> Prop :=
| ap_nil : apart []
| ap_cons m mods : ~ loaded m mods -> apart mods -> apart (m :: mods).
(** The modules whose handlers were called *)
Fixpoint called (l : list mev) : list cstr := match l with [] => [] | MCall m :: l => m :: called l | _ :: l => called l end.
(** [grown exists_file load mods mods']: each further module was there and could be loaded behind those before it. *)
Inductive grown (exists_file : cstr -> bool) (load : list cstr -> cstr -> answer) (mods : list cstr) : list cstr -> Prop :=
| gr_same : grown exists_file load mods mods
| gr_more m mods' : grown exists_file load mods mods' -> exists_file m = true -> load mods' m = Loads -> grown exists_file load mods (m :: mods').
