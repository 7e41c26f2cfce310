(** Fs_Spec.v -- words for what happens to files. *)

From Verif Require Import Base Lex Fs_Model.

(** The file at [p] has the text [t]. *)
Definition holds_text (f : fsys) (p : place) (t : cstr) : Prop := get f p = Some (File t).
(** Nothing changed except at the places [ps]. *)
Definition same_but (ps : list place) (f f' : fsys) : Prop := forall p, ~ In p ps -> get f' p = get f p.
(** A file can be written at [p]: there is one, or nothing in a directory. *)
Definition writable (f : fsys) (p : place) : Prop :=
  (exists t, get f p = Some (File t)) \/ get f p = None /\ exists n up, p = n :: up /\ get f up = Some Dir.
(** In a tree nothing is in a file. *)
Definition tree (f : fsys) : Prop := forall n p, get f (n :: p) <> None -> get f p = Some Dir.
(** A system call that fails once fails from then on: the disk is full, or broken. *)
Definition for_good (fails : nat -> bool) : Prop := forall n, fails n = true -> fails (S n) = true.
Definition never (fails : nat -> bool) : Prop := forall n, fails n = false.

(** What a line that answers a question says; carriage returns do not count. *)
Definition says (l w : cstr) : Prop := same_name (filter (fun c => negb (ceq c "013"%char)) l) w.
(** The answers to a question: [all] when "all" is one, [default] (0 for none) is the one
    of an empty line. *)
Inductive answers (all : bool) (default : Z) (l : cstr) : Z -> Prop :=
| an_yes : says l (s2l "yes") \/ says l (s2l "y") -> answers all default l PBAT_ASK_YES
| an_no : says l (s2l "no") \/ says l (s2l "n") -> answers all default l PBAT_ASK_NO
| an_all : all = true -> says l (s2l "all") \/ says l (s2l "a") -> answers all default l PBAT_ASK_ALL
| an_empty : default <> 0%Z -> says l [] -> answers all default l default.
