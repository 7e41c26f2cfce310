(** Mkdir_Spec.v -- new directories, and new names. *)

From Verif Require Import Base Path_Spec Fs_Model Fs_Spec.

(** A path without "." and ".." (empty names do not count). *)
Definition straight (p : cstr) : Prop := Forall (fun c => c = [] \/ normal_comp c) (split_at "/"%char p).
(** [q] is [p], or above it. *)
Definition above (p q : place) : Prop := exists r, p = r ++ q.
(** Nothing was lost or changed: what is new are directories at or above the places [ps]. *)
Definition grown (ps : list place) (f f' : fsys) : Prop :=
  forall q, get f' q = get f q \/ get f q = None /\ get f' q = Some Dir /\ exists p, In p ps /\ above p q.
(** No file is in the way of the directory [p]. *)
Definition clear_way (f : fsys) (p : place) : Prop := forall q t, above p q -> get f q <> Some (File t).

(** What was at [a], and below it, is at [b] now, and the rest is as before. *)
Definition renamed (a b : place) (f f' : fsys) : Prop :=
  (forall r, get f' (r ++ b) = get f (r ++ a)) /\ (a <> b -> forall r, get f' (r ++ a) = None) /\
  forall p, ~ above p a -> ~ above p b -> get f' p = get f p.
