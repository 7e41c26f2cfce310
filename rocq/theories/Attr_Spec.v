(** Attr_Spec.v -- what an attribute string requests, and linked lists. *)

From Verif Require Import Base Attr_Model.

Inductive attr := AVoid | AArchive | AReadonly | AHidden | ASystem | ADir.

Definition attr_of (c : ascii) : option attr :=
  match toupper c with
  | "I"%char => Some AVoid | "A"%char => Some AArchive | "R"%char => Some AReadonly
  | "H"%char => Some AHidden | "S"%char => Some ASystem | "D"%char => Some ADir
  | _ => None
  end.

(** [requests s neg]: the attributes named in [s], each with whether it was
    preceded by '-' (with no other attribute letter in between). *)
Fixpoint requests (s : cstr) (neg : bool) : list (attr * bool) :=
  match s with
  | [] => []
  | c :: r => match attr_of c with
              | Some a => (a, neg) :: requests r false
              | None => requests r (neg || Ascii.eqb c "-"%char)
              end
  end.

Definition requested (s : cstr) (a : attr) : Prop := exists n, In (a, n) (requests s false).
Definition refused (s : cstr) (a : attr) : Prop := In (a, true) (requests s false).

(** The attributes of a file.  Archive, hidden and system do not exist here. *)
Definition holds_attr (f : fileinfo) (a : attr) : Prop :=
  match a with
  | AVoid => f_size f = 0%N
  | ADir => f_dir f = true
  | AReadonly => f_read f = true /\ f_write f = false
  | _ => False
  end.

(** [chain h p l]: following [h] from [p] visits exactly the nodes of [l]. *)
Fixpoint chain (h : heap) (p : option nat) (l : list nat) : Prop :=
  match l with
  | [] => p = None
  | n :: l' => p = Some n /\ chain h (h n) l'
  end.

(** The documented meaning of an attribute string: every attribute it names must
    be present, or absent when it was refused with '-'. *)
Definition meets (s : cstr) (f : fileinfo) : Prop :=
  forall a, requested s a -> (holds_attr f a <-> ~ refused s a).
