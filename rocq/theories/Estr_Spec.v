(** Estr_Spec.v -- what the growable string operations must do, on ideal
    strings, and what "replace all" and "lines of a stream" mean. *)

From Verif Require Import Base Estr_Model.

(** The string [es] holds text [t]: its block starts with [t] and a NUL, and the
    recorded capacity is the size of the block. *)
Definition holds (es : estr) (t : cstr) : Prop :=
  nonul t /\ Z.of_nat (length (es_mem es)) = es_len es /\
  exists rest, es_mem es = t ++ "000"%char :: rest.

(** [pat] occurs in [s] at offset [k]. *)
Definition occurs_at (pat s : cstr) (k : nat) : Prop :=
  exists a b, s = a ++ pat ++ b /\ length a = k.

(** [replaced pat rep s t]: [t] is [s] where the leftmost non-overlapping
    occurrences of [pat] have become [rep]. *)
Inductive replaced (pat rep : cstr) : cstr -> cstr -> Prop :=
| rep_done s : (forall k, ~ occurs_at pat s k) -> replaced pat rep s s
| rep_step a b t :
    (forall k, k < length a -> ~ occurs_at pat (a ++ pat ++ b) k) ->
    replaced pat rep b t ->
    replaced pat rep (a ++ pat ++ b) (a ++ rep ++ t).

(** One gigabyte: the largest size the growth arithmetic supports. *)
Definition size_limit : Z := 1073741824.

Definition fits (n : nat) : Prop := (Z.of_nat n + 1 <= size_limit)%Z.

(** [ideal op t t']: effect of [op] on an unbounded string. *)
Inductive ideal : es_op -> cstr -> cstr -> Prop :=
| ideal_cpy src t : ideal (OpCpy src) t src
| ideal_cpyn src n t : ideal (OpCpyN src n) t (firstn n src)
| ideal_cat src t : ideal (OpCat src) t (t ++ src)
| ideal_catn src n t : ideal (OpCatN src n) t (t ++ firstn n src)
| ideal_cpye srcE src t : holds srcE src -> ideal (OpCpyE srcE) t src
| ideal_cate srcE src t : holds srcE src -> ideal (OpCatE srcE) t (t ++ src)
| ideal_replace pat rep t t' : replaced pat rep t t' -> ideal (OpReplace pat rep) t t'.

(** When the call is allowed: NUL-free operands, sizes below the limit, a
    non-empty pattern for replace (and an allocator that works: replace ignores
    allocation failures). *)
Definition op_ok (a : alloc) (op : es_op) (t : cstr) : Prop :=
  match op with
  | OpCpy src => nonul src /\ fits (length src)
  | OpCpyN src n => nonul src /\ fits n
  | OpCat src => nonul src /\ fits (length t + length src)
  | OpCatN src n => nonul src /\ fits (length t + n)
  | OpCpyE srcE => exists src, holds srcE src /\ fits (length src)
  | OpCatE srcE => exists src, holds srcE src /\ fits (length t + length src)
  | OpReplace pat rep =>
      a <> None /\ pat <> [] /\ nonul rep /\
      forall t', replaced pat rep t t' -> fits (length t')
  end.

(** Histories of calls, each with the answer of the allocator; a call whose
    allocation fails may leave the text unchanged. *)
Inductive ideal_history : list (alloc * es_op) -> cstr -> cstr -> Prop :=
| ih_nil t : ideal_history [] t t
| ih_ok a op h t t' t'' :
    ideal op t t' -> ideal_history h t' t'' -> ideal_history ((a, op) :: h) t t''
| ih_fail op h t t'' :
    ideal_history h t t'' -> ideal_history ((None, op) :: h) t t''.

Fixpoint history_ok (h : list (alloc * es_op)) (t : cstr) : Prop :=
  match h with
  | [] => True
  | (a, op) :: h' =>
      op_ok a op t /\
      forall t', (ideal op t t' \/ (a = None /\ t' = t)) -> history_ok h' t'
  end.

(** First line of a stream, line feed included. *)
Definition first_line (s line rest : list ascii) : Prop :=
  s = line ++ rest /\ line <> [] /\
  ((exists l, line = l ++ ["010"%char] /\ ~ In "010"%char l) \/
   (rest = [] /\ ~ In "010"%char line)).

Inductive lines : list ascii -> list (list ascii) -> Prop :=
| lines_nil : lines [] []
| lines_cons s line rest ls : first_line s line rest -> lines rest ls -> lines s (line :: ls).

(** Line ending normalisation: CR LF becomes LF, then any remaining CR becomes
    LF. *)
Definition normalised (s t : cstr) : Prop :=
  exists u, replaced ["013"; "010"]%char ["010"]%char s u /\
            replaced ["013"]%char ["010"]%char u t.
