(** Expand_Spec.v -- lines as sequences of pieces. *)

From Verif Require Import Base StrLib_Model StrLib_Spec StrLib_Proofs Var_Model LocalVar_Model Expand_Model.

(** No '^' at the end that would protect what follows. *)
Definition settled (t : cstr) : Prop := exists u, escaping u t.

(** Text without delimiter of its own. *)
Definition plain_text (d : ascii) (t : cstr) : Prop := settled t /\ forall i, ~ live (fun c => ceq c d) t i.

(** The pieces of a line. *)
Inductive piece :=
| PText (t : cstr)                       (* text *)
| PDouble                                (* the delimiter twice *)
| PArg (raw : cstr)                      (* delimiter, parameter with modifiers *)
| PVar (ref : cstr).                     (* reference between delimiters *)

Definition show (d : ascii) (p : piece) : cstr :=
  match p with
  | PText t => t
  | PDouble => [d; d]
  | PArg raw => d :: raw
  | PVar ref => d :: ref ++ [d]
  end.

(** [v] is what the piece stands for; texts lose their '^' if [esc]. *)
Inductive piece_value (w : xworld) (d : ascii) (esc : bool) : piece -> cstr -> Prop :=
| pv_text t u : plain_text d t -> (if esc then escaping u t else u = t) ->
    piece_value w d esc (PText t) u
| pv_double : piece_value w d esc PDouble [d]
| pv_arg c raw v : d = "%"%char -> (is_digit c = true \/ In c (s2l "*+~")) ->
    (forall rest, get_local w (x_args w) ((c :: raw) ++ rest) = Ret (Some (v, rest))) ->
    piece_value w d esc (PArg (c :: raw)) v
| pv_var c n o : c <> d -> plain_text d (c :: n) ->
    (d = "%"%char -> is_digit c = true \/ In c (s2l "*+~") ->
       forall rest, get_local w (x_args w) ((c :: n) ++ d :: rest) = Ret None) ->
    (forall m, pBat_GetVar (x_var w) (x_ka w m) (c :: n) = Ret (o, x_var w)) ->
    piece_value w d esc (PVar (c :: n)) (match o with Some v => v | None => [] end).

(** Lines with one-letter variables only. *)
Inductive spiece := SText (t : cstr) | SVar (raw : cstr).
Definition sshow (p : spiece) : cstr := match p with SText t => t | SVar raw => "%"%char :: raw end.
Inductive spiece_value (w : xworld) : spiece -> cstr -> Prop :=
| sv_text t : plain_text "%"%char t -> spiece_value w (SText t) t
| sv_var raw v : (forall rest, get_local w (x_locals w) (raw ++ rest) = Ret (Some (v, rest))) ->
    spiece_value w (SVar raw) v.
