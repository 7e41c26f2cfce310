(** Xargs_Spec.v -- what XARGS adds to a command. *)

From Verif Require Import Base StrLib_Spec Expand_Model Args_Spec Params_Spec Find_Spec.

(** The words [vs] written in a text to which others can be added. *)
Inductive words (w : xworld) : cstr -> list cstr -> Prop :=
| wd_end a : Forall blank a -> words w a []
| wd_next a raw rest t v vs : Forall blank a -> whole raw -> ends rest -> bare false raw t -> t <> s2l "^" -> pBat_DelayedExpand w t = Ret (v, w) ->
    words w rest vs -> words w (a ++ raw ++ rest) (v :: vs).
(** A line that can be passed as it is: it has something in it, and neither quotes nor what is
    expanded. *)
Definition passable (p : cstr) : Prop := p <> [] /\ forall c, In c p -> ~ In c (dquote :: s2l "^%!").
