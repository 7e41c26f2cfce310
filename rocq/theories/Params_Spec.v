(** Params_Spec.v -- what the parameters of a script are, and what SHIFT does to them. *)

From Verif Require Import Base LocalVar_Model Expand_Model Args_Model StrLib_Spec Args_Spec.

(** The parameters written in a text, when expanding them changes nothing else: blanks,
    then a parameter up to the next separator (see [Args_Spec]), without its quotes and
    expanded, and so on. *)
Inductive written (w : xworld) : cstr -> list cstr -> Prop :=
| wr_end s : Forall blank s -> written w s []
| wr_next a raw rest t v l :
    Forall blank a -> raw <> [] -> (forall c r, raw = c :: r -> ~ blank c) ->
    param_at PBAT_DELIMITERS raw rest -> bare (match rest with [] => true | _ => false end) raw t ->
    t <> s2l "^" -> pBat_DelayedExpand w t = Ret (v, w) -> written w rest l ->
    written w (a ++ raw ++ rest) (v :: l).

(** The parameters of the running script, %0 first: %0 ... %9 hold the first ten (or
    nothing), and %+ is a text with the others. *)
Definition digits : cstr := s2l "0123456789".
Definition holds (w : xworld) (l : list cstr) : Prop :=
  (forall i c, nth_error digits i = Some c -> x_args w c = Some (nth i l [])) /\
  exists s, match x_args w "+"%char with Some t => t = s | None => s = [] end /\ written w s (skipn 10 l).

(** What else there is stays. *)
Definition others_stay (w w' : xworld) : Prop :=
  x_var w' = x_var w /\ x_locals w' = x_locals w /\ x_delayed w' = x_delayed w /\ x_script w' = x_script w /\
  forall c, ~ In c (s2l "0123456789+") -> x_args w' c = x_args w c.

(** Options of SHIFT: the first parameter that moves, or how far they move. *)
Inductive soption := Start (n : nat) | Move (k : nat).
Inductive shift_option : cstr -> soption -> Prop :=
| so_digit i c r : nth_error digits i = Some c -> i <> 7 -> shift_option ("/"%char :: c :: r) (Start i)
| so_start i c : nth_error digits i = Some c -> shift_option ("/"%char :: "s"%char :: [c]) (Start i)
| so_start_colon i c : nth_error digits i = Some c -> shift_option (s2l "/s:" ++ [c]) (Start i)
| so_move i c : nth_error digits i = Some c -> shift_option ("/"%char :: "d"%char :: [c]) (Move i)
| so_move_colon i c : nth_error digits i = Some c -> shift_option (s2l "/d:" ++ [c]) (Move i).

(** The last option of each kind counts. *)
Definition last_start (l : list soption) : nat := fold_left (fun n o => match o with Start m => m | Move _ => n end) l 0.
Definition last_move (l : list soption) : nat := fold_left (fun k o => match o with Move m => m | Start _ => k end) l 1.

(** Parameters that go through %+ unchanged. *)
Definition sturdy (v : cstr) : Prop := v <> [] /\ forall c, In c v -> ~ In c (nl :: s2l "^%!").

(** A decimal number as it is usually written. *)
Definition drop {A} (n k : nat) (l : list A) : list A := firstn n l ++ skipn (n + k) l.
