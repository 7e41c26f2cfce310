(** Args_Spec.v -- what the parameters of a line are. *)

From Verif Require Import Base StrLib_Spec.

(** Characters that separate parameters. *)
Definition blank (c : ascii) : Prop := In c (s2l " ,;" ++ ["009"%char; "010"%char]).

Definition sep (delims : cstr) (c : ascii) : bool := inset delims c && negb (ceq c """"%char).
Definition blanks : cstr := s2l " ,;" ++ ["009"%char; "010"%char].

(** [raw] is what is written up to the first separator outside quotes, or to the
    end of the line, of a text [raw ++ rest] that starts with a parameter. *)
Definition param_at (delims raw rest : cstr) : Prop :=
  match rest with
  | [] => first_pos (live_unquoted (sep delims) raw) None
  | _ => first_pos (live_unquoted (sep delims) (raw ++ rest)) (Some (length raw))
  end.

(** A quote at the end that closes: at the end of the line it must not be
    protected. *)
Definition closing (last : bool) (raw : cstr) : Prop :=
  exists t, raw = """"%char :: t ++ [""""%char] /\
            (last = true -> live (fun c => ceq c """"%char) raw (S (length t))).

(** [t] is the parameter [raw] without surrounding quotes; [last] tells that
    nothing follows. *)
Inductive bare (last : bool) : cstr -> cstr -> Prop :=
| bare_none raw : (forall r, raw <> """"%char :: r) -> bare last raw raw
| bare_both t : closing last (""""%char :: t ++ [""""%char]) -> bare last (""""%char :: t ++ [""""%char]) t
| bare_open t : ~ closing last (""""%char :: t) -> bare last (""""%char :: t) t.

(** A parameter which can be followed by a separator: quotes are paired, no
    separator is outside quotes, and no '^' is pending. *)
Definition whole (raw : cstr) : Prop :=
  raw <> [] /\ (exists u, escaping u raw) /\ Nat.Even (quotes_before raw (length raw)) /\
  forall i, ~ live_unquoted (inset blanks) raw i.

(** Ends a parameter. *)
Definition ends (rest : cstr) : Prop := forall c r, rest = c :: r -> blank c.

(** A '^' before each character. *)
Definition protect (v : cstr) : cstr := flat_map (fun c => ["^"%char; c]) v.
