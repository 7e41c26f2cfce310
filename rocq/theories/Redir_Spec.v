(** Redir_Spec.v -- redirections written in a command. *)

From Verif Require Import Base StrLib_Spec Args_Spec Expand_Spec Expand_Model Path_Model Parse_Model Parse_Spec Block_Spec.

(** What a redirection asks for; the boolean tells that the file is emptied
    first. *)
Inductive red := ToOut (f : cstr) (trunc : bool) | ToErr (f : cstr) (trunc : bool) | FromIn (f : cstr) | ErrToOut | OutToErr.

(** What it is about: each may be asked for once. *)
Inductive about := AOut | AErr | AIn | ADup.
Definition kind (r : red) : about :=
  match r with ToOut _ _ => AOut | ToErr _ _ => AErr | FromIn _ => AIn | ErrToOut | OutToErr => ADup end.

(** Files: how the redirection is written before the name. *)
Inductive fop : cstr -> (cstr -> red) -> Prop :=
| fo_out : fop (s2l ">") (fun f => ToOut f true)
| fo_app : fop (s2l ">>") (fun f => ToOut f false)
| fo_out1 : fop (s2l "1>") (fun f => ToOut f true)
| fo_app1 : fop (s2l "1>>") (fun f => ToOut f false)
| fo_err : fop (s2l "2>") (fun f => ToErr f true)
| fo_err1 : fop (s2l "2>>") (fun f => ToErr f false)
| fo_in : fop (s2l "<") FromIn.

(** Characters that end the name of a file. *)
Definition file_end (c : ascii) : Prop := In c (s2l " ,;&|><)" ++ ["009"%char; "010"%char]).

(** A name as it is written: quotes are paired, nothing that ends it is outside
    of them, and no '^' is pending. *)
Definition fname (raw : cstr) : Prop :=
  raw <> [] /\ settled raw /\ Nat.Even (quotes_before raw (length raw)) /\
  forall i, ~ live_unquoted (inset (s2l " ,;&|><)" ++ ["009"%char; "010"%char])) raw i.

(** Text in which none of [stops] is outside quotes or unprotected. *)
Definition calm_text (stops t : cstr) : Prop :=
  settled t /\ Nat.Even (quotes_before t (length t)) /\ forall i, ~ live_unquoted (inset stops) t i.

(** Commands without a block, up to their first block, or behind it. *)
Inductive mode := Flat | Head | Tail.
Definition stops (m : mode) : cstr := match m with Tail => s2l "()12<>" | _ => s2l "12<>" end.
Definition paren_free (m : mode) (t : cstr) : Prop := m = Tail -> calm_text (s2l "()") t.

Definition nothing (s : cstr) : bool := match s with [] => true | _ => false end.

Section Outs.
Variable cur : cstr.     (* the current directory *)

(** [outs m w s t l w']: the text [s] is [t] with the redirections [l] in it;
    names of files are expanded, from [w] to [w']. *)
Inductive outs (m : mode) : xworld -> cstr -> cstr -> list red -> xworld -> Prop :=
| ou_end w t : calm_text (stops m) t -> outs m w t t [] w
| ou_digit w t c s u l w' : calm_text (stops m) t -> In c (s2l "12") -> ~ starts_with ">"%char s ->
    outs m w s u l w' -> outs m w (t ++ c :: s) (t ++ c :: u) l w'
| ou_err2out w t s u l w' : calm_text (stops m) t -> outs m w s u l w' ->
    outs m w (t ++ s2l "2>&1" ++ s) (t ++ u) (ErrToOut :: l) w'
| ou_out2err w t s u l w' : calm_text (stops m) t -> outs m w s u l w' ->
    outs m w (t ++ s2l "1>&2" ++ s) (t ++ u) (OutToErr :: l) w'
| ou_file w t op k a raw v f w1 s u l w' : calm_text (stops m) t -> fop op k -> Forall blank a -> fname raw -> paren_free m raw ->
    (s = [] -> m <> Head) -> (forall c r, s = c :: r -> file_end c) -> bare (nothing s) raw v ->
    pBat_DelayedExpand w v = Ret (f, w1) -> outs m w1 s u l w' ->
    outs m w (t ++ op ++ a ++ raw ++ s) (t ++ u) (k (pBat_FullPathDup cur f) :: l) w'
| ou_block w t i s u l w' : m = Tail -> calm_text (stops m) t -> inner i -> outs m w s u l w' ->
    outs m w (t ++ "("%char :: i ++ ")"%char :: s) (t ++ "("%char :: i ++ ")"%char :: u) l w'.

Inductive outline : xworld -> cstr -> cstr -> list red -> xworld -> Prop :=
| ol_flat w s t l w' : flat s -> outs Flat w s t l w' -> outline w s t l w'
| ol_blocks w h t l w1 i s u l' w' : heads h -> outs Head w h t l w1 -> inner i -> outs Tail w1 s u l' w' ->
    outline w (h ++ "("%char :: i ++ ")"%char :: s) (t ++ "("%char :: i ++ ")"%char :: u) (l ++ l') w'.
End Outs.

(** The streams that were asked for. *)
Definition streams (l : list red) (st : stream) : Prop :=
  (forall f b, st_out st = Some (f, b) <-> In (ToOut f b) l) /\
  (forall f b, st_err st = Some (f, b) <-> In (ToErr f b) l) /\
  (forall f, st_in st = Some f <-> In (FromIn f) l) /\
  (st_redir st = RE_ERR2OUT <-> In ErrToOut l) /\ (st_redir st = RE_OUT2ERR <-> In OutToErr l).
