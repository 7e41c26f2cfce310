(** Stream_Spec.v -- the streams before, during and after a command. *)

From Verif Require Import Base Parse_Model Stream_Model.

(** Two states of the streams that nothing distinguishes: same descriptors, each
    of them open on the same thing or closed. *)
Definition same_io (a b : io) : Prop :=
  io_in a = io_in b /\ io_out a = io_out b /\ io_err a = io_err b /\ io_o a = io_o b /\ io_e a = io_e b /\
  io_stk a = io_stk b /\ forall n, fd_get (io_tab a) n = fd_get (io_tab b) n.

(** The three streams are open and distinct. *)
Definition ready (s : io) : Prop :=
  (exists d, fd_get (io_tab s) (io_in s) = Some d) /\ (exists d, fd_get (io_tab s) (io_out s) = Some d) /\
  (exists d, fd_get (io_tab s) (io_err s) = Some d) /\
  io_in s <> io_out s /\ io_in s <> io_err s /\ io_out s <> io_err s.

(** Standard output goes to [_fOutput] and errors to [_fError]. *)
Definition straight (s : io) : Prop := io_o s = true /\ io_e s = false.

(** Where the streams of a command go, given where those around it go. *)
Definition to_file (can_open : cstr -> std -> bool -> bool) (x : std) (f : option (cstr * bool)) (d : option dest) : option dest :=
  match f with
  | Some (name, trunc) => if can_open name x trunc then Some (DFile name trunc) else d
  | None => d
  end.
Definition redirected (can_open : cstr -> std -> bool -> bool) (st : stream) (around : option dest * option dest * option dest)
  : option dest * option dest * option dest :=
  let '(i, o, e) := around in
  let i := to_file can_open STDIN (match st_in st with Some f => Some (f, false) | None => None end) i in
  let o := to_file can_open STDOUT (st_out st) o in
  let e := to_file can_open STDERR (st_err st) e in
  match st_redir st with
  | RE_NONE => (i, o, e)
  | RE_ERR2OUT => (i, o, o)
  | RE_OUT2ERR => (i, e, e)
  end.
Definition around (s : io) : option dest * option dest * option dest := (reads s, writes s, complains s).

(** The same when the streams around the command are not straight: the two outputs
    there are, and for the output and the errors of the command whether they go
    to the first one. *)
Record places := mkP { p_in : option dest; p_1 : option dest; p_2 : option dest; p_o : bool; p_e : bool }.
Definition sees (p : places) : option dest * option dest * option dest :=
  (p_in p, if p_o p then p_1 p else p_2 p, if p_e p then p_1 p else p_2 p).
Definition open_in (co : cstr -> std -> bool -> bool) (f : option cstr) (p : places) : places :=
  match f with
  | Some n => if co n STDIN false then mkP (Some (DFile n false)) (p_1 p) (p_2 p) (p_o p) (p_e p) else p
  | None => p
  end.
Definition open_out (co : cstr -> std -> bool -> bool) (f : option (cstr * bool)) (p : places) : places :=
  match f with
  | Some (n, t) => if co n STDOUT t then mkP (p_in p) (Some (DFile n t)) (p_2 p) true (p_e p) else p
  | None => p
  end.
Definition open_err (co : cstr -> std -> bool -> bool) (f : option (cstr * bool)) (p : places) : places :=
  match f with
  | Some (n, t) => if co n STDERR t then mkP (p_in p) (p_1 p) (Some (DFile n t)) (p_o p) false else p
  | None => p
  end.
Definition merge (m : redir) (p : places) : places :=
  match m with
  | RE_NONE => p
  | RE_ERR2OUT => mkP (p_in p) (p_1 p) (p_2 p) (p_o p) true
  | RE_OUT2ERR => mkP (p_in p) (p_1 p) (p_2 p) false (p_e p)
  end.
Definition redirect (co : cstr -> std -> bool -> bool) (st : stream) (p : places) : places :=
  merge (st_redir st) (open_err co (st_err st) (open_out co (st_out st) (open_in co (st_in st) p))).
Definition places_of (s : io) : places :=
  mkP (fd_get (io_tab s) (io_in s)) (fd_get (io_tab s) (io_out s)) (fd_get (io_tab s) (io_err s)) (io_o s) (io_e s).
