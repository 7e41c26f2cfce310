(** Run_Spec.v -- what running a line means: which commands run, in which order,
    on which streams. *)

From Verif Require Import Base StrLib_Model Var_Model Expand_Model CmdList_Model Parse_Model Stream_Model Stream_Spec Body_Model For_Model Run_Model.

(** An ordinary command: neither a block nor IF nor FOR. *)
Definition plain (table : tree) (t : cstr) : Prop :=
  look_ahead t = false /\
  exists e, pBat_GetCommandProc (pBat_SkipAllBlanks t) table = Ret e /\
    match e with
    | Some e => e_proc e <> s2l "CmdBlock" /\ e_proc e <> s2l "CmdIf" /\ e_proc e <> s2l "CmdFor"
    | None => True
    end.

(** [op left | ... | left | last] with [op] one of '&', '&&' and '||'. *)
Record pipeline := mkPl { pl_op : node; pl_left : list (cstr * stream); pl_last : cstr * stream }.
Fixpoint pipe_items (n : node) (left : list (cstr * stream)) (last : cstr * stream) : chain :=
  match left with
  | [] => [(n, fst last, snd last)]
  | (t, st) :: l => (n, t, st) :: pipe_items NODE_PIPE l last
  end.
Definition items (l : list pipeline) : chain := concat (map (fun p => pipe_items (pl_op p) (pl_left p) (pl_last p)) l).
Definition plain_line (table : tree) (l : list pipeline) : Prop :=
  Forall (fun p => pl_op p <> NODE_PIPE /\ plain table (fst (pl_last p)) /\ Forall (fun c => plain table (fst c)) (pl_left p)) l.

Section S.
Variable leaf : list event -> xworld -> cstr -> leafres.
Variable can_open : list event -> cstr -> std -> bool -> bool.

Definition chosen (n : node) (code : Z) : bool :=
  match n with
  | NODE_NONE => true
  | NODE_YES => (code =? 0)%Z
  | NODE_NOT => negb (code =? 0)%Z
  | NODE_PIPE => false
  end.
(** The commands on the left are started one after the other, each reading from
    the pipe of the one before; [inp] is what the first one reads from. *)
Fixpoint start (left : list (cstr * stream)) (inp : option dest) (log : list event) : option dest * list event :=
  match left with
  | [] => (inp, log)
  | (t, st) :: l => start l (Some (DPipe (length log))) (Started (length log) t st inp :: log)
  end.
Definition read_from (d : option dest) (p : places) : places := mkP d (p_1 p) (p_2 p) (p_o p) (p_e p).

(** The state: variables and exit code, whether commands are being abandoned,
    what happened. *)
Definition result : Type := xworld * Z * list event.
Fixpoint line_result (p : places) (l : list pipeline) (s : result) : result :=
  match l with
  | [] => s
  | mkPl op lt (t, st) :: l' =>
      let '(x, abort, log) := s in
      if chosen op (vw_err (x_var x)) then
        let '(inp, log1) := start lt (p_in p) log in
        if (abort =? 0)%Z then
          let cmd := pBat_SkipAllBlanks t in
          let y := leaf log1 x cmd in
          let '(i, o, e) := sees (redirect (can_open log1) st (read_from inp p)) in
          let s' := (x_set_err (lf_x y) (lf_code y), lf_abort y, Ran cmd i o e :: log1) in
          if lf_stop y then s' else line_result p l' s'
        else (x, abort, log1)
      else if (abort =? 0)%Z then line_result p l' s else s
  end.
End S.
