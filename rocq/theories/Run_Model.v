(** Run_Model.v -- model of the execution of lines: pbat/core/pBat_Run.c (lines,
    operators, pipes, redirections, blocks), pbat/command/pBat_Block.c, and the
    way IF and FOR run what follows them.

    The other commands, internal or not, are a parameter: from what happened
    before and the state they give an exit code.  Simplified: macros made by DEF
    and commands that run other scripts (CALL, CMD) are among them; the left
    sides of pipes run in threads of their own, with copies of the state, so
    that starting them is an event here; the ends of pipes which are handed to
    threads leave the table of descriptors at once; what is printed by the
    interpreter itself (errors, help) is not represented. *)

From Verif Require Import Base StrLib_Model Env_Model Var_Model Expand_Model Args_Model Block_Model CmdList_Model
  Parse_Model Stream_Model If_Model Body_Model For_Model.

(** [bAbortCommand]: 0, -1 (PBAT_ABORT_EXECUTION_LEVEL), 1 or 2
    (PBAT_ABORT_COMMAND_BLOCK).  The last event comes first in [r_log].
    [iErrorLevel] is in the state of the variables. *)
Record rst := mkR { r_io : io; r_x : xworld; r_abort : Z; r_log : list event }.
Definition set_io (r : rst) (s : io) : rst := mkR s (r_x r) (r_abort r) (r_log r).
Definition set_x (r : rst) (w : xworld) : rst := mkR (r_io r) w (r_abort r) (r_log r).
Definition add_event (r : rst) (e : event) : rst := mkR (r_io r) (r_x r) (r_abort r) (e :: r_log r).
Definition errlevel (r : rst) : Z := vw_err (x_var (r_x r)).
Definition x_set_err (w : xworld) (z : Z) : xworld :=
  let v := x_var w in
  mkX (mkVW (vw_env v) (vw_cd v) z (vw_rand v) (vw_date v) (vw_time v)) (x_ka w) (x_args w) (x_locals w) (x_script w)
      (x_stat w) (x_cap w) (x_delayed w).
Definition set_err (r : rst) (z : Z) : rst := set_x r (x_set_err (r_x r) z).

(** A parsed line: operator before the command, text, redirections. *)
Definition item : Type := (node * cstr * stream)%type.
Definition chain := list item.

(** What a command leaves: exit code, [bAbortCommand], the state, its text
    (pBat_Run.c:434 expands it in place) and whether it swallows the rest of the line. *)
Record leafres := mkLeaf { lf_code : Z; lf_abort : Z; lf_x : xworld; lf_text : cstr; lf_stop : bool }.

Section Run.
Variable leaf : list event -> xworld -> cstr -> leafres.
Variable can_open : list event -> cstr -> std -> bool -> bool.
(** What FOR finds in directories, files and pipes. *)
Variable fio : forio.
(** The commands known, the current directory used for redirections being in the state. *)
Variable table : tree.
Variable strtod : cstr -> dbl * nat.
Variable exists_file : list event -> cstr -> bool.
Variable ka : Z.

(** pBat_Run.c:119-129 and 373-375: IF and FOR. *)
Definition look_ahead (t : cstr) : bool :=
  let p := pBat_SkipAllBlanks t in
  ((strnicmp p (s2l "if") 2 =? 0)%Z && delim_at p 2) || ((strnicmp p (s2l "for") 3 =? 0)%Z && delim_at p 3).

(** pBat_Run.c:131-153 *)
Definition op_skips (n : node) (err : Z) : bool :=
  match n with
  | NODE_PIPE => true
  | NODE_NONE => false
  | NODE_NOT => (err =? 0)%Z
  | NODE_YES => negb (err =? 0)%Z
  end.

(** pBat_Run.c:155-196: the loop on the commands of a pipe; [lastin] is the end of the last pipe. *)
Fixpoint pipe_loop (c : chain) (lastin : option nat) (r : rst) : chain * chain * option nat * rst :=
  match c with
  | (n, t, st) :: rest =>
      match rest with
      | (NODE_PIPE, _, _) :: _ =>
          let k := length (r_log r) in
          let inp := match lastin with Some f => fd_get (io_tab (r_io r)) f | None => reads (r_io r) end in
          let t0 := match lastin with Some f => sys_close (io_tab (r_io r)) f | None => io_tab (r_io r) end in
          let '(f, t1) := sys_new t0 (DPipe k) in
          let r1 := add_event (set_io r (set_tab (r_io r) t1)) (Started k t st inp) in
          let '(pre, cur, l, r2) := pipe_loop rest (Some f) r1 in
          ((n, t, st) :: pre, cur, l, r2)
      | _ => ([], c, lastin, r)
      end
  | [] => ([], c, lastin, r)
  end.

(** pBat_Run.c:109-206 [pBat_ExecOperators]: whether the command is skipped,
    those started, the line from the current command on. *)
Definition pBat_ExecOperators (c : chain) (r : rst) : outcome (bool * chain * chain * rst) :=
  match c with
  | [] => Undef
  | (n, t, _) :: _ =>
      let skip := op_skips n (errlevel r) in
      if skip || look_ahead t then Ret (skip, [], c, r)
      else
        let '(pre, cur, lastin, r1) := pipe_loop c None r in
        match lastin with
        | None => Ret (false, pre, cur, r1)
        | Some f => do s <- pBat_OpenOutputD (r_io r1) f (Some STDIN);
                    Ret (false, pre, cur, set_io r1 (set_tab s (sys_close (io_tab s) f)))
        end
  end.

(** pBat_Run.c:531-546: the end of the first line of a block. *)
Definition skip_op (s : cstr) : cstr :=
  match s with c :: r => if ceq c "&"%char || ceq c "|"%char then r else s | [] => s end.
Fixpoint line_end (fuel : nat) (s : cstr) : outcome cstr :=
  match fuel with
  | O => OutOfFuel
  | S f =>
      do e <- pBat_GetBlockLineEndEx (pBat_SkipBlanks s) false;
      match e with
      | None => Undef                                    (* assert *)
      | Some e =>
          let e := skip_op (skip_op e) in
          match e with
          | [] => Ret e
          | c :: _ => if ceq c nl || ceq c ")"%char then Ret e else line_end f e
          end
      end
  end.

Definition PBAT_INVALID_TOP_BLOCK : Z := 27.
(** What is to be done: run the commands of a line; run the first command of a
    line; run the lines of a block; run the turns of a FOR that are left. *)
Inductive job := JLine (c : chain) | JCommand (c : chain) | JBlock (b : cstr) | JFor (s : fstate) (c : chain).

Definition locked (s : io) : io := set_stk s (set_lock (io_stk s) true).
Definition relock (s : io) (b : bool) : io := set_stk s (set_lock (io_stk s) b).

(** The line is returned as it is left (IF and FOR rewrite it), with whether
    the pointer to it was set to NULL. *)
Fixpoint run (fuel : nat) (j : job) (r : rst) : outcome (chain * bool * rst) :=
  match fuel with
  | O => OutOfFuel
  | S f =>
      match j with
      (* pBat_Run.c:327-385 [pBat_RunParsedLine] *)
      | JLine [] => Ret ([], false, r)
      | JLine (((n, t, st) :: tl) as c) =>
          let lock := get_lock (io_stk (r_io r)) in
          let r0 := set_io r (locked (r_io r)) in
          let ahead := look_ahead t in
          do (skip, pre, cur, r1) <- pBat_ExecOperators c r0;
          match cur with
          | [] => Undef
          | (n1, t1, st1) :: tl1 =>
              if skip || negb (r_abort r1 =? 0)%Z then
                do s <- pBat_PopStreamStackUntilLock (r_io r1);
                let r2 := set_io r1 (relock s lock) in
                if negb (r_abort r1 =? 0)%Z || ahead then Ret (c, false, r2)
                else do (c', _, r3) <- run f (JLine tl1) r2;
                     Ret (pre ++ (n1, t1, st1) :: c', false, r3)
              else
                do s <- (if ahead then Ret (r_io r1) else pBat_ExecOutput (can_open (r_log r1)) st1 (r_io r1));
                do (c2, stop, r2) <- run f (JCommand cur) (set_io r1 s);
                do s <- pBat_PopStreamStackUntilLock (r_io r2);
                let r3 := set_io r2 (relock s lock) in
                match c2 with
                | [] => Undef
                | it2 :: tl2 =>
                    if stop || ahead then Ret (pre ++ c2, false, r3)
                    else do (c', _, r4) <- run f (JLine tl2) r3; Ret (pre ++ it2 :: c', false, r4)
                end
          end

      (* pBat_Run.c:387-486 [pBat_RunCommand] *)
      | JCommand [] => Undef
      | JCommand (((n, t, st) :: tl) as c) =>
          let p := pBat_SkipAllBlanks t in
          do e <- pBat_GetCommandProc p table;
          let proc := match e with Some e => e_proc e | None => [] end in
          if streqb proc (s2l "CmdBlock") then
            (* pBat_Block.c:43-91 *)
            do (b, e) <- pBat_GetNextBlock p;
            do (_, w) <- pBat_DelayedExpand (r_x r) b;
            let r := set_x r w in
            match e with
            | ")"%char :: e1 =>
                match pBat_SkipBlanks e1 with
                | [] => do (_, _, r1) <- run f (JBlock b) r; Ret (c, false, r1)
                | _ => Ret (c, false, set_err r PBAT_INVALID_TOP_BLOCK)
                end
            | _ => Ret (c, false, set_err r PBAT_INVALID_TOP_BLOCK)
            end
          else if streqb proc (s2l "CmdIf") then
            (* pBat_If.c:43-435 *)
            do (res, w) <- if_cond strtod (exists_file (r_log r)) ka (r_x r) p;
            let r := set_x r w in
            match res with
            | IfStop code keep => Ret (c, negb keep, set_err r code)
            | IfGo true rest =>
                do (b, e) <- body_of (pBat_SkipBlanks rest);
                let it := (n, in_block b, st) in
                match after_par e with
                | [] => do (c', _, r1) <- run f (JLine (it :: tl)) r; Ret (c', true, set_err r1 0)
                | _ => do (_, _, r1) <- run f (JLine [(NODE_NONE, in_block b, no_redir)]) r; Ret (c, true, set_err r1 0)
                end
            | IfGo false rest =>
                let l := pBat_SkipBlanks rest in
                if opens l then
                  do (_, e) <- pBat_GetNextBlock l;
                  let l := after_par e in
                  if (strnicmp l (s2l "ELSE") 4 =? 0)%Z && (delim_at l 4 || (length l =? 4)) then
                    do (b, e) <- body_of (pBat_SkipBlanks (skipn 4 l));
                    match after_par e with
                    | [] => do (c', _, r1) <- run f (JLine ((n, in_block b, st) :: tl)) r; Ret (c', true, set_err r1 0)
                    | _ => Ret (c, true, set_err r PBAT_UNEXPECTED_ELEMENT)
                    end
                  else match l with
                       | [] => Ret (c, true, set_err r 0)
                       | _ => Ret (c, true, set_err r PBAT_UNEXPECTED_ELEMENT)
                       end
                else Ret (c, true, set_err r 0)
            end
          else if streqb proc (s2l "CmdFor") then
            (* pBat_For.c:85-362 *)
            do (h, w) <- for_head fio (r_log r) (r_x r) p;
            let r := set_x r w in
            match h with
            | FStop code => Ret (c, true, set_err r code)
            | FFail b code => Ret ((n, in_block b, st) :: tl, true, set_err r code)
            | FRun b s cmd =>
                let r := match cmd with
                         | Some t => add_event r (Started (length (r_log r)) t no_redir (reads (r_io r)))
                         | None => r
                         end in
                do (c', _, r1) <- run f (JFor s ((n, in_block b, st) :: tl)) r;
                Ret (c', true, set_err (set_x r1 (for_end s (r_x r1))) 0)
            end
          else
            let x := leaf (r_log r) (r_x r) p in
            let s := r_io r in
            let r1 := mkR s (x_set_err (lf_x x) (lf_code x)) (lf_abort x)
                          (Ran p (reads s) (writes s) (complains s) :: r_log r) in
            Ret ((n, lf_text x, st) :: tl, lf_stop x, r1)

      (* pBat_For.c: the loops *)
      | JFor s c =>
          do t <- for_next fio (r_log r) (r_x r) s;
          match t with
          | TDone => Ret (c, false, r)
          | TSkip s => run f (JFor s c) r
          | TTurn w s =>
              do (c', _, r1) <- run f (JLine c) (set_x r w);
              if (r_abort r1 =? 0)%Z then run f (JFor s c') r1 else Ret (c', false, r1)
          end

      (* pBat_Run.c:489-588 [pBat_RunBlock]; the lock is restored by the caller's pop *)
      | JBlock b =>
          let lock := get_lock (io_stk (r_io r)) in
          do r1 <- run_lines f b (set_io r (locked (r_io r)));
          Ret ([], false, set_io r1 (relock (r_io r1) lock))
      end
  end
with run_lines (fuel : nat) (b : cstr) (r : rst) : outcome rst :=
  match fuel with
  | O => OutOfFuel
  | S f =>
      match b with
      | [] => Ret r
      | _ =>
          do e <- line_end (S (length b)) b;
          let line := firstn (length b - length e) b in
          let e := match e with _ :: r => r | [] => [] end in
          match pBat_SkipAllBlanks b with
          | [] => run_lines f e r
          | _ =>
              do r1 <- run_line f line r;
              if (r_abort r1 =? -1)%Z || (r_abort r1 =? 2)%Z then Ret r1
              else run_lines f e (mkR (r_io r1) (r_x r1) 0 (r_log r1))
          end
      end
  end
(* pBat_Run.c:304-325 [pBat_RunLine] *)
with run_line (fuel : nat) (l : cstr) (r : rst) : outcome rst :=
  match fuel with
  | O => OutOfFuel
  | S f =>
      match pBat_SkipBlanks l with
      | ":"%char :: _ => Ret r
      | _ =>
          do (p, w) <- pBat_ParseLine (vw_cd (x_var (r_x r))) (r_x r) l;
          let r := set_x r w in
          match p with
          | inl _ => Ret r
          | inr c => do (_, _, r1) <- run f (JLine c) r; Ret r1
          end
      end
  end.
End Run.
