(** Run_Props.v -- the properties of running lines. *)

From Verif Require Import Base StrLib_Model Env_Model Var_Model Expand_Model Args_Model Block_Model CmdList_Model
  Parse_Model Parse_Spec Stream_Model Stream_Spec Stream_Proofs If_Model Body_Model For_Model Run_Model Run_Spec Run_Proofs Args_Props Redir_Props LocalVar_Model.

(** C25: the redirections of a command, whether the files can be opened or not,
    send its streams where they say; and undoing them once the command is done
    brings back every descriptor as it was. *)
Theorem C25_redirect : forall can_open st s, ready s ->
  exists s1, pBat_ExecOutput can_open st (locked s) = Ret s1 /\
    (straight s -> around s1 = redirected can_open st (around s)) /\
    forall s2, same_io s1 s2 -> exists s3, pBat_PopStreamStackUntilLock s2 = Ret s3 /\ same_io (relock s3 (get_lock (io_stk s))) s.
Proof.
  intros co st s R. destruct (exec_output co st (locked s) R) as (s1 & E & O & P). exists s1. split; auto. split.
  - intros S. rewrite <- sees_around, P. change (places_of (locked s)) with (places_of s). apply redirect_straight; auto.
  - intros s2 S. destruct (pop_opened _ _ _ (locked_base s) O S) as (s3 & E3 & S3). exists s3. split; auto.
    rewrite <- (relock_ok s) at 2. apply same_relock; auto.
Qed.
Print Assumptions C25_redirect.

(** C25: whatever is run -- blocks, IF, FOR and pipes with redirections anywhere,
    commands that fail or abandon the line -- the streams are those of before, and no
    descriptor is left open. *)
Theorem C25_run : forall leaf can_open fio table strtod exists_file ka f l r r',
  ready (r_io r) ->
  run_line leaf can_open fio table strtod exists_file ka f l r = Ret r' ->
  same_io (r_io r') (r_io r).
Proof.
  intros leaf co fio table strtod ex ka f l r r' R E.
  apply (proj2 (proj2 (run_same leaf co fio table strtod ex ka f)) l r r' E R).
Qed.
Print Assumptions C25_run.

(** A small world to run lines in: commands whose name starts with [no] fail, GOTO
    abandons the rest, the file [bad] cannot be opened. *)
Definition ex_leaf (_ : list event) (w : xworld) (t : cstr) : leafres :=
  mkLeaf (if prefixb (s2l "no") t then 1 else 0)%Z (if prefixb (s2l "goto") t then (-1) else 0)%Z w t false.
Definition ex_open (_ : list event) (n : cstr) (_ : std) (_ : bool) : bool := negb (streqb n (s2l "/tmp/bad")).
(** The mask [*] stands for two files; [f1] has three lines, [bad] is no file; every
    command writes the lines "x y" and "z". *)
Definition ex_fio : forio := mkFio
  (fun _ _ m => if streqb m (s2l "*") then [s2l "f1"; s2l "f2"] else [])
  (fun _ p => negb (streqb p (s2l "/tmp/bad")))
  (fun _ p k => if streqb p (s2l "/tmp/f1") then nth_error [s2l "a b c"; s2l ";d"; s2l "e f"] k else None)
  (fun _ _ k => nth_error [s2l "x y"; s2l "z"] k) (fun _ => false).
Definition ex_run (s : String.string) (r : rst) : outcome rst :=
  run_line ex_leaf ex_open ex_fio builtin_table
    (fun _ => (DNaN, 0)) (fun _ _ => false) 20%Z 50 (s2l s) r.
Definition ex_io : io := mkIo [Some (DStd 0); Some (DStd 1); Some (DStd 2)] 0 1 2 true false [].
Definition ex_r : rst := mkR ex_io ex_w 0 [].
Definition events (o : outcome rst) : option (list event) := match o with Ret r => Some (rev (r_log r)) | _ => None end.
Definition code_of (o : outcome rst) : option Z := match o with Ret r => Some (errlevel r) | _ => None end.
Definition io_of (o : outcome rst) : option io := match o with Ret r => Some (r_io r) | _ => None end.
Definition std (n : nat) : option dest := Some (DStd n).
Definition file (s : String.string) : option dest := Some (DFile (s2l s) true).

Lemma ex_ready : ready ex_io.
Proof. repeat split; try (eexists; reflexivity); discriminate. Qed.

Example C25_ex :
  events (ex_run "(a > f & (no 2>&1 & b > bad) < g) 2> h & c" ex_r) =
    Some [Ran (s2l "a  ") (std 0) (file "/tmp/f") (file "/tmp/h");
          Ran (s2l "no  ") (Some (DFile (s2l "/tmp/g") false)) (std 1) (std 1);
          Ran (s2l "b ") (Some (DFile (s2l "/tmp/g") false)) (std 1) (file "/tmp/h");
          Ran (s2l "c") (std 0) (std 1) (std 2)] /\
  io_of (ex_run "(a > f & (no 2>&1 & b > bad) < g) 2> h & c" ex_r) =
    Some (mkIo [Some (DStd 0); Some (DStd 1); Some (DStd 2); None; None; None] 0 1 2 true false []).
Proof. vm_compute. auto. Qed.

(** Inside of a block whose errors go with its output, the output of a command
    takes its errors along, and ">&2" leaves the block. *)
Theorem C25_nested_refuted :
  events (ex_run "(a > f & b 1>&2) 2>&1" ex_r) =
    Some [Ran (s2l "a  ") (std 0) (file "/tmp/f") (file "/tmp/f"); Ran (s2l "b ") (std 0) (std 2) (std 1)].
Proof. vm_compute. reflexivity. Qed.
Print Assumptions C25_nested_refuted.

(** C24: a line of ordinary commands, with pipes: the commands that run are those
    of [line_result], in that order, on those streams and with that outcome. *)
Theorem C24_chain : forall leaf can_open fio table strtod exists_file ka l r f,
  plain_line table l -> ready (r_io r) -> length (items l) + 2 <= f ->
  exists c r', run leaf can_open fio table strtod exists_file ka f (JLine (items l)) r = Ret (c, false, r') /\
    (r_x r', r_abort r', r_log r') = line_result leaf can_open (places_of (r_io r)) l (r_x r, r_abort r, r_log r).
Proof.
  intros leaf co fio table strtod ex ka l r f P R F.
  destruct (run_chain leaf co fio table strtod ex ka l P f r R F) as (c & r' & E & _ & L). eauto.
Qed.
Print Assumptions C24_chain.

(** C24: the same from the text of the line. *)
Theorem C24_line : forall leaf can_open fio table strtod exists_file ka t l ps w r f,
  cmdline (t :: map snd l) -> clear_ops t l -> (forall c s, pBat_SkipBlanks (t ++ joined l) = c :: s -> c <> ":"%char) ->
  outlines (vw_cd (x_var (r_x r))) (r_x r) ((NODE_NONE, t) :: l) (items ps) w ->
  plain_line table ps -> ready (r_io r) -> length (items ps) + 3 <= f ->
  exists r', run_line leaf can_open fio table strtod exists_file ka f (t ++ joined l) r = Ret r' /\
    (r_x r', r_abort r', r_log r') = line_result leaf can_open (places_of (r_io r)) ps (w, r_abort r, r_log r).
Proof.
  intros leaf co fio table strtod ex ka t l ps w r f C O N U P R F.
  destruct f as [|f]; [lia|].
  destruct (run_chain leaf co fio table strtod ex ka ps P f (set_x r w) R) as (c & r' & E & _ & L); [lia|].
  exists r'. split; [|symmetry; exact L]. cbn [run_line].
  assert (G : (do (p, w0) <- pBat_ParseLine (vw_cd (x_var (r_x r))) (r_x r) (t ++ joined l);
     match p with
     | inl _ => Ret (set_x r w0)
     | inr c1 => do (_, _, r1) <- run leaf co fio table strtod ex ka f (JLine c1) (set_x r w0); Ret r1
     end) = Ret r').
  { rewrite (C54_line _ _ _ _ _ _ C O U). cbn [bind]. rewrite E. reflexivity. }
  destruct (pBat_SkipBlanks (t ++ joined l)) as [|d s] eqn:D; [exact G|]. specialize (N d s eq_refl).
  destruct d as [[] [] [] [] [] [] [] []]; try exact G. congruence.
Qed.
Print Assumptions C24_line.

(** [no2] fails: what comes after its "&&" is skipped as a whole, the command behind
    "||" runs. *)
Definition ex_pls : list pipeline :=
  [mkPl NODE_NONE [] (s2l "yes1 ", no_redir); mkPl NODE_YES [] (s2l " no2  ", mkSt (Some (s2l "/tmp/f", true)) None None RE_NONE);
   mkPl NODE_YES [(s2l " a ", no_redir)] (s2l " b ", no_redir); mkPl NODE_NOT [(s2l " c ", no_redir); (s2l " c2 ", no_redir)] (s2l " d", no_redir)].
Example C24_ex :
  plain_line builtin_table ex_pls /\
  pBat_ParseLine (s2l "/tmp") ex_w (s2l "yes1 && no2 > f && a | b || c | c2 | d") = Ret (inr (items ex_pls), ex_w) /\
  events (ex_run "yes1 && no2 > f && a | b || c | c2 | d" ex_r) =
    Some [Ran (s2l "yes1 ") (std 0) (std 1) (std 2); Ran (s2l "no2  ") (std 0) (file "/tmp/f") (std 2);
          Started 2 (s2l " c ") no_redir (std 0); Started 3 (s2l " c2 ") no_redir (Some (DPipe 2));
          Ran (s2l "d") (Some (DPipe 3)) (std 1) (std 2)] /\
  snd (line_result ex_leaf ex_open (places_of ex_io) ex_pls (ex_w, 0%Z, [])) =
    [Ran (s2l "d") (Some (DPipe 3)) (std 1) (std 2); Started 3 (s2l " c2 ") no_redir (Some (DPipe 2));
     Started 2 (s2l " c ") no_redir (std 0); Ran (s2l "no2  ") (std 0) (file "/tmp/f") (std 2);
     Ran (s2l "yes1 ") (std 0) (std 1) (std 2)].
Proof.
  split; [|repeat split; vm_compute; reflexivity].
  assert (P : forall t, In t (map s2l ["yes1 "; " no2  "; " a "; " b "; " c "; " c2 "; " d"]%string) -> plain builtin_table t).
  { intros t H. repeat (destruct H as [<-|H]; [split; [vm_compute; reflexivity|exists None; split; [vm_compute; reflexivity|exact I]]|]). destruct H. }
  repeat constructor; cbn [fst]; try discriminate; apply P; cbv; tauto.
Qed.

(** After IF the outcome is success, whatever the outcome of the command it ran. *)
Theorem C24_if_refuted :
  events (ex_run "if 1==1 no" ex_r) = Some [Ran (s2l "no") (std 0) (std 1) (std 2)] /\
  code_of (ex_run "if 1==1 no" ex_r) = Some 0%Z /\ code_of (ex_run "no" ex_r) = Some 1%Z.
Proof. vm_compute. auto. Qed.
Print Assumptions C24_if_refuted.

(** IF on the right of a pipe never runs its command. *)
Theorem C24_pipe_if_refuted :
  events (ex_run "a | if 1==1 b" ex_r) = Some [Started 0 (s2l "a ") no_redir (std 0)].
Proof. vm_compute. reflexivity. Qed.
Print Assumptions C24_pipe_if_refuted.

(** When the rest of the line is abandoned, the left sides of the next pipe are
    started nevertheless. *)
Theorem C24_abandon_refuted :
  events (ex_run "goto x & a | b & c" ex_r) =
    Some [Ran (s2l "goto x ") (std 0) (std 1) (std 2); Started 1 (s2l " a ") no_redir (std 0)].
Proof. vm_compute. reflexivity. Qed.
Print Assumptions C24_abandon_refuted.

(** An IF that is part of what FOR repeats is replaced by its command the first
    time it is true, so that from then on the command runs without the condition:
    here the last [b] is run for 2, too.  The other way round it is not. *)
Theorem C24_for_refuted :
  events (ex_run "for %b in (1 2) do a & if %b==1 b" ex_r) =
    Some [Ran (s2l "a ") (std 0) (std 1) (std 2); Ran (s2l "b") (std 0) (std 1) (std 2);
          Ran (s2l "a ") (std 0) (std 1) (std 2); Ran (s2l "b") (std 0) (std 1) (std 2)] /\
  events (ex_run "for %b in (1 2) do a & if %b==2 b" ex_r) =
    Some [Ran (s2l "a ") (std 0) (std 1) (std 2); Ran (s2l "a ") (std 0) (std 1) (std 2); Ran (s2l "b") (std 0) (std 1) (std 2)].
Proof. vm_compute. auto. Qed.
Print Assumptions C24_for_refuted.
