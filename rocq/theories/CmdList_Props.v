(** CmdList_Props.v -- properties C09, C10 and C44: the command table. *)

From Verif Require Import Base Lex CmdList_Model CmdList_Spec CmdList_Proofs.

(** C09: whatever was registered, the lookup of any line terminates without
    reading out of bounds, and a selected command is one whose name starts the
    line (ignoring case) and is followed by a delimiter when it needs one. *)
Theorem C09_lookup_sound :
  forall line t, nonul line -> wf t ->
    exists r, pBat_GetCommandProc line t = Ret r /\
      forall e, r = Some e -> In e (entries t) /\
        exists rest, starts_with line (e_name e) rest /\ (e_limit e <> 0 -> stops rest).
Proof. exact lookup_sound. Qed.
Print Assumptions C09_lookup_sound.

(** C09: after any registration sequence the table is a search tree; it holds,
    for each name, the first command registered under that name. *)
Theorem C09_register_all :
  forall xs, Forall wf_entry xs ->
    let t := register_all xs Leaf in
    wf t /\ ordered t /\
    forall e, In e (entries t) <->
      exists pre post, xs = pre ++ e :: post /\
        forall y, In y pre -> ~ same_name (e_name y) (e_name e).
Proof.
  intros xs Hx t. destruct (register_all_ok xs Leaf Hx (Forall_nil _) (SSorted_nil _)) as (W & O & HI).
  split; [exact W|]. split; [exact O|]. intros e.
  apply (iff_trans (HI e)). split.
  - intros [[]|(pre & post & E & _ & Hp)]. eauto.
  - intros (pre & post & E & Hp). right. exists pre, post. split; [auto|]. split; auto.
    intros (z & [] & _).
Qed.
Print Assumptions C09_register_all.

(** C09: registering an already registered name changes nothing. *)
Theorem C09_register_twice :
  forall x t, wf_entry x -> wf t -> ordered t -> registered t (e_name x) ->
    pBat_AddCommandDynamic x t = t.
Proof. exact add_present. Qed.
Print Assumptions C09_register_twice.

(** C09: registering a command leaves every lookup that succeeded unchanged; a
    lookup that failed can only start finding the new command. *)
Theorem C09_register_unaffected :
  forall x t line, nonul line -> wf_entry x -> wf t ->
    (exists e, pBat_GetCommandProc line t = Ret (Some e) /\
               pBat_GetCommandProc line (pBat_AddCommandDynamic x t) = Ret (Some e)) \/
    (pBat_GetCommandProc line t = Ret None /\
     (pBat_GetCommandProc line (pBat_AddCommandDynamic x t) = Ret None \/
      (pBat_GetCommandProc line (pBat_AddCommandDynamic x t) = Ret (Some x) /\
       exists rest, starts_with line (e_name x) rest /\ (e_limit x <> 0 -> stops rest)))).
Proof. intros. apply add_lookup; auto. Qed.
Print Assumptions C09_register_unaffected.

(** C09: a registered name, in any case, followed by a delimiter that sorts
    before the next character of every longer registered name, is found: the
    result is that command, or one that asks for no delimiter and whose name is
    a proper prefix of the name. *)
Theorem C09_lookup_complete :
  forall t e n d rest,
    nonul (n ++ d :: rest) -> wf t -> ordered t -> In e (entries t) ->
    delim_free (e_name e) -> same_name n (e_name e) -> delimiter d ->
    (forall e' c x, In e' (entries t) -> same_name (e_name e') (e_name e ++ c :: x) ->
       (code d < code (tolower c))%Z) ->
    pBat_GetCommandProc (n ++ d :: rest) t = Ret (Some e) \/
    exists e', pBat_GetCommandProc (n ++ d :: rest) t = Ret (Some e') /\ In e' (entries t) /\
      e_limit e' = 0 /\ exists c y, starts_with (e_name e) (e_name e') (c :: y).
Proof.
  intros t e n d rest Hn Hw Ho Hin Hf Hs Hd Hb.
  destruct (lookup_complete (n ++ d :: rest) t e (d :: rest) Hn Hw Ho Hin)
    as [H|(e' & H1 & H2 & H3 & c & y & H4)].
  - exists n. auto.
  - intros _. right. eauto.
  - apply unshadowed_delim; auto.
  - auto.
  - right. exists e'. split; [auto|]. split; [auto|]. split; [auto|].
    rewrite key_app in H4. pose proof (key_starts _ _ _ H4) as [H5 H6].
    destruct (skipn (length (e_name e')) (e_name e)) as [|c' y']; [discriminate|]. eauto.
Qed.
Print Assumptions C09_lookup_complete.

(** C09: the name alone on the line. *)
Theorem C09_lookup_alone :
  forall t e n,
    nonul n -> wf t -> ordered t -> In e (entries t) ->
    delim_free (e_name e) -> same_name n (e_name e) ->
    pBat_GetCommandProc n t = Ret (Some e) \/
    exists e', pBat_GetCommandProc n t = Ret (Some e') /\ In e' (entries t) /\
      e_limit e' = 0 /\ exists c y, key (e_name e) = key (e_name e' ++ c :: y).
Proof.
  intros t e n Hn Hw Ho Hin Hf Hs.
  apply (lookup_complete n t e []); auto.
  - exists n. rewrite app_nil_r. auto.
  - intros _. left. auto.
  - apply unshadowed_nil; auto.
Qed.
Print Assumptions C09_lookup_alone.

(** C09: every built-in command is found, in any letter case, before any
    delimiter and any arguments, except GOTO before a semicolon. *)
Theorem C09_builtin_found :
  forall e n d rest,
    In e lpCmdInfo -> same_name n (e_name e) -> delimiter d -> nonul n -> nonul rest ->
    ~ (d = ";"%char /\ e_name e = s2l "GOTO") ->
    pBat_GetCommandProc (n ++ d :: rest) builtin_table = Ret (Some e).
Proof. exact builtin_found. Qed.
Print Assumptions C09_builtin_found.

(** The exception is real: GOTO;label is not recognised, because the entry
    GOTO: above it in the tree sorts before a semicolon. *)
Theorem C09_goto_semicolon_refuted :
  In (mkEntry (s2l "GOTO") (s2l "CmdGoto") (length (s2l "GOTO")) false false) lpCmdInfo /\
  pBat_GetCommandProc (s2l "GOTO;label") builtin_table = Ret None.
Proof. split; [|vm_compute; reflexivity]. unfold lpCmdInfo. repeat ((left; reflexivity) || right). Qed.
Print Assumptions C09_goto_semicolon_refuted.

(** C10: rebuilding keeps the commands and the order, except for tables of two or
    three commands. *)
Theorem C10_rebuild :
  forall t, wf t -> ordered t -> length (entries t) <> 2 -> length (entries t) <> 3 ->
    exists t', pBat_ReMapCommandInfo t = Ret t' /\ wf t' /\ ordered t' /\ entries t' = entries t.
Proof. exact remap_ok. Qed.
Print Assumptions C10_rebuild.

(** C10: building from a list of commands with distinct names. *)
Theorem C10_build :
  forall info, Forall wf_entry info -> distinct info -> length info <> 2 -> length info <> 3 ->
    exists t, pBat_MapCommandInfo info = Ret t /\ wf t /\ ordered t /\ Permutation (entries t) info.
Proof. exact map_ok. Qed.
Print Assumptions C10_build.

(** Tables of two or three commands are lost, whatever they hold. *)
Theorem C10_small_tables_refuted :
  forall t, length (entries t) = 2 \/ length (entries t) = 3 -> pBat_ReMapCommandInfo t = Ret Leaf.
Proof.
  intros t H. unfold pBat_ReMapCommandInfo, pBat_MapCommandInfo.
  pose proof (Permutation_length (fill_entries t)) as HL. rewrite HL.
  destruct H as [H|H]; rewrite H; reflexivity.
Qed.
Print Assumptions C10_small_tables_refuted.

(** C10: copying a table (for a new thread) gives the same table. *)
Theorem C10_duplicate : forall t, pBat_DuplicateCommandList t = t.
Proof. exact duplicate_same. Qed.
Print Assumptions C10_duplicate.

(** C10: defining a macro in a table of at least three commands: accepted unless
    some command already answers to that name; when accepted, the table holds the
    former commands and the macro, and nothing else. *)
Theorem C10_define :
  forall name body t,
    nonul name -> name <> [] -> wf t -> ordered t -> 3 <= length (entries t) ->
    exists t' ok, cmd_def false name body t = Ret (t', ok) /\ wf t' /\ ordered t' /\
      if ok then Permutation (entries t') (mkEntry name body (length name) true false :: entries t)
      else t' = t /\ exists e, In e (entries t) /\ selected name e.
Proof. exact cmd_def_ok. Qed.
Print Assumptions C10_define.

(** C44: redefining a command changes at most one command: one whose name starts
    the given name. *)
Theorem C44_replace_one :
  forall x t t' b, nonul (e_name x) -> wf t -> pBat_ReplaceCommand x t = (t', b) ->
    (b = false /\ t' = t) \/
    (b = true /\ exists l1 e l2, entries t = l1 ++ e :: l2 /\
       entries t' = l1 ++ mkEntry (e_name e) (if e_def x then e_proc x else e_proc e)
                            (e_limit x) (e_def x) (e_look x) :: l2 /\
       exists y, starts_with (e_name x) (e_name e) y).
Proof. exact replace_one. Qed.
Print Assumptions C44_replace_one.

(** C44: if no other registered name starts the given name, exactly that command
    is redefined. *)
Theorem C44_replace_right_one :
  forall x t, wf_entry x -> wf t -> ordered t -> registered t (e_name x) ->
    (forall e', In e' (entries t) -> ~ same_name (e_name e') (e_name x) ->
       ~ exists y, starts_with (e_name x) (e_name e') y) ->
    exists l1 e l2 t', entries t = l1 ++ e :: l2 /\ same_name (e_name e) (e_name x) /\
      pBat_ReplaceCommand x t = (t', true) /\
      entries t' = l1 ++ mkEntry (e_name e) (if e_def x then e_proc x else e_proc e)
                           (e_limit x) (e_def x) (e_look x) :: l2.
Proof. exact replace_ok. Qed.
Print Assumptions C44_replace_right_one.

(** Otherwise the wrong command may be redefined: with the built-in table,
    DEF /f SETLOCAL=echo overwrites the entry of SET and keeps that of SETLOCAL.
    Afterwards SET is lost: a SET line is not recognised any more, and for a
    short one the lookup reads past the end of the line. *)
Theorem C44_setlocal_refuted :
  exists t', cmd_def true (s2l "SETLOCAL") (s2l "echo") builtin_table = Ret (t', true) /\
    In (mkEntry (s2l "SETLOCAL") (s2l "CmdSetLocal") 8 false false) (entries t') /\
    In (mkEntry (s2l "SET") (s2l "echo") 8 true false) (entries t') /\
    pBat_GetCommandProc (s2l "SET variable=1") t' = Ret None /\
    pBat_GetCommandProc (s2l "SET") t' = Undef.
Proof.
  destruct (cmd_def true (s2l "SETLOCAL") (s2l "echo") builtin_table) as [[t' b]| |] eqn:E;
    [|vm_compute in E; discriminate..].
  exists t'. vm_compute in E. injection E as <- <-.
  split; [reflexivity|].
  split; [apply (subset_check_ok [mkEntry (s2l "SETLOCAL") (s2l "CmdSetLocal") 8 false false]);
          [vm_compute; reflexivity|left; reflexivity]|].
  split; [apply (subset_check_ok [mkEntry (s2l "SET") (s2l "echo") 8 true false]);
          [vm_compute; reflexivity|left; reflexivity]|].
  split; vm_compute; reflexivity.
Qed.
Print Assumptions C44_setlocal_refuted.

(** Non-vacuity: a table with prefix-related names, a duplicate and a macro. *)
Definition ex_cmds : list entry :=
  [ mkEntry (s2l "SET") (s2l "p1") 3 false false; mkEntry (s2l "setlocal") (s2l "p2") 8 false false;
    mkEntry (s2l "Set") (s2l "p3") 3 false false; mkEntry (s2l "echo") (s2l "p4") 0 false false;
    mkEntry (s2l "dir") (s2l "p5") 3 false false ].
Example C09_ex :
  Forall wf_entry ex_cmds /\ length (entries (register_all ex_cmds Leaf)) = 4 /\
  pBat_GetCommandProc (s2l "sEt/a x") (register_all ex_cmds Leaf) =
    Ret (Some (mkEntry (s2l "SET") (s2l "p1") 3 false false)) /\
  pBat_GetCommandProc (s2l "Echo.hi") (register_all ex_cmds Leaf) =
    Ret (Some (mkEntry (s2l "echo") (s2l "p4") 0 false false)) /\
  pBat_GetCommandProc (s2l "settings") (register_all ex_cmds Leaf) = Ret None.
Proof.
  split.
  - assert (H : forallb wf_check ex_cmds = true) by (vm_compute; reflexivity).
    apply Forall_forall. intros e He. apply wf_check_ok. rewrite forallb_forall in H. auto.
  - vm_compute. auto.
Qed.
Example C10_ex :
  (do (t', ok) <- cmd_def false (s2l "greet") (s2l "echo hello") builtin_table;
   do r1 <- pBat_GetCommandProc (s2l "GREET you") t';
   do (t'', ok') <- cmd_def true (s2l "DIR") (s2l "ls") t';
   do r2 <- pBat_GetCommandProc (s2l "dir /w") t'';
   Ret (ok, ok', length (entries t''), r1, r2)) =
  Ret (true, true, 50, Some (mkEntry (s2l "greet") (s2l "echo hello") 5 true false),
       Some (mkEntry (s2l "DIR") (s2l "ls") 3 true false)).
Proof. vm_compute. reflexivity. Qed.
