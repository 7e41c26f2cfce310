(** Main_Model.v -- model of the command line of the interpreter: pbat/init/pBat_Init.c:203-403
    and main (pbat/pBat.c).  Left out: titles and colours, the streams, the variable
    PBAT_IS_SCRIPT, pBat_Auto.bat (pBat_RunAutoBat), and what running a line (C24) or a script (C62) does. *)

From Verif Require Import Base Num_Model StrLib_Model Path_Model LocalVar_Model Params_Model.

(** bDelayedExpansion, bEchoOn, bCmdlyCorrect; first as in pBat_Globals.c:56, 57, 65 *)
Record modes := mkM { m_delayed : bool; m_echo : bool; m_correct : bool }.
Definition first_modes : modes := mkM true true false.

(** 210-231: one letter; [q] is bQuiet *)
Definition set_mode (m : modes) (q : bool) (c : ascii) : modes * bool :=
  let c := tolower c in
  if ceq c "v"%char then (mkM true (m_echo m) (m_correct m), q)
  else if ceq c "e"%char then (mkM (m_delayed m) false (m_correct m), q)
  else if ceq c "c"%char then (mkM (m_delayed m) (m_echo m) true, q)
  else if ceq c "q"%char then (m, true)
  else (m, q).
Fixpoint set_modes (l : cstr) (m : modes) (q : bool) : modes * bool :=
  match l with [] => (m, q) | c :: r => let '(m, q) := set_mode m q c in set_modes r m q end.
(** 203-236 [pBat_InitSetModes]; [r] is what follows /A.  The loop also looks at the NUL, which is
    none of the letters. *)
Definition pBat_InitSetModes (r : cstr) (m : modes) : modes * bool :=
  set_modes (match r with c :: r' => if ceq c ":"%char then r' else r | [] => [] end) m false.

(** 335-351: the parameters behind /C or /K, put together again *)
Fixpoint join (l : list cstr) : cstr :=
  match l with
  | [] => []
  | a :: r => (match strpbrk a [" "%char; "009"%char; nl] with Some _ => dquote :: a ++ [dquote] | None => a end) ++ " "%char :: join r
  end.

Inductive parsed := PHelp | PBad | PGo (cmd : option cstr) (exit quiet : bool) (m : modes) (file : cstr) (b : block).
Section Main.
(** getenv("__PBAT_COMMAND__") *)
Variable command_var : option cstr.
(** 290-403 [pBat_GetParameters], from argv[1] on.  [n] is the digit [c], [b] is lpvArguments.
    An unknown switch gives NULL to fprintf for %s (pBat_Errors.c:257-260). *)
Fixpoint get_parameters (argv : list cstr) (switches : bool) (cmd : option cstr) (exit quiet : bool) (m : modes) (file : cstr) (n : nat) (b : block) : outcome parsed :=
  match argv with
  | [] => Ret (PGo cmd exit quiet m file (block_empty (10 - n) n b))
  | a :: rest =>
      if match a with c :: _ => ceq c "/"%char | [] => false end && switches then
        match tl a with
        | [] => Undef
        | c :: r =>
            let c := tolower c in
            if ceq c "a"%char then let '(m, quiet) := pBat_InitSetModes r m in get_parameters rest switches cmd exit quiet m file n b
            else if ceq c "k"%char || ceq c "c"%char then
              let exit := if ceq c "k"%char then false else exit in
              match cmd, rest with
              | None, x :: rest' =>
                  if streqb x (s2l "@") then
                    get_parameters rest' switches (Some (match command_var with Some v => v | None => [] end)) exit quiet m file n b
                  else Ret (PGo (Some (join rest)) exit quiet m file (block_empty (10 - n) n b))
              | _, _ => Ret PBad
              end
            else if ceq c "?"%char then Ret PHelp
            else if ceq c "/"%char then get_parameters rest false cmd exit quiet m file n b
            else Undef
        end
      else match file with
      | _ :: _ =>
          let '(b, rest) := argv_first 9 1 argv b in
          do s <- assign_line rest;
          Ret (PGo cmd exit quiet m file (pBat_SetLocalVar b "+"%char (Some s)))
      | [] =>
          do all <- assign_line rest;
          get_parameters rest false cmd exit quiet m a 1 (pBat_SetLocalVar (pBat_SetLocalVar b "*"%char (Some all)) "+"%char (Some []))
      end
  end.

(** What main has run: a line, a script, or the lines of the standard input *)
Inductive task := Line (t : cstr) | Batch (file : cstr) | Prompt.
(** The help, a bad command line (5) or script that is not there (1), or what is run *)
Inductive launched := LHelp | LFail (err : Z) | LRun (l : list task) (m : modes) (quiet : bool) (b : block).
Variable exists_file : cstr -> bool.
Variables (cur : cstr) (PATH PATHEXT : option cstr).
(** pBat.c:145-199 [main]; [argv] from argv[1] on *)
Definition main (argv : list cstr) : outcome launched :=
  do p <- get_parameters argv true None true false first_modes [] 0 pBat_GetLocalBlock;
  match p with
  | PHelp => Ret LHelp
  | PBad => Ret (LFail 5)
  | PGo cmd exit quiet m file b =>
      let go (abs : cstr) :=
        LRun ((match cmd with Some t => [Line t] | None => [] end) ++
              (if match cmd with Some _ => exit | None => false end then [] else match abs with [] => [Prompt] | _ => [Batch abs] end))
             m quiet (pBat_SetLocalVar b "0"%char (Some abs)) in
      match file with
      | [] => Ret (go [])
      | _ => do f <- pBat_GetFilePath exists_file cur PATH PATHEXT file FILENAME_MAX;
             match f with Some abs => Ret (go abs) | None => Ret (LFail 1) end
      end
  end.
End Main.
