(** Extern_Model.v -- model of the search for the command of a line (pbat/core/pBat_Run.c,
    [pBat_RunCommand], [pBat_RunExternalCommand], [pBat_RunExternalBatch]).  What programs and
    scripts do is a variable: the error level they end with, which may depend on what was run
    before.  Internal commands are found here and not run (Run_Model has that), messages are left
    out, and the extension is taken to fit into lpExt.  Memory is not modelled. *)

From Verif Require Import Base StrLib_Model Path_Model Env_Model Var_Model LocalVar_Model Expand_Model Args_Model CmdList_Model For_Model Run_Model
  Script_Model Params_Model Set_Model Call_Model.

(** What is run: a program (EXECINFO, 655-660) or, in another thread, a script; the state is the one
    that the script begins with. *)
Inductive launched :=
| Program (file cmdline : cstr) (args : list cstr) (dir : cstr)
| Script (file : cstr) (child : xworld).

(** How the search ends. *)
Inductive ending :=
| Internal (e : entry) (line : cstr)   (* a command or DEF of the table *)
| Unknown (name : cstr)                (* PBAT_COMMAND_ERROR *)
| Ended                                (* something was run *)
| Searching.                           (* not yet *)

Section Extern.
Variable exists_file : cstr -> bool.
Variable table : tree.
(** The addresses of names of variables, see Env_Model. *)
Variables ka na : Z.
(** What a program or a script returns, after those that were run before it *)
Variable result : list launched -> launched -> Z.

(** 690-752 [pBat_LaunchExternalBatch]: the state in which the script begins.  The instance is a
    copy (C93).  [line] is lpFullLine, [argv] lpArguments. *)
Definition launch (w : xworld) (file line : cstr) (argv : list cstr) : outcome xworld :=
  let w := set_locals (set_args w pBat_GetLocalBlock) pBat_GetLocalBlock in
  let '(b, rest) := argv_first 9 1 (tl argv) pBat_GetLocalBlock in
  do s <- assign_line rest;
  let b := pBat_SetLocalVar b "+"%char (Some s) in
  do (t, r, w) <- pBat_GetNextParameterEs (set_args w b) [] line;
  let b := pBat_SetLocalVar b "*"%char (Some (match r with Some r => pBat_SkipBlanks r | None => line end)) in
  let b := pBat_SetLocalVar b "0"%char (Some file) in
  do w <- assign ka na (set_args w b) (s2l "PBAT_IS_SCRIPT") (s2l "true") false;
  Ret (set_script w (firstn (FILENAME_MAX - 1) file)).

(** 582-682 [pBat_RunExternalCommand]: what is run, the status and the number of errors. *)
Definition run_external (ran : list launched) (w : xworld) (line : cstr) (error : nat) : outcome (option launched * Z * nat * xworld) :=
  do (argv, w) <- pBat_GetParamList w line;
  match argv with
  | [] => Ret (None, 0%Z, error, w)
  | p :: _ =>
      do (cmdline, w) <- pBat_GetEndOfLine w line;
      do PATH <- pBat_GetEnv (vw_env (x_var w)) (s2l "PATH") ka;
      do PATHEXT <- pBat_GetEnv (vw_env (x_var w)) (s2l "PATHEXT") ka;
      do f <- pBat_GetFilePath exists_file (vw_cd (x_var w)) PATH PATHEXT p FILENAME_MAX;
      match f with
      | None => Ret (None, (-1)%Z, S error, w)
      | Some f =>
          do (_, e) <- pBat_SplitPath f;
          if (stricmp (s2l ".bat") e =? 0)%Z || (stricmp (s2l ".cmd") e =? 0)%Z
          then do c <- launch w f cmdline argv; Ret (Some (Script f c), result ran (Script f c), error, w)
          else let x := Program f cmdline argv (vw_cd (x_var w)) in Ret (Some x, result ran x, error, w)
      end
  end.

(** 386-486 [pBat_RunCommand] with the text [cmd]: what is run, in order, and how it ends within
    [fuel] rounds.  [error] is set to 0 before the first one only. *)
Fixpoint search (fuel : nat) (ran : list launched) (w : xworld) (cmd : cstr) (error : nat) : outcome (list launched * ending * xworld) :=
  match fuel with
  | O => Ret (ran, Searching, w)
  | S f =>
      let line := pBat_SkipAllBlanks cmd in
      do found <- pBat_GetCommandProc line table;
      match found with
      | Some e => Ret (ran, Internal e line, w)
      | None =>
          do (x, status, error, w) <- run_external ran w line error;
          let ran := match x with Some x => ran ++ [x] | None => ran end in
          let w := x_set_err w status in
          match error with
          | 1 => do (cmd, w) <- pBat_DelayedExpand w cmd; search f ran w cmd error
          | 2 => Ret (ran, Unknown (match strpbrk line (s2l " " ++ "009"%char :: [nl]) with Some k => firstn k line | None => line end), w)
          | _ => Ret (ran, Ended, w)
          end
      end
  end.
Definition pBat_RunCommand (fuel : nat) (w : xworld) (cmd : cstr) : outcome (list launched * ending * xworld) := search fuel [] w cmd 0.
End Extern.
