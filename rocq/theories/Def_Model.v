(** Def_Model.v -- model of DEF (pbat/command/pBat_Def.c) and of running what it defines
    (pbat/core/pBat_ExpandDef.c and pBat_Run.c:453-471).  The table of commands is in
    CmdList_Model.  Growable strings are ideal strings, no allocation fails. *)

From Verif Require Import Base StrLib_Model Env_Model Var_Model LocalVar_Model Expand_Model Args_Model Params_Model CmdList_Model For_Model Set_Model.

(** pBat_ExpandDef.c:39-48: [vars] are the values of var[1] to come, [ch] is lpCh ([None]
    for NULL), [param] what the growable string holds. *)
Fixpoint def_params (w : xworld) (vars : list ascii) (ch : option cstr) (param ret : cstr) : outcome (cstr * xworld) :=
  match vars with
  | [] => Ret (ret, w)
  | c :: vars =>
      do (p, ch, w) <- match ch with Some ch => pBat_GetNextParameterEs w param ch | None => Ret (param, None, w) end;
      do ret <- replace_text (S (length ret)) ret ["$"%char; c] (match ch with Some _ => p | None => [] end);
      def_params w vars ch p ret
  end.
(** pBat_ExpandDef.c:27-55 [pBat_ExpandDef]: '0' + 10 is ':'. *)
Definition pBat_ExpandDef (w : xworld) (ch exp : cstr) : outcome (cstr * xworld) :=
  let ch := pBat_SkipBlanks ch in
  do ret <- replace_text (S (length exp)) exp (s2l "$*") ch;
  def_params w (s2l "123456789:") (Some ch) [] ret.

(** pBat_Run.c:453-471: a line that starts with the name of a procedure.  [run] is
    [pBat_RunCommand] on the text, [addr] are addresses that [pBat_PushEnvLocals] gets. *)
Definition run_procedure (run : xworld -> cstr -> outcome xworld) (addr : nat -> Z) (w : xworld) (e : entry) (p : cstr) : outcome xworld :=
  do (t, w) <- pBat_ExpandDef w (skipn (e_limit e) p) (e_proc e);
  let locals := x_locals w in
  do e1 <- pBat_PushEnvLocals addr (vw_env (x_var w));
  do w' <- run (set_env (set_locals w pBat_GetLocalBlock) e1) t;
  do e2 <- pBat_PopEnvLocals (vw_env (x_var w'));
  Ret (set_locals (set_env w' e2) locals).

(** pBat_Def.c:180-197 [pBat_ListDefs]; the table is never empty. *)
Fixpoint pBat_ListDefs (name : cstr) (t : tree) : cstr :=
  match t with
  | Leaf => []
  | Node e l r =>
      (if (match name with [] => true | _ => (strnicmp name (e_name e) (length name) =? 0)%Z end) && e_def e
       then e_name e ++ "="%char :: e_proc e ++ [nl] else [])
      ++ pBat_ListDefs name l ++ pBat_ListDefs name r
  end.

(** pBat_Errors.h:78-80 *)
Definition PBAT_UNABLE_REMAP_COMMANDS : Z := 36.
Definition PBAT_TRY_REDEFINE_COMMAND : Z := 37.
Definition PBAT_UNABLE_REPLACE_COMMAND : Z := 38.

(** pBat_Def.c:57-86: [None] for the help, else /f, /l and the rest of the line. *)
Fixpoint def_options (fuel : nat) (w : xworld) (old line : cstr) (replace list : bool) : outcome (option (bool * bool * cstr) * xworld) :=
  match fuel with
  | O => OutOfFuel
  | S f =>
      do (t, r, w) <- pBat_GetNextParameterEs w old line;
      match r with
      | None => Ret (Some (replace, list, line), w)
      | Some next =>
          if streqb (s2l "/?") t then Ret (None, w)
          else if (stricmp (s2l "/f") t =? 0)%Z then def_options f w t next true list
          else if (stricmp (s2l "/l") t =? 0)%Z then def_options f w t next replace true
          else Ret (Some (replace, list, pBat_SkipAllBlanks line), w)
      end
  end.
(** pBat_Def.c:34-177 [pBat_CmdDef]: the error level, what is printed, the table; [line] is
    what follows DEF.  Messages and the help are left out, and so is that the commands
    that follow on the line are dropped (52-54). *)
Definition pBat_CmdDef (w : xworld) (table : tree) (line : cstr) : outcome (Z * cstr * tree * xworld) :=
  do (o, w) <- def_options (S (length line)) w [] line false false;
  match o with
  | None => Ret (0%Z, [], table, w)
  | Some (replace, list, line) =>
      if list then Ret (0%Z, pBat_ListDefs line table, table, w)
      else match pBat_SearchChar line "="%char with
           | None => Ret (PBAT_UNEXPECTED_ELEMENT, [], table, w)
           | Some i =>
               do found <- pBat_GetCommandProc (firstn i line) table;
               do (table', ok) <- cmd_def replace (firstn i line) (skipn (S i) line) table;
               Ret (if ok then 0%Z
                    else match found with
                         | Some _ => if replace then PBAT_UNABLE_REPLACE_COMMAND else PBAT_TRY_REDEFINE_COMMAND
                         | None => PBAT_UNABLE_REMAP_COMMANDS
                         end, [], table', w)
           end
  end.
