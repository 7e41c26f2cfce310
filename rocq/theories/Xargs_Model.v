(** Xargs_Model.v -- model of XARGS (pbat/command/pBat_Xargs.c).  Growable strings are ideal
    strings; messages, the help and terminals are left out. *)

From Verif Require Import Base StrLib_Model Var_Model Expand_Model Args_Model Find_Model.

(** pBat_Xargs.c:82-94: what is added to the command for a line, as [pBat_EsGet] gives it. *)
Definition xargs_add (l : cstr) : cstr :=
  let p := pBat_RmTrailingNl l in
  if existsb (fun c => existsb (ceq c) (s2l " ;," ++ ["009"%char])) p
     && negb (match pBat_SkipAllBlanks p with c :: _ => ceq c dquote | [] => false end)
  then " "%char :: dquote :: p ++ [dquote]
  else " "%char :: p.
Inductive xargs := XFail (e : Z) | XHelp | XRun (text : cstr).
(** pBat_Xargs.c:53-112 [pBat_CmdXargs], up to the call of [pBat_RunCommand], which is given a
    text and whose status is the one of XARGS; [line] is what follows XARGS, [stdin] are the
    lines of the standard input. *)
Definition pBat_CmdXargs (w : xworld) (stdin : list cstr) (line : cstr) : outcome (xargs * xworld) :=
  match pBat_SkipBlanks line with
  | [] => Ret (XFail PBAT_EXPECTED_MORE, w)
  | line =>
      if streqb line (s2l "/?") then Ret (XHelp, w)
      else do (cmd, w) <- pBat_GetEndOfLine w line; Ret (XRun (fold_left (fun t l => t ++ xargs_add l) stdin cmd), w)
  end.
