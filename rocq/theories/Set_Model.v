(** Set_Model.v -- model of SET without /A (pbat/command/pBat_Set.c:147-362).  Growable
    strings are ideal strings, and no allocation fails. *)

From Verif Require Import Base Num_Model StrLib_Model Env_Model Var_Model LocalVar_Model Expand_Model Args_Model Params_Model.

Definition set_env (w : xworld) (e : env) : xworld :=
  let v := x_var w in set_var w (mkVW e (vw_cd v) (vw_err v) (vw_rand v) (vw_date v) (vw_time v)).

Section SetCmd.
(** The addresses of the name of a variable and of its copy, see Env_Model. *)
Variables ka na : Z.
(** pBat_SetEnvEx(lpeEnv, name, value, inherit) *)
Definition assign (w : xworld) (name value : cstr) (inherit : bool) : outcome xworld :=
  do e <- pBat_SetEnvEx (vw_env (x_var w)) name ka na (Some value) inherit;
  Ret (set_env w e).

(** pBat_Set.c:257-268 *)
Definition set_unquote (v : cstr) : cstr :=
  match v with
  | c :: r =>
      if ceq c dquote then match strrchr_from r dquote 0 None with Some i => firstn i r | None => v end else v
  | [] => v
  end.
(** pBat_Set.c:233-295 [pBat_CmdSetS] *)
Definition pBat_CmdSetS (w : xworld) (line : cstr) (inherit : bool) : outcome (Z * xworld) :=
  match pBat_SkipBlanks line with
  | [] => Ret (0%Z, w)
  | line =>
      do (v, w) <- pBat_GetEndOfLine w line;
      let v := set_unquote v in
      match strchr v "="%char with
      | None => Ret (1%Z, w)
      | Some i => do w <- assign w (firstn i v) (skipn (S i) v) inherit; Ret (0%Z, w)
      end
  end.
(** pBat_Set.c:298-362 [pBat_CmdSetP]: the error level and what is printed; [input] is
    the line that is read (pBat_EsGet, C07, or the line editor). *)
Definition pBat_CmdSetP (w : xworld) (input line : cstr) : outcome (Z * cstr * xworld) :=
  let line := pBat_SkipBlanks line in
  do (v, w) <-
    match line with
    | c :: _ => if ceq c dquote then do (v, _, w) <- pBat_GetNextParameterEs w [] line; Ret (v, w) else pBat_GetEndOfLine w line
    | [] => pBat_GetEndOfLine w line
    end;
  match strchr v "="%char with
  | None => Ret (PBAT_UNEXPECTED_ELEMENT, [], w)
  | Some i =>
      let value := match strchr input nl with Some j => firstn j input | None => input end in
      do w <- assign w (firstn i v) value false;
      Ret (match value with [] => 1%Z | _ => 0%Z end, skipn (S i) v, w)
  end.
(** pBat_Set.c:200-216: what is printed; [prefix] is lpLine.  The name of an entry that is
    not in use is NULL, which printf may not print. *)
Fixpoint set_list (prefix : cstr) (l : list var) : outcome cstr :=
  match l with
  | [] => Ret []
  | v :: l =>
      match v_name v with
      | Some (n, _) =>
          do t <- set_list prefix l;
          Ret (match prefix with
               | [] => n ++ "="%char :: v_content v ++ nl :: t
               | _ => if (strnicmp n prefix (length prefix) =? 0)%Z then n ++ "="%char :: v_content v ++ nl :: t else t
               end)
      | None => match prefix with [] => Undef | _ => set_list prefix l end
      end
  end.
(** Does 200-216 find something? *)
Definition set_found (prefix : cstr) (l : list var) : bool :=
  existsb (fun v => match prefix, v_name v with
                    | [], _ => true
                    | _, Some (n, _) => (strnicmp n prefix (length prefix) =? 0)%Z
                    | _, None => false
                    end) l.

(** SET /A, see SetA_Model. *)
Variable seta : xworld -> cstr -> outcome (Z * cstr * xworld).
(** pBat_Set.c:147-230 [pBat_CmdSet]: the error level and what is printed; [line] is what
    follows SET.  The help and the error messages are left out. *)
Definition pBat_CmdSet (w : xworld) (input line : cstr) : outcome (Z * cstr * xworld) :=
  do (arg, r, w) <- pBat_GetNextParameter w line 5;
  let listing (w : xworld) :=
    let prefix := pBat_SkipBlanks line in
    let buf := e_buf (vw_env (x_var w)) in
    do t <- set_list prefix buf;
    Ret (if set_found prefix buf then 0%Z else PBAT_UNEXPECTED_ELEMENT, t, w) in
  match r with
  | None => listing w
  | Some next =>
      if (stricmp arg (s2l "/?") =? 0)%Z then Ret (0%Z, [], w)
      else if (stricmp arg (s2l "/a") =? 0)%Z then seta w next
      else if (stricmp arg (s2l "/p") =? 0)%Z then pBat_CmdSetP w input next
      else
        do (nok, w) <- (if (stricmp arg (s2l "/x") =? 0)%Z then pBat_CmdSetS w next true else pBat_CmdSetS w line false);
        if (nok =? 1)%Z then listing w else Ret (0%Z, [], w)
  end.
End SetCmd.
