(** Expand_Model.v -- model of pbat/core/pBat_Expand.c: expansion of the variables
    of a line.  The growable strings are ideal strings (see C05, C06). *)

From Verif Require Import Base Num_Model StrLib_Model Env_Model Var_Model LocalVar_Model.

(** The globals read.  [x_ka n]: the address of the copy of the name made when [n]
    characters of the line are left; [x_cap], [x_stat]: see LocalVar_Model. *)
Record xworld := mkX {
  x_var : vworld; x_ka : nat -> Z;
  x_args : block;      (* lpvArguments *)
  x_locals : block;    (* lpvLocalVars *)
  x_script : cstr; x_stat : cstr -> option finfo; x_cap : cstr -> nat;
  x_delayed : bool     (* bDelayedExpansion *) }.

Definition set_var (w : xworld) (v : vworld) : xworld :=
  mkX v (x_ka w) (x_args w) (x_locals w) (x_script w) (x_stat w) (x_cap w) (x_delayed w).

Definition get_local (w : xworld) (b : block) (s : cstr) : outcome (option (cstr * cstr)) :=
  pBat_GetLocalVar (vw_cd (x_var w)) (x_script w) (x_stat w) (x_cap w) b s.

(** pBat_Expand.c:31-72 [pBat_ExpandSpecialVar]: [pre] is the text from
    [lpPreviousToken] to [lpToken], [s] the text at [lpToken]. *)
Fixpoint special_loop (fuel : nat) (w : xworld) (pre s : cstr) : outcome cstr :=
  match fuel with
  | O => OutOfFuel
  | S f =>
    match pBat_SearchChar s "%"%char with
    | None => Ret (pre ++ s)
    | Some k =>
        do r <- get_local w (x_locals w) (skipn (S k) s);
        match r with
        | Some (v, rest) => do t <- special_loop f w [] rest; Ret (pre ++ firstn k s ++ v ++ t)
        | None => special_loop f w (pre ++ firstn (S k) s) (skipn (S k) s)
        end
    end
  end.
Definition pBat_ExpandSpecialVar (w : xworld) (s : cstr) : outcome cstr :=
  special_loop (S (length s)) w [] s.

(** 102-105: the characters after which a parameter is tried ([isdigit] of a
    character outside ASCII is taken to be false). *)
Definition arg_start (s : cstr) : bool :=
  match s with
  | c :: _ => is_digit c || ceq c "*"%char || ceq c "+"%char || ceq c "~"%char
  | [] => false
  end.
Definition starts (s : cstr) (d : ascii) : bool := match s with c :: _ => ceq c d | [] => false end.

(** 90-93 and 146-148 *)
Definition delayed_unescape (w : xworld) (d : ascii) (s : cstr) : cstr :=
  if x_delayed w && ceq d "!"%char then pBat_UnEscape s else s.

(** pBat_Expand.c:74-153 [pBat_ExpandVar]: [s] is the text at [ptrToken]. *)
Fixpoint expand_loop (fuel : nat) (w : xworld) (d : ascii) (s : cstr) : outcome (cstr * xworld) :=
  match fuel with
  | O => OutOfFuel
  | S f =>
    match pBat_SearchChar s d with
    | None => Ret (delayed_unescape w d s, w)
    | Some k =>
        let tok := delayed_unescape w d (firstn k s) in
        let nxt := skipn (S k) s in
        if starts nxt d then
          do (t, w') <- expand_loop f w d (skipn 1 nxt); Ret (tok ++ d :: t, w')
        else
          do arg <- (if ceq d "%"%char && arg_start nxt then get_local w (x_args w) nxt else Ret None);
          match arg with
          | Some (v, rest) => do (t, w') <- expand_loop f w d rest; Ret (tok ++ v ++ t, w')
          | None =>
              match pBat_SearchChar nxt d with
              | Some j =>
                  do (o, vw) <- pBat_GetVar (x_var w) (x_ka w (length nxt)) (firstn j nxt);
                  do (t, w') <- expand_loop f (set_var w vw) d (skipn (S j) nxt);
                  Ret (tok ++ match o with Some v => v | None => [] end ++ t, w')
              | None => do (t, w') <- expand_loop f w d nxt; Ret (tok ++ t, w')
              end
          end
    end
  end.
Definition pBat_ExpandVar (w : xworld) (d : ascii) (s : cstr) : outcome (cstr * xworld) :=
  expand_loop (S (length s)) w d s.

(** pBat_Expand.c:155-163 [pBat_ReplaceVars] *)
Definition pBat_ReplaceVars (w : xworld) (s : cstr) : outcome (cstr * xworld) := pBat_ExpandVar w "%"%char s.

(** pBat_Expand.c:166-182 [pBat_DelayedExpand] *)
Definition pBat_DelayedExpand (w : xworld) (s : cstr) : outcome (cstr * xworld) :=
  do t <- pBat_ExpandSpecialVar w s;
  if x_delayed w then pBat_ExpandVar w "!"%char t else Ret (pBat_UnEscape t, w).
