(** Mod_Model.v -- model of MOD (pbat/command/pBat_Mod.c), built with PBAT_USE_MODULES.  What a module's
    handler does is not modelled, only its answer; the mutex and failing allocations are left out. *)

From Verif Require Import Base StrLib_Model Path_Model Env_Model Var_Model Expand_Model Args_Model.

(** pbat/errors/pBat_Errors.h:43, 101-103 *)
Definition PBAT_FILE_ERROR : Z := 1.
Definition PBAT_UNABLE_LOAD_MODULE : Z := 59.
Definition PBAT_INCOMPATIBLE_MODULE : Z := 60.
Definition PBAT_MODULE_LOADED : Z := 61.

(** dlopen, dlsym and the call of the handler: it may be loaded; it cannot be loaded or has no handler; the
    handler gives -1. *)
Inductive answer := Loads | Cannot | Incompatible.
(** What can be seen: a handler is called, the list of modules, the help, a message *)
Inductive mev := MCall (m : cstr) | MList (l : list cstr) | MHelp | MError (code : Z) (m : cstr).

Section Mod.
Variable exists_file : cstr -> bool.
(** What loading gives; the modules loaded before may matter. *)
Variable load : list cstr -> cstr -> answer.
(** the addresses of names of variables *)
Variable ka : Z.

(** pBat_Mod.c:224-239 [pBat_CheckLoadedMods] *)
Fixpoint pBat_CheckLoadedMods (m : cstr) (mods : list cstr) : bool :=
  match mods with
  | [] => false
  | x :: r => if (stricmp m x =? 0)%Z then true else pBat_CheckLoadedMods m r
  end.

(** 241-288 [pBat_LoadMod]: the error, what can be seen, the modules *)
Definition pBat_LoadMod (m : cstr) (mods : list cstr) : Z * list mev * list cstr :=
  match load mods m with
  | Cannot => (PBAT_UNABLE_LOAD_MODULE, [MError PBAT_UNABLE_LOAD_MODULE m], mods)
  | Incompatible => (PBAT_INCOMPATIBLE_MODULE, [MCall m; MError PBAT_INCOMPATIBLE_MODULE m], mods)
  | Loads => (0%Z, [MCall m], m :: mods)
  end.

(** 335-347: a path that is not absolute; a NULL for PBAT_PATH is undefined. *)
Definition mod_path (w : xworld) (p : cstr) : outcome cstr :=
  if PBAT_TEST_ABSOLUTE_PATH p then Ret p
  else
    do home <- pBat_GetEnv (vw_env (x_var w)) (s2l "PBAT_PATH") ka;
    match home with
    | None => Undef
    | Some h => Ret (pBat_MakePath (pBat_MakePath h (s2l "modules")) p)
    end.

(** 319-373: the loop; [old] is the string of the parameter *)
Fixpoint mod_loop (fuel : nat) (w : xworld) (old line : cstr) (quiet : bool) (mods : list cstr) : outcome (Z * list mev * list cstr * xworld) :=
  match fuel with
  | O => OutOfFuel
  | S f =>
      do (p, next, w) <- pBat_GetNextParameterEs w old line;
      match next with
      | None => Ret (0%Z, [], mods, w)
      | Some rest =>
          if (stricmp p (s2l "/l") =? 0)%Z then Ret (0%Z, [MList mods], mods, w)
          else if streqb p (s2l "/?") then Ret (0%Z, [MHelp], mods, w)
          else if (stricmp p (s2l "/q") =? 0)%Z then mod_loop f w p rest true mods
          else
            do path <- mod_path w p;
            if negb (exists_file path) then Ret (PBAT_FILE_ERROR, [MError PBAT_FILE_ERROR path], mods, w)
            else if pBat_CheckLoadedMods path mods then
              if quiet then mod_loop f w path rest quiet mods
              else Ret (PBAT_MODULE_LOADED, [MError PBAT_MODULE_LOADED path], mods, w)
            else
              let '(status, l, mods) := pBat_LoadMod path mods in
              if negb (status =? 0)%Z then Ret (status, l, mods, w)
              else do (status, l', mods, w) <- mod_loop f w path rest quiet mods; Ret (status, l ++ l', mods, w)
      end
  end.

(** 299-386 [pBat_CmdMod]: the error level, what can be seen, the modules, the state; [line] is behind MOD *)
Definition pBat_CmdMod (w : xworld) (line : cstr) (mods : list cstr) : outcome (Z * list mev * list cstr * xworld) :=
  mod_loop (S (length line)) w [] line false mods.
End Mod.
