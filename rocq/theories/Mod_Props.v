(** Mod_Props.v -- C98: MOD loads the modules it names, each of them once. *)

From Coq Require Import Lia.
From Verif Require Import Base Lex Path_Model Path_Spec Path_Proofs Env_Model Var_Model Expand_Model Args_Model Args_Spec Args_Props Set_Props Find_Props Env_Props Params_Spec Mod_Model Mod_Spec Mod_Proofs.

(** The words behind MOD are done one after the other, in exactly one way; the state does not change else. *)
Theorem C98_words : forall exists_file load ka w h line ps mods,
  pBat_GetEnv (vw_env (x_var w)) (s2l "PBAT_PATH") ka = Ret (Some h) -> nonul h -> written w line ps -> Forall nonul ps -> Forall nonul mods ->
  exists z l mods', pBat_CmdMod exists_file load ka w line mods = Ret (z, l, mods', w) /\
    forall z2 l2 m2, goes exists_file load h false mods ps z2 l2 m2 <-> (z2, l2, m2) = (z, l, mods').
Proof.
  intros exists_file load ka w h line ps mods H Nh W Np Nm.
  destruct (loop_ok exists_file load ka w h line ps H Nh W Np (S (length line)) [] false mods ltac:(lia) Nm) as (z & l & m' & E & G).
  exists z, l, m'. split; [exact E|]. intros z2 l2 m2. split; [|intros Q; injection Q as -> -> ->; exact G].
  intros G2. destruct (goes_fun exists_file load h _ _ _ _ _ _ G _ _ _ G2) as (-> & -> & ->). reflexivity.
Qed.
Print Assumptions C98_words.

(** Whatever is asked, no module is loaded twice and none is forgotten; each new one was there and answered that it
    can be loaded; handlers are called once for each new module, in order, and besides for one at most that is incompatible. *)
Theorem C98_once : forall exists_file load ka w h line ps mods z l mods' w',
  pBat_GetEnv (vw_env (x_var w)) (s2l "PBAT_PATH") ka = Ret (Some h) -> nonul h -> written w line ps -> Forall nonul ps -> Forall nonul mods ->
  pBat_CmdMod exists_file load ka w line mods = Ret (z, l, mods', w') -> apart mods ->
  apart mods' /\ grown exists_file load mods mods' /\
  exists new bad, mods' = rev new ++ mods /\ called l = new ++ bad /\ length bad <= 1 /\ (z <> 60%Z -> bad = []).
Proof.
  intros exists_file load ka w h line ps mods z l mods' w' H Nh W Np Nm E A.
  destruct (loop_ok exists_file load ka w h line ps H Nh W Np (S (length line)) [] false mods ltac:(lia) Nm) as (z1 & l1 & m1 & E1 & G).
  unfold pBat_CmdMod in E. rewrite E in E1. injection E1 as <- <- <- ->.
  split; [eapply goes_apart; eauto|]. split; [eapply goes_grown; eauto|eapply goes_called; eauto].
Qed.
Print Assumptions C98_once.

(** If all of them are there, new and can be loaded, all are loaded, in order. *)
Theorem C98_all : forall exists_file load ka w h line ps fs mods,
  pBat_GetEnv (vw_env (x_var w)) (s2l "PBAT_PATH") ka = Ret (Some h) -> nonul h -> written w line ps -> Forall nonul ps -> Forall nonul mods ->
  Forall2 (fun p f => word p /\ place h p f) ps fs -> Forall (fun f => exists_file f = true) fs -> (forall m f, In f fs -> load m f = Loads) -> apart (rev fs ++ mods) ->
  pBat_CmdMod exists_file load ka w line mods = Ret (0%Z, map MCall fs, rev fs ++ mods, w).
Proof.
  intros exists_file load ka w h line ps fs mods H Nh W Np Nm F Ex Ld A.
  destruct (C98_words exists_file load ka w h line ps mods H Nh W Np Nm) as (z & l & m' & E & G). rewrite E.
  enough (X : goes exists_file load h false mods ps 0 (map MCall fs) (rev fs ++ mods)) by (apply G in X; injection X as <- <- <-; reflexivity).
  clear -F Ex Ld A. revert mods Ex Ld A. induction F as [|p f ps fs [Wp Pl] F IH]; intros mods Ex Ld A; [constructor|].
  inversion Ex; subst. cbn [map rev]. rewrite <- app_assoc. eapply g_load; eauto.
  - cbn [rev] in A. rewrite <- app_assoc in A. revert A. clear. generalize (rev fs). intros l A. induction l as [|x l IH]; cbn [app] in A; [|inversion A; auto]. inversion A; auto.
  - apply Ld. left. reflexivity.
  - apply IH; auto. { intros m g I. apply Ld. right. exact I. } cbn [rev] in A. rewrite <- app_assoc in A. exact A.
Qed.
Print Assumptions C98_all.

(** *** Cases *)
Definition ex_home : env := Eval vm_compute in match pBat_InitEnv [(s2l "PATH=/bin", 16%Z); (s2l "PBAT_PATH=/p", 32%Z)] with Some e => e | None => mkEnv [] 0 end.
Definition ex_mod (e : env) : xworld := set_var ex_w (mkVW e (s2l "/d") 0 0 [] []).
Definition ex_so : list cstr := [s2l "/p/modules/a.so"; s2l "/m/B.so"; s2l "/m/b.so"; s2l "/m/bad.so"].
Definition ex_there (p : cstr) : bool := existsb (streqb p) ex_so.
Definition ex_load (l : list cstr) (p : cstr) : answer := if streqb p (s2l "/m/bad.so") then Incompatible else Loads.
Definition MOD line mods := pBat_CmdMod ex_there ex_load 16 (ex_mod ex_home) (s2l line) (map s2l mods).
Lemma ex_place_a : place (s2l "/p") (s2l "a.so") (s2l "/p/modules/a.so").
Proof.
  right. split; [intros (r & Q & _); discriminate Q|]. exists (s2l "/p/modules"). split.
  - right. right. split; [|reflexivity]. exists (s2l "/"), "p"%char. split; [reflexivity|discriminate].
  - right. right. split; [|reflexivity]. exists (s2l "/p/module"), "s"%char. split; [reflexivity|discriminate].
Qed.
Example C98_ex :
  pBat_GetEnv (vw_env (x_var (ex_mod ex_home))) (s2l "PBAT_PATH") 16 = Ret (Some (s2l "/p")) /\
  written (ex_mod ex_home) (s2l " a.so /m/B.so") [s2l "a.so"; s2l "/m/B.so"] /\
  place (s2l "/p") (s2l "a.so") (s2l "/p/modules/a.so") /\ word (s2l "a.so") /\ apart [s2l "/m/B.so"; s2l "/p/modules/a.so"] /\
  MOD " a.so /m/B.so" [] = Ret (0%Z, [MCall (s2l "/p/modules/a.so"); MCall (s2l "/m/B.so")], [s2l "/m/B.so"; s2l "/p/modules/a.so"], ex_mod ex_home) /\
  MOD " /q a.so /Q /m/B.so /l" ["/p/modules/a.so"%string] =
    Ret (0%Z, [MCall (s2l "/m/B.so"); MList [s2l "/m/B.so"; s2l "/p/modules/a.so"]], [s2l "/m/B.so"; s2l "/p/modules/a.so"], ex_mod ex_home) /\
  MOD " a.so a.so /m/B.so" [] =
    Ret (61%Z, [MCall (s2l "/p/modules/a.so"); MError 61 (s2l "/p/modules/a.so")], [s2l "/p/modules/a.so"], ex_mod ex_home) /\
  MOD " a.so /m/bad.so /m/B.so" [] =
    Ret (60%Z, [MCall (s2l "/p/modules/a.so"); MCall (s2l "/m/bad.so"); MError 60 (s2l "/m/bad.so")], [s2l "/p/modules/a.so"], ex_mod ex_home) /\
  MOD " x.so" [] = Ret (1%Z, [MError 1 (s2l "/p/modules/x.so")], [], ex_mod ex_home).
Proof.
  split; [reflexivity|]. split; [do 2 lw; constructor; constructor|]. split; [apply ex_place_a|]. split; [repeat split; discriminate|].
  split. { constructor; [intros X; inversion X as [? ? Y|? ? Y]; subst; [discriminate Y|inversion Y]|]. constructor; [intros X; inversion X|constructor]. }
  repeat split.
Qed.

(** A module that is there is not loaded if one with a name that differs by case only is. *)
Theorem C98_case_refuted :
  ~ (forall exists_file load ka w h line p f mods z l mods' w',
       pBat_GetEnv (vw_env (x_var w)) (s2l "PBAT_PATH") ka = Ret (Some h) -> written w line [p] -> word p -> place h p f ->
       exists_file f = true -> ~ In f mods -> load mods f = Loads ->
       pBat_CmdMod exists_file load ka w line mods = Ret (z, l, mods', w') -> In f mods').
Proof.
  intros H.
  specialize (H ex_there ex_load 16%Z (ex_mod ex_home) (s2l "/p") (s2l " /m/b.so") (s2l "/m/b.so") (s2l "/m/b.so") [s2l "/m/B.so"] 61%Z [MError 61 (s2l "/m/b.so")] [s2l "/m/B.so"] (ex_mod ex_home)
    eq_refl ltac:(lw; constructor; constructor) ltac:(repeat split; discriminate)).
  assert (P : place (s2l "/p") (s2l "/m/b.so") (s2l "/m/b.so")) by (left; split; [eexists; split; [reflexivity|discriminate]|reflexivity]).
  specialize (H P eq_refl ltac:(intros [Q|[]]; discriminate Q) eq_refl eq_refl). destruct H as [H|[]]. discriminate H.
Qed.
Print Assumptions C98_case_refuted.

(** Without PBAT_PATH, the name of a module that is no absolute path is undefined behaviour. *)
Theorem C98_home_refuted : forall exists_file load ka w line p ps mods,
  pBat_GetEnv (vw_env (x_var w)) (s2l "PBAT_PATH") ka = Ret None -> written w line (p :: ps) -> nonul p -> word p -> ~ absolute p ->
  pBat_CmdMod exists_file load ka w line mods = Undef.
Proof.
  intros exists_file load ka w line p ps mods H W N D A. unfold pBat_CmdMod. cbn [mod_loop]. inversion W as [|a raw rest t v l B C E P Bt G I J]; subst.
  rewrite (Params_Proofs.next_written w [] a raw rest t p) by auto. cbn [bind]. destruct D as (D1 & D2 & D3).
  destruct (stricmp p (s2l "/l") =? 0)%Z eqn:E1; [elim D1; apply Prompt_Proofs.stricmp_name in E1; auto; apply nonul_s2l; reflexivity|].
  destruct (streqb p (s2l "/?")) eqn:E2; [elim D2; apply streqb_true; exact E2|].
  destruct (stricmp p (s2l "/q") =? 0)%Z eqn:E3; [elim D3; apply Prompt_Proofs.stricmp_name in E3; auto; apply nonul_s2l; reflexivity|].
  unfold mod_path. destruct (PBAT_TEST_ABSOLUTE_PATH p) eqn:E4; [elim A; apply absolute_iff; exact E4|]. rewrite H. reflexivity.
Qed.
Print Assumptions C98_home_refuted.
Example C98_home_ex : pBat_GetEnv (vw_env (x_var (ex_mod ex_env))) (s2l "PBAT_PATH") 16 = Ret None /\ written (ex_mod ex_env) (s2l " a.so") [s2l "a.so"] /\ word (s2l "a.so").
Proof. split; [reflexivity|]. split; [lw; constructor; constructor|repeat split; discriminate]. Qed.
