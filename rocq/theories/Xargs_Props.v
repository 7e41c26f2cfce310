(** Xargs_Props.v -- C81: XARGS. *)

From Verif Require Import Base Lex StrLib_Model StrLib_Spec StrLib_Proofs Var_Model Expand_Model Expand_Proofs Args_Model Args_Spec Args_Proofs Args_Props Params_Spec Params_Proofs Find_Model Find_Spec Find_Proofs Prompt_Proofs Find_Props Xargs_Model Xargs_Spec.

Lemma chomp_ok l p : chomped l p -> pBat_RmTrailingNl l = p.
Proof.
  intros [-> | [-> H]]; unfold pBat_RmTrailingNl.
  - rewrite rev_app_distr. cbn [rev app]. rewrite ceq_refl, rev_involutive. reflexivity.
  - destruct (rev p) as [|c r] eqn:E; [reflexivity|]. destruct (ceq c nl) eqn:C; [|reflexivity]. apply ceq_true in C. subst c. exfalso. apply (H (rev r)).
    rewrite <- (rev_involutive p), E. reflexivity.
Qed.
Definition added (ps : list cstr) : cstr := flat_map xargs_add ps.
Lemma add_chomp l p : chomped l p -> (forall c, In c p -> c <> nl) -> xargs_add l = xargs_add p.
Proof.
  intros C N. unfold xargs_add. rewrite (chomp_ok _ _ C), (chomp_ok p p); [reflexivity|]. right. split; [reflexivity|]. intros a ->. apply (N nl); [|reflexivity]. apply in_or_app. right. left. reflexivity.
Qed.
Lemma fold_added : forall ls ps cmd, Forall2 chomped ls ps -> Forall (fun p => forall c, In c p -> c <> nl) ps ->
  fold_left (fun t l => t ++ xargs_add l) ls cmd = cmd ++ added ps.
Proof.
  induction ls as [|l ls IH]; intros ps cmd F N; inversion F; subst; [cbn; rewrite app_nil_r; reflexivity|]. inversion N; subst. cbn [fold_left]. rewrite (IH l'); auto.
  unfold added. cbn [flat_map]. rewrite <- app_assoc. erewrite add_chomp; eauto.
Qed.
Lemma ends_added ps : ends (added ps).
Proof. intros c r E. destruct ps as [|p ps]; [discriminate|]. unfold added in E. cbn [flat_map] in E. unfold xargs_add in E. destruct (_ && _); injection E as <- _; apply space_blank. Qed.
Lemma added_written w : forall ps, Forall passable ps -> Forall (fun p => forall c, In c p -> c <> nl) ps -> written w (added ps) ps.
Proof.
  induction ps as [|p ps IH]; intros F N; [constructor; constructor|]. inversion F as [|? ? [Ne P] F']; subst. inversion N as [|? ? Np N']; subst. specialize (IH F' N').
  unfold added. cbn [flat_map]. fold (added ps). unfold xargs_add. rewrite (chomp_ok p p).
  2: { right. split; [reflexivity|]. intros a ->. apply (Np nl); [|reflexivity]. apply in_or_app. right. left. reflexivity. }
  assert (D : forall q, (forall c, In c p -> q c = false) -> forall i, ~ live q p i).
  { intros q Q i (_ & c & L & X). apply nth_error_In in L. specialize (Q c L). congruence. }
  assert (V : escaping p p) by (clear - P; induction p as [|c p IH]; constructor; [intros ->; apply (P "^"%char); [left; auto|cbn; tauto]|apply IH; intros; apply P; right; auto]).
  assert (Q : forall x, In x (dquote :: s2l "%!") -> forall c, In c p -> ceq c x = false).
  { intros x Ix c Ic. apply ceq_false. intros ->. apply (P x Ic). cbn in Ix |- *. tauto. }
  assert (Sk : (match pBat_SkipAllBlanks p with c :: _ => ceq c dquote | [] => false end) = false).
  { destruct (pBat_SkipAllBlanks p) as [|c r] eqn:E; [reflexivity|]. apply (Q dquote); [left; auto|]. clear - E. induction p as [|x p IH]; [discriminate|]. cbn [pBat_SkipAllBlanks] in E.
    destruct (_ || _); [right; auto|]. injection E as -> _. left. auto. }
  rewrite Sk. cbn [negb]. rewrite andb_true_r. destruct (existsb _ p) eqn:B.
  - cbn [app]. apply written_blank; [apply space_blank|]. rewrite <- app_assoc. cbn [app]. change (dquote :: p ++ dquote :: added ps) with ((dquote :: p) ++ [dquote] ++ added ps). rewrite app_assoc.
    change ((dquote :: p) ++ [dquote]) with (dquote :: p ++ [dquote]).
    apply written_quoted; auto using ends_added; apply D; intros c Ic; apply Q; auto; cbn; tauto.
  - cbn [app]. apply written_blank; [apply space_blank|]. apply written_word; auto using ends_added; apply D; intros c Ic.
    + destruct (inset (dquote :: blanks) c) eqn:Y; [|reflexivity]. exfalso. apply inset_in in Y. destruct Y as [<-|Y].
      { specialize (Q dquote ltac:(left; auto) _ Ic). rewrite ceq_refl in Q. discriminate. }
      assert (B' : existsb (fun c => existsb (ceq c) (s2l " ;," ++ ["009"%char])) p = true); [|congruence].
      apply existsb_exists. exists c. split; [auto|]. specialize (Np c Ic). apply existsb_exists. exists c. rewrite ceq_refl. split; [|auto]. unfold blanks in Y. cbn in Y |- *.
      destruct Y as [Y|[Y|[Y|[Y|[Y|[]]]]]]; subst; solve [tauto|congruence].
    + apply Q; auto; cbn; tauto.
    + apply Q; auto; cbn; tauto.
Qed.
Lemma words_written w s vs : words w s vs -> forall t l, t <> [] -> ends t -> written w t l -> written w (s ++ t) (vs ++ l).
Proof.
  induction 1 as [a A|a raw rest t v vs A Wh E B C D W IH]; intros u l Nu Eu Wu.
  - cbn [app]. clear - A Wu. induction A; [auto|]. cbn [app]. apply written_blank; auto.
  - rewrite <- !app_assoc. cbn [app]. assert (En : ends (rest ++ u)) by (intros c r X; destruct rest as [|y rest]; [eapply Eu; eauto|injection X as -> _; eapply E; eauto]).
    apply (wr_next w a raw (rest ++ u) t v (vs ++ l)); auto.
    + apply Wh.
    + intros c r X. eapply (first_char_ok raw [] c r); auto. rewrite app_nil_r. auto.
    + apply whole_at; auto.
    + destruct (rest ++ u) eqn:Z; [apply app_eq_nil in Z; destruct Z; congruence|auto].
Qed.

(** The command that is run is the one that was given, followed by the lines of the input, and
    each line is one more parameter. *)
Theorem C81_lines : forall w w' stdin ps line cmd, pBat_SkipBlanks line <> [] -> pBat_SkipBlanks line <> s2l "/?" -> pBat_DelayedExpand w (pBat_SkipBlanks line) = Ret (cmd, w') ->
  Forall2 chomped stdin ps -> Forall passable ps -> Forall (fun p => forall c, In c p -> c <> nl) ps ->
  exists more, pBat_CmdXargs w stdin line = Ret (XRun (cmd ++ more), w') /\ (ps = [] -> more = []) /\
    forall name args vs, cmd = name ++ args -> words w' args vs -> ps <> [] -> written w' (args ++ more) (vs ++ ps).
Proof.
  intros w w' stdin ps line cmd N1 N2 E F P N. exists (added ps). split; [|split].
  - unfold pBat_CmdXargs, pBat_GetEndOfLine. destruct (pBat_SkipBlanks line) as [|c r] eqn:S; [congruence|]. apply streqb_false in N2. rewrite N2, E. cbn [bind]. rewrite (fold_added _ ps) by auto. reflexivity.
  - intros ->. reflexivity.
  - intros name args vs _ W Np. apply words_written; auto using ends_added, added_written. destruct ps as [|p ps]; [congruence|]. unfold added, xargs_add. cbn [flat_map]. destruct (_ && _); discriminate.
Qed.
Print Assumptions C81_lines.

(** Without a command nothing is run, nor for the help. *)
Theorem C81_nothing : forall w stdin line, 
  (Forall blank line -> pBat_CmdXargs w stdin line = Ret (XFail 8%Z, w)) /\
  (forall a, Forall blank a -> line = a ++ s2l "/?" -> pBat_CmdXargs w stdin line = Ret (XHelp, w)).
Proof.
  intros w stdin line. unfold pBat_CmdXargs. split.
  - intros B. rewrite <- (app_nil_r line), skip_blanks; [reflexivity|auto|discriminate].
  - intros a A ->. rewrite skip_blanks; [reflexivity|auto|]. intros c r X. injection X as <- _. cbv. intuition discriminate.
Qed.
Print Assumptions C81_nothing.

Definition xa (stdin : list string) (line : string) : option string :=
  match pBat_CmdXargs ex_w (map s2l stdin) (s2l line) with Ret (XRun t, _) => Some (string_of_list_ascii t) | _ => None end.
Definition params_of (line : string) : option (list string) :=
  match pBat_GetParamList ex_w (s2l line) with Ret (l, _) => Some (map string_of_list_ascii l) | _ => None end.
Definition q : string := String dquote EmptyString.
(** An empty line is no parameter at all; one that starts with a quote is several if there are blanks behind; and
    a '^' does not arrive. *)
Theorem C81_line_refuted :
  xa [""%string; "b"%string] "echo" = Some "echo  b"%string /\ params_of "  b" = Some ["b"%string] /\
  xa [(q ++ "a" ++ q ++ " b")%string] "echo" = Some ("echo " ++ q ++ "a" ++ q ++ " b")%string /\ params_of (" " ++ q ++ "a" ++ q ++ " b") = Some ["a"%string; "b"%string] /\
  xa ["a^b"%string] "echo" = Some "echo a^b"%string /\ params_of " a^b" = Some ["ab"%string].
Proof. repeat split; vm_compute; reflexivity. Qed.
Print Assumptions C81_line_refuted.

Example C81_ex :
  Forall2 chomped [s2l "a b" ++ [nl]; s2l "c"] [s2l "a b"; s2l "c"] /\ Forall passable [s2l "a b"; s2l "c"] /\
  pBat_DelayedExpand ex_w (s2l "echo x") = Ret (s2l "echo x", ex_w) /\ words ex_w (s2l " x") [s2l "x"] /\
  xa [("a b" ++ String nl EmptyString)%string; "c"%string] " echo x" = Some ("echo x " ++ q ++ "a b" ++ q ++ " c")%string.
Proof.
  split; [constructor; [left; reflexivity|constructor; [right; split; [reflexivity|intros a E; destruct a as [|? [|]]; discriminate]|constructor]]|].
  split; [repeat constructor; try discriminate; intros c I; cbn in I; repeat (destruct I as [<-|I]; [cbn; intuition discriminate|]); destruct I|].
  split; [vm_compute; reflexivity|]. split; [|vm_compute; reflexivity].
  apply (wd_next ex_w (s2l " ") (s2l "x") [] (s2l "x") (s2l "x") []); [repeat constructor; apply space_blank| | | |discriminate|vm_compute; reflexivity|constructor; constructor].
  - apply (word_whole (s2l "x") (s2l "x")); [discriminate|repeat constructor; discriminate|]. intros i (_ & c & L & X). apply nth_error_In in L. destruct L as [<-|[]]. discriminate.
  - intros c r X. discriminate.
  - constructor. intros r X. discriminate.
Qed.
