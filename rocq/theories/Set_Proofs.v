(** Set_Proofs.v -- SET meets Set_Spec. *)

From Coq Require Import Sorted.
From Verif Require Import Base Lex Num_Model StrLib_Model StrLib_Spec Env_Model Env_Spec Env_Proofs Var_Model Var_Proofs LocalVar_Model LocalVar_Proofs
  Expand_Model Args_Model Args_Spec Args_Proofs Block_Proofs Path_Proofs Params_Model Params_Proofs Prompt_Spec Prompt_Proofs Set_Model Set_Spec.

Lemma In_firstn {A} (x : A) n l : In x (firstn n l) -> In x l.
Proof. intros I. rewrite <- (firstn_skipn n l). apply in_or_app. auto. Qed.
Lemma leads_next w line p rest : leads w line p rest -> pBat_GetNextParameterEs w [] line = Ret (p, Some rest, w).
Proof. intros (a & raw & t & -> & A & N & F & P & B & C & D). eapply next_written; eauto. Qed.
Lemma behind_skip line text : behind line text -> pBat_SkipBlanks line = text.
Proof. intros (a & -> & A & N). apply skip_blanks; auto. Qed.

Lemma unquoted_ok v t : unquoted v t -> set_unquote v = t.
Proof.
  destruct 1 as [v N|v N|v junk N].
  - destruct v as [|c v]; auto. cbn [set_unquote]. replace (ceq c dquote) with false; auto. symmetry. apply ceq_false. intros ->. eapply N; eauto.
  - cbn [set_unquote]. rewrite ceq_refl, strrchr_none by auto. auto.
  - cbn [set_unquote]. rewrite ceq_refl, (strrchr_some (fun _ => None) (fun _ => 0) dquote v junk N). cbn [Nat.add]. rewrite firstn_app, firstn_all, Nat.sub_diag. cbn. apply app_nil_r.
Qed.
Lemma assigns_ok t name value : assigns t name value ->
  strchr t "="%char = Some (length name) /\ firstn (length name) t = name /\ skipn (Datatypes.S (length name)) t = value.
Proof.
  intros [-> N]. split; [apply strchr_app; auto|]. split.
  - rewrite firstn_app, firstn_all, Nat.sub_diag. apply app_nil_r.
  - rewrite skipn_app, skipn_all2 by lia. replace (Datatypes.S (length name) - length name) with 1 by lia. reflexivity.
Qed.
Lemma unquoted_nonul v t : unquoted v t -> nonul v -> nonul t.
Proof.
  destruct 1; auto. intros N I. apply N. right. apply in_or_app. auto.
Qed.

Lemma value_lookup sg e n v : table_ok sg e -> nonul n -> value_of e n v <-> v = option_map v_content (lookup (e_buf e) n).
Proof.
  intros T N. split.
  - intros (sg' & ka & A & T' & G). rewrite (get_ok sg') in G by auto. congruence.
  - intros ->. exists sg, (if sg then 1 else -1)%Z. assert (A : addr_ok sg (if sg then 1 else -1)%Z) by (destruct sg; cbn; lia).
    split; auto. split; auto. apply (get_ok sg); auto.
Qed.

Lemma assign_ok ka na sg w name (value : cstr) inherit :
  table_ok sg (vw_env (x_var w)) -> addr_ok sg ka -> addr_ok sg na -> nonul name -> (value <> [] \/ toplevel (vw_env (x_var w))) ->
  exists w', assign ka na w name value inherit = Ret w' /\ same_but_env w w' /\
    act_run (ASet name ka na value inherit) (vw_env (x_var w)) = Ret (vw_env (x_var w')) /\ changed (vw_env (x_var w)) name value (vw_env (x_var w')).
Proof.
  intros T K A N V. set (e := vw_env (x_var w)) in *. unfold assign. fold e.
  assert (X : exists e', pBat_SetEnvEx e name ka na (Some value) inherit = Ret e' /\ changed e name value e').
  { destruct value as [|c value].
    - destruct V as [V|V]; [contradiction|]. cbn [pBat_SetEnvEx]. destruct (unset_ok sg e name ka T N K) as (e' & E & T' & L).
      exists e'. split; auto. intros n v t Nn Hv Tr. apply (value_lookup sg) in Hv; auto. apply (value_lookup sg); auto. subst v. rewrite L.
      destruct (lookup (e_buf e) n) as [v|] eqn:X; [|destruct (same_nameb name n); auto].
      destruct (same_nameb name n); auto.
      assert (I : In v (e_buf e)) by (unfold lookup in X; apply find_some in X; apply X).
      unfold toplevel in V. rewrite Forall_forall in V. rewrite (V v I). auto.
    - destruct (set_ok sg e name ka na c value inherit T N A) as (e' & v' & E & T' & AS & L).
      exists e'. split; auto. intros n v t Nn Hv Tr. apply (value_lookup sg) in Hv; auto. apply (value_lookup sg); auto. subst v. rewrite L.
      rewrite (trimmed_unique name t (pBat_AdjustVarName name) Tr (adjust_trimmed name)).
      destruct (same_nameb (pBat_AdjustVarName name) n); auto. cbn [option_map]. f_equal.
      unfold assigned in AS. destruct (lookup (e_buf e) (pBat_AdjustVarName name)); [rewrite AS; auto|]. destruct AS as (st & -> & _). auto. }
  destruct X as (e1 & E1 & C). rewrite E1. cbn [bind]. eexists. split; [reflexivity|]. split; [split; reflexivity|]. split; [exact E1|exact C].
Qed.

(** Listing. *)
Definition starts_b (prefix n : cstr) : bool := (strnicmp n prefix (length prefix) =? 0)%Z.
Lemma starts_iff prefix n : nonul prefix -> starts_b prefix n = true <-> starts prefix n.
Proof. intros N. unfold starts_b, starts. rewrite Z.eqb_eq. apply strnicmp_kw; auto. Qed.
Definition shows (prefix : cstr) (v : var) : list (cstr * cstr) :=
  match v_name v with Some (n, _) => if starts_b prefix n then [(n, v_content v)] else [] | None => [] end.
Lemma list_text prefix l : prefix <> [] \/ (forall v, In v l -> v_name v <> None) ->
  set_list prefix l = Ret (concat (map (fun x => fst x ++ "="%char :: snd x ++ [nl]) (flat_map (shows prefix) l))) /\
  set_found prefix l = match flat_map (shows prefix) l with [] => false | _ => true end.
Proof.
  assert (Z : forall n, starts_b [] n = true) by (intros n; unfold starts_b; destruct n; reflexivity).
  induction l as [|v l IH]; intros H; [auto|].
  destruct IH as [IH1 IH2]; [destruct H as [H|H]; auto; right; intros; apply H; right; auto|].
  cbn [set_list set_found existsb flat_map]. fold (set_found prefix l). rewrite IH1, IH2.
  assert (SV : shows prefix v = match v_name v with Some (n, _) => if starts_b prefix n then [(n, v_content v)] else [] | None => [] end) by reflexivity.
  rewrite SV. clear SV.
  destruct (v_name v) as [[n a]|] eqn:V.
  - cbn [bind]. destruct prefix as [|c prefix].
    + rewrite Z. cbn [app map concat fst snd]. split; auto. rewrite <- !app_assoc. cbn [app]. rewrite <- app_assoc. reflexivity.
    + fold (starts_b (c :: prefix) n). destruct (starts_b (c :: prefix) n); cbn [app map concat fst snd]; auto.
      split; auto. rewrite <- !app_assoc. cbn [app]. rewrite <- app_assoc. reflexivity.
  - destruct prefix as [|c prefix]; auto. destruct H as [H|H]; [contradiction|]. destruct (H v (or_introl eq_refl) V).
Qed.
Lemma shows_In prefix l n v : In (n, v) (flat_map (shows prefix) l) -> exists x a, In x l /\ v_name x = Some (n, a) /\ v_content x = v /\ starts_b prefix n = true.
Proof.
  intros I. apply in_flat_map in I. destruct I as (x & X & I). unfold shows in I. destruct (v_name x) as [[m a]|] eqn:E; [|contradiction].
  destruct (starts_b prefix m) eqn:S; [|contradiction]. destruct I as [I|[]]. injection I as <- <-. eauto 8.
Qed.
Lemma listing_ok sg e prefix : table_ok sg e -> nonul prefix -> (prefix <> [] \/ ~ has_hole e) ->
  exists out, set_list prefix (e_buf e) = Ret out /\ listing e prefix out /\ (set_found prefix (e_buf e) = match out with [] => false | _ => true end).
Proof.
  intros T N H. destruct (list_text prefix (e_buf e)) as [L F].
  { destruct H as [H|H]; auto. right. intros v I E. apply H. exists v. auto. }
  eexists. split; [exact L|]. rewrite F. set (l := flat_map (shows prefix) (e_buf e)). split.
  - exists l. split; [|split; [|split; [|reflexivity]]].
    + destruct T as (S & _). clear -S. subst l. induction S as [|v b S IH A]; [constructor|]. cbn [flat_map]. unfold shows at 1.
      destruct (v_name v) as [[n a]|] eqn:E; auto. destruct (starts_b prefix n); auto. cbn [app]. constructor; auto.
      rewrite Forall_forall in *. intros [m u] I. apply shows_In in I. destruct I as (x & a' & I & X & _). specialize (A x I). unfold ahead in A.
      rewrite E, X in A. exact A.
    + intros n v I. apply shows_In in I. destruct I as (x & a & I & X & <- & S). split; [apply starts_iff; auto|].
      assert (V : var_ok sg x) by (destruct T as (_ & V & _); rewrite Forall_forall in V; auto). unfold var_ok in V. rewrite X in V.
      apply (value_lookup sg); [auto|apply V|].
      assert (L' : lookup (e_buf e) n = Some x).
      { apply lookup_Some; [eapply sorted_FOP; apply T|]. split; auto. unfold named. rewrite X. unfold same_nameb. apply streqb_refl. }
      rewrite L'. auto.
    + intros n v Nn S V. apply (value_lookup sg) in V; auto. destruct (lookup (e_buf e) n) as [x|] eqn:L'; [|discriminate].
      injection V as ->. apply lookup_Some in L'; [|eapply sorted_FOP; apply T]. destruct L' as [I M]. unfold named in M.
      destruct (v_name x) as [[m a]|] eqn:X; [|discriminate]. unfold same_nameb in M. apply streqb_true in M. exists m. split; [exact M|].
      apply in_flat_map. exists x. split; auto. unfold shows. rewrite X.
      replace (starts_b prefix m) with true; [left; auto|]. symmetry. apply starts_iff; auto. destruct S as (b & r & -> & Sb).
      rewrite map_app in M. exists (firstn (length b) m), (skipn (length b) m). split; [symmetry; apply firstn_skipn|].
      unfold same_name in *. rewrite <- Sb. apply (f_equal (firstn (length b))) in M. rewrite firstn_map in M. rewrite M.
      rewrite firstn_app, map_length, Nat.sub_diag. cbn [firstn]. rewrite app_nil_r. apply firstn_all2. rewrite map_length. lia.
  - destruct l as [|[n v] l']; auto. cbn [map concat fst snd]. destruct n; reflexivity.
Qed.

Lemma no_option p o : ~ set_option p -> nonul p -> In o [s2l "/?"; s2l "/a"; s2l "/p"; s2l "/x"] -> (stricmp p o =? 0)%Z = false.
Proof.
  intros H N I. destruct (stricmp p o =? 0)%Z eqn:E; auto. exfalso. apply H. exists o. split; auto. apply stricmp_name in E; auto.
  apply nonul_b. destruct I as [<-|[<-|[<-|[<-|[]]]]]; reflexivity.
Qed.
Lemma is_option p o : same_name p o -> nonul p -> In o [s2l "/?"; s2l "/a"; s2l "/p"; s2l "/x"] -> (stricmp p o =? 0)%Z = true.
Proof. intros H N I. apply stricmp_name; auto. apply nonul_b. destruct I as [<-|[<-|[<-|[<-|[]]]]]; reflexivity. Qed.
Lemma other_option p o o' : same_name p o -> nonul p -> In o [s2l "/?"; s2l "/a"; s2l "/p"; s2l "/x"] -> In o' [s2l "/?"; s2l "/a"; s2l "/p"; s2l "/x"] ->
  o <> o' -> (stricmp p o' =? 0)%Z = false.
Proof.
  intros H N I I' D. destruct (stricmp p o' =? 0)%Z eqn:E; auto. exfalso. apply stricmp_name in E; auto.
  - apply D. unfold same_name in *. rewrite H in E. destruct I as [<-|[<-|[<-|[<-|[]]]]], I' as [<-|[<-|[<-|[<-|[]]]]]; try reflexivity; discriminate.
  - apply nonul_b. destruct I' as [<-|[<-|[<-|[<-|[]]]]]; reflexivity.
Qed.

Lemma sets_ok ka na sg w line text v t name (value : cstr) inherit :
  behind line text -> text <> [] -> expands w text v -> unquoted v t -> nonul v -> assigns t name value ->
  table_ok sg (vw_env (x_var w)) -> addr_ok sg ka -> addr_ok sg na -> (value <> [] \/ toplevel (vw_env (x_var w))) ->
  exists w', pBat_CmdSetS ka na w line inherit = Ret (0%Z, w') /\ same_but_env w w' /\
    act_run (ASet name ka na value inherit) (vw_env (x_var w)) = Ret (vw_env (x_var w')) /\ changed (vw_env (x_var w)) name value (vw_env (x_var w')).
Proof.
  intros B NE E U N A T K K' V. unfold pBat_CmdSetS. rewrite (behind_skip _ _ B). destruct text as [|c text]; [contradiction|].
  unfold pBat_GetEndOfLine. rewrite E. cbn [bind]. rewrite (unquoted_ok _ _ U). destruct (assigns_ok _ _ _ A) as (-> & -> & ->).
  assert (Nn : nonul name). { apply (unquoted_nonul _ _ U) in N. destruct A as [-> _]. intros I. apply N. apply in_or_app. auto. }
  destruct (assign_ok ka na sg w name value inherit T K K' Nn V) as (w' & -> & S & R & C). exists w'. auto.
Qed.
Lemma sets_none ka na w line text v t inherit :
  behind line text -> text <> [] -> expands w text v -> unquoted v t -> ~ In "="%char t ->
  pBat_CmdSetS ka na w line inherit = Ret (1%Z, w).
Proof.
  intros B NE E U N. unfold pBat_CmdSetS. rewrite (behind_skip _ _ B). destruct text as [|c text]; [contradiction|].
  unfold pBat_GetEndOfLine. rewrite E. cbn [bind]. rewrite (unquoted_ok _ _ U), strchr_none by auto. reflexivity.
Qed.
Lemma leads_text w line p rest text : leads w line p rest -> behind line text -> text <> [].
Proof.
  intros (a & raw & t & -> & A & N & F & _) B. apply behind_skip in B. rewrite skip_blanks in B; auto.
  - subst text. destruct raw; [contradiction|discriminate].
  - intros c r X. destruct raw as [|d raw]; [contradiction|]. injection X as <- _. eapply F; eauto.
Qed.
