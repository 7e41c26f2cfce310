(** Def_Proofs.v -- DEF and procedures meet Def_Spec. *)

From Verif Require Import Base Lex StrLib_Model StrLib_Spec StrLib_Proofs Estr_Spec Env_Model Env_Spec Path_Proofs Var_Model Var_Proofs LocalVar_Model Expand_Model Args_Model Args_Spec
  Args_Proofs Params_Model Params_Spec Params_Proofs CmdList_Model CmdList_Spec CmdList_Proofs Prompt_Spec Prompt_Proofs Set_Model Set_Spec Set_Proofs Call_Proofs Find_Proofs
  Def_Model Def_Spec.

(** ** Substitution *)
Lemma no_dollar_ref c : In c refs -> c <> "$"%char.
Proof. intros H ->. revert H. cbv. intuition discriminate. Qed.
Definition put (c : ascii) (rep : cstr) (l : list piece) : list piece :=
  flat_map (fun x => match x with Lit a => [Lit a] | Par d => if ceq d c then map Lit rep else [Par d] end) l.
Lemma rep_cons pat rep a s t : ~ occurs_at pat (a :: s) 0 -> replaced pat rep s t -> replaced pat rep (a :: s) (a :: t).
Proof.
  intros N H. destruct H as [s H|x b t H R].
  - apply rep_done. intros [|k] (u & v & E & L); [apply N; exists u, v; auto|]. destruct u as [|y u]; [discriminate|]. injection E as -> E. cbn in L. apply (H k). exists u, v. auto.
  - apply (rep_step pat rep (a :: x) b t); auto. intros [|k] K; [exact N|]. intros (u & v & E & L). destruct u as [|y u]; [discriminate|]. injection E as -> E. cbn in L, K.
    apply (H k); [lia|]. exists u, v. auto.
Qed.
Lemma occurs2 a b s : occurs_at [a; b] s 0 -> exists r, s = a :: b :: r.
Proof. intros (u & v & E & L). destruct u; [|discriminate]. cbn in E. eauto. Qed.
Lemma put_ok c rep l : In c refs -> template l -> replaced ["$"%char; c] rep (render l) (render (put c rep l)).
Proof.
  intros C T. induction T as [|a l N T IH|d l N T IH| |d l D T IH].
  - apply rep_done. intros k (u & v & E & _). destruct u; discriminate.
  - cbn [render put flat_map app]. apply rep_cons; auto. intros X. apply occurs2 in X. destruct X as (r & X). injection X as -> _. auto.
  - cbn [render put flat_map app] in *. apply rep_cons; auto. intros X. apply occurs2 in X. destruct X as (r & X). injection X as -> _. auto.
  - cbn. apply rep_done. intros k (u & v & E & _). destruct u as [|x [|y u]]; discriminate.
  - cbn [put flat_map]. destruct (ceq d c) eqn:Q.
    + apply ceq_true in Q. subst. replace (render (map Lit rep ++ flat_map _ l)) with (rep ++ render (put c rep l)).
      * change (render (Par c :: l)) with ([] ++ ["$"%char; c] ++ render l). apply (rep_step _ _ [] (render l)); auto. intros k K. cbn in K. lia.
      * unfold render at 2. rewrite flat_map_app. f_equal. clear. induction rep; cbn; congruence.
    + cbn [app render flat_map]. apply rep_cons.
      * intros X. apply occurs2 in X. destruct X as (r & X). injection X as -> _. rewrite ceq_refl in Q. discriminate.
      * apply rep_cons; auto. intros X. apply occurs2 in X. destruct X as (r & X). injection X as -> _. eapply no_dollar_ref; eauto.
Qed.
Lemma template_lits rep l : ~ In "$"%char rep -> template l -> template (map Lit rep ++ l).
Proof. intros N T. induction rep as [|a rep IH]; cbn; auto. constructor; [intros ->; apply N; left; auto|apply IH; intros X; apply N; right; auto]. Qed.
Lemma put_template c rep l : ~ In "$"%char rep -> template l -> template (put c rep l).
Proof.
  intros N T. induction T as [|a l M T IH|d l M T IH| |d l D T IH].
  - constructor.
  - apply (tm_lit a (put c rep l)); [exact M|exact IH].
  - apply (tm_dollar d (put c rep l)); [exact M|exact IH].
  - exact tm_last.
  - unfold put. cbn [flat_map]. fold (put c rep l). destruct (ceq d c); [apply template_lits; [exact N|exact IH]|]. apply (tm_par d (put c rep l)); [exact D|exact IH].
Qed.
Lemma replace_put c rep l : In c refs -> template l -> replace_text (S (length (render l))) (render l) ["$"%char; c] rep = Ret (render (put c rep l)).
Proof. intros C T. apply (replaced_text _ _ _ _ (put_ok c rep l C T)); [discriminate|lia]. Qed.

Definition puts (l : list piece) (vs : list (ascii * cstr)) : list piece := fold_left (fun l x => put (fst x) (snd x) l) vs l.
Fixpoint values (vars : list ascii) (ps : list cstr) : list (ascii * cstr) :=
  match vars with
  | [] => []
  | c :: vars => (c, match ps with p :: _ => p | [] => [] end) :: values vars (match ps with _ :: ps => ps | [] => [] end)
  end.
Lemma params_done w vars : forall old l, incl vars refs -> template l -> def_params w vars None old (render l) = Ret (render (puts l (values vars [])), w).
Proof.
  induction vars as [|c vars IH]; intros old l I T; [reflexivity|]. cbn [def_params]. cbn [bind].
  rewrite replace_put by (auto; apply I; left; auto). cbn [bind]. rewrite IH; [reflexivity|intros x X; apply I; right; auto|apply put_template; auto].
Qed.
Lemma params_ok w vars : forall ps line old l, incl vars refs -> written w line ps -> template l -> (forall p, In p (firstn (length vars) ps) -> ~ In "$"%char p) ->
  def_params w vars (Some line) old (render l) = Ret (render (puts l (values vars ps)), w).
Proof.
  induction vars as [|c vars IH]; intros ps line old l I W T D; [reflexivity|]. cbn [def_params].
  assert (Ic : In c refs) by (apply I; left; auto). assert (Iv : incl vars refs) by (intros x X; apply I; right; auto).
  destruct ps as [|p ps].
  - inversion W; subst. rewrite next_end by auto. cbn [bind]. rewrite replace_put by auto. cbn [bind].
    rewrite params_done; [reflexivity|auto|apply put_template; auto].
  - destruct (written_next (fun _ => []) _ _ _ _ W) as (rest & E & R & _). rewrite E. cbn [bind]. rewrite replace_put by auto. cbn [bind].
    rewrite (IH ps); [reflexivity|auto|auto| |intros; apply D; right; auto]. apply put_template; auto. apply D. left. auto.
Qed.
(** All the references are gone. *)
Lemma puts_app l1 l2 vs : puts (l1 ++ l2) vs = puts l1 vs ++ puts l2 vs.
Proof. revert l1 l2. induction vs as [|v vs IH]; intros l1 l2; auto. cbn [puts fold_left]. unfold put. rewrite flat_map_app. apply IH. Qed.
Lemma puts_lits s vs : puts (map Lit s) vs = map Lit s.
Proof.
  induction vs as [|v vs IH]; auto. cbn [puts fold_left]. replace (put (fst v) (snd v) (map Lit s)) with (map Lit s); auto. unfold put. generalize (fst v) (snd v). clear. intros x y. induction s as [|a s IH]; [reflexivity|]. cbn [map flat_map app]. rewrite <- IH. reflexivity.
Qed.
Lemma render_lits s : render (map Lit s) = s.
Proof. induction s as [|a s IH]; [reflexivity|]. unfold render in *. cbn [map flat_map app]. rewrite IH. reflexivity. Qed.
Lemma puts_par c v vs : puts [Par c] ((c, v) :: vs) = map Lit v.
Proof. cbn [puts fold_left fst snd put flat_map]. rewrite ceq_refl, app_nil_r. apply puts_lits. Qed.
Lemma puts_other c d v vs : c <> d -> puts [Par c] ((d, v) :: vs) = puts [Par c] vs.
Proof. intros N. cbn [puts fold_left fst snd put flat_map]. destruct (ceq c d) eqn:E; [apply ceq_true in E; contradiction|]. reflexivity. Qed.
Lemma values_nth i (ps : list cstr) : nth i ps [] = match skipn i ps with p :: _ => p | [] => [] end.
Proof. revert ps; induction i; intros [|p ps]; auto. cbn. apply IHi. Qed.
Lemma tl_skip i (ps : list cstr) : match skipn i ps with _ :: l => l | [] => [] end = skipn (S i) ps.
Proof. revert ps; induction i; intros [|p ps]; auto. cbn [skipn]. apply IHi. Qed.
Lemma puts_all text ps l : Forall (fun x => match x with Par c => In c refs | _ => True end) l ->
  render (puts l (("*"%char, text) :: values (s2l "123456789:") ps)) = filled text ps l.
Proof.
  induction 1 as [|x l X F IH]; [reflexivity|]. change (x :: l) with ([x] ++ l). rewrite puts_app. unfold render at 1. rewrite flat_map_app. fold (render (puts [x] (("*"%char, text) :: values (s2l "123456789:") ps))).
  unfold render in IH. rewrite IH. unfold filled. cbn [app flat_map]. f_equal. destruct x as [c|c]; [rewrite (puts_lits [c]); reflexivity|].
  assert (K : forall i, nth i ps [] = match skipn i ps with p :: _ => p | [] => [] end) by (intros; apply values_nth).
  revert X. unfold refs. change (s2l "*123456789:") with ("*"%char :: s2l "123456789:"). intros [<-|X].
  - rewrite puts_par. apply render_lits.
  - rewrite puts_other by (intros ->; revert X; cbv; intuition discriminate).
    assert (G : forall vars n ps', s2l "123456789:" = firstn n (s2l "123456789:") ++ vars -> n + length vars = 10 -> ps' = skipn n ps -> In c vars ->
      render (puts [Par c] (values vars ps')) = meaning text ps c).
    { induction vars as [|d vars IHv]; intros n ps' E L -> I; [destruct I|]. cbn [values]. rewrite tl_skip. cbn [length] in L.
      assert (Ed : nth_error (s2l "123456789:") n = Some d). { rewrite E. rewrite nth_error_app2; rewrite firstn_length; change (length (s2l "123456789:")) with 10; [|lia]. replace (n - Nat.min n 10) with 0 by lia. reflexivity. }
      destruct (ascii_dec c d) as [->|Nd].
      - rewrite puts_par, render_lits, <- K. clear -Ed L. assert (n < 10) by lia. do 10 (destruct n as [|n]; [injection Ed as <-; reflexivity|]). lia.
      - rewrite puts_other by auto. destruct I as [->|I]; [contradiction|]. apply (IHv (S n)); auto; [|lia].
        rewrite E at 1. replace (firstn (S n) (s2l "123456789:")) with (firstn n (s2l "123456789:") ++ [d]); [rewrite <- app_assoc; reflexivity|].
        clear -Ed L. assert (n < 10) by lia. do 10 (destruct n as [|n]; [injection Ed as <-; reflexivity|]). lia. }
    apply (G (s2l "123456789:") 0 ps); auto.
Qed.
Lemma template_refs l : template l -> Forall (fun x => match x with Par c => In c refs | _ => True end) l.
Proof. induction 1 as [|c l N T IH|d l N T IH| |c l D T IH]; [constructor|constructor; [exact I|exact IH]|constructor; [exact I|exact IH]|constructor; [exact I|constructor]|constructor; [exact D|exact IH]]. Qed.

Lemma written_behind w args text ps : behind args text -> written w args ps -> written w text ps.
Proof.
  intros (a & -> & A & T) W. inversion W as [s B E1 E2|b raw rest t v l B N F P Br C D R E1 E2]; subst.
  - constructor. apply Forall_app in B. apply B.
  - assert (X : b = a /\ text = raw ++ rest).
    { clear -E1 A B T N F. revert a A E1. induction B as [|x b X B IH]; intros a A E.
      - destruct a as [|y a]; [auto|]. cbn in E. destruct raw as [|r raw]; [congruence|]. injection E as <- _. inversion A; subst. destruct (F r raw eq_refl); auto.
      - destruct a as [|y a]; [cbn in E; destruct (T x (b ++ raw ++ rest)); auto|]. cbn in E. injection E as <- E. inversion A; subst.
        destruct (IH a H2 E) as [-> ->]; auto. }
    destruct X as [-> ->]. apply (wr_next w [] raw rest t v l); auto.
Qed.
Lemma skip_behind args text : behind args text -> pBat_SkipBlanks args = text.
Proof. intros (a & -> & A & T). apply skip_blanks; auto. Qed.

Lemma expand_ok w args text ps l : behind args text -> written w args ps -> template l -> ~ In "$"%char text ->
  (forall p, In p (firstn 10 ps) -> ~ In "$"%char p) -> pBat_ExpandDef w args (render l) = Ret (filled text ps l, w).
Proof.
  intros B W T N P. unfold pBat_ExpandDef. rewrite (skip_behind _ _ B). rewrite (replace_put "*"%char) by (auto; cbv; tauto). cbn [bind].
  rewrite (params_ok w _ ps).
  - change (render (puts (put "*"%char text l) (values (s2l "123456789:") ps))) with (render (puts l (("*"%char, text) :: values (s2l "123456789:") ps))).
    rewrite puts_all by (apply template_refs; auto). reflexivity.
  - intros c C. right. exact C.
  - eapply written_behind; eauto.
  - apply put_template; auto.
  - exact P.
Qed.

(** Every text without a dollar sign in front of a reference has pieces. *)
Lemma template_exists : forall n body, length body <= n -> (forall c k, In c refs -> ~ occurs_at ["$"%char; "$"%char; c] body k) ->
  exists l, template l /\ render l = body /\
    (forall a r, body = a :: r -> (a <> "$"%char \/ forall c r', r = c :: r' -> ~ In c refs) -> exists l', l = Lit a :: l').
Proof.
  induction n as [|n IH]; intros body L O; [destruct body; [|cbn in L; lia]; exists []; repeat split; [constructor|discriminate]|].
  assert (O' : forall a r, body = a :: r -> forall c k, In c refs -> ~ occurs_at ["$"%char; "$"%char; c] r k).
  { intros a r -> c k C (u & v & E & K). apply (O c (S k) C). exists (a :: u), v. cbn. rewrite E. auto. }
  destruct body as [|a r]; [exists []; repeat split; [constructor|discriminate]|]. cbn [length] in L.
  destruct (ascii_dec a "$"%char) as [->|Na].
  - destruct r as [|x r].
    + exists [Lit "$"%char]. split; [exact tm_last|split; [reflexivity|]]. intros a r [= <- <-] _. eauto.
    + destruct (in_dec ascii_dec x refs) as [Ix|Nx].
      * destruct (IH r) as (l & T & R & _); [cbn in L; lia| |].
        { intros c k C (u & v & E & K). apply (O' _ _ eq_refl c (S k) C). exists (x :: u), v. cbn. rewrite E. auto. }
        exists (Par x :: l). split; [constructor; auto|]. split; [cbn; unfold render in R; rewrite R; auto|].
        intros a r' [= <- <-] [X|X]; [congruence|]. destruct (X x r eq_refl). auto.
      * destruct (IH (x :: r)) as (l & T & R & H); [cbn in *; lia|eapply (O' _ _ eq_refl); eauto|].
        destruct (H x r eq_refl) as (l' & ->).
        { destruct (ascii_dec x "$"%char) as [->|]; auto. right. intros c r' -> C. apply (O c 0 C). exists [], r'. auto. }
        exists (Lit "$"%char :: Lit x :: l'). split; [apply tm_dollar; auto|]. split; [cbn [render flat_map app] in *; rewrite R; auto|]. intros a r' [= <- <-] _. eauto.
  - destruct (IH r) as (l & T & R & _); [lia|eapply (O' _ _ eq_refl); eauto|]. exists (Lit a :: l). split; [constructor; auto|]. split; [cbn; unfold render in R; rewrite R; auto|].
    intros a' r' [= <- <-] _. eauto.
Qed.
Lemma template_one l : template l -> forall l', template l' -> render l = render l' -> l = l'.
Proof.
  induction 1 as [|a l N T IH|d l N T IH| |d l D T IH]; intros l' T' E.
  - inversion T'; subst; auto; discriminate.
  - inversion T' as [|a' m N' T2|d' m N' T2| |d' m D' T2]; subst; cbn in E; try discriminate; injection E as E1 E; try congruence. f_equal; [congruence|auto].
  - inversion T' as [|a' m N' T2|d' m N' T2| |d' m D' T2]; subst; cbn [render flat_map app] in E; try discriminate.
    + injection E as E1 E. congruence.
    + injection E as E1 E. f_equal. apply IH; auto. cbn [render flat_map app]. congruence.
    + injection E as E1 E. subst. contradiction.
  - inversion T' as [|a' m N' T2|d' m N' T2| |d' m D' T2]; subst; cbn in E; try discriminate; auto. injection E as E1 E. congruence.
  - inversion T' as [|a' m N' T2|d' m N' T2| |d' m D' T2]; subst; cbn [render flat_map app] in E; try discriminate.
    + injection E as E1 E. congruence.
    + injection E as E1 E. subst. contradiction.
    + injection E as E1 E. subst. f_equal. auto.
Qed.

(** ** The line *)
Lemma from_skip line rest : from line rest -> pBat_SkipAllBlanks line = rest.
Proof.
  intros (a & -> & A & T). induction A as [|c a C A IH]; cbn [app pBat_SkipAllBlanks].
  - destruct rest as [|c r]; auto. cbn [pBat_SkipAllBlanks]. destruct (pBat_IsDelim c || ceq c "@"%char) eqn:E; auto. exfalso. apply (T c r eq_refl).
    apply orb_true_iff in E. destruct E as [E|E]; [left; apply delim_blank; auto|right; apply ceq_true; auto].
  - replace (pBat_IsDelim c || ceq c "@"%char) with true; auto. symmetry. apply orb_true_iff. destruct C as [C|C]; [left; apply delim_blank; auto|right; subst; reflexivity].
Qed.

Lemma nn_f : nonul (s2l "/f"). Proof. apply nonul_b. reflexivity. Qed.
Lemma nn_l : nonul (s2l "/l"). Proof. apply nonul_b. reflexivity. Qed.
Lemma same_sym a b : same_name a b -> same_name b a.
Proof. unfold same_name. congruence. Qed.
Lemma options_ok w line f l rest : def_line w line f l rest -> forall fuel old f0 l0, length line < fuel ->
  def_options fuel w old line f0 l0 = Ret (Some (f0 || f, l0 || l, rest), w).
Proof.
  induction 1 as [line p next rest L N H F G S|line B|line p next f l rest L N F D IH|line p next f l rest L N G D IH]; intros fuel old f0 l0 K; (destruct fuel as [|fuel]; [lia|]); cbn [def_options].
  - rewrite (leads_any _ _ _ _ _ L). cbn [bind]. replace (streqb (s2l "/?") p) with false by (symmetry; apply streqb_false; congruence).
    rewrite (name_b (s2l "/f") p nn_f N) by (intros X; apply F; apply same_sym; auto). rewrite (name_b (s2l "/l") p nn_l N) by (intros X; apply G; apply same_sym; auto).
    rewrite !orb_false_r, (from_skip _ _ S). reflexivity.
  - rewrite next_end by auto. cbn [bind]. rewrite !orb_false_r. reflexivity.
  - rewrite (leads_any _ _ _ _ _ L). cbn [bind].
    replace (streqb (s2l "/?") p) with false by (symmetry; apply streqb_false; intros <-; discriminate).
    rewrite (is_b (s2l "/f") p nn_f N) by (apply same_sym; auto). rewrite IH by (pose proof (leads_shorter _ _ _ _ L); lia). rewrite orb_true_r. reflexivity.
  - rewrite (leads_any _ _ _ _ _ L). cbn [bind].
    replace (streqb (s2l "/?") p) with false by (symmetry; apply streqb_false; intros <-; discriminate).
    rewrite (name_b (s2l "/f") p nn_f N) by (intros X; unfold same_name in *; rewrite G in X; discriminate).
    rewrite (is_b (s2l "/l") p nn_l N) by (apply same_sym; auto). rewrite IH by (pose proof (leads_shorter _ _ _ _ L); lia). rewrite orb_true_r. reflexivity.
Qed.
Lemma defines_ok rest name body : defines rest name body ->
  pBat_SearchChar rest "="%char = Some (length name) /\ firstn (length name) rest = name /\ skipn (S (length name)) rest = body.
Proof.
  intros (E & F). split; [|subst rest; split; [rewrite firstn_app, firstn_all, Nat.sub_diag; cbn; apply app_nil_r|]].
  - pose proof (search_pred_spec (fun x => ceq x "="%char) rest) as G. unfold pBat_SearchChar.
    destruct (search_pred (fun x => ceq x "="%char) rest) as [i|]; cbn [first_pos] in F, G.
    + destruct F as [F1 F2], G as [G1 G2]. destruct (lt_eq_lt_dec i (length name)) as [[X|X]|X]; [destruct (F2 i X G1)|congruence|destruct (G2 _ X F1)].
    + destruct F as [F1 _]. destruct (G _ F1).
  - rewrite skipn_app, skipn_all2 by lia. replace (S (length name) - length name) with 1 by lia. reflexivity.
Qed.

(** ** Lists *)
Lemma list_text prefix t : pBat_ListDefs prefix t =
  flat_map (fun e => e_name e ++ "="%char :: e_proc e ++ [nl])
    (filter (fun e => (match prefix with [] => true | _ => (strnicmp prefix (e_name e) (length prefix) =? 0)%Z end) && e_def e) (_pBat_FillInfoFromList t)).
Proof.
  induction t as [|e l IHl r IHr]; [reflexivity|]. cbn [pBat_ListDefs _pBat_FillInfoFromList filter]. rewrite filter_app.
  destruct (_ && e_def e); cbn [app flat_map]; rewrite flat_map_app, IHl, IHr; reflexivity.
Qed.
Lemma strni_sym : forall n a b, (strnicmp a b n =? 0)%Z = (strnicmp b a n =? 0)%Z.
Proof.
  assert (Z0 : forall x y, (x = 0 <-> y = 0)%Z -> (x =? 0)%Z = (y =? 0)%Z).
  { intros x y H. destruct (Z.eqb_spec x 0), (Z.eqb_spec y 0); tauto. }
  induction n as [|n IH]; intros a b; [destruct a, b; reflexivity|]. destruct a as [|x a], b as [|y b]; cbn [strnicmp]; try reflexivity; try (apply Z0; lia).
  destruct (ceq (tolower x) (tolower y)) eqn:E.
  - apply ceq_true in E. rewrite E, ceq_refl. apply IH.
  - destruct (ceq (tolower y) (tolower x)) eqn:F; [apply ceq_true in F; rewrite F, ceq_refl in E; discriminate|]. apply Z0. lia.
Qed.
Lemma sorted_nodup l : StronglySorted name_lt l -> NoDup l.
Proof.
  induction 1 as [|e l S IH F]; constructor; auto. intros I. rewrite Forall_forall in F. specialize (F e I). unfold name_lt in F.
  assert (X : forall k, lex k k = Eq) by (induction k as [|z k IHk]; cbn; [auto|rewrite Z.compare_refl; auto]). rewrite X in F. discriminate.
Qed.
Lemma lists_ok prefix t : nonul prefix -> ordered t -> lists t prefix (pBat_ListDefs prefix t).
Proof.
  intros N O. rewrite list_text. eexists. split; [|split; [|reflexivity]].
  - apply NoDup_filter. eapply Permutation_NoDup; [apply Permutation_sym, fill_entries|]. apply sorted_nodup. exact O.
  - intros e. rewrite filter_In, andb_true_iff.
    assert (S : (match prefix with [] => true | _ => (strnicmp prefix (e_name e) (length prefix) =? 0)%Z end) = true <-> starts prefix (e_name e)).
    { destruct prefix as [|c prefix]; [split; auto; intros _; exists [], (e_name e); repeat split|]. rewrite strni_sym. apply starts_iff; auto. }
    rewrite S. pose proof (fill_entries t) as P. split.
    + intros (I & A & B). split; auto. eapply Permutation_in; eauto.
    + intros (I & A & B). split; auto. eapply Permutation_in; [apply Permutation_sym; eauto|auto].
Qed.
