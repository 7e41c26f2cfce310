(** EnvStack_Proofs.v *)

From Coq Require Import Sorted Permutation.
From Verif Require Import Base Lex Env_Model Env_Spec Env_Proofs EnvLocal_Proofs EnvStack_Model EnvStack_Spec.

(** ** SETLOCAL *)

Lemma s2l_word_nonul (w : string) : forallb (fun c => negb (ceq c "000"%char)) (s2l w) = true -> nonul (s2l w).
Proof.
  intros H Hin. rewrite forallb_forall in H. apply H in Hin. rewrite ceq_refl in Hin. discriminate.
Qed.
Lemma word_iff p w : nonul p -> forallb (fun c => negb (ceq c "000"%char)) (s2l w) = true ->
  ((stricmp p (s2l w) =? 0)%Z = true <-> is_word p w).
Proof.
  intros Hp Hw. rewrite Z.eqb_eq, stricmp_0; auto using s2l_word_nonul. apply key_lower.
Qed.

Definition switches (p : cstr) (w : world) : world :=
  if (stricmp p (s2l "ENABLEDELAYEDEXPANSION") =? 0)%Z then set_delayed w true
  else if (stricmp p (s2l "DISABLEDELAYEDEXPANSION") =? 0)%Z then set_delayed w false
  else if (stricmp p (s2l "CMDLYCORRECT") =? 0)%Z then set_cmdly w true
  else if (stricmp p (s2l "CMDLYINCORRECT") =? 0)%Z then set_cmdly w false
  else w.

Ltac word_case p k H :=
  let E := fresh "W" in
  destruct (stricmp p (s2l k) =? 0)%Z eqn:E;
  [apply word_iff in E; [|exact H|reflexivity]
  |assert (~ is_word p k) by (intros X; apply word_iff in X; [congruence|exact H|reflexivity])].

Lemma setlocal_option addr p r push w : nonul p -> option_word p ->
  setlocal addr (p :: r) push w = setlocal addr r push (switches p w).
Proof.
  intros Hp Ho. cbn [setlocal].
  assert (Hq : streqb p (s2l "/?") = false).
  { apply streqb_false. intros ->. unfold option_word, plain_word, is_word, same_name in Ho. cbn in Ho.
    destruct Ho as [H|[H|[H|[H|[H|H]]]]]; discriminate. }
  rewrite Hq.
  assert (HQ : (stricmp p (s2l "/Q") =? 0)%Z = false).
  { destruct (stricmp p (s2l "/Q") =? 0)%Z eqn:E; auto. exfalso. apply word_iff in E; auto.
    unfold option_word, plain_word, is_word, same_name in *. rewrite E in Ho. cbn in Ho.
    destruct Ho as [H|[H|[H|[H|[H|H]]]]]; discriminate. }
  rewrite HQ. unfold switches.
  word_case p "ENABLEDELAYEDEXPANSION"%string Hp; auto.
  word_case p "DISABLEDELAYEDEXPANSION"%string Hp; auto.
  word_case p "CMDLYCORRECT"%string Hp; auto.
  word_case p "CMDLYINCORRECT"%string Hp; auto.
  word_case p "ENABLEEXTENSIONS"%string Hp; auto.
  word_case p "DISABLEEXTENSION"%string Hp; auto.
  exfalso. destruct Ho as [X|[X|[X|[X|[X|X]]]]]; auto.
Qed.

Lemma switches_env p w : w_env (switches p w) = w_env w /\ w_stack (switches p w) = w_stack w.
Proof. unfold switches. repeat (destruct (_ =? _)%Z; auto). Qed.

Lemma words_differ p a b : is_word p a -> is_word p b -> map tolower (s2l a) = map tolower (s2l b).
Proof. unfold is_word, same_name. congruence. Qed.

Lemma switches_delayed p w : nonul p -> forall r b',
  switched "ENABLEDELAYEDEXPANSION" "DISABLEDELAYEDEXPANSION" r (w_delayed (switches p w)) b' ->
  switched "ENABLEDELAYEDEXPANSION" "DISABLEDELAYEDEXPANSION" (p :: r) (w_delayed w) b'.
Proof.
  intros Hp r b'. unfold switches.
  word_case p "ENABLEDELAYEDEXPANSION"%string Hp; [intros; apply sw_yes; auto|].
  word_case p "DISABLEDELAYEDEXPANSION"%string Hp; [intros; apply sw_no; auto|].
  intros Hs. apply sw_other; auto. revert Hs. repeat (destruct (_ =? _)%Z; auto).
Qed.
Lemma switches_cmdly p w : nonul p -> forall r b',
  switched "CMDLYCORRECT" "CMDLYINCORRECT" r (w_cmdly (switches p w)) b' ->
  switched "CMDLYCORRECT" "CMDLYINCORRECT" (p :: r) (w_cmdly w) b'.
Proof.
  intros Hp r b'. unfold switches.
  word_case p "ENABLEDELAYEDEXPANSION"%string Hp.
  { intros. apply sw_other; auto; intros X; unfold is_word, same_name in *; rewrite W in X; discriminate. }
  word_case p "DISABLEDELAYEDEXPANSION"%string Hp.
  { intros. apply sw_other; auto; intros X; unfold is_word, same_name in *; rewrite W0 in X; discriminate. }
  word_case p "CMDLYCORRECT"%string Hp; [intros; apply sw_yes; auto|].
  word_case p "CMDLYINCORRECT"%string Hp; [intros; apply sw_no; auto|].
  intros Hs. apply sw_other; auto.
Qed.

Lemma setlocal_saves addr params : Forall nonul params -> saves params -> forall w, exists w1,
  pBat_CmdSetLocal addr params w = pBat_PushEnvStack addr w1 /\
  w_env w1 = w_env w /\ w_stack w1 = w_stack w /\
  switched "ENABLEDELAYEDEXPANSION" "DISABLEDELAYEDEXPANSION" params (w_delayed w) (w_delayed w1) /\
  switched "CMDLYCORRECT" "CMDLYINCORRECT" params (w_cmdly w) (w_cmdly w1).
Proof.
  unfold pBat_CmdSetLocal. intros Hn. induction 1 as [|p r Ho Hr IH]; intros w.
  - exists w. repeat split; auto; constructor.
  - inversion Hn; subst. rewrite setlocal_option by auto.
    destruct (IH H2 (switches p w)) as (w1 & E & A & B & C & D). exists w1.
    destruct (switches_env p w) as [X Y]. repeat split; try congruence; auto using switches_delayed, switches_cmdly.
Qed.

Lemma setlocal_nopush addr params : forall w,
  w_env (setlocal addr params false w) = w_env w /\ w_stack (setlocal addr params false w) = w_stack w.
Proof.
  induction params as [|p r IH]; intros w; cbn [setlocal]; auto.
  repeat match goal with |- context [if ?b then _ else _] => destruct b; [first [apply IH|exact (IH (set_delayed w true))|exact (IH (set_delayed w false))|exact (IH (set_cmdly w true))|exact (IH (set_cmdly w false))|auto]|] end. auto.
Qed.

Lemma setlocal_not_saves addr params : Forall nonul params -> ~ saves params -> forall w,
  w_env (setlocal addr params true w) = w_env w /\ w_stack (setlocal addr params true w) = w_stack w.
Proof.
  induction params as [|p r IH]; intros Hn Hs w; [exfalso; apply Hs; constructor|].
  apply Forall_cons_iff in Hn. destruct Hn as [Hp Hr].
  assert (D : option_word p -> ~ saves r) by (intros O S; apply Hs; constructor; auto).
  unfold option_word, plain_word in D. cbn [setlocal].
  destruct (streqb p (s2l "/?")); auto.
  destruct (stricmp p (s2l "/Q") =? 0)%Z; [apply setlocal_nopush|].
  word_case p "ENABLEDELAYEDEXPANSION"%string Hp; [apply (IH Hr (D ltac:(tauto)) (set_delayed w true))|].
  word_case p "DISABLEDELAYEDEXPANSION"%string Hp; [apply (IH Hr (D ltac:(tauto)) (set_delayed w false))|].
  word_case p "CMDLYCORRECT"%string Hp; [apply (IH Hr (D ltac:(tauto)) (set_cmdly w true))|].
  word_case p "CMDLYINCORRECT"%string Hp; [apply (IH Hr (D ltac:(tauto)) (set_cmdly w false))|].
  word_case p "ENABLEEXTENSIONS"%string Hp; [cbn [orb]; apply (IH Hr (D ltac:(tauto)) w)|].
  word_case p "DISABLEEXTENSION"%string Hp; [cbn [orb]; apply (IH Hr (D ltac:(tauto)) w)|].
  auto.
Qed.

Lemma switched_fun yes no params b : map tolower (s2l yes) <> map tolower (s2l no) ->
  forall b1 b2, switched yes no params b b1 -> switched yes no params b b2 -> b1 = b2.
Proof.
  intros Hd b1 b2 H. revert b2. induction H; intros b2 H2; inversion H2; subst; auto; try contradiction.
  - exfalso. apply Hd. eapply words_differ; eauto.
  - exfalso. apply Hd. eapply words_differ; eauto.
Qed.
Lemma switched_plain yes no params : Forall (fun p => ~ is_word p yes /\ ~ is_word p no) params ->
  forall b b1, switched yes no params b b1 -> b1 = b.
Proof.
  induction 1 as [|p r [H1 H2] Hr IH]; intros b b1 H; inversion H; subst; auto; contradiction.
Qed.

(** ** ENDLOCAL *)

Lemma code_tolower_slash : forall c, tolower c = "/"%char -> c = "/"%char.
Proof.
  intros c H. assert (A : forall c, implb (ceq (tolower c) "/"%char) (ceq c "/"%char) = true).
  { apply (ascii_forall (fun c => implb (ceq (tolower c) "/"%char) (ceq c "/"%char))). vm_compute. reflexivity. }
  specialize (A c). apply ceq_true in H. rewrite H in A. apply ceq_true in A. auto.
Qed.
Lemma code_tolower_quest : forall c, tolower c = "?"%char -> c = "?"%char.
Proof.
  intros c H. assert (A : forall c, implb (ceq (tolower c) "?"%char) (ceq c "?"%char) = true).
  { apply (ascii_forall (fun c => implb (ceq (tolower c) "?"%char) (ceq c "?"%char))). vm_compute. reflexivity. }
  specialize (A c). apply ceq_true in H. rewrite H in A. apply ceq_true in A. auto.
Qed.

Lemma code_sub_0 a b : ceq a b = false -> (code a - code b =? 0)%Z = false.
Proof.
  intros H. apply Z.eqb_neq. intros E. apply ceq_false in H. apply H. apply code_inj. lia.
Qed.

Lemma help_iff line : nonul line -> ((strnicmp line (s2l "/?") 2 =? 0)%Z = true <-> exists r, line = s2l "/?" ++ r).
Proof.
  intros Hn. split.
  - destruct line as [|a [|b r]].
    + discriminate.
    + simpl. destruct (ceq (tolower a) (tolower "/"%char)) eqn:E; [discriminate|].
      rewrite code_sub_0; auto. discriminate.
    + simpl. destruct (ceq (tolower a) (tolower "/"%char)) eqn:E; [|rewrite code_sub_0; [discriminate|auto]].
      destruct (ceq (tolower b) (tolower "?"%char)) eqn:E'; [|rewrite code_sub_0; [discriminate|auto]].
      intros _. exists r. apply ceq_true in E, E'. apply code_tolower_slash in E. apply code_tolower_quest in E'.
      subst. reflexivity.
  - intros (r & ->). destruct r; reflexivity.
Qed.

Lemma endlocal_pop line w : nonul line -> ends line -> pBat_CmdEndLocal line w = pBat_PopEnvStack w.
Proof.
  intros Hn He. unfold pBat_CmdEndLocal. destruct (strnicmp line (s2l "/?") 2 =? 0)%Z eqn:E; auto.
  exfalso. apply He. apply help_iff; auto.
Qed.

(** ** Histories *)

Definition ev_nonul (x : ev) : Prop :=
  match x with
  | EvSetlocal _ params => Forall nonul params
  | EvEndlocal line => nonul line
  | _ => True
  end.

Lemma evs_app l1 : forall l2 w, evs_run (l1 ++ l2) w = (do w' <- evs_run l1 w; evs_run l2 w').
Proof.
  induction l1 as [|x l1 IH]; intros l2 w; auto. cbn [app evs_run]. destruct (ev_run x w); cbn [bind]; auto.
Qed.

Lemma balanced_stack l : balanced_evs l -> Forall ev_nonul l ->
  forall w w', evs_run l w = Ret w' ->
  w_stack w' = w_stack w.
Proof.
  induction 1 as [|o r Hr IH|a r Hr IH|r Hr IH|a params h line r Hs He Hh IHh Hr IHr]; intros Hn w w' R.
  - injection R as <-. auto.
  - inversion Hn; subst. cbn [evs_run ev_run on_env] in R. unfold on_env in R.
    destruct (op_run o (w_env w)) as [e| |]; try discriminate. cbn [bind] in R. apply IH in R; auto.
  - inversion Hn; subst. cbn [evs_run ev_run on_env] in R. unfold on_env in R.
    destruct (pBat_PushEnvLocals a (w_env w)) as [e| |]; try discriminate. cbn [bind] in R. apply IH in R; auto.
  - inversion Hn; subst. cbn [evs_run ev_run on_env] in R. unfold on_env in R.
    destruct (pBat_PopEnvLocals (w_env w)) as [e| |]; try discriminate. cbn [bind] in R. apply IH in R; auto.
  - inversion Hn as [|? ? Np Hn']; subst. apply Forall_app in Hn' as [Nh Nl]. inversion Nl as [|? ? Nl1 Nr]; subst.
    cbn [evs_run ev_run bind] in R. rewrite evs_app in R.
    destruct (setlocal_saves a params Np Hs w) as (w1 & E & A & B & _). rewrite E in R.
    destruct (evs_run h (pBat_PushEnvStack a w1)) as [w2| |] eqn:R2; try discriminate. cbn [bind evs_run ev_run] in R.
    apply IHh in R2; auto. rewrite endlocal_pop in R by auto. unfold pBat_PopEnvStack in R. rewrite R2 in R.
    cbn [pBat_PushEnvStack w_stack] in R. apply IHr in R; auto. cbn [w_stack] in R. congruence.
Qed.

Lemma pair_restores a params h line w w' : saves params -> ends line -> balanced_evs h ->
  Forall nonul params -> nonul line -> Forall ev_nonul h ->
  evs_run (EvSetlocal a params :: h ++ [EvEndlocal line]) w = Ret w' ->
  w_env w' = w_env w /\ w_stack w' = w_stack w /\
  switched "ENABLEDELAYEDEXPANSION" "DISABLEDELAYEDEXPANSION" params (w_delayed w) (w_delayed w') /\
  switched "CMDLYCORRECT" "CMDLYINCORRECT" params (w_cmdly w) (w_cmdly w').
Proof.
  intros Hs He Hb Np Nl Nh R. cbn [evs_run ev_run bind] in R. rewrite evs_app in R.
  destruct (setlocal_saves a params Np Hs w) as (w1 & E & A & B & C & D). rewrite E in R.
  destruct (evs_run h (pBat_PushEnvStack a w1)) as [w2| |] eqn:R2; try discriminate. cbn [bind evs_run ev_run] in R.
  apply balanced_stack in R2; auto. rewrite endlocal_pop in R by auto. unfold pBat_PopEnvStack in R. rewrite R2 in R.
  cbn [pBat_PushEnvStack w_stack] in R. injection R as <-. cbn. repeat split; auto.
Qed.

(** ** The copy *)

Lemma dup_vars_rel addr : forall l i,
  Forall2 (fun v v' => match v_name v with
                       | Some (n, _) => exists j, v' = mkVar (Some (n, addr j)) (v_content v) false []
                       | None => v' = mkVar None [] false []
                       end) l (dup_vars addr i l).
Proof.
  induction l as [|v l IH]; intros i; simpl; constructor; auto. destruct (v_name v) as [[n a]|]; eauto.
Qed.

Lemma dup_ok sg addr e : (forall i, addr_ok sg (addr i)) -> table_ok sg e ->
  table_ok sg (pBat_EnvDup addr e) /\ toplevel (pBat_EnvDup addr e) /\ unmarked (pBat_EnvDup addr e) /\
  e_nb (pBat_EnvDup addr e) = e_nb e /\
  forall n, option_map v_content (lookup (e_buf (pBat_EnvDup addr e)) n) = option_map v_content (lookup (e_buf e) n).
Proof.
  intros Ha (Hs & Hv & Hn). unfold pBat_EnvDup. cbn [e_buf].
  assert (F := dup_vars_rel addr (e_buf e) 0). set (l' := dup_vars addr 0 (e_buf e)) in *.
  set (R := fun v v' => match v_name v with
                       | Some (n, _) => exists j, v' = mkVar (Some (n, addr j)) (v_content v) false []
                       | None => v' = mkVar None [] false []
                       end) in F.
  assert (RK : forall v v', R v v' -> same_key v v').
  { unfold R, same_key. intros v v' H. destruct (v_name v) as [[n a]|]; [destruct H as (j & ->)|subst]; reflexivity. }
  assert (L : length l' = length (e_buf e)) by (clear -F; induction F; simpl; auto).
  split; [|split; [|split; [|split]]].
  - split; [|split]; cbn [e_buf].
    + apply same_key_sorted with (l := e_buf e); auto. clear -F RK. induction F; constructor; auto.
    + clear -F Hv Ha. induction F as [|v v' l l' H F IH]; constructor; inversion Hv as [|? ? Vv Vl]; subst; auto.
      unfold var_ok in *. unfold R in H. destruct (v_name v) as [[n a]|]; [destruct H as (j & ->)|subst]; simpl; auto.
      split; [apply Vv|]. split; auto.
    + unfold e_index in *. cbn [e_buf e_nb]. rewrite L. auto.
  - unfold toplevel. cbn [e_buf]. clear -F. induction F as [|v v' l l' H F IH]; constructor; auto.
    unfold R in H. destruct (v_name v) as [[n a]|]; [destruct H as (j & ->)|subst]; auto.
  - unfold unmarked. cbn [e_buf]. clear -F. induction F as [|v v' l l' H F IH]; constructor; auto.
    unfold R in H. destruct (v_name v) as [[n a]|]; [destruct H as (j & ->)|subst]; simpl; auto.
  - auto.
  - intros n. pose proof (lookup_rel R (e_buf e) l' n F (fun x y H => same_key_named n x y (RK x y H))) as H.
    assert (S : forall v, lookup (e_buf e) n = Some v -> v_name v <> None).
    { intros v X. apply find_some in X as [_ X]. unfold named in X. destruct (v_name v); [discriminate|discriminate]. }
    destruct (lookup (e_buf e) n) as [x|], (lookup l' n) as [y|]; try contradiction; auto.
    specialize (S x eq_refl). unfold R in H. destruct (v_name x) as [[m a]|]; [|congruence].
    destruct H as (j & ->). auto.
Qed.

(** ** The block *)

Definition written (s : list ascii) : mem := map Some s.

Lemma update_app_mid {A} (a : list A) x y b : update (a ++ x :: b) (length a) y = a ++ y :: b.
Proof. induction a; simpl; auto. congruence. Qed.
Lemma poke_app a x b p c : p = length a -> poke (a ++ x :: b) p c = Ret (a ++ Some c :: b).
Proof.
  intros ->. unfold poke. rewrite app_length. simpl.
  replace (length a <? length a + S (length b)) with true by (symmetry; apply Nat.ltb_lt; lia).
  rewrite update_app_mid. auto.
Qed.

Lemma strcpy_ok s : forall a old b p, p = length a -> length old = S (length s) ->
  mem_strcpy (a ++ old ++ b) p s = Ret (a ++ written (s ++ ["000"%char]) ++ b).
Proof.
  induction s as [|c s IH]; intros a old b p Hp Hl; destruct old as [|x old]; try discriminate.
  - destruct old; [|discriminate]. simpl. apply poke_app. auto.
  - simpl in Hl. injection Hl as Hl. cbn [mem_strcpy app]. rewrite poke_app by auto. cbn [bind].
    replace (a ++ Some c :: old ++ b) with ((a ++ [Some c]) ++ old ++ b) by (rewrite <- app_assoc; auto).
    rewrite IH; auto.
    + rewrite <- app_assoc. reflexivity.
    + rewrite app_length. simpl. lia.
Qed.

Lemma peek_app a c b p : p = length a -> peek (a ++ Some c :: b) p = Ret c.
Proof.
  intros ->. unfold peek. rewrite nth_error_app2 by lia. rewrite Nat.sub_diag. auto.
Qed.

Lemma strend_ok s : nonul s -> forall fuel a b p, p = length a -> length s < fuel ->
  mem_strend fuel (a ++ written (s ++ ["000"%char]) ++ b) p = Ret (p + length s).
Proof.
  intros Hn. induction s as [|c s IH]; intros fuel a b p Hp Hf; (destruct fuel as [|fuel]; [simpl in Hf; lia|]).
  - cbn [mem_strend written map app]. rewrite peek_app by auto. cbn [bind]. simpl. rewrite Nat.add_0_r. auto.
  - apply nonul_cons_inv in Hn as [Hc Hn]. cbn [mem_strend written map app]. rewrite peek_app by auto. cbn [bind].
    unfold NULc. rewrite (proj2 (ceq_false c _)) by auto.
    replace (a ++ Some c :: map Some (s ++ ["000"%char]) ++ b) with ((a ++ [Some c]) ++ written (s ++ ["000"%char]) ++ b)
      by (rewrite <- app_assoc; auto).
    rewrite IH; auto.
    + f_equal. simpl. lia.
    + rewrite app_length. simpl. lia.
    + simpl in Hf. lia.
Qed.

Lemma strcat_ok s t : nonul s -> forall a old b p, p = length a -> length old = length t ->
  mem_strcat (a ++ written (s ++ ["000"%char]) ++ old ++ b) p t = Ret (a ++ written ((s ++ t) ++ ["000"%char]) ++ b).
Proof.
  intros Hn a old b p Hp Hl. unfold mem_strcat. rewrite strend_ok; auto.
  2:{ unfold written. rewrite !app_length, map_length, app_length. simpl. lia. }
  cbn [bind].
  assert (E : a ++ written (s ++ ["000"%char]) ++ old ++ b = (a ++ written s) ++ (Some "000"%char :: old) ++ b).
  { unfold written. rewrite map_app, <- !app_assoc. reflexivity. }
  rewrite E, strcpy_ok.
  - unfold written. rewrite !map_app, <- !app_assoc. reflexivity.
  - subst. unfold written. rewrite app_length, map_length. auto.
  - simpl. auto.
Qed.

Lemma repeat_split {A} (x : A) n m : repeat x (n + m) = repeat x n ++ repeat x m.
Proof. apply repeat_app. Qed.

Lemma fill_ok l : Forall (fun v => match v_name v with Some (n, _) => nonul n | None => True end /\ nonul (v_content v)) l ->
  forall a k, exists s,
  fill_block (a ++ repeat None (fold_right (fun v n => entry_size v + n) 0 l + k)) (length a) l =
    Ret (a ++ written s ++ repeat None k, length a + length s) /\
  s ++ ["000"%char] = block_bytes (variables l).
Proof.
  induction 1 as [|v l [Hn Hc] Hl IH]; intros a k.
  - exists []. cbn. rewrite Nat.add_0_r. auto.
  - cbn [fill_block fold_right variables]. destruct (v_name v) as [[n ad]|] eqn:En.
    + assert (ES : entry_size v = length (v_content v) + length n + 2) by (unfold entry_size; rewrite En; auto).
      rewrite ES.
      set (X := fold_right (fun v n => entry_size v + n) 0 l + k).
      assert (E : repeat (@None ascii) (length (v_content v) + length n + 2 + fold_right (fun v n => entry_size v + n) 0 l + k) =
                  repeat None (S (length n)) ++ repeat None 1 ++ repeat None (length (v_content v)) ++ repeat None X).
      { rewrite <- !repeat_split. f_equal. unfold X. lia. }
      rewrite E. rewrite strcpy_ok; [|auto|rewrite repeat_length; auto]. cbn [bind].
      rewrite strcat_ok; [|auto|auto|reflexivity]. cbn [bind].
      rewrite strcat_ok; [|intros H; apply in_app_or in H as [H|[H|[]]]; [auto|discriminate]|auto|apply repeat_length].
      cbn [bind].
      set (w := ((n ++ s2l "=") ++ v_content v) ++ ["000"%char]).
      destruct (IH (a ++ written w) k) as (s & R & Es).
      exists (w ++ s). split.
      * fold X in R. rewrite <- app_assoc in R.
        assert (Lw : length (written w) = length (v_content v) + length n + 2).
        { unfold w, written. rewrite map_length, !app_length. simpl. lia. }
        rewrite app_length, Lw in R. rewrite R. f_equal. f_equal.
        -- unfold written. rewrite map_app, <- !app_assoc. auto.
        -- rewrite app_length. unfold written in Lw. rewrite map_length in Lw. lia.
      * cbn [block_bytes]. rewrite <- Es. unfold w. rewrite <- !app_assoc. reflexivity.
    + assert (ES : entry_size v = 0) by (unfold entry_size; rewrite En; auto). rewrite ES. apply IH.
Qed.

Lemma block_ok e : Forall (fun v => match v_name v with Some (n, _) => nonul n | None => True end /\ nonul (v_content v)) (e_buf e) ->
  exists size, pBat_GetEnvBlock e = Ret (map Some (block_bytes (variables (e_buf e))), size) /\
    size = length (block_bytes (variables (e_buf e))).
Proof.
  intros H. unfold pBat_GetEnvBlock, malloc.
  set (X := fold_right (fun v n => entry_size v + n) 0 (e_buf e)).
  destruct (fill_ok (e_buf e) H [] 1) as (s & R & E). fold X in R.
  replace (S X) with (X + 1) by lia. cbn [app length] in R. rewrite R. cbn [bind].
  assert (P : poke (written s ++ repeat None 1) (0 + length s) NULc = Ret (written s ++ [Some NULc])).
  { apply poke_app. unfold written. rewrite map_length. auto. }
  rewrite P. cbn [bind]. exists (X + 1). rewrite <- E. split.
  - unfold written. rewrite map_app. auto.
  - clear -R. assert (L : forall l m p m' p', fill_block m p l = Ret (m', p') -> length m' = length m).
    { assert (U : forall (m : mem) p c m', poke m p c = Ret m' -> length m' = length m).
      { unfold poke. intros m p c m' H. destruct (_ <? _); [|discriminate]. injection H as <-. apply update_length. }
      assert (C : forall t m p m', mem_strcpy m p t = Ret m' -> length m' = length m).
      { induction t as [|c t IH]; intros m p m' H; cbn [mem_strcpy] in H; [apply U in H; exact H|].
        destruct (poke m p c) as [m1| |] eqn:E; try discriminate. cbn [bind] in H. apply U in E. apply IH in H. congruence. }
      assert (D : forall t m p m', mem_strcat m p t = Ret m' -> length m' = length m).
      { unfold mem_strcat. intros t m p m' H. destruct (mem_strend _ m p); try discriminate. apply C in H. auto. }
      induction l as [|v l IH]; intros m p m' p' H; cbn [fill_block] in H; [injection H as -> ->; auto|].
      destruct (v_name v) as [[n a]|]; [|apply IH in H; exact H].
      destruct (mem_strcpy m p n) as [m1| |] eqn:E1; try discriminate. cbn [bind] in H.
      destruct (mem_strcat m1 p (s2l "=")) as [m2| |] eqn:E2; try discriminate. cbn [bind] in H.
      destruct (mem_strcat m2 p (v_content v)) as [m3| |] eqn:E3; try discriminate. cbn [bind] in H.
      apply IH in H. apply C in E1. apply D in E2, E3. congruence. }
    apply L in R. unfold written in R. rewrite repeat_length, !app_length, map_length in R. rewrite app_length. simpl in *. lia.
Qed.
