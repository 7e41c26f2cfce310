(** Edit_Props.v -- C85: the keys edit the line as they should. *)

From Verif Require Import Base Edit_Model Edit_Spec Edit_Proofs.

(** * Keys *)
Lemma read_point c cp rest : encodes c cp -> readCode (c ++ rest) = Ret (Some (c, cp, rest)).
Proof.
  intros E. assert (D := enc_decode _ _ [] E). rewrite app_nil_r in D. destruct E; cbn [app readCode]; rewrite ?lead2, ?lead3, ?lead4; zb; cbn [andb]; cbv iota;
  (let t := constr:(rest) in match goal with |- context [Datatypes.length ?l <? ?n] => replace (Datatypes.length l <? n) with false by (symmetry; apply Nat.ltb_ge; cbn [length]; lia) end);
  cbn [length Nat.eqb Nat.ltb Nat.leb andb firstn skipn]; rewrite D; reflexivity.
Qed.
Lemma key_esc comb buflen e rest : key comb buflen e ("027"%char :: rest) = do (e, inp) <- escape comb buflen e rest ; Ret (Go e inp).
Proof. reflexivity. Qed.
Lemma key_sends comb buflen k b e rest : sends k b -> (k = CtrlD -> 0 < length (buf e)) ->
  (b = ["012"%char] -> refreshLine comb e = Ret e) ->
  key comb buflen e (b ++ rest) = go rest (op comb buflen k e).
Proof.
  intros Sd D Rf. destruct Sd.
  - unfold key. rewrite (read_point _ _ _ H). cbn [bind]. assert (N : forall z, In z [1; 2; 3; 4; 5; 6; 8; 9; 11; 12; 13; 14; 16; 20; 21; 23; 27; 127]%Z -> (cp =? z)%Z = false) by (intros z I; apply Z.eqb_neq; intros ->; apply H0; exact I).
    rewrite !N by (cbn; tauto). reflexivity.
  - reflexivity.
  - unfold key, go. cbn. destruct (linenoiseEditMoveLeft comb e); reflexivity.
  - reflexivity.
  - unfold key, go. cbn. destruct (linenoiseEditMoveRight comb e); reflexivity.
  - reflexivity.
  - unfold key, go. cbn. destruct (linenoiseEditMoveHome comb e); reflexivity.
  - unfold key, go. cbn. destruct (linenoiseEditMoveHome comb e); reflexivity.
  - reflexivity.
  - unfold key, go. cbn. destruct (linenoiseEditMoveEnd comb e); reflexivity.
  - unfold key, go. cbn. destruct (linenoiseEditMoveEnd comb e); reflexivity.
  - reflexivity.
  - reflexivity.
  - unfold key, go. cbn. destruct (linenoiseEditDelete comb e); reflexivity.
  - reflexivity.
  - unfold key, go. cbn -[linenoiseEditHistoryNext]. destruct (linenoiseEditHistoryNext comb buflen e true); reflexivity.
  - reflexivity.
  - unfold key, go. cbn -[linenoiseEditHistoryNext]. destruct (linenoiseEditHistoryNext comb buflen e false); reflexivity.
  - reflexivity.
  - reflexivity.
  - reflexivity.
  - reflexivity.
  - change (key comb buflen e (["004"%char] ++ rest)) with (if 0 <? length (buf e) then go rest (linenoiseEditDelete comb e) else Ret (Done None (removelast (hist e)) rest)).
    rewrite (proj2 (Nat.ltb_lt _ _)) by (apply D; reflexivity). reflexivity.
  - change (key comb buflen e (["012"%char] ++ rest)) with (go rest (refreshLine comb e)). rewrite Rf by auto. reflexivity.
  - cbn [app]. rewrite key_esc. unfold go, escape. destruct (ceq a "[") eqn:E1; [apply ceq_true in E1; congruence|]. destruct (ceq a "O") eqn:E2; [apply ceq_true in E2; congruence|]. reflexivity.
  - cbn [app]. rewrite key_esc. unfold go, escape. change (ceq "[" "[") with true. cbv iota.
    destruct ((48 <=? code b)%Z && (code b <=? 57)%Z) eqn:E; [apply andb_prop in E; destruct E as [E1 E2]; apply Z.leb_le in E1, E2; lia|].
    assert (N : forall c, In c (s2l "ABCDHF") -> ceq b c = false) by (intros c I; destruct (ceq b c) eqn:C; [apply ceq_true in C; subst; tauto|auto]). rewrite !N by (cbn; tauto). reflexivity.
  - cbn [app]. rewrite key_esc. unfold go, escape. change (ceq "O" "[") with false. change (ceq "O" "O") with true. cbv iota.
    assert (N : forall c, In c (s2l "HF") -> ceq b c = false) by (intros c I; destruct (ceq b c) eqn:C; [apply ceq_true in C; subst; tauto|auto]). rewrite !N by (cbn; tauto). reflexivity.
  - cbn [app]. rewrite key_esc. unfold go, escape. change (ceq "[" "[") with true. cbv iota. zb. cbn [andb]. destruct (ceq c "~" && ceq b "3") eqn:E; [|reflexivity]. apply andb_prop in E. destruct E as [E1 E2]. apply ceq_true in E1, E2. congruence.
Qed.

(** * The line *)
Lemma shows_len comb buflen o x l r n e : shows comb buflen (At o x l r n) e -> l ++ r <> [] -> 0 < length (buf e).
Proof.
  intros (x' & _ & _ & _ & B & _ & T & _) N. apply text_iff in T. destruct T as [P _]. rewrite B. destruct (length (bytes (l ++ r))) eqn:Z; [|lia]. apply bytes_nil in Z; auto. congruence.
Qed.
Lemma shows_refresh comb buflen s e : shows comb buflen s e -> refreshLine comb e = Ret e.
Proof. destruct s. intros (x' & _ & _ & _ & B & _ & T & _). eapply refresh_ok; eauto. Qed.
Lemma types_loop comb buflen ks bs s s' : types comb buflen ks bs s s' -> forall e, shows comb buflen s e ->
  exists e', shows comb buflen s' e' /\ forall f rest, loop comb buflen (length ks + f) e (bs ++ rest) = loop comb buflen f e' rest.
Proof.
  induction 1 as [s|k b s s' ks bs s'' Sd D T IH]; intros e Sh; [exists e; auto|]. destruct (act _ _ _ _ _ _ Sh D) as (e1 & E1 & Sh1). destruct (IH e1 Sh1) as (e2 & Sh2 & L). exists e2. split; [auto|].
  intros f rest. cbn [length Nat.add loop]. rewrite <- app_assoc. rewrite (key_sends comb buflen k b e (bs ++ rest) Sd).
  - unfold go. rewrite E1. cbn [bind]. apply L.
  - intros ->. inversion D; subst. eapply shows_len; eauto.
  - intros _. eapply shows_refresh; eauto.
Qed.
Lemma sends_pos k b : sends k b -> 0 < length b.
Proof. destruct 1; try (cbn; lia). eapply enc_pos; eauto. Qed.
Lemma types_len comb buflen ks bs s s' : types comb buflen ks bs s s' -> length ks <= length bs.
Proof. induction 1 as [|k b s s' ks bs s'' Sd]; [auto|]. cbn [length]. rewrite app_length. apply sends_pos in Sd. lia. Qed.
Definition lines_at (s : state) : nat := match s with At o _ _ _ n => length o + length n end.
Lemma does_lines comb buflen k s s' : does comb buflen k s s' -> lines_at s' = lines_at s.
Proof. induction 1; cbn in *; auto; lia. Qed.
Lemma types_lines comb buflen ks bs s s' : types comb buflen ks bs s s' -> lines_at s' = lines_at s.
Proof. induction 1 as [|k b s s' ks bs s'' Sd D T IH]; [auto|]. rewrite IH. eapply does_lines; eauto. Qed.

Lemma tl_rev (A : Type) (l : list A) : tl (rev l) = rev (removelast l).
Proof. destruct l as [|a l] using rev_ind; [auto|]. rewrite rev_app_distr, removelast_last. reflexivity. Qed.
Lemma last_rev (p : list cstr) : last (rev p) [] = match p with [] => [] | c :: _ => c end.
Proof. destruct p as [|c p]; [auto|]. cbn [rev]. apply last_last. Qed.
Lemma add_open max past : 0 < max -> length past <= max -> linenoiseHistoryAdd max (rev past) [] = rev (seen max past) ++ [[]].
Proof.
  intros M L. unfold linenoiseHistoryAdd, seen. destruct (max =? 0) eqn:Z; [apply Nat.eqb_eq in Z; lia|]. rewrite rev_length, last_rev. destruct past as [|[|c s] p].
  - cbn [length rev]. cbn [Nat.eqb negb andb]. destruct max; [lia|]. cbn. rewrite firstn_nil. reflexivity.
  - reflexivity.
  - match goal with |- context [?k =? max] => destruct (k =? max) eqn:E end; cbn [length Nat.eqb negb streqb andb].
    + apply Nat.eqb_eq in E. cbn [length] in E. rewrite tl_rev, removelast_firstn_len. rewrite <- E. cbn [length pred]. rewrite Nat.sub_succ, Nat.sub_0_r. reflexivity.
    + apply Nat.eqb_neq in E. rewrite firstn_all2; [reflexivity|cbn [length] in *; lia].
Qed.
Lemma add_line max q line : length q < max -> linenoiseHistoryAdd max (rev q) line = rev (remember q line).
Proof.
  intros L. unfold linenoiseHistoryAdd. destruct (max =? 0) eqn:Z; [apply Nat.eqb_eq in Z; lia|]. rewrite rev_length, last_rev. destruct (length q =? max) eqn:E; [apply Nat.eqb_eq in E; lia|].
  destruct q as [|p q]; [reflexivity|]. cbn [length Nat.eqb negb andb remember]. destruct (streqb p line); reflexivity.
Qed.
Lemma others_ok comb buflen s e : shows comb buflen s e -> removelast (hist e) = rev (others s).
Proof.
  destruct s as [o x l r n]. intros (x' & H & X & _). rewrite H. cbn [others]. destruct n as [|y n]; [rewrite removelast_last; auto|]. rewrite X by discriminate. rewrite removelast_app by discriminate.
  rewrite tl_rev, rev_app_distr, rev_involutive. cbn [rev]. rewrite <- app_assoc. reflexivity.
Qed.
Lemma opened_len max past : 0 < max -> length past <= max -> lines_at (opened max past) < max.
Proof. intros M L. unfold opened, lines_at. cbn [length]. assert (length (firstn (max - 1) past) <= max - 1) by apply firstn_le_length. unfold seen. destruct past as [|[|c s] p]; cbn [length] in *; lia. Qed.
Lemma others_len s : length (others s) = lines_at s.
Proof. destruct s as [o x l r [|y n]]; cbn [others lines_at length]; [lia|]. rewrite app_length, tl_rev, rev_length, removelast_firstn_len, firstn_length. cbn [length]. lia. Qed.

(** Whatever is typed, the line is what the keys say; of the lines of before, the others stay as
    they are, and the new line gets one of them. *)
Theorem C85_edit : forall comb buflen max past ks bs rest o x l r n, 0 < max -> length past <= max ->
  types comb buflen ks bs (opened max past) (At o x l r n) ->
  pBat_LineNoise comb buflen max (rev past) (bs ++ "013"%char :: rest) = Ret (Some (bytes (l ++ r)), rev (remember (others (At o x l r n)) (bytes (l ++ r))), rest).
Proof.
  intros comb buflen max past ks bs rest o x l r n M L T. unfold pBat_LineNoise. rewrite add_open by auto.
  assert (Sh : shows comb buflen (opened max past) (Ed [] 0 (rev (seen max past) ++ [[]]) 0)).
  { exists []. cbn [hist idx buf pos app concat length]. repeat split; auto using text_nil; [intros []|lia]. }
  destruct (types_loop _ _ _ _ _ _ T _ Sh) as (e' & Sh' & Lp). pose proof (types_len _ _ _ _ _ _ T) as Lk.
  replace (S (length (bs ++ "013"%char :: rest))) with (length ks + S (S (length bs - length ks + length rest))) by (rewrite app_length; cbn [length]; lia).
  rewrite Lp. pose proof (others_ok _ _ _ _ Sh') as Oo. destruct Sh' as (x' & Hh & Hx & Hi & Hb & Hp & Ht & Hr & Hn & Hl).
  cbn [loop]. change (key comb buflen e' ("013"%char :: rest)) with (Ret (Done (Some (to_nul (buf e'))) (removelast (hist e')) rest)). cbn [bind]. rewrite Hb, to_nul_id by auto. rewrite Oo, add_line; [reflexivity|].
  rewrite others_len, (types_lines _ _ _ _ _ _ T). apply opened_len; auto.
Qed.
Print Assumptions C85_edit.

(** * Any input *)
Section Ascii.
Variable comb : Z -> bool.
Variables (buflen max : nat).
Hypothesis Cm : forall z, (z < 128)%Z -> comb z = false.
Hypothesis Mx : 0 < max.
Hypothesis Bl : 0 < buflen.
Definition low7 (s : cstr) : Prop := Forall (fun c => (code c < 128)%Z) s.
Lemma low_next s : low7 s -> s <> [] -> nextCharLen comb s = Ret 1.
Proof.
  intros F N. destruct F as [|a s A F]; [congruence|]. unfold nextCharLen. rewrite decode1, Cm by auto. cbn [skipn length]. destruct F as [|b s B F]; [reflexivity|]. cbn [marks]. rewrite decode1, Cm by auto. reflexivity.
Qed.
Lemma low_columns s fuel : low7 s -> length s <= fuel -> columns comb fuel s = Ret tt.
Proof. intros F. revert fuel. induction F as [|a s A F IH]; intros fuel L; [destruct fuel; reflexivity|]. destruct fuel; [cbn in L; lia|]. cbn [columns]. rewrite low_next; [|constructor; auto|discriminate]. cbn [bind Nat.eqb skipn]. apply IH. cbn in L. lia. Qed.
Lemma low_refresh e : low7 (buf e) -> refreshLine comb e = Ret e.
Proof. intros F. unfold refreshLine. rewrite low_columns by auto. reflexivity. Qed.
Lemma low_prev s : low7 s -> s <> [] -> prevCharLen comb s = Ret 1.
Proof.
  intros F N. destruct F as [|a s A F]; [congruence|]. unfold prevCharLen. cbn [length prev conts]. assert (C : cont a = false) by (rewrite cont_b; pose proof (code_range a); zb; reflexivity). rewrite C. cbn [length Nat.ltb Nat.leb firstn rev app]. rewrite decode1, Cm by auto. reflexivity.
Qed.
Definition fine (e : ed) : Prop := low7 (buf e) /\ Forall low7 (hist e) /\ pos e <= length (buf e) /\ length (buf e) <= buflen /\ idx e < length (hist e) /\ length (hist e) <= max.
Lemma fine_line e b p : fine e -> low7 b -> p <= length b -> length b <= buflen -> refreshLine comb (with_line e b p) = Ret (with_line e b p) /\ fine (with_line e b p).
Proof. intros (A & B & C & D & E & F) Lb P L. split; [apply low_refresh; auto|]. repeat split; auto. Qed.
Lemma low_firstn n s : low7 s -> low7 (firstn n s). Proof. intros F. unfold low7 in *. apply Forall_forall. intros c I. rewrite Forall_forall in F. apply F. rewrite <- (firstn_skipn n). apply in_or_app. auto. Qed.
Lemma low_skipn n s : low7 s -> low7 (skipn n s). Proof. intros F. unfold low7 in *. apply Forall_forall. intros c I. rewrite Forall_forall in F. apply F. rewrite <- (firstn_skipn n). apply in_or_app. auto. Qed.
Lemma low_nth h i : Forall low7 h -> low7 (nth i h []).
Proof. intros F. destruct (nth_in_or_default i h []) as [I|E]; [rewrite Forall_forall in F; auto|rewrite E; constructor]. Qed.
Lemma low_to_nul s : low7 s -> low7 (to_nul s).
Proof. induction 1 as [|c s C F IH]; cbn [to_nul]; [constructor|]. destruct (ceq c "000"); constructor; auto. Qed.
Lemma set_nth_len i x h : i < length h -> length (set_nth i x h) = length h.
Proof. intros L. unfold set_nth. rewrite app_length. cbn [length]. rewrite firstn_length, skipn_length. lia. Qed.
Lemma skip_more (A : Type) i (h : list A) y : In y (skipn (S i) h) -> In y (skipn i h).
Proof. revert h. induction i as [|i IH]; intros [|z h] I; try (destruct I; fail); [right; exact I|]. cbn [skipn]. apply IH. exact I. Qed.
Lemma low_set i x h : low7 x -> Forall low7 h -> Forall low7 (set_nth i x h).
Proof. intros X F. rewrite <- (firstn_skipn i) in F. apply Forall_app in F. destruct F as [F1 F2]. unfold set_nth. apply Forall_app. split; auto. constructor; auto. apply Forall_forall. intros y I. rewrite Forall_forall in F2. apply F2, skip_more. auto. Qed.
Lemma fine_hist e up : fine e -> exists e', linenoiseEditHistoryNext comb buflen e up = Ret e' /\ fine e'.
Proof.
  intros Fe. pose proof Fe as (A & B & C & D & E & F). unfold linenoiseEditHistoryNext. cbv zeta. destruct (1 <? length (hist e)) eqn:L1; [|exists e; auto]. apply Nat.ltb_lt in L1.
  destruct (length (hist e) - 1 <? idx e) eqn:L2; [apply Nat.ltb_lt in L2; lia|]. set (i := length (hist e) - 1 - idx e). assert (Li : i < length (hist e)) by (subst i; lia).
  set (h := set_nth i (to_nul (buf e)) (hist e)). assert (Lh : length h = length (hist e)) by (apply set_nth_len; auto). assert (Fh : Forall low7 h) by (apply low_set; auto; apply low_to_nul; auto).
  assert (G : forall j k, j < length h -> exists e', refreshLine comb (Ed (firstn (buflen - 1) (nth k h [])) (length (firstn (buflen - 1) (nth k h []))) h j) = Ret e' /\ fine e').
  { intros j k Lj. eexists. split; [apply low_refresh; cbn; apply low_firstn, low_nth; auto|]. unfold fine. cbn [buf pos hist idx]. pose proof (firstn_le_length (buflen - 1) (nth k h [])). repeat split; auto; try lia. apply low_firstn, low_nth; auto. }
  destruct up.
  - destruct (length (hist e) <=? S (idx e)) eqn:L3; [|apply Nat.leb_gt in L3; apply G; lia]. eexists. split; [reflexivity|]. unfold fine. cbn [buf pos hist idx]. repeat split; auto; lia.
  - destruct (idx e) as [|k] eqn:Ek; [eexists; split; [reflexivity|]; unfold fine; cbn [buf pos hist idx]; repeat split; auto; lia|]. apply G. lia.
Qed.
Lemma low_app a b : low7 a -> low7 b -> low7 (a ++ b). Proof. intros A B. apply Forall_app. auto. Qed.
Lemma skip_sub f l : exists a, l = a ++ skip_while f l.
Proof. induction l as [|c l [a IH]]; [exists []; auto|]. cbn [skip_while]. destruct (f c); [exists (c :: a); cbn; congruence|exists []; auto]. Qed.
Lemma fine_op k e : fine e -> (forall c, k = Type_ c -> low7 c) -> exists e', op comb buflen k e = Ret e' /\ fine e'.
Proof.
  intros Fe Kt. pose proof Fe as (A & B & C & D & E & F).
  assert (Lb : length (before e) = pos e) by (unfold before; rewrite firstn_length; lia). assert (Lr : length (behind e) = length (buf e) - pos e) by (unfold behind; apply skipn_length).
  assert (Fb : low7 (before e)) by (apply low_firstn; auto). assert (Fr : low7 (behind e)) by (apply low_skipn; auto).
  destruct k; cbn [op].
  - unfold linenoiseEditInsert. destruct (length (buf e) + length c <=? buflen) eqn:L; [|exists e; auto]. apply Nat.leb_le in L. eexists. apply fine_line; auto; [apply low_app; auto; apply low_app; auto|rewrite !app_length; lia|rewrite !app_length; lia].
  - unfold linenoiseEditMoveLeft. destruct (0 <? pos e) eqn:P; [|exists e; auto]. apply Nat.ltb_lt in P. rewrite low_prev; [|apply Forall_rev; auto|intros X; apply (f_equal (@length _)) in X; rewrite rev_length in X; cbn in X; lia]. cbn [bind]. eexists. apply fine_line; auto; lia.
  - unfold linenoiseEditMoveRight. destruct (pos e =? length (buf e)) eqn:P; cbn [negb]; [exists e; auto|]. apply Nat.eqb_neq in P. rewrite low_next; [|auto|intros X; apply (f_equal (@length _)) in X; cbn in X; lia]. cbn [bind]. eexists. apply fine_line; auto; lia.
  - unfold linenoiseEditMoveHome. destruct (pos e =? 0); cbn [negb]; [exists e; auto|]. eexists. apply fine_line; auto; lia.
  - unfold linenoiseEditMoveEnd. destruct (pos e =? length (buf e)); cbn [negb]; [exists e; auto|]. eexists. apply fine_line; auto; lia.
  - unfold linenoiseEditBackspace. destruct (0 <? pos e) eqn:P; cbn [andb]; [|exists e; auto]. destruct (0 <? length (buf e)) eqn:Q; [|exists e; auto]. apply Nat.ltb_lt in P, Q. rewrite low_prev; [|apply Forall_rev; auto|intros X; apply (f_equal (@length _)) in X; rewrite rev_length in X; cbn in X; lia]. cbn [bind].
    eexists. apply fine_line; auto; [apply low_app; auto; apply low_firstn; auto|rewrite app_length, firstn_length; lia|rewrite app_length, firstn_length; lia].
  - unfold linenoiseEditDelete. destruct (0 <? length (buf e)) eqn:P; cbn [andb]; [|exists e; auto]. destruct (pos e <? length (buf e)) eqn:Q; [|exists e; auto]. apply Nat.ltb_lt in P, Q. rewrite low_next; [|auto|intros X; apply (f_equal (@length _)) in X; cbn in X; lia]. cbn [bind].
    destruct (length (behind e) <? 1) eqn:R; [apply Nat.ltb_lt in R; lia|]. eexists. apply fine_line; auto; [apply low_app; auto; apply low_skipn; auto|rewrite app_length; lia|rewrite app_length, skipn_length; lia].
  - apply fine_hist; auto.
  - apply fine_hist; auto.
  - eexists. apply fine_line; auto; [constructor|cbn; lia].
  - eexists. apply fine_line; auto; lia.
  - unfold linenoiseEditDeletePrevWord. cbv zeta. set (l := skip_while _ _). assert (X : exists a, rev (before e) = a ++ l). { destruct (skip_sub (fun c => ceq c " ") (rev (before e))) as [a Ea]. destruct (skip_sub (fun c => negb (ceq c " ")) (skip_while (fun c => ceq c " ") (rev (before e)))) as [b Eb]. exists (a ++ b). rewrite <- app_assoc. subst l. rewrite <- Eb. exact Ea. }
    destruct X as [a Ea]. assert (Ll : length l <= pos e) by (apply (f_equal (@length _)) in Ea; rewrite rev_length, app_length in Ea; lia). assert (Fl : low7 l) by (apply Forall_rev in Fb; rewrite Ea in Fb; apply Forall_app in Fb; tauto).
    eexists. apply fine_line; auto; [apply low_app; auto; apply Forall_rev; auto|rewrite app_length; lia|rewrite app_length, rev_length; lia].
  - unfold swap. destruct (0 <? pos e) eqn:P; cbn [andb]; [|exists e; auto]. destruct (pos e <? length (buf e)) eqn:Q; [|exists e; auto]. apply Nat.ltb_lt in P, Q.
    destruct (rev (before e)) as [|a l] eqn:Er; [apply (f_equal (@length _)) in Er; rewrite rev_length in Er; cbn in Er; lia|]. destruct (behind e) as [|b r] eqn:Eh; [cbn in Lr; lia|].
    assert (Ll : length l = pos e - 1) by (apply (f_equal (@length _)) in Er; rewrite rev_length in Er; cbn in Er; lia). apply Forall_rev in Fb. rewrite Er in Fb. inversion Fb; inversion Fr; subst. cbn [length] in Lr.
    eexists. apply fine_line; auto; [apply low_app; [apply Forall_rev; auto|repeat constructor; auto]|rewrite app_length, rev_length; cbn [length]; destruct (pos e =? _); lia|rewrite app_length, rev_length; cbn [length]; lia].
  - unfold linenoiseEditDelete. destruct (0 <? length (buf e)) eqn:P; cbn [andb]; [|exists e; auto]. destruct (pos e <? length (buf e)) eqn:Q; [|exists e; auto]. apply Nat.ltb_lt in P, Q. rewrite low_next; [|auto|intros X; apply (f_equal (@length _)) in X; cbn in X; lia]. cbn [bind].
    destruct (length (behind e) <? 1) eqn:R; [apply Nat.ltb_lt in R; lia|]. eexists. apply fine_line; auto; [apply low_app; auto; apply low_skipn; auto|rewrite app_length; lia|rewrite app_length, skipn_length; lia].
  - exists e. auto.
Qed.

Definition went (rest : cstr) (o : outcome next) : Prop := exists e' x rest', o = Ret (Go e' rest') /\ fine e' /\ rest = x ++ rest'.
Lemma went_op k e rest : fine e -> (forall c, k = Type_ c -> low7 c) -> went rest (go rest (op comb buflen k e)).
Proof. intros F K. destruct (fine_op k e F K) as (e' & E & F'). exists e', [], rest. unfold go. rewrite E. auto. Qed.
Lemma went_esc k e rest x : fine e -> (forall c, k <> Type_ c) -> went (x ++ rest) (do (e, inp) <- (do e <- op comb buflen k e ; Ret (e, rest)) ; Ret (Go e inp)).
Proof. intros F K. destruct (fine_op k e F) as (e' & E & F'); [intros c X; destruct (K c X)|]. exists e', x, rest. rewrite E. auto. Qed.
Lemma low_key e a rest : fine e -> (code a < 128)%Z -> a <> "009"%char ->
  went rest (key comb buflen e (a :: rest)) \/
  (exists l h, key comb buflen e (a :: rest) = Ret (Done l h rest) /\ length h <= max /\ (length h < max \/ l = None) /\ forall s, l = Some s -> length s <= buflen) \/
  (key comb buflen e (a :: rest) = Undef /\ a = "027"%char /\ length rest <= 2).
Proof.
  intros F A T. pose proof F as (F1 & F2 & F3 & F4 & F5 & F6). assert (Lr : length (removelast (hist e)) < max) by (rewrite removelast_firstn_len; pose proof (firstn_le_length (pred (length (hist e))) (hist e)); rewrite firstn_length; lia).
  assert (Ln : forall s, length (to_nul s) <= length s) by (induction s as [|c s IH]; [auto|]; cbn [to_nul]; destruct (ceq c "000"); cbn [length]; lia).
  assert (Ts : forall z, code a = z -> a = ascii_of_N (Z.to_N z)) by (intros z <-; unfold code; rewrite N2Z.id, ascii_N_embedding; reflexivity).
  unfold key. pose proof (read_point [a] _ rest (enc1 a A)) as R. cbn [app] in R. rewrite R. cbn [bind].
  destruct (code a =? 9)%Z eqn:E9; [exfalso; apply T; apply Z.eqb_eq in E9; exact (Ts _ E9)|].
  destruct (code a =? 13)%Z. { right. left. eexists _, _. split; [reflexivity|]. repeat split; [lia|auto|]. intros s [= <-]. specialize (Ln (buf e)). lia. }
  destruct (code a =? 3)%Z. { right. left. eexists _, _. split; [reflexivity|]. repeat split; [lia|auto|discriminate]. }
  destruct ((code a =? 127)%Z || (code a =? 8)%Z). { left. apply (went_op Backspace); [auto|discriminate]. }
  destruct (code a =? 4)%Z. { destruct (0 <? length (buf e)); [left; apply (went_op Delete); [auto|discriminate]|]. right. left. eexists _, _. split; [reflexivity|]. repeat split; [lia|auto|discriminate]. }
  destruct (code a =? 20)%Z. { left. apply (went_op Swap); [auto|discriminate]. }
  destruct (code a =? 2)%Z. { left. apply (went_op Left); [auto|discriminate]. }
  destruct (code a =? 6)%Z. { left. apply (went_op Right); [auto|discriminate]. }
  destruct (code a =? 16)%Z. { left. apply (went_op Up); [auto|discriminate]. }
  destruct (code a =? 14)%Z. { left. apply (went_op Down); [auto|discriminate]. }
  destruct (code a =? 27)%Z eqn:E27.
  { apply Z.eqb_eq in E27. unfold escape. destruct rest as [|c [|d rest]]; [right; right; cbn; auto using (Ts _ E27)..|].
    destruct (ceq c "[").
    - destruct ((48 <=? code d)%Z && (code d <=? 57)%Z).
      + destruct rest as [|g rest]; [right; right; cbn; auto using (Ts _ E27)|]. left. destruct (ceq g "~" && ceq d "3"); [exact (went_esc Delete e rest [c; d; g] F ltac:(discriminate))|exact (went_esc Other e rest [c; d; g] F ltac:(discriminate))].
      + left. destruct (ceq d "A"); [exact (went_esc Up e rest [c; d] F ltac:(discriminate))|]. destruct (ceq d "B"); [exact (went_esc Down e rest [c; d] F ltac:(discriminate))|]. destruct (ceq d "C"); [exact (went_esc Right e rest [c; d] F ltac:(discriminate))|].
        destruct (ceq d "D"); [exact (went_esc Left e rest [c; d] F ltac:(discriminate))|]. destruct (ceq d "H"); [exact (went_esc Home e rest [c; d] F ltac:(discriminate))|]. destruct (ceq d "F"); [exact (went_esc End_ e rest [c; d] F ltac:(discriminate))|]. exact (went_esc Other e rest [c; d] F ltac:(discriminate)).
    - left. destruct (ceq c "O"); [|eexists e, [c; d], rest; auto]. destruct (ceq d "H"); [exact (went_esc Home e rest [c; d] F ltac:(discriminate))|]. destruct (ceq d "F"); [exact (went_esc End_ e rest [c; d] F ltac:(discriminate))|]. exact (went_esc Other e rest [c; d] F ltac:(discriminate)). }
  destruct (code a =? 21)%Z. { left. apply (went_op KillLine); [auto|discriminate]. }
  destruct (code a =? 11)%Z. { left. apply (went_op KillRest); [auto|discriminate]. }
  destruct (code a =? 1)%Z. { left. apply (went_op Home); [auto|discriminate]. }
  destruct (code a =? 5)%Z. { left. apply (went_op End_); [auto|discriminate]. }
  destruct (code a =? 12)%Z. { left. rewrite low_refresh by auto. exists e, [], rest. auto. }
  destruct (code a =? 23)%Z. { left. apply (went_op KillWord); [auto|discriminate]. }
  left. apply (went_op (Type_ [a])); [auto|]. intros c [= <-]. repeat constructor. auto.
Qed.
Lemma low_loop inp : forall fuel e, length inp < fuel -> fine e -> low7 inp -> ~ In "009"%char inp ->
  (exists l h rest, loop comb buflen fuel e inp = Ret (l, h, rest) /\ length h <= max /\ (length h < max \/ l = None \/ rest = []) /\ forall s, l = Some s -> length s <= buflen) \/
  (loop comb buflen fuel e inp = Undef /\ exists x b, inp = x ++ "027"%char :: b /\ length b <= 2).
Proof.
  remember (length inp) as n. assert (L : length inp <= n) by lia. clear Heqn. revert inp L. induction n; intros inp L fuel e Lf F Li Ti.
  - destruct inp; [|cbn in L; lia]. destruct fuel; [lia|]. left. cbn [loop key readCode bind]. pose proof F as (F1 & F2 & F3 & F4 & F5 & F6). eexists _, _, _. split; [reflexivity|]. repeat split; auto. intros s [= <-].
    assert (Ln : forall s, length (to_nul s) <= length s) by (induction s as [|c s IH]; [auto|]; cbn [to_nul]; destruct (ceq c "000"); cbn [length]; lia). specialize (Ln (buf e)). lia.
  - destruct inp as [|a rest]; [apply (IHn []); auto; try lia; cbn; lia|]. inversion Li; subst. destruct fuel; [lia|].
    destruct (low_key e a rest F) as [W|[(l & h & E & K1 & K2 & K3)|(E & -> & K)]]; auto; [intros ->; apply Ti; left; auto|..].
    + destruct W as (e' & x & rest' & E & F' & ->). cbn [loop]. rewrite E. cbn [bind]. cbn [length] in L. rewrite app_length in L.
      destruct (IHn rest' ltac:(lia) fuel e') as [D|(E' & y & b & -> & K)]; auto; [lia|apply Forall_app in H2; tauto|intros I; apply Ti; right; apply in_or_app; auto|].
      right. split; [auto|]. exists (a :: x ++ y), b. cbn [app]. rewrite <- app_assoc. auto.
    + left. cbn [loop]. rewrite E. cbn [bind]. exists l, h, rest. repeat split; auto. tauto.
    + right. cbn [loop]. rewrite E. split; [auto|]. exists [], rest. auto.
Qed.
End Ascii.

(** Whatever bytes of ASCII arrive, and whatever is in the history, no byte outside of the line or
    of the history is touched, and the limits are kept; unless the input ends within a sequence
    of ESC. *)
Theorem C85_ascii : forall comb buflen max h inp, (forall z, (z < 128)%Z -> comb z = false) -> 0 < max -> 0 < buflen ->
  length h <= max -> Forall low7 h -> low7 inp -> ~ In "009"%char inp ->
  (exists l h' rest, pBat_LineNoise comb buflen max h inp = Ret (l, h', rest) /\ length h' <= max /\ forall s, l = Some s -> length s <= buflen) \/
  (pBat_LineNoise comb buflen max h inp = Undef /\ exists x b, inp = x ++ "027"%char :: b /\ length b <= 2).
Proof.
  intros comb buflen max h inp Cm Mx Bl Lh Fh Fi Ti. unfold pBat_LineNoise.
  assert (Al : forall q x, length q <= max -> length (linenoiseHistoryAdd max q x) <= max).
  { intros q x L. unfold linenoiseHistoryAdd. destruct (max =? 0); [auto|]. destruct (negb _ && _); [auto|]. rewrite app_length. cbn [length]. destruct (length q =? max) eqn:E; [apply Nat.eqb_eq in E; destruct q; cbn [tl length] in *; lia|apply Nat.eqb_neq in E; lia]. }
  assert (F : fine buflen max (Ed [] 0 (linenoiseHistoryAdd max h []) 0)).
  { unfold fine. cbn [buf pos hist idx length]. repeat split; try constructor; auto; try lia.
    - unfold linenoiseHistoryAdd. destruct (max =? 0); [auto|]. destruct (negb _ && _); [auto|]. apply Forall_app. split; [|repeat constructor]. destruct (length h =? max); [|auto]. destruct Fh; [constructor|auto].
    - unfold linenoiseHistoryAdd. destruct (max =? 0) eqn:E; [apply Nat.eqb_eq in E; lia|]. destruct (negb (length h =? 0) && _) eqn:N; [apply andb_prop in N; destruct N as [N _]; apply negb_true_iff, Nat.eqb_neq in N; lia|]. rewrite app_length. cbn [length]. lia. }
  destruct (low_loop comb buflen max Cm Mx Bl inp (S (length inp)) _ (Nat.lt_succ_diag_r _) F Fi Ti) as [(l & h' & rest & E & K1 & _ & K2)|[E K]]; rewrite E; cbn [bind]; [left|right; auto].
  eexists _, _, _. split; [reflexivity|]. split; [destruct l; auto|auto].
Qed.
Print Assumptions C85_ascii.

(** * What fails *)
Definition comb0 (z : Z) : bool := ((768 <=? z) && (z <=? 879))%Z.
Definition line_noise (h : list string) (inp : list (string + nat)) : outcome (option string * list string * nat) :=
  do (l, h, rest) <- pBat_LineNoise comb0 4095 100 (map s2l h) (flat_map (fun x => match x with inl s => s2l s | inr n => [ascii_of_nat n] end) inp) ;
  Ret (option_map string_of_list_ascii l, map string_of_list_ascii h, length rest).
(** A mark that combines as the first character *)
Theorem C85_mark_refuted : line_noise [] [inr 204; inr 129; inl "a"; inr 13]%string = Undef.
Proof. vm_compute. reflexivity. Qed.
Print Assumptions C85_mark_refuted.
(** CTRL+T swaps bytes, not characters: what is no UTF-8 any more cannot be drawn. *)
Theorem C85_swap_refuted : line_noise [] [inl "a"; inr 195; inr 169; inr 2; inr 20; inr 13]%string = Undef.
Proof. vm_compute. reflexivity. Qed.
Print Assumptions C85_swap_refuted.
(** CTRL+SPACE is typed as a NUL, and what is behind it is lost silently. *)
Theorem C85_nul_refuted : line_noise [] [inl "DEL a"; inr 0; inl ".bak"; inr 13]%string = Ret (Some "DEL a", ["DEL a"], 0)%string.
Proof. vm_compute. reflexivity. Qed.
Print Assumptions C85_nul_refuted.
(** A byte that is no UTF-8 enters the line, as ENTER does. *)
Theorem C85_invalid_refuted : line_noise [] [inl "DEL a"; inr 255; inl ".bak"; inr 13]%string = Ret (Some "DEL a", [""; "DEL a"], 6)%string.
Proof. vm_compute. reflexivity. Qed.
Print Assumptions C85_invalid_refuted.
(** At the end of the input, the part of the line that was typed is entered; and if there is none,
    an empty line: the end of the input is not told. *)
Theorem C85_eof_refuted : line_noise [] [inl "DEL a"]%string = Ret (Some "DEL a", [""; "DEL a"], 0)%string /\ line_noise [] [] = Ret (Some "", [""], 0)%string.
Proof. split; vm_compute; reflexivity. Qed.
Print Assumptions C85_eof_refuted.

(** The hypotheses hold: typing, going back, marks, words. *)
Example C85_ex :
  let e' := ["195"; "169"]%char in let m := ["204"; "129"]%char in
  types comb0 4095 [Type_ (s2l "a"); Type_ m; Type_ e'; Type_ (s2l " "); Type_ (s2l "b"); KillWord; Home; Right; Delete; Up; Down] (s2l "a" ++ m ++ e' ++ s2l " b" ++ ["023"; "001"; "006"; "027"; "["; "3"; "~"; "016"; "014"]%char)
    (opened 100 [s2l "dir"]) (At [s2l "dir"] (s2l "a" ++ m ++ s2l " ") [s2l "a"; m; s2l " "] [] []) /\
  line_noise ["dir"%string] [inl "a"; inr 204; inr 129; inr 195; inr 169; inl " b"; inr 23; inr 1; inr 6; inr 27; inl "[3~"; inr 16; inr 14; inr 13]%string = Ret (Some (String "a" (String "204" (String "129" " "))), ["dir"; String "a" (String "204" (String "129" " "))], 0)%string.
Proof.
  cbv zeta. split; [|vm_compute; reflexivity].
  assert (E1 : forall c, (code c < 128)%Z -> encodes [c] (code c)) by (intros; constructor; auto).
  assert (Em : encodes ["204"; "129"]%char 769) by (change 769%Z with ((code "204" - 192) * 64 + (code "129" - 128))%Z; constructor; vm_compute; split; congruence).
  assert (Ee : encodes ["195"; "169"]%char 233) by (change 233%Z with ((code "195" - 192) * 64 + (code "169" - 128))%Z; constructor; vm_compute; split; congruence).
  assert (Ba : base comb0 (s2l "a")) by (exists 97%Z; split; [apply (E1 "a"%char); reflexivity|reflexivity]).
  assert (Bs : base comb0 (s2l " ")) by (exists 32%Z; split; [apply (E1 " "%char); reflexivity|reflexivity]).
  assert (Bb : base comb0 (s2l "b")) by (exists 98%Z; split; [apply (E1 "b"%char); reflexivity|reflexivity]).
  assert (Be : base comb0 ["195"; "169"]%char) by (exists 233%Z; split; auto).
  assert (Mm : mark comb0 ["204"; "129"]%char) by (exists 769%Z; split; auto).
  assert (Bd : forall c, In c (s2l "dir") -> character comb0 [[c]]).
  { intros c I. exists [c], []. split; [auto|]. split; [|constructor]. exists (code c). cbn in I. repeat (destruct I as [<-|I]; [split; [apply E1|]; reflexivity|]). destruct I. }
  assert (Nc : forall z, (32 <= z)%Z -> z <> 127%Z -> ~ control z) by (intros z Z1 Z2 I; unfold control in I; cbn in I; repeat (destruct I as [I|I]; [lia|]); destruct I).
  assert (Lt : forall a : nat, a <=? 10 = true -> a <= 4095) by (intros a A; apply Nat.leb_le in A; lia).
  unfold opened. cbn [firstn Nat.sub].
  eapply (ty_cons _ _ _ (s2l "a")). { eapply (se_type _ 97); [apply (E1 "a"%char); reflexivity|apply Nc; lia]. } { eapply (d_type _ _ _ _ [] [] _ _ 97); [apply (E1 "a"%char); reflexivity|lia|auto|apply Lt; reflexivity]. }
  eapply ty_cons. { eapply se_type; [exact Em|apply Nc; lia]. } { eapply d_type; [exact Em|lia|left; discriminate|apply Lt; reflexivity]. }
  eapply ty_cons. { eapply se_type; [exact Ee|apply Nc; lia]. } { eapply d_type; [exact Ee|lia|left; discriminate|apply Lt; reflexivity]. }
  eapply (ty_cons _ _ _ (s2l " ") _ _ _ (s2l "b" ++ _)). { eapply (se_type _ 32); [apply (E1 " "%char); reflexivity|apply Nc; lia]. } { eapply (d_type _ _ _ _ _ [] _ _ 32); [apply (E1 " "%char); reflexivity|lia|left; discriminate|apply Lt; reflexivity]. }
  eapply (ty_cons _ _ _ (s2l "b")). { eapply (se_type _ 98); [apply (E1 "b"%char); reflexivity|apply Nc; lia]. } { eapply (d_type _ _ _ _ _ [] _ _ 98); [apply (E1 "b"%char); reflexivity|lia|left; discriminate|apply Lt; reflexivity]. }
  eapply (ty_cons _ _ _ ["023"%char]). { constructor. } { apply (d_word _ _ _ _ [s2l "a"; ["204"; "129"]%char; ["195"; "169"]%char; s2l " "] [s2l "b"] []); [right; exists [s2l "a"; ["204"; "129"]%char; ["195"; "169"]%char]; reflexivity|intros [X|[]]; discriminate|constructor|discriminate]. }
  eapply (ty_cons _ _ _ ["001"%char]). { constructor. } { apply d_home. }
  eapply (ty_cons _ _ _ ["006"%char]). { constructor. } { apply (d_right _ _ _ _ [] [s2l "a"; ["204"; "129"]%char]); [exists (s2l "a"), [["204"; "129"]%char]; repeat split; auto|]. exists [[["195"; "169"]%char]; [s2l " "]]. split; [|reflexivity]. repeat constructor; (eexists _, []; repeat split; auto). }
  eapply (ty_cons _ _ _ ("027"%char :: s2l "[3~")). { constructor. } { apply (d_del _ _ _ _ [s2l "a"; ["204"; "129"]%char] [["195"; "169"]%char] [s2l " "]); [eexists _, []; repeat split; auto|]. exists [[s2l " "]]. split; [|reflexivity]. repeat constructor. eexists _, []; repeat split; auto. }
  eapply (ty_cons _ _ _ ["016"%char]). { constructor. } { apply (d_up _ _ _ _ _ _ _ _ [s2l "d"; s2l "i"; s2l "r"]); [|reflexivity|intros I; cbn in I; intuition discriminate|cbn; lia].
    exists [[s2l "d"]; [s2l "i"]; [s2l "r"]]. split; [|reflexivity]. repeat constructor; apply Bd; cbn; auto. }
  apply (ty_cons _ _ _ ["014"%char] _ (At [s2l "dir"] (s2l "a" ++ ["204"; "129"]%char ++ s2l " ") [s2l "a"; ["204"; "129"]%char; s2l " "] [] []) _ []); [constructor| |constructor].
  apply (d_down _ _ (s2l "a" ++ ["204"; "129"]%char ++ s2l " ") []); [|reflexivity|intros I; cbn in I; intuition discriminate|cbn; lia].
  exists [[s2l "a"; ["204"; "129"]%char]; [s2l " "]]. split; [|reflexivity]. constructor; [exists (s2l "a"), [["204"; "129"]%char]; repeat split; auto|]. repeat constructor. eexists _, []; repeat split; auto.
Qed.
