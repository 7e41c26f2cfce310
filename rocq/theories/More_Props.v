(** More_Props.v -- C82: how MORE lays texts out. *)

From Verif Require Import Base Num_Model More_Model More_Spec.

Definition st_of (prev : option cstr) : mstate :=
  match prev with None => mkM false false | Some [] => mkM true false | Some l => mkM false (length l mod 79 =? 0) end.
(** A character that takes one column and has no meaning for MORE. *)
Definition plain (fl : mflags) (c : ascii) : Prop :=
  c <> TAB /\ c <> nl /\ (f_ansi fl = true -> c <> ESC) /\ (f_u8 fl = true -> following c = false).

Lemma put_app o1 o2 r : put_ (o1 ++ o2) r = put_ o1 (put_ o2 r).
Proof. destruct r as [[[[k out] rest] st]| |]; cbn; rewrite <- ?app_assoc; reflexivity. Qed.
Lemma last_cons {A} (l : list A) a d : last (a :: l) d = last l a.
Proof. revert a d. induction l as [|b l IH]; intros a d; [reflexivity|]. change (last (a :: b :: l) d) with (last (b :: l) d). rewrite !IH. reflexivity. Qed.
Section Rows.
Variable fl : mflags.
Lemma write_char c r col st : plain fl c -> (col < 79)%Z -> write_line fl Plain col st (c :: r) = put_ [c] (write_line fl Plain (col + 1) (mkM false false) r).
Proof.
  intros (T & N & A & U) C. cbn [write_line]. apply Z.ltb_lt in C. rewrite C. apply ceq_false in T. rewrite T.
  assert (E : f_ansi fl && ceq c ESC = false) by (destruct (f_ansi fl); [apply ceq_false; auto|reflexivity]). rewrite E.
  assert (F : f_u8 fl && following c = false) by (destruct (f_u8 fl); [apply U; auto|reflexivity]). rewrite F.
  apply ceq_false in N. rewrite N. reflexivity.
Qed.
Lemma write_chars : forall l r col st, Forall (plain fl) l -> l <> [] -> (0 <= col)%Z -> (col + Z.of_nat (length l) <= 79)%Z ->
  write_line fl Plain col st (l ++ r) = put_ l (write_line fl Plain (col + Z.of_nat (length l)) (mkM false false) r).
Proof.
  induction l as [|c l IH]; intros r col st F N C L; [congruence|]. inversion F; subst. cbn [app]. rewrite write_char by (auto; cbn [length] in L; lia).
  cbn [length] in *. destruct l as [|d l].
  - cbn [app length]. replace (col + Z.of_nat 1)%Z with (col + 1)%Z by lia. reflexivity.
  - rewrite IH by (auto; try discriminate; lia). change (c :: d :: l) with ([c] ++ d :: l). rewrite put_app. replace (col + Z.of_nat (S (length (d :: l))))%Z with (col + 1 + Z.of_nat (length (d :: l)))%Z by lia. reflexivity.
Qed.

Definition gives (st : mstate) (inp : cstr) (rows : list cstr) (st' : mstate) : Prop :=
  forall n fuel, length inp < fuel -> more_loop fuel fl (Z.of_nat n) st inp = Ret (concat (skipn n rows), st').
Lemma step n st inp : pBat_MoreWriteLine fl (Z.of_nat n) st inp =
  do (k, out, rest, st) <- write_line fl Plain 0 st inp; Ret (k, Z.of_nat (pred n), if n =? 0 then out else [], rest, st).
Proof.
  unfold pBat_MoreWriteLine. destruct n as [|n]; [reflexivity|]. assert (X : (Z.of_nat (S n) =? 0)%Z = false) by (apply Z.eqb_neq; lia). rewrite X.
  assert (Y : (Z.of_nat (S n) =? INT_MIN)%Z = false) by (apply Z.eqb_neq; unfold INT_MIN; lia). rewrite Y. cbn [pred Nat.eqb]. replace (Z.of_nat (S n) - 1)%Z with (Z.of_nat n) by lia. reflexivity.
Qed.
Lemma gives_nil st : gives st [] [] st.
Proof. intros n [|fuel] L; [cbn in L; lia|]. cbn [more_loop]. rewrite step. cbn. rewrite skipn_nil. destruct n; reflexivity. Qed.
Lemma gives_row st inp o rest st1 rows st' : write_line fl Plain 0 st inp = Ret (true, o, rest, st1) -> length rest < length inp -> gives st1 rest rows st' -> gives st inp (o :: rows) st'.
Proof.
  intros W L G n [|fuel] F; [lia|]. cbn [more_loop]. rewrite step, W. cbn [bind]. rewrite G by lia. cbn [bind]. destruct n; reflexivity.
Qed.
Lemma gives_last st inp o rest st1 : write_line fl Plain 0 st inp = Ret (false, o, rest, st1) -> gives st inp [o] st1.
Proof.
  intros W n [|fuel] F; [lia|]. cbn [more_loop]. rewrite step, W. cbn [bind]. destruct n; cbn; [rewrite app_nil_r; reflexivity|rewrite skipn_nil; reflexivity].
Qed.
Lemma write_nl col st rest : (0 <= col < 79)%Z -> write_line fl Plain col st (nl :: rest) =
  if (col =? 0)%Z then if m_blank st && f_squeeze fl then write_line fl Plain col st rest else if m_cr st then write_line fl Plain col st rest else Ret (true, [nl], rest, mkM true (m_cr st))
  else Ret (true, [nl], rest, mkM false (m_cr st)).
Proof.
  intros C. cbn [write_line]. assert (X : (col <? 79)%Z = true) by (apply Z.ltb_lt; lia). rewrite X. change (ceq nl TAB) with false. change (ceq nl ESC) with false. change (following nl) with false.
  change (ceq nl nl) with true. rewrite !andb_false_r. reflexivity.
Qed.
Lemma gives_drop st rest rows st' : (m_blank st && f_squeeze fl) || m_cr st = true -> gives st rest rows st' -> gives st (nl :: rest) rows st'.
Proof.
  intros D G n fuel F. cbn [length] in F. rewrite <- (G n fuel) by lia. destruct fuel as [|fuel]; [lia|]. cbn [more_loop]. rewrite !step, write_nl by lia. cbn [Z.eqb].
  destruct (m_blank st && f_squeeze fl); [reflexivity|]. cbn [orb] in D. rewrite D. reflexivity.
Qed.
Lemma write_full st r : write_line fl Plain 79 st r = Ret (true, [nl], r, mkM (m_blank st) true).
Proof. destruct r; reflexivity. Qed.
Lemma full_row l st r : Forall (plain fl) l -> length l = 79 -> write_line fl Plain 0 st (l ++ r) = Ret (true, l ++ [nl], r, mkM false true).
Proof. intros F L. assert (N : l <> []) by (intros ->; discriminate). rewrite write_chars by (auto; lia). rewrite L. change (0 + Z.of_nat 79)%Z with 79%Z. rewrite write_full. reflexivity. Qed.
Lemma st_of_cut a l : length a = 79 -> l <> [] -> st_of (Some (a ++ l)) = st_of (Some l).
Proof.
  intros A N. destruct l as [|c l]; [congruence|]. destruct a as [|b a]; [discriminate|]. cbn [st_of app]. f_equal. f_equal. change (b :: a ++ c :: l) with ((b :: a) ++ c :: l).
  rewrite app_length, A. replace (79 + length (c :: l)) with (length (c :: l) + 1 * 79) by lia. apply Nat.mod_add. discriminate.
Qed.
Lemma st_short l : l <> [] -> length l <= 79 -> st_of (Some l) = mkM false (length l =? 79).
Proof.
  intros N L. destruct l as [|c l]; [congruence|]. cbn [st_of]. f_equal. destruct (Nat.eqb_spec (length (c :: l)) 79) as [E|E]; [rewrite E; reflexivity|].
  rewrite Nat.mod_small by lia. reflexivity.
Qed.
Lemma gives_line l ps : cut l ps -> forall st rest rows st', l <> [] -> Forall (plain fl) l -> gives (st_of (Some l)) rest rows st' -> gives st (l ++ nl :: rest) (map (fun p => p ++ [nl]) ps ++ rows) st'.
Proof.
  induction 1 as [l L|a l ps A N C IH]; intros st rest rows st' Ne F G.
  - cbn [map app]. rewrite st_short in G by auto. destruct (Nat.eqb_spec (length l) 79) as [E|E].
    + eapply gives_row; [apply full_row; auto|rewrite app_length; cbn [length]; lia|]. apply gives_drop; auto.
    + apply (gives_row st (l ++ nl :: rest) (l ++ [nl]) rest (mkM false false)); [|rewrite (app_length l); cbn [length]; lia|exact G].
      rewrite write_chars by (auto; lia). rewrite write_nl by lia. destruct (Z.eqb_spec (0 + Z.of_nat (length l)) 0); [destruct l; [congruence|cbn [length] in *; lia]|]. reflexivity.
  - apply Forall_app in F. destruct F as [F1 F2]. rewrite <- app_assoc. cbn [map app]. eapply gives_row; [apply full_row; auto|rewrite (app_length a); lia|]. apply IH; auto.
    rewrite st_of_cut in G; auto.
Qed.
Lemma gives_end l ps : cut l ps -> forall st, l <> [] -> Forall (plain fl) l -> gives st l (map ended ps) (st_of (Some l)).
Proof.
  induction 1 as [l L|a l ps A N C IH]; intros st Ne F.
  - cbn [map]. unfold ended. rewrite st_short by auto. destruct (Nat.eqb_spec (length l) 79) as [E|E].
    + eapply gives_row; [rewrite <- (app_nil_r l) at 1; apply full_row; auto|cbn; lia|]. apply gives_nil.
    + eapply (gives_last st l l []). rewrite <- (app_nil_r l) at 1. rewrite write_chars by (auto; lia). cbn [write_line]. destruct (Z.ltb_spec (0 + Z.of_nat (length l)) 79); [|lia]. cbn. rewrite app_nil_r. reflexivity.
  - apply Forall_app in F. destruct F as [F1 F2]. cbn [map]. unfold ended at 1. rewrite A. cbn [Nat.eqb]. change (79 =? 79) with true. cbv iota.
    eapply gives_row; [apply full_row; auto|rewrite (app_length a); lia|]. rewrite st_of_cut by auto. apply IH; auto.
Qed.
Lemma drops_state prev : (m_blank (st_of prev) && f_squeeze fl) || m_cr (st_of prev) = drops (f_squeeze fl) prev.
Proof. destruct prev as [[|c l]|]; cbn; [apply orb_false_r|reflexivity|reflexivity]. Qed.
Lemma gives_lines : forall ls prev rest rows st' pss, Forall (Forall (plain fl)) ls -> Forall2 cut (kept (f_squeeze fl) prev ls) pss ->
  gives (st_of (lastly prev (kept (f_squeeze fl) prev ls))) rest rows st' ->
  gives (st_of prev) (flat_map (fun l => l ++ [nl]) ls ++ rest) (map (fun p => p ++ [nl]) (concat pss) ++ rows) st'.
Proof.
  induction ls as [|l ls IH]; intros prev rest rows st' pss F C G; inversion F; subst.
  { inversion C; subst. exact G. }
  assert (Ll : forall p x k, lastly p (x :: k) = lastly (Some x) k) by (intros; apply last_cons).
  destruct l as [|c l]; cbn [kept] in *.
  - cbn [flat_map app]. destruct (drops (f_squeeze fl) prev) eqn:D.
    + apply gives_drop; [rewrite drops_state; auto|]. apply IH; auto.
    + inversion C as [|? ps ? pss' C1 C2]; subst. rewrite Ll in G. inversion C1 as [? Q|a b qs Q1 Q2 Q3 Q4]; [subst ps|destruct a; discriminate].
      cbn [concat map app]. rewrite <- drops_state in D. apply orb_false_iff in D. destruct D as [D1 D2].
      eapply gives_row; [rewrite write_nl by lia; cbn [Z.eqb]; rewrite D1, D2; reflexivity|cbn; lia|].
      apply (IH (Some []) rest rows st' pss'); auto.
  - inversion C as [|? ps ? pss' C1 C2]; subst. rewrite Ll in G. cbn [concat flat_map]. rewrite map_app, <- !app_assoc. cbn [app].
    change (c :: l ++ nl :: ?x) with ((c :: l) ++ nl :: x). apply gives_line; auto; try discriminate.
Qed.
End Rows.

(** A text of plain lines is printed in rows of at most 79 characters: the lines, cut, one below
    the other.  Some empty lines are left out: with /S, those that follow an empty line; and
    always those that follow a line that fills its last row.  +n leaves the first n rows out.
    [prev] is the line before, if there was one. *)
Theorem C82_rows : forall fl n prev ls r rows pss,
  Forall (Forall (plain fl)) ls -> Forall (plain fl) r -> Forall2 cut (kept (f_squeeze fl) prev ls) pss -> last_rows r rows ->
  more_text fl (Z.of_nat n) (st_of prev) (flat_map (fun l => l ++ [nl]) ls ++ r) =
    Ret (concat (skipn n (map (fun p => p ++ [nl]) (concat pss) ++ rows)), st_of (lastly prev (kept (f_squeeze fl) prev ls ++ if streqb r [] then [] else [r]))).
Proof.
  intros fl n prev ls r rows pss F Fr C R. unfold more_text. revert n. cut (gives fl (st_of prev) (flat_map (fun l => l ++ [nl]) ls ++ r) (map (fun p => p ++ [nl]) (concat pss) ++ rows)
    (st_of (lastly prev (kept (f_squeeze fl) prev ls ++ if streqb r [] then [] else [r])))). { intros G n. apply G. lia. }
  apply gives_lines; auto. destruct R as [[-> ->]|(N & ps & Cp & ->)].
  - cbn [streqb]. rewrite app_nil_r. apply gives_nil.
  - pose proof N as N2. apply streqb_false in N2. rewrite N2. assert (X : lastly prev (kept (f_squeeze fl) prev ls ++ [r]) = Some r) by (unfold lastly; rewrite map_app; apply last_last).
    rewrite X. apply gives_end; auto.
Qed.
Print Assumptions C82_rows.

(** Nothing gets lost: what is printed is the text, but for blanks and ends of lines, whatever is
    in it; if there are no tabs, only for ends of lines.  At the end of a text in the middle of a
    control sequence, a byte is added. *)
Definition tabs_ok (fl : mflags) (inp : cstr) : Prop := In TAB inp -> (0 < f_tab fl)%Z.
Lemma filter_spaces p n : p " "%char = false -> filter p (repeat " "%char n) = [].
Proof. intros H. induction n; cbn [repeat filter]; [auto|]. rewrite H. auto. Qed.
Definition tells (inp : cstr) (p : ascii -> bool) : Prop := p nl = false /\ (In TAB inp -> p TAB = false /\ p " "%char = false).
Definition line_post (fl : mflags) (m : mode) (col : Z) (inp : cstr) (k : bool) (out rest add : cstr) : Prop :=
  (k = false -> rest = []) /\ (k = true -> m = Plain -> (0 <= col < 79)%Z -> length rest < length inp) /\ length rest <= length inp /\ (forall c, In c rest -> In c inp) /\
  (forall p, tells inp p -> filter p out ++ filter p rest = filter p inp ++ filter p add) /\ (add = [] \/ k = false /\ add = ["255"%char] /\ (m <> Plain \/ f_ansi fl = true /\ In ESC inp)).
Lemma tells_tail c r p : tells (c :: r) p -> tells r p.
Proof. intros [N S]. split; [auto|]. intros X. apply S. right. auto. Qed.
Lemma post_more fl m m2 col col2 c r k out rest add o : line_post fl m2 col2 r k out rest add -> (m2 <> Plain -> m <> Plain \/ f_ansi fl = true /\ c = ESC) ->
  (forall p, tells (c :: r) p -> filter p o = filter p [c]) -> line_post fl m col (c :: r) k (o ++ out) rest add.
Proof.
  intros (K & _ & L & I & F & A) Hm Ho. split; [auto|]. cbn [length]. split; [lia|]. split; [lia|]. split; [intros; right; auto|]. split.
  - intros p H. rewrite filter_app, (Ho p H), <- app_assoc, F by (eapply tells_tail; eauto). rewrite app_assoc, <- filter_app. reflexivity.
  - destruct A as [A|(A1 & A2 & A3)]; [left; auto|right]. split; [auto|]. split; [auto|]. destruct A3 as [A3|[A3 A4]]; [|right; split; [auto|right; auto]].
    destruct (Hm A3) as [X|[X ->]]; [left; auto|right; split; [auto|left; auto]].
Qed.
Lemma post_stop fl m col c r o : (forall p, tells (c :: r) p -> filter p o = filter p [c]) -> line_post fl m col (c :: r) true o r [].
Proof.
  intros H. split; [discriminate|]. cbn [length]. split; [lia|]. split; [lia|]. split; [intros; right; auto|]. split; [|auto]. intros p Hp. rewrite (H p Hp), <- filter_app. cbn [filter]. rewrite app_nil_r. reflexivity.
Qed.
Lemma line_all fl : forall inp m col st, tabs_ok fl inp -> exists k out rest st' add, write_line fl m col st inp = Ret (k, out, rest, st') /\ line_post fl m col inp k out rest add.
Proof.
  induction inp as [|c r IH]; intros m col st T.
  - destruct m; cbn [write_line].
    + destruct (col <? 79)%Z eqn:C.
      * eexists _, _, _, _, []. split; [reflexivity|]. repeat split; auto; discriminate.
      * eexists _, _, _, _, []. split; [reflexivity|]. repeat split; auto; [|intros p [N _]; cbn [filter]; rewrite N; reflexivity]. intros _ _ X. apply Z.ltb_ge in C. lia.
    + eexists _, _, _, _, []. split; [reflexivity|]. repeat split; auto; discriminate.
    + eexists _, _, _, _, ["255"%char]. split; [reflexivity|]. split; [auto|]. split; [discriminate|]. split; [auto|]. split; [auto|]. split; [intros; rewrite app_nil_r; reflexivity|]. right. split; [auto|]. split; [auto|]. left. discriminate.
  - assert (T' : tabs_ok fl r) by (intros X; apply T; right; auto).
    assert (Step : forall m2 col2 st2, (m2 <> Plain -> m <> Plain \/ f_ansi fl = true /\ c = ESC) ->
      exists k out rest st' add, put_ [c] (write_line fl m2 col2 st2 r) = Ret (k, out, rest, st') /\ line_post fl m col (c :: r) k out rest add).
    { intros m2 col2 st2 Hm. destruct (IH m2 col2 st2 T') as (k & out & rest & st' & add & E & Po). rewrite E. eexists _, _, _, _, add. split; [reflexivity|]. eapply post_more; eauto. }
    destruct m; cbn [write_line].
    + destruct (col <? 79)%Z eqn:C.
      2: { eexists _, _, _, _, []. split; [reflexivity|]. split; [discriminate|]. split; [intros _ _ X; apply Z.ltb_ge in C; lia|]. split; [auto|]. split; [auto|]. split; [intros p [N _]; cbn [filter]; rewrite N, app_nil_r; reflexivity|auto]. }
      destruct (ceq c TAB) eqn:Ct.
      * apply ceq_true in Ct. subst c. specialize (T (or_introl eq_refl)). destruct (Z.leb_spec (f_tab fl) 0); [lia|].
        assert (Bl : forall p, tells (TAB :: r) p -> filter p [TAB] = []) by (intros p [_ S]; destruct (S (or_introl eq_refl)) as [S1 _]; cbn [filter]; rewrite S1; auto).
        destruct (col + _ <? 80)%Z.
        -- destruct (IH Plain (col + (f_tab fl - col mod f_tab fl))%Z (mkM false false) T') as (k & out & rest & st' & add & E & Po). rewrite E. eexists _, _, _, _, add. split; [reflexivity|].
           eapply post_more; [eauto|congruence|]. intros p Hp. rewrite Bl by auto. destruct Hp as [_ S]. apply filter_spaces. apply S. left. auto.
        -- eexists _, _, _, _, []. split; [reflexivity|]. apply post_stop. intros p Hp. rewrite Bl by auto. cbn [filter]. destruct Hp as [-> _]. auto.
      * destruct (f_ansi fl && ceq c ESC) eqn:Ce; [apply andb_true_iff in Ce; destruct Ce as [Ce1 Ce2]; apply ceq_true in Ce2; apply Step; auto|].
        destruct (f_u8 fl && following c); [apply Step; congruence|].
        destruct (ceq c nl) eqn:Cn; [|apply Step; congruence].
        apply ceq_true in Cn. subst c.
        assert (Go : exists k out rest st' add, write_line fl Plain col st r = Ret (k, out, rest, st') /\ line_post fl Plain col (nl :: r) k out rest add).
        { destruct (IH Plain col st T') as (k & out & rest & st' & add & E & Po). rewrite E. eexists _, _, _, _, add. split; [reflexivity|]. change out with ([] ++ out). eapply post_more; [eauto|congruence|].
          intros p [N _]. cbn [filter]. rewrite N. auto. }
        assert (Stop : forall st2 : mstate, exists k out rest st' add, (Ret (true, [nl], r, st2) : mres) = Ret (k, out, rest, st') /\ line_post fl Plain col (nl :: r) k out rest add).
        { intros st2. eexists _, _, _, _, []. split; [reflexivity|]. apply post_stop. auto. }
        destruct (col =? 0)%Z; [|apply Stop]. destruct (m_blank st && f_squeeze fl); [exact Go|]. destruct (m_cr st); [exact Go|apply Stop].
    + destruct (ceq c "["%char); apply Step; intros; left; discriminate.
    + destruct (final c); apply Step; intros; left; discriminate.
Qed.
Lemma loop_all fl : forall fuel inp st, length inp < fuel -> tabs_ok fl inp ->
  exists out st' add, more_loop fuel fl 0 st inp = Ret (out, st') /\ (forall p, tells inp p -> filter p out = filter p (inp ++ add)) /\ (add = [] \/ add = ["255"%char] /\ f_ansi fl = true /\ In ESC inp).
Proof.
  induction fuel as [|fuel IH]; intros inp st L T; [lia|]. cbn [more_loop].
  destruct (line_all fl inp Plain 0%Z st T) as (k & out & rest & st1 & add & E & K & L1 & _ & I & F & A). unfold pBat_MoreWriteLine. cbn [Z.eqb]. rewrite E. cbn [bind]. destruct k.
  - destruct (IH rest st1) as (o2 & st' & a2 & E2 & F2 & A2); [specialize (L1 eq_refl eq_refl ltac:(lia)); lia|intros X; apply T; auto|].
    rewrite E2. cbn [bind]. eexists _, _, a2. split; [reflexivity|]. destruct A as [->|(A & _)]; [|discriminate]. split.
    + intros p Hp. rewrite filter_app, F2, !filter_app, app_assoc, F by (auto; destruct Hp as [Hp1 Hp2]; split; auto). cbn [filter]. rewrite app_nil_r. auto.
    + destruct A2 as [->|(-> & X & Y)]; auto.
  - eexists _, _, add. split; [reflexivity|]. split; [|destruct A as [->|(_ & -> & [X|X])]; [auto|congruence|auto]].
    intros p Hp. rewrite filter_app, <- F by auto. rewrite (K eq_refl). cbn [filter]. rewrite app_nil_r. auto.
Qed.
Theorem C82_ink : forall fl st inp, (In TAB inp -> (0 < f_tab fl)%Z) ->
  exists out st' add, more_text fl 0 st inp = Ret (out, st') /\ filter ink out = filter ink (inp ++ add) /\
    (~ In TAB inp -> filter (fun c => negb (ceq c nl)) out = filter (fun c => negb (ceq c nl)) (inp ++ add)) /\
    (add = [] \/ add = ["255"%char] /\ f_ansi fl = true /\ In ESC inp).
Proof.
  intros fl st inp T. unfold more_text.
  destruct (loop_all fl (S (length inp)) inp st) as (out & st' & add & E & F & A); [lia|auto|].
  exists out, st', add. split; [auto|]. split; [apply F; repeat split|]. split; [|auto]. intros Nt. apply F. split; [reflexivity|tauto].
Qed.
Print Assumptions C82_ink.

(** No row is longer than 79 characters, if there are no control sequences and no characters of
    several bytes; tabs take the columns up to the next stop. *)
Definition single (fl : mflags) (c : ascii) : Prop := (f_ansi fl = true -> c <> ESC) /\ (f_u8 fl = true -> following c = false).
Fixpoint thin (col : nat) (out : cstr) : Prop := match out with [] => col <= 79 | c :: r => col <= 79 /\ thin (if ceq c nl then 0 else S col) r end.
Lemma thin_use : forall a l b col, thin col (a ++ l ++ b) -> ~ In nl l -> length l <= 79.
Proof.
  induction a as [|c a IH]; intros l b col T N; [|destruct T as [_ T]; eapply IH; eauto]. cbn [app] in T. cut (length l + col <= 79); [lia|]. revert col T.
  induction l as [|c l IH]; intros col T; [destruct b; cbn in *; lia|]. destruct T as [_ T]. assert (E : ceq c nl = false) by (apply ceq_false; intros ->; apply N; left; auto). rewrite E in T.
  apply IH in T; [cbn [length]; lia|]. intros X. apply N. right. auto.
Qed.
Lemma thin_app : forall o1 o2 col, thin col (o1 ++ [nl]) -> thin 0 o2 -> thin col ((o1 ++ [nl]) ++ o2).
Proof. induction o1 as [|c o1 IH]; intros o2 col T U; cbn [app thin] in *; [split; [apply T|exact U]|]. destruct T as [T1 T2]. split; [auto|]. apply IH; auto. Qed.
Lemma thin_spaces : forall n col out, thin (col + n) out -> col + n <= 79 -> thin col (repeat " "%char n ++ out).
Proof.
  induction n as [|n IH]; intros col out T L; cbn [repeat app]; [rewrite Nat.add_0_r in T; auto|]. cbn [thin]. split; [lia|]. change (ceq " "%char nl) with false. cbv iota. apply IH; [|lia].
  replace (S col + n) with (col + S n) by lia. auto.
Qed.
Lemma line_thin fl : forall inp col st k out rest st', Forall (single fl) inp -> (0 <= col <= 79)%Z -> write_line fl Plain col st inp = Ret (k, out, rest, st') ->
  thin (Z.to_nat col) out /\ (k = true -> exists o, out = o ++ [nl]) /\ Forall (single fl) rest.
Proof.
  assert (Full : forall col, (0 <= col <= 79)%Z -> thin (Z.to_nat col) [nl]) by (intros col C; cbn [thin]; change (ceq nl nl) with true; cbv iota; lia).
  induction inp as [|c r IH]; intros col st k out rest st' F C E; cbn [write_line] in E.
  - destruct (col <? 79)%Z; injection E as <- <- <- <-; (split; [|split; [|auto]]); auto; try discriminate; [cbn; lia|intros _; exists []; auto].
  - destruct (col <? 79)%Z eqn:Lt; [|injection E as <- <- <- <-; split; [auto|split; [intros _; exists []; auto|auto]]].
    apply Z.ltb_lt in Lt. inversion F as [|? ? [F1 F2] F']; subst.
    destruct (ceq c TAB).
    + destruct (f_tab fl <=? 0)%Z eqn:Tp; [discriminate|]. apply Z.leb_gt in Tp. pose proof (Z.mod_pos_bound col (f_tab fl) Tp) as Mb.
      destruct (col + _ <? 80)%Z eqn:Lt2; [|injection E as <- <- <- <-; split; [auto|split; [intros _; exists []; auto|auto]]].
      apply Z.ltb_lt in Lt2. set (nc := (f_tab fl - col mod f_tab fl)%Z) in *. assert (Hn : (0 < nc)%Z) by (unfold nc; lia). clearbody nc. unfold put_ in E. destruct (write_line fl Plain (col + nc) _ r) as [[[[k2 o2] r2] s2]| |] eqn:W; try discriminate.
      cbn [bind] in E. injection E as <- <- <- <-. destruct (IH (col + nc)%Z _ _ _ _ _ F' ltac:(lia) W) as (T & K & R). split; [|split; [|auto]].
      * apply thin_spaces; [|lia]. rewrite <- Z2Nat.inj_add by lia. auto.
      * intros X. destruct (K X) as [o ->]. rewrite app_assoc. eauto.
    + assert (Ea : f_ansi fl && ceq c ESC = false) by (destruct (f_ansi fl); [apply ceq_false; auto|reflexivity]). rewrite Ea in E.
      assert (Eu : f_u8 fl && following c = false) by (destruct (f_u8 fl); [apply F2; auto|reflexivity]). rewrite Eu in E.
      destruct (ceq c nl) eqn:Cn.
      * destruct (col =? 0)%Z.
        -- destruct (m_blank st && f_squeeze fl); [eapply IH; eauto|]. destruct (m_cr st); [eapply IH; eauto|]. injection E as <- <- <- <-. split; [auto|split; [intros _; exists []; auto|auto]].
        -- injection E as <- <- <- <-. split; [auto|split; [intros _; exists []; auto|auto]].
      * unfold put_ in E. destruct (write_line fl Plain (col + 1) _ r) as [[[[k2 o2] r2] s2]| |] eqn:W; try discriminate.
        cbn [bind] in E. injection E as <- <- <- <-. destruct (IH (col + 1)%Z _ _ _ _ _ F' ltac:(lia) W) as (T & K & R). split; [|split; [|auto]].
        -- cbn [app thin]. rewrite Cn. split; [lia|]. replace (S (Z.to_nat col)) with (Z.to_nat (col + 1)) by lia. auto.
        -- intros X. destruct (K X) as [o ->]. exists (c :: o). auto.
Qed.
Lemma loop_thin fl : forall fuel begin inp st out st', Forall (single fl) inp -> more_loop fuel fl begin st inp = Ret (out, st') -> thin 0 out.
Proof.
  induction fuel as [|fuel IH]; intros begin inp st out st' F E; cbn [more_loop] in E; [discriminate|]. unfold pBat_MoreWriteLine in E.
  destruct (write_line fl Plain 0 st inp) as [[[[k o] rest] s1]| |] eqn:W.
  - destruct (line_thin fl inp 0%Z st k o rest s1 F ltac:(lia) W) as (T & K & R). destruct (begin =? 0)%Z.
    + cbn [bind] in E. destruct k; [|injection E as <- <-; exact T]. destruct (more_loop fuel fl 0 s1 rest) as [[o2 s2]| |] eqn:M; try discriminate. cbn [bind] in E. injection E as <- <-.
      destruct (K eq_refl) as [o' ->]. apply thin_app; [exact T|]. eapply IH; eauto.
    + destruct (begin =? INT_MIN)%Z; [discriminate|]. cbn [bind] in E. destruct k; [|injection E as <- <-; cbn; lia].
      destruct (more_loop fuel fl (begin - 1) s1 rest) as [[o2 s2]| |] eqn:M; try discriminate. cbn [bind] in E. injection E as <- <-. eapply IH; eauto.
  - destruct (begin =? 0)%Z; [discriminate|]. destruct (begin =? INT_MIN)%Z; discriminate.
  - destruct (begin =? 0)%Z; [discriminate|]. destruct (begin =? INT_MIN)%Z; discriminate.
Qed.
Theorem C82_width : forall fl begin st inp out st', Forall (single fl) inp -> more_text fl begin st inp = Ret (out, st') ->
  forall a l b, out = a ++ l ++ b -> ~ In nl l -> length l <= 79.
Proof. intros fl begin st inp out st' F E a l b -> N. eapply thin_use; [eapply loop_thin; eauto|auto]. Qed.
Print Assumptions C82_width.

Definition usual (tab : Z) : mflags := mkMF false true true tab.
Definition shows (fl : mflags) (begin : Z) (inp out : cstr) : Prop := exists st, more_text fl begin (mkM false false) inp = Ret (out, st).
Definition xs (n : nat) : cstr := repeat "x"%char n.
(** An empty line below a full row gets lost. *)
Theorem C82_blank_refuted : shows (usual 8) 0 (xs 79 ++ [nl; nl; nl] ++ s2l "y") (xs 79 ++ [nl] ++ s2l "y").
Proof. eexists. vm_compute. reflexivity. Qed.
Print Assumptions C82_blank_refuted.
(** A character of several bytes in the last column is cut. *)
Theorem C82_utf8_refuted : shows (usual 8) 0 (xs 78 ++ ["195"%char; "169"%char] ++ s2l "y") (xs 78 ++ ["195"%char; nl; "169"%char] ++ s2l "y").
Proof. eexists. vm_compute. reflexivity. Qed.
Print Assumptions C82_utf8_refuted.
(** A text that ends within a control sequence gets a byte that was not there. *)
Theorem C82_escape_refuted : shows (usual 8) 0 (s2l "a" ++ ESC :: s2l "[1") (s2l "a" ++ ESC :: s2l "[1" ++ ["255"%char]).
Proof. eexists. vm_compute. reflexivity. Qed.
Print Assumptions C82_escape_refuted.
(** +1 leaves out a row, not a line of the text. *)
Theorem C82_skip_refuted : shows (usual 8) 1 (xs 100 ++ [nl] ++ s2l "y") (xs 21 ++ [nl] ++ s2l "y").
Proof. eexists. vm_compute. reflexivity. Qed.
Print Assumptions C82_skip_refuted.
(** A tab is printed at once with a size that is positive only. *)
Theorem C82_tab_refuted : forall fl begin st, (f_tab fl <= 0)%Z -> more_text fl begin st [TAB] = Undef.
Proof.
  intros fl begin st T. unfold more_text, pBat_MoreWriteLine. cbn [length more_loop]. unfold pBat_MoreWriteLine. cbn [write_line]. change (0 <? 79)%Z with true. change (ceq TAB TAB) with true. cbv iota.
  apply Z.leb_le in T. rewrite T. destruct (begin =? 0)%Z; [reflexivity|]. destruct (begin =? INT_MIN)%Z; reflexivity.
Qed.
Print Assumptions C82_tab_refuted.

Example C82_ex :
  Forall (Forall (plain (usual 8))) [xs 100; []; []; s2l "b"] /\ Forall2 cut (kept true None [xs 100; []; []; s2l "b"]) [[xs 79; xs 21]; [[]]; [s2l "b"]] /\ last_rows (s2l "end") [s2l "end"] /\
  shows (mkMF true true true 8) 0 (xs 100 ++ [nl; nl; nl] ++ s2l "b" ++ [nl] ++ s2l "end") (xs 79 ++ [nl] ++ xs 21 ++ [nl; nl] ++ s2l "b" ++ [nl] ++ s2l "end") /\
  shows (usual 8) 0 (s2l "a" ++ TAB :: s2l "b") (s2l "a       b") /\ shows (usual 8) 0 (xs 75 ++ TAB :: s2l "b") (xs 75 ++ [nl] ++ s2l "b").
Proof.
  assert (Px : forall n, Forall (plain (usual 8)) (xs n)) by (intros n; apply Forall_forall; intros c I; apply repeat_spec in I; subst c; repeat split; intros; discriminate || reflexivity).
  split; [repeat constructor; auto; intros; discriminate || reflexivity|]. split.
  - constructor; [|repeat (constructor; [constructor; cbn; lia|]); constructor]. change (xs 100) with (xs 79 ++ xs 21). apply cut_more; [reflexivity|discriminate|]. constructor. cbn. lia.
  - split; [right; split; [discriminate|]; exists [s2l "end"]; split; [constructor; cbn; lia|reflexivity]|]. repeat split; eexists; vm_compute; reflexivity.
Qed.
