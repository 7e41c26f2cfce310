(** RunBlock_Proofs.v -- lemmas on blocks of lines. *)

From Verif Require Import Base StrLib_Model Env_Model Var_Model Expand_Model Args_Model Block_Model CmdList_Model
  Parse_Model Args_Spec Args_Proofs Block_Spec Block_Proofs Block_Props Stream_Model Stream_Spec Stream_Proofs If_Model Body_Model For_Model Run_Model Run_Spec Run_Proofs RunBlock_Spec.

(** *** More fuel gives the same *)
Definition le_out {A} (a b : outcome A) : Prop := a = OutOfFuel \/ a = b.
Lemma le_refl {A} (a : outcome A) : le_out a a.
Proof. right. reflexivity. Qed.
Lemma bind_le {A B} (a b : outcome A) (f g : A -> outcome B) : le_out a b -> (forall x, le_out (f x) (g x)) -> le_out (bind a f) (bind b g).
Proof. intros [->| ->] H; [left; reflexivity|]. destruct b; simpl; auto using le_refl. Qed.


(** *** Ends of lines *)
Lemma lead_split b : lead b -> exists p b2, b = p ++ b2 /\ Forall blank p /\ lead b2 /\ (b2 = [] \/ exists r, b2 = "@"%char :: r).
Proof.
  induction 1 as [|c b H L IH]; [exists [], []; repeat split; auto; constructor|].
  destruct (ascii_dec c "@"%char) as [->|N].
  - exists [], ("@"%char :: b). split; [reflexivity|]. split; [constructor|]. split; [constructor; auto|right; eauto].
  - destruct IH as (p & b2 & -> & F & L2 & E). exists (c :: p), b2. split; [reflexivity|]. split; [|auto]. constructor; auto.
    unfold blank. cbv in H |- *. intuition congruence.
Qed.
Definition dark (s : cstr) : Prop := exists c r, s = c :: r /\ ~ blank c.
Lemma dark_at r : dark ("@"%char :: r).
Proof. exists "@"%char, r. split; auto. unfold blank. cbv. intuition discriminate. Qed.
Lemma dark_par r : dark ("("%char :: r).
Proof. exists "("%char, r. split; auto. unfold blank. cbv. intuition discriminate. Qed.
Lemma not_visible p : Forall blank p -> ~ visible p.
Proof. intros H X. apply Exists_exists in X. destruct X as (c & I & N). rewrite Forall_forall in H. auto. Qed.
Lemma visible_skip p q : Forall blank p -> visible (p ++ q) -> visible q.
Proof. intros H X. unfold visible in *. apply Exists_app in X. destruct X as [X|X]; auto. exfalso. apply (not_visible p H X). Qed.

Lemma line_skip l : line false l -> visible l -> exists p l2, l = p ++ l2 /\ Forall blank p /\ line false l2 /\ dark l2.
Proof.
  intros H V. inversion H as [par b t B T Q|par b i B I|par b t B HD T X]; subst.
  - destruct (lead_split b B) as (p & b2 & -> & F & L2 & E). exists p, (b2 ++ t). rewrite <- app_assoc in *. split; auto. split; auto.
    split; [apply ln_plain; auto|]. destruct E as [->|(r & ->)]; [|apply dark_at].
    apply visible_skip in V; auto. simpl in V |- *. destruct t as [|c t]; [inversion V|]. exists c, t. split; auto.
    intros Bc. destruct T as [T _]. apply (T c t eq_refl). apply quiet_nl in Q. unfold blank in Bc. cbv in Bc, Q |- *. intuition.
  - destruct (lead_split b B) as (p & b2 & -> & F & L2 & E). exists p, (b2 ++ "("%char :: i ++ [")"%char]). rewrite <- app_assoc in *. split; auto. split; auto.
    split; [apply ln_block; auto|]. destruct E as [->|(r & ->)]; [apply dark_par|apply dark_at].
  - destruct (lead_split b B) as (p & b2 & -> & F & L2 & E). exists p, (b2 ++ t). rewrite <- app_assoc in *. split; auto. split; auto.
    split; [apply ln_cmd; auto|]. destruct E as [->|(r & ->)]; [|apply dark_at].
    destruct (takes_head' t T) as (c & r & -> & N). exists c, r. split; auto. intros Bc. apply N. unfold blank in Bc. cbv in Bc |- *. intuition.
Qed.
Lemma op_dark op : Forall (fun c => In c (s2l "&|")) op -> length op = 1 \/ length op = 2 -> forall r, dark (op ++ r).
Proof.
  intros H L r. destruct op as [|c op]; [simpl in L; lia|]. inversion H as [|? ? C]; subst. exists c, (op ++ r). split; auto.
  unfold blank. cbv in C |- *. intuition (subst; discriminate).
Qed.
Lemma line_nil : line false [].
Proof.
  apply (ln_plain false [] []); [constructor| |].
  - split; [discriminate|]. intros (n & d & r & E & _ & K). destruct n as [|x [|y n]]; [|discriminate..].
    destruct K as [K|[K|K]]; discriminate K.
  - split; [exists []; constructor|]. split; [exists 0; reflexivity|].
    split; [intros i (X & _)|intros i ((X & _) & _)]; destruct i; discriminate.
Qed.
Lemma bline_skip l : bline l -> visible l -> exists p l2, l = p ++ l2 /\ Forall blank p /\ bline l2 /\ dark l2.
Proof.
  intros H V. destruct H as [l H|l op r H O LO R|b i r B I S W H].
  - destruct (line_skip l H V) as (p & l2 & -> & F & L & D). exists p, l2. split; auto. split; auto. split; auto. apply bl_end; auto.
  - assert (X : {visible l} + {Forall blank l}).
    { clear. induction l as [|c l [IH|IH]]; [right; constructor|left; apply Exists_cons_tl; auto|].
      destruct (in_dec ascii_dec c (s2l " ,;" ++ ["009"%char; "010"%char])); [right; constructor; auto|left; apply Exists_cons_hd; auto]. }
    destruct X as [X|X].
    + destruct (line_skip l H X) as (p & l2 & -> & F & L & D). exists p, (l2 ++ op ++ r). rewrite <- app_assoc. split; auto. split; auto.
      split; [apply bl_op; auto|]. destruct D as (c & x & -> & N). exists c, (x ++ op ++ r). auto.
    + exists l, (op ++ r). split; auto. split; auto. split; [apply (bl_op [] op r); auto; apply line_nil|apply op_dark; auto].
  - destruct (lead_split b B) as (p & b2 & -> & F & L2 & E). exists p, (b2 ++ "("%char :: i ++ ")"%char :: r). rewrite <- app_assoc. split; auto. split; auto.
    split; [apply bl_block; auto|]. destruct E as [->|(x & ->)]; [apply dark_par|apply dark_at].
Qed.

Definition eol (rest : cstr) : Prop := rest = [] \/ exists r, rest = nl :: r.
Lemma skip_op_eol rest : eol rest -> skip_op rest = rest.
Proof. intros [->|(r & ->)]; reflexivity. Qed.
Lemma skip_op_start r rest : starts_ok r -> skip_op (r ++ rest) = r ++ rest.
Proof.
  intros (c & x & -> & N). simpl. destruct (ceq c "&"%char) eqn:A; [apply ceq_true in A; subst; destruct N; cbv; tauto|].
  destruct (ceq c "|"%char) eqn:B; auto. apply ceq_true in B; subst; destruct N; cbv; tauto.
Qed.
Lemma skip_ops op r : Forall (fun c => In c (s2l "&|")) op -> length op = 1 \/ length op = 2 -> skip_op r = r ->
  skip_op (skip_op (op ++ r)) = r.
Proof.
  intros H L E. assert (X : forall c y, In c (s2l "&|") -> skip_op (c :: y) = y) by (intros c y [<-|[<-|[]]]; reflexivity).
  destruct op as [|c [|d [|? op]]]; simpl in L; try lia; inversion H as [|? ? C H']; subst; cbn [app]; rewrite (X c) by auto; auto.
  inversion H'; subst. apply X; auto.
Qed.
Lemma dark_skip p l rest : Forall blank p -> dark l -> pBat_SkipBlanks (p ++ l ++ rest) = l ++ rest.
Proof. intros F (c & r & -> & N). apply skip_blanks; auto. intros d x [= <- _]. auto. Qed.

Lemma line_end_ok l : bline l -> visible l -> forall g rest f, Forall blank g -> eol rest -> length l < f ->
  line_end f (g ++ l ++ rest) = Ret rest.
Proof.
  intros H V g rest f. remember (length l) as n eqn:N. revert l H V g f N. induction n as [n IH] using lt_wf_ind.
  intros l H V g f N G E F. subst n. destruct (bline_skip l H V) as (p & l2 & -> & P & H2 & D).
  assert (GP : Forall blank (g ++ p)) by (apply Forall_app; auto).
  destruct f as [|f]; [lia|]. cbn [line_end]. replace (g ++ (p ++ l2) ++ rest) with ((g ++ p) ++ l2 ++ rest) by (rewrite <- !app_assoc; reflexivity).
  rewrite dark_skip by auto. rewrite app_length in F.
  assert (T : forall r, starts_ok r -> visible r -> bline r -> length r < length l2 ->
     match r ++ rest with [] => Ret (r ++ rest) | c :: _ => if ceq c nl || ceq c ")"%char then Ret (r ++ rest) else line_end f (r ++ rest) end = Ret rest).
  { intros r S W B L. destruct S as (c & x & -> & K). cbn [app].
    assert (A : ceq c nl || ceq c ")"%char = false).
    { apply Bool.orb_false_iff. split; apply ceq_false; intros ->; apply K; cbv; tauto. }
    rewrite A. apply (IH (length (c :: x))) with (l := c :: x) (g := []); auto; try (rewrite app_length; simpl in *; lia). simpl in *; lia. }
  destruct H2 as [l H2|l op r H2 O LO R|b i r B I S W H2].
  - rewrite C53_line; auto; [|destruct E as [->|(r & ->)]; [left; auto|right; exists nl, r; split; auto; cbv; tauto]].
    cbn [bind]. rewrite !(skip_op_eol rest) by auto. destruct E as [->|(r & ->)]; reflexivity.
  - rewrite <- !app_assoc. rewrite C53_line; auto.
    2: { right. destruct op as [|c op]; [simpl in LO; lia|]. inversion O as [|? ? C]; subst. exists c, (op ++ r ++ rest). split; auto. cbv in C |- *. tauto. }
    cbn [bind]. rewrite skip_ops; auto.
    + destruct R as [->|(S & W & R)].
      * simpl. destruct E as [->|(r & ->)]; reflexivity.
      * apply T; auto. rewrite !app_length. destruct op; simpl in *; lia.
    + destruct R as [->|(S & W & R)]; [simpl; apply skip_op_eol; auto|apply skip_op_start; auto].
  - unfold pBat_GetBlockLineEndEx.
    replace ((b ++ "("%char :: i ++ ")"%char :: r) ++ rest) with (b ++ "("%char :: i ++ ")"%char :: r ++ rest)
      by (rewrite <- !app_assoc; simpl; rewrite <- !app_assoc; reflexivity).
    rewrite okL_block; auto; [|apply (proj1 blocks_ok i I)|].
    2: { unfold scan_fuel. rewrite !app_length. simpl. rewrite app_length. lia. }
    cbn [bind]. rewrite !(skip_op_start r rest) by auto. apply T; auto. rewrite !app_length. simpl. rewrite app_length. simpl. lia.
Qed.
Lemma allskip_blank g l : Forall blank g -> pBat_SkipAllBlanks (g ++ l) = pBat_SkipAllBlanks l.
Proof. induction 1 as [|c g B G IH]; auto. simpl. rewrite (proj2 (delim_blank c) B). auto. Qed.
Lemma allskip_app l rest : pBat_SkipAllBlanks l <> [] -> pBat_SkipAllBlanks (l ++ rest) <> [].
Proof. induction l as [|c l IH]; intros H; [destruct H; auto|]. simpl in *. destruct (_ || _); auto. discriminate. Qed.
Lemma allskip_visible l : pBat_SkipAllBlanks l <> [] -> visible l.
Proof.
  induction l as [|c l IH]; intros H; [destruct H; auto|]. simpl in H. destruct (pBat_IsDelim c) eqn:D; cbn [orb] in H.
  - apply Exists_cons_tl. apply IH. exact H.
  - apply Exists_cons_hd. intros B. apply delim_blank in B. congruence.
Qed.
Lemma line_end_blank b f : Forall blank b -> line_end (S f) b = Ret [].
Proof.
  intros H. cbn [line_end]. pose proof (skip_blanks b [] H ltac:(discriminate)) as X. rewrite app_nil_r in X. rewrite X. reflexivity.
Qed.

Section R.
Variable leaf : list event -> xworld -> cstr -> leafres.
Variable can_open : list event -> cstr -> std -> bool -> bool.
Variable fio : forio.
Variable table : tree.
Variable strtod : cstr -> dbl * nat.
Variable exists_file : list event -> cstr -> bool.
Variable ka : Z.
Notation run := (run leaf can_open fio table strtod exists_file ka).
Notation run_lines := (run_lines leaf can_open fio table strtod exists_file ka).
Notation run_line := (run_line leaf can_open fio table strtod exists_file ka).

Definition below (f g : nat) : Prop :=
  (forall j r, le_out (run f j r) (run g j r)) /\ (forall b r, le_out (run_lines f b r) (run_lines g b r)) /\
  (forall l r, le_out (run_line f l r) (run_line g l r)).
Lemma below_step f g : below f g -> below (S f) (S g).
Proof.
  intros (I1 & I2 & I3).
  assert (G : forall A (x : outcome A), le_out x x) by (intros; apply le_refl).
  split; [|split].
  - intros [c|c|b|s0 c] r; cbn [Run_Model.run].
    + destruct c as [|[[n t] st] tl]; [apply G|].
      apply bind_le; [apply G|]. intros [[[skip pre] cur] r1]. destruct cur as [|[[n1 t1] st1] tl1]; [apply G|].
      destruct (_ || _).
      * apply bind_le; [apply G|]. intros s. cbv zeta. destruct (_ || _); [apply G|]. apply bind_le; [apply I1|]. intros [[? ?] ?]. apply G.
      * apply bind_le; [apply G|]. intros s. apply bind_le; [apply I1|]. intros [[c2 stop] r2]. apply bind_le; [apply G|]. intros s2. cbv zeta.
        destruct c2; [apply G|]. destruct (_ || _); [apply G|]. apply bind_le; [apply I1|]. intros [[? ?] ?]. apply G.
    + destruct c as [|[[n t] st] tl]; [apply G|]. apply bind_le; [apply G|]. intros e. cbv zeta.
      destruct (streqb _ (s2l "CmdBlock")).
      { apply bind_le; [apply G|]. intros [b0 e0]. apply bind_le; [apply G|]. intros [u w].
        destruct e0 as [|ch e1]; [apply G|]. destruct ch as [[] [] [] [] [] [] [] []]; try apply G.
        destruct (pBat_SkipBlanks e1); [|apply G]. apply bind_le; [apply I1|]. intros [[? ?] ?]. apply G. }
      destruct (streqb _ (s2l "CmdIf")).
      { apply bind_le; [apply G|]. intros [res w]. destruct res as [code keep|[] rest]; [apply G| |].
        - apply bind_le; [apply G|]. intros [b0 e0]. destruct (after_par e0); (apply bind_le; [apply I1|]; intros [[? ?] ?]; apply G).
        - destruct (opens _); [|apply G]. apply bind_le; [apply G|]. intros [b0 e0]. destruct (_ && _).
          + apply bind_le; [apply G|]. intros [b1 e1]. destruct (after_par e1); [|apply G]. apply bind_le; [apply I1|]; intros [[? ?] ?]; apply G.
          + destruct (after_par e0); apply G. }
      destruct (streqb _ (s2l "CmdFor")); [|apply G].
      apply bind_le; [apply G|]. intros [[code|b0 code|b0 s0 cmd] w]; [apply G|apply G|]. apply bind_le; [apply I1|]. intros [[? ?] ?]. apply G.
    + apply bind_le; [apply I2|]. intros. apply G.
    + apply bind_le; [apply G|]. intros [|s1|w s1]; [apply G|apply I1|]. apply bind_le; [apply I1|]. intros [[? ?] ?]. destruct (_ =? _)%Z; [apply I1|apply G].
  - intros b r. cbn [Run_Model.run_lines]. destruct b; [apply G|]. apply bind_le; [apply G|]. intros e. cbv zeta.
    destruct (pBat_SkipAllBlanks _); [apply I2|]. apply bind_le; [apply I3|]. intros r1. destruct (_ || _); [apply G|apply I2].
  - intros l r. cbn [Run_Model.run_line].
    assert (H : le_out (do (p, w) <- pBat_ParseLine (vw_cd (x_var (r_x r))) (r_x r) l;
                 match p with inl _ => Ret (set_x r w) | inr c => do (_, _, r1) <- run f (JLine c) (set_x r w); Ret r1 end)
               (do (p, w) <- pBat_ParseLine (vw_cd (x_var (r_x r))) (r_x r) l;
                 match p with inl _ => Ret (set_x r w) | inr c => do (_, _, r1) <- run g (JLine c) (set_x r w); Ret r1 end)).
    { apply bind_le; [apply G|]. intros [[e|c] w]; [apply G|]. apply bind_le; [apply I1|]. intros [[? ?] ?]. apply G. }
    destruct (pBat_SkipBlanks l) as [|ch q]; [exact H|]. destruct ch as [[] [] [] [] [] [] [] []]; try exact H. apply G.
Qed.
Lemma below_le f g : f <= g -> below f g.
Proof.
  revert g. induction f as [|f IH]; intros g H.
  - split; [|split]; intros; left; reflexivity.
  - destruct g as [|g]; [lia|]. apply below_step. apply IH. lia.
Qed.

(** *** Execution that ends, with any fuel *)
Notation line_goes := (line_goes leaf can_open fio table strtod exists_file ka).
Notation lines_go := (lines_go leaf can_open fio table strtod exists_file ka).
Notation chain_goes := (chain_goes leaf can_open fio table strtod exists_file ka).
Notation lines_seq := (lines_seq leaf can_open fio table strtod exists_file ka).

Lemma more_lines f g b r x : f <= g -> run_lines f b r = Ret x -> run_lines g b r = Ret x.
Proof. intros H E. destruct (below_le f g H) as (_ & I & _). destruct (I b r) as [Q|Q]; congruence. Qed.
Lemma more_line f g b r x : f <= g -> run_line f b r = Ret x -> run_line g b r = Ret x.
Proof. intros H E. destruct (below_le f g H) as (_ & _ & I). destruct (I b r) as [Q|Q]; congruence. Qed.
Lemma more_run f g b r x : f <= g -> run f b r = Ret x -> run g b r = Ret x.
Proof. intros H E. destruct (below_le f g H) as (I & _ & _). destruct (I b r) as [Q|Q]; congruence. Qed.

Lemma line_goes_det l r a b : line_goes l r a -> line_goes l r b -> a = b.
Proof.
  intros (f & A) (g & B). apply (more_line f (f + g)) in A; [|lia]. apply (more_line g (f + g)) in B; [|lia]. congruence.
Qed.
Lemma lines_go_det l r a b : lines_go l r a -> lines_go l r b -> a = b.
Proof.
  intros (f & A) (g & B). apply (more_lines f (f + g)) in A; [|lia]. apply (more_lines g (f + g)) in B; [|lia]. congruence.
Qed.

Lemma blines_go ls b : blines ls b -> forall r r', lines_go b r r' <-> lines_seq ls r r'.
Proof.
  assert (K : forall g l rest, eol rest -> Forall blank g -> bline l -> pBat_SkipAllBlanks l <> [] -> forall f r,
    run_lines (Datatypes.S f) (g ++ l ++ rest) r =
    do r1 <- run_line f (g ++ l) r;
    if (r_abort r1 =? -1)%Z || (r_abort r1 =? 2)%Z then Ret r1
    else run_lines f (match rest with _ :: q => q | [] => [] end) (go_on r1)).
  { intros g l rest E G B N f r. pose proof (allskip_visible l N) as V.
    pose proof (line_end_ok l B V g rest (Datatypes.S (length (g ++ l ++ rest))) G E) as L.
    assert (Q : pBat_SkipAllBlanks (g ++ l ++ rest) <> []) by (rewrite allskip_blank by auto; apply allskip_app; auto).
    assert (W : firstn (length (g ++ l ++ rest) - length rest) (g ++ l ++ rest) = g ++ l).
    { rewrite app_assoc. rewrite (app_length (g ++ l)). replace (length (g ++ l) + length rest - length rest) with (length (g ++ l)) by lia.
      rewrite firstn_app, Nat.sub_diag, firstn_all. simpl. apply app_nil_r. }
    specialize (L ltac:(rewrite !app_length; lia)). destruct (g ++ l ++ rest) as [|c0 t]; [destruct Q; reflexivity|].
    cbn [Run_Model.run_lines]. rewrite L. cbn [bind]. rewrite W. destruct (pBat_SkipAllBlanks (c0 :: t)); [destruct Q; auto|]. reflexivity. }
  assert (Z0 : forall z : rst, (r_abort z =? -1)%Z || (r_abort z =? 2)%Z = true <-> r_abort z = (-1)%Z \/ r_abort z = 2%Z).
  { intros z. rewrite Bool.orb_true_iff, !Z.eqb_eq. tauto. }
  assert (Z1 : forall z : rst, (r_abort z =? -1)%Z || (r_abort z =? 2)%Z = false <-> r_abort z <> (-1)%Z /\ r_abort z <> 2%Z).
  { intros z. rewrite Bool.orb_false_iff, !Z.eqb_neq. tauto. }
  assert (C : forall g l ls rest, eol rest -> Forall blank g -> bline l -> pBat_SkipAllBlanks l <> [] ->
    (forall r r', lines_go (match rest with _ :: q => q | [] => [] end) r r' <-> lines_seq ls r r') ->
    forall r r', lines_go (g ++ l ++ rest) r r' <-> lines_seq ((g ++ l) :: ls) r r').
  { intros g l ls0 rest E G B N IH r r'. split.
    - intros ([|f] & H); [discriminate|]. rewrite K in H by auto. destruct (run_line f (g ++ l) r) as [r1| |] eqn:L; try discriminate. cbn [bind] in H.
      destruct (_ || _) eqn:A in H.
      + injection H as <-. eapply sq_stop; [exists f; exact L|]. apply Z0; auto.
      + apply Z1 in A. eapply sq_next; [exists f; exact L|apply A|apply A|]. apply IH. exists f. exact H.
    - intros H. inversion H as [|? ? ? ? (f & L) A|? ? ? r1 ? (f & L) A1 A2 Q]; subst.
      + exists (Datatypes.S f). rewrite K, L by auto. cbn [bind]. rewrite (proj2 (Z0 r') A). reflexivity.
      + apply IH in Q. destruct Q as (f2 & Q). exists (Datatypes.S (f + f2)). rewrite K by auto.
        rewrite (more_line f (f + f2) (g ++ l) r r1) by (auto; lia). cbn [bind]. rewrite (proj2 (Z1 r1) (conj A1 A2)).
        apply (more_lines f2); [lia|auto]. }
  assert (NIL : forall b, Forall blank b -> forall r r', lines_go b r r' <-> lines_seq [] r r').
  { clear ls b. intros b B r r'. 
    assert (X : forall f, 2 <= f -> run_lines f b r = Ret r).
    { intros f F. destruct f as [|f]; [lia|]. cbn [Run_Model.run_lines]. destruct b as [|c b]; auto. rewrite line_end_blank by auto. cbn [bind].
      pose proof (allskip_blank (c :: b) [] B) as Q. rewrite app_nil_r in Q. cbn [pBat_SkipAllBlanks] in Q |- *. rewrite Q.
      destruct f as [|f]; [lia|]. reflexivity. }
    split.
    - intros (f & H). apply (more_lines f (f + 2)) in H; [|lia]. rewrite X in H by lia. injection H as <-. constructor.
    - intros H. inversion H; subst. exists 2. apply X. lia. }
  induction 1 as [b B|g l G B N|g l ls r0 G B N H IH].
  - apply NIL. auto.
  - intros r r'. replace (g ++ l) with (g ++ l ++ []) at 1 by (rewrite app_nil_r; reflexivity). apply C; auto. left. reflexivity.
  - apply C; auto. right. eauto.
Qed.
End R.
