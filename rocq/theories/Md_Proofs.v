(** Md_Proofs.v -- proofs about Markdown. *)

From Verif Require Import Base Tea_Model Tea_Spec Tea_Proofs Html_Model Md_Model Md_Spec.

Definition isp (c : ascii) : bool := existsb (ceq c) special.
Lemma isp_ok c : isp c = true <-> In c special.
Proof.
  unfold isp. rewrite existsb_exists. split; [intros (x & H & E); apply ceq_true in E; subst; auto|].
  intros H. exists c. split; auto. apply ceq_refl.
Qed.
Definition esc (c : ascii) : cstr := if isp c then [bslash; bslash; c] else [c].
Lemma esc1_app c a b : esc1 c (a ++ b) = esc1 c a ++ esc1 c b.
Proof. unfold esc1, replace1. apply flat_map_app. Qed.
Lemma MD_app a b : Tea_MDEscape (a ++ b) = Tea_MDEscape a ++ Tea_MDEscape b.
Proof. unfold Tea_MDEscape. rewrite !esc1_app. reflexivity. Qed.
Lemma MD_one c : Tea_MDEscape [c] = esc c.
Proof. destruct c as [[] [] [] [] [] [] [] []]; reflexivity. Qed.
Lemma MD_cons c s : Tea_MDEscape (c :: s) = esc c ++ Tea_MDEscape s.
Proof. change (c :: s) with ([c] ++ s). rewrite MD_app, MD_one. reflexivity. Qed.

Definition mk1 (o : option ascii) : list (option ascii) := match o with Some c => if isp c then [Some "\"%char; Some c] else [Some c] | None => [None] end.
Definition marks (l : list (option ascii)) : list (option ascii) := flat_map mk1 l.
Lemma MD_reads s l : reads s l -> reads (Tea_MDEscape s) (marks l).
Proof.
  induction 1 as [|c s l W R IH|c s l R IH|c s l W N R IH].
  - constructor.
  - rewrite MD_cons. replace (esc c) with [c]; [apply rd_white; auto|]. unfold esc. destruct (isp c) eqn:E; auto.
    apply isp_ok in E. cbv in E. repeat (destruct E as [<-|E]; [discriminate W|]). destruct E.
  - rewrite !MD_cons. change (esc "\") with ["\"%char]. cbn [marks flat_map mk1]. unfold esc. destruct (isp c); cbn [app].
    + change bslash with "\"%char. apply rd_esc. apply rd_esc. exact IH.
    + apply rd_esc. exact IH.
  - rewrite MD_cons. cbn [marks flat_map mk1]. unfold esc. destruct (isp c); cbn [app].
    + change bslash with "\"%char. apply rd_esc. apply rd_chr; auto.
    + apply rd_chr; auto.
Qed.
Lemma reads_app a la : reads a la -> forall b lb, reads b lb -> reads (a ++ b) (la ++ lb).
Proof. induction 1; intros b lb B; cbn [app]; [exact B|apply rd_white|apply rd_esc|apply rd_chr]; auto. Qed.
Lemma squeeze_app l : forall g k, squeeze g (l ++ k) = squeeze g l ++ squeeze (ends_blank g l) k.
Proof. induction l as [|[c|] l IH]; intros g k; cbn [app squeeze ends_blank]; auto; rewrite ?IH; auto. destruct g; rewrite ?IH; reflexivity. Qed.
Lemma ends_app l : forall g k, ends_blank g (l ++ k) = ends_blank (ends_blank g l) k.
Proof. induction l as [|[c|] l IH]; intros g k; cbn [app ends_blank]; auto. Qed.
Lemma ends_marks l : forall g, ends_blank g (marks l) = ends_blank g l.
Proof. induction l as [|[c|] l IH]; intros g; cbn [marks flat_map mk1 app ends_blank]; auto. destruct (isp c); cbn [app ends_blank]; apply IH. Qed.
Lemma plain_marks l : clean l -> forall g, plain (squeeze g (marks l)) (squeeze g l).
Proof.
  unfold clean. induction l as [|[c|] l IH]; intros C g; cbn [marks flat_map mk1 app squeeze]; [constructor| |].
  - assert (C' : ~ In (Some "\"%char) l) by (intros H; apply C; right; exact H).
    destruct (isp c) eqn:E; cbn [app squeeze].
    + apply pl_esc; [left; apply isp_ok; exact E|]. apply IH; auto.
    + apply pl_chr; [intros H; apply isp_ok in H; congruence|intros ->; apply C; left; reflexivity|]. apply IH; auto.
  - assert (C' : ~ In (Some "\"%char) l) by (intros H; apply C; right; exact H).
    destruct g; [apply IH; auto|]. apply pl_chr; [intros H; apply isp_ok in H; discriminate H|discriminate|]. apply IH; auto.
Qed.

Lemma text_ok g s l : reads s l -> Tea_SweepSpaceNode g s = (squeeze g l, ends_blank g l).
Proof. intros R. unfold Tea_SweepSpaceNode. rewrite (sweep_node _ _ R). reflexivity. Qed.
Definition somes (s : cstr) : list (option ascii) := map Some s.
Lemma reads_somes s : Forall (fun c => white c = false /\ c <> "\"%char) s -> reads s (somes s).
Proof. induction 1 as [|c s [W N] F IH]; cbn; constructor; auto. Qed.
Lemma squeeze_somes s k : forall g, s <> [] -> squeeze g (somes s ++ k) = s ++ squeeze false k.
Proof. induction s as [|c s IH]; intros g H; [congruence|]. destruct s as [|d s]; [reflexivity|]. cbn [somes map app squeeze]. f_equal. apply (IH false). discriminate. Qed.
Lemma ends_somes s k : forall g, s <> [] -> ends_blank g (somes s ++ k) = ends_blank false k.
Proof. induction s as [|c s IH]; intros g H; [congruence|]. destruct s as [|d s]; [reflexivity|]. cbn [somes map app ends_blank]. apply (IH false). discriminate. Qed.
Lemma last_somes l s g : s <> [] -> ends_blank g (l ++ somes s) = false /\ squeeze g (l ++ somes s) = squeeze g l ++ s.
Proof.
  intros H. rewrite ends_app, squeeze_app. rewrite <- (app_nil_r (somes s)), ends_somes, squeeze_somes by auto. cbn [squeeze ends_blank]. rewrite app_nil_r. auto.
Qed.
Ltac cw := repeat (constructor; [split; [reflexivity|discriminate]|]); constructor.

Lemma node_ok g x y : stands g x y -> exists h, leaves g x h /\ snd (md_text g x) = h /\ marked (fst (md_text g x)) y.
Proof.
  destruct 1 as [g s l R C|g s l R C|g a s l k R C Ra Ca]; unfold md_text; cbn [Tea_MDParseHandler text_of].
  - exists (ends_blank g l). split; [constructor; auto|]. rewrite (text_ok g _ _ (MD_reads _ _ R)). cbn [fst snd]. rewrite ends_marks. split; auto.
    constructor. apply plain_marks; auto.
  - exists false. split; [constructor|].
    assert (RR : reads (s2l "**" ++ Tea_MDEscape s ++ s2l "**") (somes (s2l "**") ++ marks l ++ somes (s2l "**"))).
    { apply reads_app; [apply reads_somes; cw|]. apply reads_app; [apply MD_reads; auto|apply reads_somes; cw]. }
    rewrite (text_ok g _ _ RR). cbn [fst snd]. rewrite ends_somes, squeeze_somes by discriminate.
    destruct (last_somes (marks l) (s2l "**") false ltac:(discriminate)) as [-> ->]. split; auto. constructor. apply plain_marks; auto.
  - exists false. split; [constructor|].
    assert (RR : reads (s2l "[" ++ Tea_MDEscape s ++ s2l "]" ++ s2l "(" ++ Tea_MDEscape a ++ s2l ")") (somes (s2l "[") ++ marks l ++ somes (s2l "](") ++ marks k ++ somes (s2l ")"))).
    { apply reads_app; [apply reads_somes; cw|]. apply reads_app; [apply MD_reads; auto|]. 
      change (s2l "]" ++ s2l "(" ++ Tea_MDEscape a ++ s2l ")") with (s2l "](" ++ Tea_MDEscape a ++ s2l ")").
      apply reads_app; [apply reads_somes; cw|]. apply reads_app; [apply MD_reads; auto|apply reads_somes; cw]. }
    rewrite (text_ok g _ _ RR). cbn [fst snd]. rewrite ends_somes, squeeze_somes by discriminate.
    rewrite ends_app, squeeze_app, ends_somes, squeeze_somes by discriminate.
    destruct (last_somes (marks k) (s2l ")") false ltac:(discriminate)) as [-> ->]. split; auto. constructor; apply plain_marks; auto.
Qed.
Lemma para_ok xs : forall g, Forall (fun x => forall g, exists y, stands g x y) xs -> para g xs (md_paragraph g xs).
Proof.
  induction xs as [|x xs IH]; intros g F; cbn [md_paragraph]; [constructor|]. inversion F as [|? ? X F']; subst.
  destruct (X g) as [y S]. destruct (node_ok g x y S) as (h & L & E & M). destruct (md_text g x) as [t b]. cbn [fst snd] in *. subst b.
  econstructor; eauto.
Qed.
Lemma plain_fun m t : plain m t -> forall t', plain m t' -> t' = t.
Proof.
  induction 1 as [|c m t H P IH|c m t N B P IH]; intros t' Q; inversion Q; subst; auto; try (f_equal; auto); try congruence.
  all: match goal with [H : "\"%char <> "\"%char |- _] => congruence end.
Qed.
