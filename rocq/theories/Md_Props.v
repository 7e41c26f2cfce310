(** Md_Props.v -- C104: the text of a document stays text in Markdown. *)

From Verif Require Import Base Tea_Model Tea_Spec Html_Model Md_Model Md_Spec Md_Proofs.

(** A text is written such that Markdown reads it, and nothing else. *)
Theorem C104_text : forall g s l, reads s l -> clean l ->
  plain (fst (md_text g (Plain s))) (squeeze g l) /\ (forall t, plain (fst (md_text g (Plain s))) t -> t = squeeze g l).
Proof.
  intros g s l R C. assert (P : plain (fst (md_text g (Plain s))) (squeeze g l)).
  { unfold md_text. cbn [Tea_MDParseHandler text_of]. rewrite (text_ok g _ _ (MD_reads _ _ R)). apply plain_marks; auto. }
  split; auto. intros t T. eapply plain_fun; eauto.
Qed.
Print Assumptions C104_text.

(** So are emphasis and links. *)
Theorem C104_node : forall g x y, stands g x y -> marked (fst (md_text g x)) y.
Proof. intros g x y S. destruct (node_ok g x y S) as (h & _ & _ & M). exact M. Qed.
Print Assumptions C104_node.

(** And all nodes of a paragraph, one after the other. *)
Theorem C104_paragraph : forall g xs, Forall (fun x => forall g, exists y, stands g x y) xs -> para g xs (md_paragraph g xs).
Proof. intros g xs. apply para_ok. Qed.
Print Assumptions C104_paragraph.

Lemma ex_no l : forallb (fun o => match o with Some c => negb (ceq c "\"%char) | None => true end) l = true -> clean l.
Proof. intros H I. rewrite forallb_forall in H. specialize (H _ I). discriminate H. Qed.
Lemma ex_reads s : forallb (fun c => negb (ceq c "\"%char)) s = true -> reads s (map (fun c => if white c then None else Some c) s).
Proof.
  induction s as [|c s IH]; cbn [forallb map]; intros H; [constructor|]. apply andb_prop in H. destruct H as [A B]. specialize (IH B).
  destruct (white c) eqn:W; [apply rd_white; auto|]. apply rd_chr; auto. intros ->. discriminate A.
Qed.
Example C104_ex :
  (exists l, reads (s2l " a_b  \*c") l /\ clean l /\ squeeze true l = s2l "a_b *c") /\ fst (md_text true (Plain (s2l " a_b  \*c"))) = s2l "a\_b \*c" /\
  stands false (Link (s2l "f(x)") (s2l "see [1]")) (Link (s2l "f(x)") (s2l "see [1]")) /\
  md_paragraph true [Plain (s2l " x "); Emphasis (s2l "so #1"); Link (s2l "f(x)") (s2l "see [1]"); Plain (s2l "  .")] =
    [s2l "x "; s2l "**so \#1**"; s2l "[see \[1\]](f\(x\))"; s2l " ."].
Proof.
  split.
  { exists [None; Some "a"; Some "_"; Some "b"; None; None; Some "*"; Some "c"]%char. split; [|split; [apply ex_no; reflexivity|reflexivity]].
    apply rd_white; [reflexivity|]. do 3 (apply rd_chr; [reflexivity|discriminate|]). do 2 (apply rd_white; [reflexivity|]). apply rd_esc.
    apply rd_chr; [reflexivity|discriminate|]. constructor. }
  split; [reflexivity|]. split; [|reflexivity].
  exact (st_link false (s2l "f(x)") (s2l "see [1]") _ _ (ex_reads (s2l "see [1]") eq_refl) ltac:(apply ex_no; reflexivity) (ex_reads (s2l "f(x)") eq_refl) ltac:(apply ex_no; reflexivity)).
Qed.

(** Behind a '\' of the text nothing is protected: "\\_", that is '\' and '_', is written "\\_", where Markdown takes '_' as markup. *)
Theorem C104_backslash_refuted : ~ (forall g s l, reads s l -> exists t, plain (fst (md_text g (Plain s))) t).
Proof.
  intros H. destruct (H false (s2l "\\_") [Some "\"; Some "_"]%char) as [t P].
  - apply rd_esc. apply rd_chr; [reflexivity|discriminate|constructor].
  - vm_compute in P. inversion P as [|c m t' _ Q|c m t' _ N]; subst; [|congruence]. inversion Q as [| |c m t'' N]; subst. apply N. cbv. tauto.
Qed.
Print Assumptions C104_backslash_refuted.

(** Titles are not protected. *)
Theorem C104_title_refuted : ~ (forall first t, ~ In "\"%char t -> exists m, md_heading first t = (if first then s2l "# " else s2l "## ") ++ m /\ plain m t).
Proof.
  intros H. destruct (H true (s2l "*.txt") ltac:(cbv; intuition discriminate)) as (m & E & P). cbn [md_heading] in E. apply app_inv_head in E. subst m.
  vm_compute in P. inversion P as [| |c m t' N]; subst. apply N. cbv. tauto.
Qed.
Print Assumptions C104_title_refuted.

(** A paragraph whose first character is a dash that was written "\-" becomes an item of a list. *)
Theorem C104_dash_refuted : ~ (forall s l, reads s l -> clean l -> (forall r, s <> "-"%char :: r) -> exists t, plain (md_dash (fst (md_text true (Plain s)))) t).
Proof.
  intros H. destruct (H (s2l "\-5") [Some "-"; Some "5"]%char) as [t P].
  - apply rd_esc. apply rd_chr; [reflexivity|discriminate|constructor].
  - apply ex_no. reflexivity.
  - discriminate.
  - vm_compute in P. inversion P as [| |c m t' N]; subst. apply N. cbv. tauto.
Qed.
Print Assumptions C104_dash_refuted.
