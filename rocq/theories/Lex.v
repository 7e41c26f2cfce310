(** Lex.v -- facts about the case-insensitive comparisons [stricmp] and
    [strnicmp] of Base: they order strings by their lower-cased byte codes. *)

From Verif Require Import Base.

Definition key (s : cstr) : list Z := map (fun c => code (tolower c)) s.

Fixpoint lex (a b : list Z) : comparison :=
  match a, b with
  | [], [] => Eq
  | [], _ :: _ => Lt
  | _ :: _, [] => Gt
  | x :: a', y :: b' => match Z.compare x y with Eq => lex a' b' | c => c end
  end.

Lemma lex_refl a : lex a a = Eq.
Proof. induction a as [|x a IH]; simpl; auto. rewrite Z.compare_refl. auto. Qed.

Lemma lex_eq a b : lex a b = Eq <-> a = b.
Proof.
  split; [|intros ->; apply lex_refl].
  revert b; induction a as [|x a IH]; intros [|y b]; simpl; try discriminate; auto.
  destruct (Z.compare x y) eqn:E; try discriminate. apply Z.compare_eq in E. intros H.
  apply IH in H. congruence.
Qed.

Lemma lex_antisym a b : lex b a = CompOpp (lex a b).
Proof.
  revert b; induction a as [|x a IH]; intros [|y b]; simpl; auto.
  rewrite (Z.compare_antisym x y). destruct (Z.compare x y); simpl; auto.
Qed.

Lemma lex_lt_gt a b : lex a b = Lt <-> lex b a = Gt.
Proof. rewrite (lex_antisym a b). destruct (lex a b); simpl; split; congruence. Qed.

Lemma lex_trans a b c : lex a b = Lt -> lex b c = Lt -> lex a c = Lt.
Proof.
  revert b c; induction a as [|x a IH]; intros [|y b] [|z c]; simpl; try discriminate; auto.
  destruct (Z.compare_spec x y), (Z.compare_spec y z); subst; try discriminate; intros H1 H2.
  - rewrite Z.compare_refl. eauto.
  - destruct (Z.compare_spec y z); try lia; auto.
  - destruct (Z.compare_spec x z); try lia; auto.
  - destruct (Z.compare_spec x z); try lia; auto.
Qed.

(** Character facts. *)
Lemma tolower_nonul c : c <> "000"%char -> (0 < code (tolower c))%Z.
Proof.
  intros H.
  assert (Hall : (ceq c "000"%char || (0 <? code (tolower c))%Z) = true).
  { clear H. revert c. apply (ascii_forall (fun c => ceq c "000"%char || (0 <? code (tolower c))%Z)).
    vm_compute. reflexivity. }
  apply orb_true_iff in Hall as [Hc|Hc]; [apply ceq_true in Hc; congruence|].
  apply Z.ltb_lt; auto.
Qed.

Lemma nonul_cons_inv c s : nonul (c :: s) -> c <> "000"%char /\ nonul s.
Proof. unfold nonul; simpl; intuition. Qed.

Lemma stricmp_lex a b :
  nonul a -> nonul b -> Z.compare (stricmp a b) 0 = lex (key a) (key b).
Proof.
  revert b; induction a as [|x a IH]; intros [|y b] Ha Hb; simpl; auto.
  - apply nonul_cons_inv in Hb as [Hb _]. apply tolower_nonul in Hb.
    destruct (Z.compare_spec (- code (tolower y)) 0); auto; lia.
  - apply nonul_cons_inv in Ha as [Ha _]. apply tolower_nonul in Ha.
    destruct (Z.compare_spec (code (tolower x)) 0); auto; lia.
  - apply nonul_cons_inv in Ha as [_ Ha]. apply nonul_cons_inv in Hb as [_ Hb].
    destruct (ceq (tolower x) (tolower y)) eqn:E.
    + apply ceq_true in E. rewrite E, Z.compare_refl. auto.
    + apply ceq_false in E.
      destruct (Z.compare_spec (code (tolower x)) (code (tolower y))) as [H|H|H].
      * exfalso. apply E. apply code_inj. auto.
      * destruct (Z.compare_spec (code (tolower x) - code (tolower y)) 0); auto; lia.
      * destruct (Z.compare_spec (code (tolower x) - code (tolower y)) 0); auto; lia.
Qed.

Lemma stricmp_0 a b : nonul a -> nonul b -> (stricmp a b = 0%Z <-> key a = key b).
Proof.
  intros Ha Hb. rewrite <- lex_eq, <- stricmp_lex by auto. symmetry. apply Z.compare_eq_iff.
Qed.
Lemma stricmp_lt a b : nonul a -> nonul b -> ((stricmp a b < 0)%Z <-> lex (key a) (key b) = Lt).
Proof. intros Ha Hb. rewrite <- stricmp_lex by auto. reflexivity. Qed.
Lemma stricmp_gt a b : nonul a -> nonul b -> ((0 < stricmp a b)%Z <-> lex (key a) (key b) = Gt).
Proof. intros Ha Hb. rewrite <- stricmp_lex by auto. symmetry. apply Z.compare_gt_iff. Qed.

(** Same name ignoring case. *)
Definition same_name (a b : cstr) : Prop := map tolower a = map tolower b.

Lemma key_lower a b : key a = key b <-> same_name a b.
Proof.
  unfold key, same_name. revert b; induction a as [|x a IH]; intros [|y b]; simpl; split; intros H;
    try discriminate; auto.
  - injection H as H1 H2. apply code_inj in H1. apply IH in H2. congruence.
  - injection H as H1 H2. rewrite H1. f_equal. apply IH; auto.
Qed.

Fixpoint zprefix (p s : list Z) : bool :=
  match p, s with
  | [], _ => true
  | x :: p', y :: s' => Z.eqb x y && zprefix p' s'
  | _ :: _, [] => false
  end.

Lemma zprefix_spec p s : zprefix p s = true <-> exists t, s = p ++ t.
Proof.
  revert s; induction p as [|a p IH]; intros s; simpl.
  - split; eauto.
  - destruct s as [|b s]; [split; [discriminate|intros [t H]; discriminate]|].
    rewrite andb_true_iff, Z.eqb_eq, IH. split.
    + intros [-> [t ->]]. eauto.
    + intros [t H]. injection H as -> ->. eauto.
Qed.

Lemma strnicmp_lex a b :
  nonul a -> nonul b ->
  Z.compare (strnicmp a b (length b)) 0 =
  if zprefix (key b) (key a) then Eq else lex (key a) (key b).
Proof.
  revert a; induction b as [|y b IH]; intros a Ha Hb; [destruct a; reflexivity|].
  destruct a as [|x a]; simpl.
  - apply nonul_cons_inv in Hb as [Hb _]. apply tolower_nonul in Hb.
    destruct (Z.compare_spec (- code (tolower y)) 0); auto; lia.
  - apply nonul_cons_inv in Ha as [_ Ha]. apply nonul_cons_inv in Hb as [_ Hb].
    destruct (ceq (tolower x) (tolower y)) eqn:E.
    + apply ceq_true in E. rewrite E, Z.eqb_refl, Z.compare_refl. simpl. auto.
    + apply ceq_false in E.
      destruct (Z.eqb_spec (code (tolower y)) (code (tolower x))) as [H|H].
      * exfalso. apply E. apply code_inj. auto.
      * simpl. destruct (Z.compare_spec (code (tolower x)) (code (tolower y))) as [H1|H1|H1].
        -- exfalso. congruence.
        -- destruct (Z.compare_spec (code (tolower x) - code (tolower y)) 0); auto; lia.
        -- destruct (Z.compare_spec (code (tolower x) - code (tolower y)) 0); auto; lia.
Qed.

Lemma key_app a b : key (a ++ b) = key a ++ key b.
Proof. apply map_app. Qed.
Lemma key_length a : length (key a) = length a.
Proof. apply map_length. Qed.
