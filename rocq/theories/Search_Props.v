(** Search_Props.v -- C75: the files that a name or a pattern stands for. *)

From Verif Require Import Base Lex StrLib_Model StrLib_Spec Path_Model Path_Spec Glob_Model Glob_Spec Glob_Proofs Attr_Model Prompt_Proofs Fs_Model Fs_Spec Fs_Proofs Search_Model Search_Spec Search_Proofs.

Lemma root_along ns : ns <> [] -> Forall component ns -> along (s2l "/") ns = "/"%char :: slashed ns.
Proof. intros N F. rewrite <- inside_slashed by auto. reflexivity. Qed.
Lemma chars_some u n : n <> [] -> chars u n <> [].
Proof. destruct n as [|c n]; [congruence|]. intros _. cbn [chars]. destruct (chars u n); [discriminate|]. destruct (joins u c n); discriminate. Qed.
Lemma meant_star n : n <> [] -> meant (s2l "*") n.
Proof.
  intros N. split; [|intros H; exfalso; apply H; exists []; reflexivity]. intros _. apply (chars_some true) in N. cbn [s2l list_ascii_of_string app].
  destruct (chars true n) as [|u us _] using rev_ind; [congruence|]. apply glob_star. apply glob_one. constructor.
Qed.
Lemma understood_star : understood (s2l "*").
Proof.
  split; [apply nonul_b; reflexivity|]. split; [repeat constructor|]. intros a b c E. destruct a as [|x a]; cbn in E; [|destruct a; discriminate]. injection E as E. destruct b; discriminate.
Qed.
Lemma wild_star : wild (s2l "*"). Proof. left. left. auto. Qed.
Lemma component_star : component (s2l "*"). Proof. split; [discriminate|]. intros [H|[]]; discriminate. Qed.

(** Below a directory, everything is reached by "*". *)
Lemma reach_star f rec pl ns q : proper f -> tree f ->
  (reach f rec false pl [s2l "*"] ns q <-> get f q <> None /\ q = rev ns ++ pl /\ ns <> [] /\ (rec = false -> length ns = 1)).
Proof.
  intros Pr Tr. split.
  - intros R. split; [eapply reach_there; eauto|]. destruct (reach_deeper _ _ _ _ _ _ R) as [E L]; [repeat constructor; try discriminate; intros [H|[]]; discriminate|].
    split; [auto|]. split; [destruct ns; [cbn in L; lia|discriminate]|]. intros Rf. inversion R; subst; [exfalso; match goal with H : ~ wild _ |- _ => apply H end; apply wild_star| |discriminate].
    match goal with H : reach _ _ _ _ [] _ _ |- _ => inversion H; subst end. reflexivity.
  - intros (G & -> & N & L). revert pl G L. induction ns as [|n ns IH]; intros pl G L; [congruence|]. cbn [rev] in G |- *. rewrite <- app_assoc in G |- *. cbn [app] in G |- *.
    assert (Up : forall r, get f (r ++ n :: pl) <> None -> get f (n :: pl) <> None /\ (r <> [] -> get f (n :: pl) = Some Dir)).
    { clear - Tr. induction r as [|x r IH]; intros G; cbn [app] in G; [split; [auto|congruence]|]. apply Tr in G. destruct IH as [A B]; [congruence|]. split; [auto|]. intros _. destruct r; [exact G|apply B; discriminate]. }
    destruct (Up _ G) as [Gn Gd]. assert (Gp := Tr _ _ Gn). destruct (Pr (n :: pl) n Gn) as [Nn _]; [left; auto|]. destruct ns as [|m ns].
    + cbn [rev app]. rewrite <- (step_normal pl n) by auto. apply r_wild; auto using wild_star; [apply meant_star; apply Nn|]. constructor. rewrite step_normal; auto.
    + assert (Rc : rec = true) by (destruct rec; auto; specialize (L eq_refl); cbn in L; lia).
      apply r_deep; auto using wild_star; [apply Gd; cbn [rev]; intros X; apply app_eq_nil in X; destruct X; discriminate|]. apply IH; [discriminate|auto|congruence].
Qed.

(** A path with wildcards, when nothing has it as its name: exactly the paths that it means,
    name by name; and below, if it is asked for and the last name has a wildcard.  Nothing
    comes twice, and what is in a directory comes before it. *)
Theorem C75_pattern : forall f rec nopseudo dirmode comps,
  proper f -> tree f -> Forall component comps -> Forall (fun c => wild c -> understood c) comps -> (exists c, In c comps /\ wild c) ->
  (rec = true -> wild (last comps [])) -> get f (place_of ("/"%char :: slashed comps)) = None ->
  (forall ns q, reach f rec (negb nopseudo) [] comps ns q -> length ("/"%char :: slashed ns) < FILENAME_MAX) ->
  exists l, pBat_GetMatchFileList f rec nopseudo dirmode ("/"%char :: slashed comps) = Ret l /\
    (forall p, In p l <-> exists ns q, reach f rec (negb nopseudo) [] comps ns q /\ p = "/"%char :: slashed ns) /\
    (nopseudo = true -> once f -> Forall normal_comp comps -> inner_first (map place_of l)).
Proof.
  intros f rec nopseudo dirmode comps Pr Tr Fc Fu (c & Ic & Wc) La G Sh.
  assert (Ne : comps <> []) by (intros ->; destruct Ic).
  assert (Rn : forall ns q, reach f rec (negb nopseudo) [] comps ns q -> along (s2l "/") ns = "/"%char :: slashed ns).
  { intros ns q R. apply root_along; [|eapply reach_comps; eauto]. intros ->. inversion R; subst. congruence. }
  unfold pBat_GetMatchFileList, pBat_DirExists, pBat_FileExists. rewrite G, andb_false_r. cbn [orb].
  assert (T : forallb (fun x => negb (is_joker x)) ("/"%char :: slashed comps) = false).
  { apply not_true_iff_false. intros H. rewrite forallb_forall in H.
    assert (X : forall x, In x c -> In x (slashed comps)).
    { clear - Ic. intros x I. induction comps as [|d comps IH]; [destruct Ic|]. destruct comps as [|e comps]; [destruct Ic as [->|[]]; exact I|].
      rewrite slashed_app by discriminate. apply in_or_app. destruct Ic as [->|Ic]; [left; auto|right; right; apply IH; auto]. }
    destruct Wc as [W|W]; apply X in W; specialize (H _ (or_intror W)); discriminate. }
  rewrite T. assert (Hd : exists x r, slashed comps = x :: r /\ ceq x "/"%char = false).
  { destruct comps as [|d comps]; [congruence|]. inversion Fc as [|? ? [D1 D2] _]; subst. destruct d as [|x d]; [congruence|].
    assert (X : ceq x "/"%char = false) by (destruct (ceq x "/"%char) eqn:E; auto; apply ceq_true in E; subst; exfalso; apply D2; left; auto).
    destruct comps as [|e comps]; [exists x, d; auto|]. rewrite slashed_app by discriminate. cbn [app]. eauto. }
  destruct Hd as (x & r & Ex & Cx). rewrite Ex. rewrite Cx. cbn [ceq negb andb tl]. rewrite <- Ex.
  change (ceq "/" "/" && negb false)%bool with true. cbn iota.
  assert (Lc : length comps <= length (slashed comps)).
  { clear - Fc. induction comps as [|d comps IH]; [cbn; lia|]. inversion Fc as [|? ? [D1 D2] F]; subst. specialize (IH F). assert (length d <> 0) by (destruct d; [congruence|discriminate]).
    destruct comps as [|e comps]; [cbn [slashed length]; lia|]. rewrite slashed_app by discriminate. rewrite app_length. cbn [length] in *. lia. }
  destruct (walk f rec nopseudo (negb nopseudo) Pr Tr eq_refl (length comps) comps (Nat.le_refl _) Ne Fc Fu La (s2l "/") (length ("/"%char :: slashed comps) + depth f + 3)) as (l & El & Il & Ol).
  - cbn [length]. lia.
  - intros ns q R. change (place_of (s2l "/")) with (@nil cstr) in R. rewrite (Rn _ _ R). eauto.
  - change (place_of (s2l "/")) with (@nil cstr) in Il. exists l. split; [exact El|]. split; [|auto].
    intros p. rewrite Il. split; intros (ns & q & R & ->); exists ns, q; (split; [auto|]); [|symmetry]; eapply Rn; eauto.
Qed.
Print Assumptions C75_pattern.

(** A path of a file, or of a directory when what is in it is not asked for, stands for itself,
    even if there are wildcards in it; a path without wildcards that leads nowhere stands for
    nothing. *)
Theorem C75_name : forall f rec nopseudo dirmode p, length p < FILENAME_MAX ->
  (get f (place_of p) <> None -> (get f (place_of p) = Some Dir -> rec = false /\ dirmode = false) -> pBat_GetMatchFileList f rec nopseudo dirmode p = Ret [p]) /\
  (get f (place_of p) = None -> ~ In "*"%char p -> ~ In "?"%char p -> pBat_GetMatchFileList f rec nopseudo dirmode p = Ret []).
Proof.
  intros f rec nopseudo dirmode p L. unfold pBat_GetMatchFileList, pBat_DirExists, pBat_FileExists. split.
  - intros G D. rewrite add_short by auto. destruct (get f (place_of p)) as [[t|]|]; [| |congruence]; [rewrite andb_false_r; auto|]. destruct D as [-> ->]; auto.
  - intros G A B. rewrite G, andb_false_r. cbn [orb]. assert (X : forallb (fun c => negb (is_joker c)) p = true).
    { apply forallb_forall. intros x I. unfold is_joker. destruct (ceq x "*"%char) eqn:E1; [apply ceq_true in E1; subst; contradiction|]. destruct (ceq x "?"%char) eqn:E2; [apply ceq_true in E2; subst; contradiction|]. auto. }
    rewrite X. auto.
Qed.
Print Assumptions C75_name.

(** A directory: what is in it (DEL), or everything below it, and itself at the end (RD /S). *)
Theorem C75_directory : forall f rec dirmode p,
  proper f -> tree f -> once f -> get f (place_of p) = Some Dir -> rec = true \/ dirmode = true ->
  (forall ns, get f (rev ns ++ place_of p) <> None -> length (along p ns) < FILENAME_MAX) ->
  exists l, pBat_GetMatchFileList f rec true dirmode p = Ret l /\ inner_first (map place_of l) /\
    forall x, In x l <-> (exists ns, x = along p ns /\ get f (rev ns ++ place_of p) <> None /\ ns <> [] /\ (rec = false -> length ns = 1)) \/ (dirmode = false /\ x = p).
Proof.
  intros f rec dirmode p Pr Tr On G Md Sh. unfold pBat_GetMatchFileList.
  assert (D : pBat_DirExists f p = true) by (unfold pBat_DirExists; rewrite G; auto). rewrite D.
  assert (M : (dirmode || rec) && true = true) by (destruct Md as [-> | ->]; rewrite ?orb_true_r; auto). rewrite M.
  destruct (deep f rec true false Pr Tr (s2l "*") eq_refl component_star wild_star understood_star (length p + depth f + 3) p) as (l & El & Il & Ol); [lia|lia| |].
  { intros ns q R. apply reach_star in R; auto. destruct R as (R1 & -> & _). apply Sh. auto. }
  rewrite El. cbn [bind]. rewrite add_short by (apply (Sh []); cbn; congruence).
  assert (Fl : inner_first (map place_of l)) by (apply Ol; auto; repeat constructor; try discriminate; intros [H|[]]; discriminate).
  assert (Ip : forall x, In x l <-> exists ns, x = along p ns /\ get f (rev ns ++ place_of p) <> None /\ ns <> [] /\ (rec = false -> length ns = 1)).
  { intros x. rewrite Il. split.
    - intros (ns & q & R & ->). apply reach_star in R; auto. destruct R as (R1 & -> & R2 & R3). eauto.
    - intros (ns & -> & A & B & C). exists ns, (rev ns ++ place_of p). split; [|auto]. apply reach_star; auto. }
  destruct dirmode.
  - exists l. split; [auto|]. split; [auto|]. intros x. rewrite Ip. split; [auto|]. intros [H|[H _]]; [auto|discriminate].
  - eexists. split; [reflexivity|]. split.
    + rewrite map_app. apply pairs_app; [exact Fl|repeat constructor|]. intros a b Ia [<-|[]]. apply in_map_iff in Ia. destruct Ia as (x & <- & Ix). apply Ip in Ix. destruct Ix as (ns & -> & A & B & _).
      assert (E : place_of (along p ns) = rev ns ++ place_of p).
      { assert (Fn : Forall normal_comp ns) by (apply Forall_forall; intros y Iy; apply (Pr _ y A); apply in_or_app; left; apply in_rev in Iy; auto).
        rewrite place_along by (eapply Forall_impl; [|exact Fn]; apply normal_component). clear - Fn. generalize (place_of p). induction Fn as [|y ns Hy Fn IH]; intros pl; [auto|].
        cbn [fold_left rev]. rewrite IH, step_normal by auto. rewrite <- app_assoc. auto. }
      rewrite E. assert (Ln : length (rev ns) <> 0) by (rewrite rev_length; destruct ns; [congruence|discriminate]). split.
      * intros X. apply (f_equal (@length _)) in X. rewrite app_length in X. lia.
      * intros (z & r & X). apply (f_equal (@length _)) in X. cbn [length] in X. rewrite !app_length in X. lia.
    + intros x. rewrite in_app_iff, Ip. split; [intros [H|[<-|[]]]; auto|]. intros [H|[_ ->]]; [auto|right; left; auto].
Qed.
Print Assumptions C75_directory.

Definition look (f : fsys) (rec nopseudo dirmode : bool) (p : string) : option (list string) :=
  match pBat_GetMatchFileList f rec nopseudo dirmode (s2l p) with Ret l => Some (map string_of_list_ascii l) | _ => None end.
Definition at_ (p : string) (n : node) : place * node := (place_of (s2l p), n).
Definition zoo : fsys :=
  [at_ "/" Dir; at_ "/a" Dir; at_ "/a/x1" (File (s2l "1")); at_ "/a/X2.c" (File []); at_ "/a/y" Dir; at_ "/a/y/x3" (File []); at_ "/b" Dir; at_ "/b/y" Dir; at_ "/b/y/z" (File []); at_ "/x" (File [])].
(** A file whose name has a star hides the others that its name means. *)
Theorem C75_star_name_refuted : look (at_ "/a/x*" (File []) :: zoo) false true false "/a/x*" = Some ["/a/x*"]%string /\ look zoo false true false "/a/x*" = Some ["/a/x1"; "/a/X2.c"]%string.
Proof. split; vm_compute; reflexivity. Qed.
Print Assumptions C75_star_name_refuted.
(** A recursive search with a plain name at the end does not look into the directories that it
    finds. *)
Theorem C75_plain_end_refuted : look zoo true true false "/*/y" = Some ["/a/y"; "/b/y"]%string /\ look zoo true true false "/a/y" = Some ["/a/y/x3"; "/a/y"]%string.
Proof. split; vm_compute; reflexivity. Qed.
Print Assumptions C75_plain_end_refuted.
(** Without PBAT_SEARCH_NO_PSEUDO_DIR (COPY, TYPE, FIND, FOR), a star stands for "." and "..". *)
Theorem C75_pseudo_refuted : look zoo false false false "/*/x" = Some ["/./x"; "/../x"]%string /\ look zoo false true false "/*/x" = Some [].
Proof. split; vm_compute; reflexivity. Qed.
Print Assumptions C75_pseudo_refuted.

Lemma zoo_ok : proper zoo /\ tree zoo /\ once zoo.
Proof.
  assert (On : once zoo) by (unfold once; vm_compute; repeat constructor; cbn; intuition discriminate).
  assert (X : forall p, get zoo p <> None -> In p (map fst zoo)) by (intros p; apply get_in).
  split; [|split; [|exact On]].
  - intros p x G I. apply X in G. vm_compute in G. repeat (destruct G as [<-|G]; [cbn in I; repeat (destruct I as [<-|I]; [split; [repeat split; try discriminate; intros H; cbn in H; intuition discriminate|apply nonul_b; reflexivity]|]); destruct I|]). destruct G.
  - intros n p G. apply X in G. vm_compute in G. repeat (destruct G as [G|G]; [try discriminate; injection G as <- <-; reflexivity|]). destruct G.
Qed.
Example C75_ex :
  look zoo true true false "/*" = Some ["/a/x1"; "/a/X2.c"; "/a/y/x3"; "/a/y"; "/a"; "/b/y/z"; "/b/y"; "/b"; "/x"]%string /\
  look zoo true true false "/x*" = Some ["/a/x1"; "/a/X2.c"; "/a/y/x3"]%string /\
  look zoo false true true "/a" = Some ["/a/x1"; "/a/X2.c"; "/a/y"]%string /\
  look zoo true true false "/a" = Some ["/a/x1"; "/a/X2.c"; "/a/y/x3"; "/a/y"; "/a"]%string /\
  look zoo false true false "/?/y/*" = Some ["/a/y/x3"; "/b/y/z"]%string /\ look zoo false true false "/q" = Some [] /\
  look zoo true true true "/b/y" = Some ["/b/y/z"]%string /\
  proper zoo /\ tree zoo /\ once zoo /\ get zoo (place_of (s2l "/?/y/*")) = None /\ s2l "/?/y/*" = "/"%char :: slashed [s2l "?"; s2l "y"; s2l "*"] /\
  (forall ns q, reach zoo false false [] [s2l "?"; s2l "y"; s2l "*"] ns q -> length ("/"%char :: slashed ns) < FILENAME_MAX).
Proof.
  repeat (split; [vm_compute; reflexivity|]). destruct zoo_ok as (A & B & C). split; [auto|]. split; [auto|]. split; [auto|]. split; [vm_compute; reflexivity|]. split; [reflexivity|].
  intros ns q R. assert (G := reach_there _ _ _ _ _ _ _ R). assert (E := reach_deeper _ _ _ _ _ _ R). destruct E as [-> L]; [repeat constructor; try discriminate; intros H; cbn in H; intuition discriminate|].
  rewrite app_nil_r in G. apply get_in in G. vm_compute in G.
  repeat (destruct G as [G|G]; [apply (f_equal (@rev _)) in G; rewrite rev_involutive in G; rewrite <- G; apply Nat.ltb_lt; vm_compute; reflexivity|]). destruct G.
Qed.
