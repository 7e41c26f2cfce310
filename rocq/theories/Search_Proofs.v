(** Search_Proofs.v -- proofs about the search of files. *)

From Verif Require Import Base Lex StrLib_Model StrLib_Spec Path_Model Path_Spec Glob_Model Glob_Spec Glob_Proofs Glob_Props Attr_Model Prompt_Proofs Fs_Model Fs_Spec Fs_Proofs Search_Model Search_Spec.

Lemma wild_b c : existsb is_joker c = true <-> wild c.
Proof.
  unfold wild. rewrite existsb_exists. split.
  - intros (x & I & J). unfold is_joker in J. apply orb_true_iff in J. destruct J as [J|J]; apply ceq_true in J; subst; auto.
  - intros [I|I]; eexists; (split; [exact I|reflexivity]).
Qed.
Lemma wild_dec c : {wild c} + {~ wild c}.
Proof. destruct (existsb is_joker c) eqn:E; [left; apply wild_b; auto|right; intros H; apply wild_b in H; congruence]. Qed.
Lemma plain_b c : ~ wild c -> Forall (fun x => is_joker x = false) c.
Proof.
  intros H. apply Forall_forall. intros x I. destruct (is_joker x) eqn:E; auto. exfalso. apply H. apply wild_b, existsb_exists. eauto.
Qed.

(** Paths *)
Lemma inside_along b n : inside b n = along b [n].
Proof. unfold inside, along, ends_slash. cbn [fold_left]. destruct (rev b) as [|x r]; auto. destruct x as [[] [] [] [] [] [] [] []]; reflexivity. Qed.
Lemma along_cons b n ns : along b (n :: ns) = along (inside b n) ns.
Proof. rewrite inside_along. reflexivity. Qed.
Lemma along_app b ns ms : along b (ns ++ ms) = along (along b ns) ms.
Proof. unfold along. apply fold_left_app. Qed.
Lemma ends_last b c : ends_slash (b ++ [c]) = ceq c "/"%char.
Proof. unfold ends_slash. rewrite rev_app_distr. reflexivity. Qed.
Lemma no_slash_end b n : component n -> ends_slash (inside b n) = false.
Proof.
  intros [A B]. destruct n as [|x n _] using rev_ind; [congruence|]. unfold inside. rewrite !app_assoc, ends_last. destruct (ceq x "/"%char) eqn:E; auto.
  apply ceq_true in E. subst. exfalso. apply B. apply in_or_app. right. left. auto.
Qed.
Lemma inside_slashed cs : forall b, cs <> [] -> Forall component cs -> inside b (slashed cs) = along b cs.
Proof.
  induction cs as [|c cs IH]; intros b N F; [congruence|]. inversion F as [|? ? Hc Fc]; subst. rewrite along_cons. destruct cs as [|d cs]; [reflexivity|].
  rewrite <- IH by (auto; discriminate). cbn [slashed]. unfold inside at 2. rewrite no_slash_end by auto. unfold inside. rewrite <- !app_assoc. reflexivity.
Qed.
Lemma place_inside b n : component n -> place_of (inside b n) = step (place_of b) n.
Proof.
  intros [A B]. unfold inside, place_of. destruct b as [|x b _] using rev_ind.
  - cbn [ends_slash rev app]. change ("/"%char :: n) with ([] ++ "/"%char :: n). rewrite names_app, fold_left_app, (names_one n) by auto. reflexivity.
  - rewrite ends_last. destruct (ceq x "/"%char) eqn:E.
    + apply ceq_true in E. subst. cbn [app]. rewrite <- app_assoc. cbn [app]. rewrite !names_app, !fold_left_app, (names_one n) by auto. reflexivity.
    + change (["/"%char] ++ n) with ("/"%char :: n). rewrite names_app, fold_left_app, (names_one n) by auto. reflexivity.
Qed.
Lemma place_along cs : forall b, Forall component cs -> place_of (along b cs) = fold_left step cs (place_of b).
Proof.
  induction cs as [|c cs IH]; intros b F; [reflexivity|]. inversion F; subst. rewrite along_cons, IH, place_inside by auto. reflexivity.
Qed.
Lemma normal_component n : normal_comp n -> component n.
Proof. intros (A & _ & _ & B). split; auto. Qed.
Lemma pseudo_component n : n = s2l "." \/ n = s2l ".." -> component n.
Proof. intros [-> | ->]; split; try discriminate; intros H; repeat (destruct H as [H|H]; [discriminate|]); destruct H. Qed.
Lemma pseudo_b n : pseudo n = true <-> n = s2l "." \/ n = s2l "..".
Proof. unfold pseudo. rewrite orb_true_iff, !streqb_true. tauto. Qed.
Lemma pseudo_normal n : normal_comp n -> pseudo n = false.
Proof. intros (_ & A & B & _). apply not_true_iff_false. rewrite pseudo_b. tauto. Qed.

(** Levels *)
Lemma scan_plain c : forall i r j prev, Forall (fun x => is_joker x = false) c -> ~ In "/"%char c ->
  next_level i (c ++ r) j prev = next_level (i + length c) r j prev.
Proof.
  induction c as [|x c IH]; intros i r j prev F N; cbn [app length]; [rewrite Nat.add_0_r; auto|]. inversion F as [|? ? Fx Fc]; subst. cbn [next_level].
  rewrite Fx. destruct (ceq x "/"%char) eqn:E; [exfalso; apply ceq_true in E; subst; apply N; left; auto|]. rewrite IH; auto; [f_equal; lia|]. intros X. apply N. right. auto.
Qed.
Lemma scan_wild c : forall i r j, ~ In "/"%char c -> next_level i (c ++ r) j None = next_level (i + length c) r (j || existsb is_joker c) None.
Proof.
  induction c as [|x c IH]; intros i r j N; cbn [app length existsb]; [rewrite Nat.add_0_r, orb_false_r; auto|]. cbn [next_level].
  assert (N' : ~ In "/"%char c) by (intros X; apply N; right; auto).
  destruct (is_joker x) eqn:J; [rewrite IH by auto; cbn [orb]; rewrite orb_true_r; f_equal; lia|].
  destruct (ceq x "/"%char) eqn:E; [exfalso; apply ceq_true in E; subst; apply N; left; auto|]. rewrite IH by auto. cbn [orb]. f_equal. lia.
Qed.
Lemma scan_prev c : forall i r p, ~ In "/"%char c -> existsb is_joker c = true -> next_level i (c ++ r) false (Some p) = (Some p, false).
Proof.
  induction c as [|x c IH]; intros i r p N J; cbn [app existsb] in *; [discriminate|]. cbn [next_level]. destruct (is_joker x) eqn:E; [auto|].
  destruct (ceq x "/"%char) eqn:E'; [exfalso; apply ceq_true in E'; subst; apply N; left; auto|]. apply IH; auto. intros X. apply N. right. auto.
Qed.
Lemma slashed_app c cs : cs <> [] -> slashed (c :: cs) = c ++ "/"%char :: slashed cs.
Proof. destruct cs; [congruence|reflexivity]. Qed.
Lemma level_plain cs : forall i prev, Forall component cs -> Forall (fun c => ~ wild c) cs -> next_level i (slashed cs) false prev = (None, false).
Proof.
  induction cs as [|c cs IH]; intros i prev F P; [reflexivity|]. inversion F as [|? ? [Fc1 Fc2] Fcs]; inversion P as [|? ? Pc Pcs]; subst. apply plain_b in Pc.
  destruct cs as [|d cs]; [cbn [slashed]; rewrite <- (app_nil_r c), scan_plain by auto; reflexivity|].
  rewrite slashed_app by discriminate. rewrite scan_plain by auto. cbn [next_level]. apply IH; auto.
Qed.
Lemma level_wild w rest : component w -> wild w ->
  pBat_GetNextLevel (slashed (w :: rest)) = (match rest with [] => None | _ => Some (length w) end, true).
Proof.
  intros [A B] W. apply wild_b in W. unfold pBat_GetNextLevel. destruct rest as [|d rest].
  - cbn [slashed]. rewrite <- (app_nil_r w) at 1. rewrite scan_wild by auto. rewrite W. reflexivity.
  - rewrite slashed_app by discriminate. rewrite scan_wild by auto. rewrite W. reflexivity.
Qed.
Lemma level_next cs w rest : forall i prev, cs <> [] -> Forall component cs -> Forall (fun c => ~ wild c) cs -> component w -> wild w ->
  next_level i (slashed (cs ++ w :: rest)) false prev = (Some (i + length (slashed cs)), false).
Proof.
  induction cs as [|c cs IH]; intros i prev N F P Cw Ww; [congruence|]. inversion F as [|? ? [Fc1 Fc2] Fcs]; inversion P as [|? ? Pc Pcs]; subst. apply plain_b in Pc. cbn [app].
  rewrite slashed_app by (destruct cs; discriminate). rewrite scan_plain by auto. cbn [next_level is_joker ceq].
  change (next_level (S (i + length c)) (slashed (cs ++ w :: rest)) false (Some (i + length c)) = (Some (i + length (slashed (c :: cs))), false)).
  destruct cs as [|d cs].
  - cbn [app slashed]. destruct Cw as [Cw1 Cw2]. apply wild_b in Ww. destruct rest as [|e rest]; [rewrite <- (app_nil_r w)|]; apply scan_prev; auto.
  - rewrite IH by (auto; discriminate). rewrite (slashed_app c (d :: cs)) by discriminate. rewrite app_length. cbn [length]. f_equal. f_equal. lia.
Qed.

(** Reading a directory *)
Lemma get_in f p : get f p <> None <-> In p (map fst f).
Proof.
  induction f as [|[q n] f IH]; cbn [get map fst]; [split; [congruence|intros []]|]. destruct (place_eqb q p) eqn:E.
  - apply place_eqb_true in E. subst. split; [left; auto|discriminate].
  - apply place_eqb_false in E. rewrite IH. split; [right; auto|intros [X|X]; [congruence|auto]].
Qed.
Lemma entries_in f q n : In n (entries f q) <-> get f (n :: q) <> None.
Proof.
  rewrite get_in. unfold entries. rewrite in_flat_map, in_map_iff. split.
  - intros ([[|m up] nd] & I & J); cbn [fst] in J; [destruct J|]. destruct (place_eqb up q) eqn:E; [|destruct J]. apply place_eqb_true in E. destruct J as [<-|[]]. subst. eexists. split; [|exact I]. auto.
  - intros ([p nd] & E & I). cbn [fst] in E. subst. eexists. split; [exact I|]. cbn [fst]. rewrite place_eqb_refl. left. auto.
Qed.
Lemma entries_once f q : once f -> NoDup (entries f q).
Proof.
  unfold once, entries. induction f as [|[[|m up] nd] f IH]; cbn [map fst flat_map app]; intros N; [constructor| |]; inversion N; subst; auto.
  destruct (place_eqb up q) eqn:E; cbn [app]; auto. apply place_eqb_true in E. subst. constructor; auto. intros X. apply (entries_in f q m) in X. apply get_in in X. auto.
Qed.
Lemma rx_meant c n : understood c -> nonul n -> exists b, pBat_RegExpCaseMatch true c n = Ret b /\ (b = true <-> meant c n).
Proof.
  intros (A & B & C) N. destruct (C12_case_match_exact true c n A N (fun _ => B) C) as (b & E & X & Y). exists b. split; [auto|]. unfold meant.
  destruct (ends_starb c) eqn:S; [assert (H : ends_with_star c) by (apply ends_starb_iff; auto)|assert (H : ~ ends_with_star c) by (rewrite <- ends_starb_iff; congruence)]; [rewrite X by auto|rewrite Y by auto]; tauto.
Qed.

(** Places that are reached *)
Lemma reach_place f rec ps pl cs ns q : reach f rec ps pl cs ns q -> q = fold_left step ns pl.
Proof. induction 1; cbn [fold_left]; auto. rewrite step_normal by auto. auto. Qed.
Lemma reach_there f rec ps pl cs ns q : reach f rec ps pl cs ns q -> get f q <> None.
Proof. induction 1; auto. Qed.
Lemma reach_comps f rec ps pl cs ns q : reach f rec ps pl cs ns q -> Forall component cs -> Forall component ns.
Proof.
  induction 1 as [|pl c cs ns q W R IH|pl c n cs ns q W G M [[En Nn]|[Ps Pn]] D R IH|pl c n ns q Rc W G G' Nn R IH]; intros F; auto; inversion F; subst; constructor; auto using normal_component, pseudo_component.
Qed.
Lemma reach_deeper f rec pl cs ns q : reach f rec false pl cs ns q -> Forall normal_comp cs -> q = rev ns ++ pl /\ length cs <= length ns.
Proof.
  induction 1 as [|pl c cs ns q W R IH|pl c n cs ns q W G M [[En Nn]|[Ps Pn]] D R IH|pl c n ns q Rc W G G' Nn R IH]; intros F; [split; auto| | |discriminate|].
  - inversion F; subst. destruct IH as [E L]; auto. rewrite step_normal in E by auto. cbn [rev length]. rewrite <- app_assoc. split; [auto|lia].
  - inversion F; subst. destruct IH as [E L]; auto. rewrite step_normal in E by auto. cbn [rev length]. rewrite <- app_assoc. split; [auto|lia].
  - destruct IH as [E L]; auto. cbn [rev length] in *. rewrite <- app_assoc. split; [auto|lia].
Qed.
Lemma reach_pre f rec ps pre rest : Forall (fun c => ~ wild c) pre -> forall pl ns q,
  reach f rec ps pl (pre ++ rest) ns q <-> exists ms, ns = pre ++ ms /\ reach f rec ps (fold_left step pre pl) rest ms q.
Proof.
  induction 1 as [|c pre W P IH]; intros pl ns q; cbn [app fold_left].
  - split; [eauto|]. intros (ms & -> & R). auto.
  - split.
    + intros R. inversion R; subst; try contradiction. match goal with H : reach _ _ _ _ _ _ _ |- _ => apply IH in H; destruct H as (ms & -> & H) end. eauto.
    + intros (ms & -> & R). apply r_plain; auto. apply IH. eauto.
Qed.

(** Lists in order *)
Lemma pairs_app {A} (R : A -> A -> Prop) l m : ForallOrdPairs R l -> ForallOrdPairs R m -> (forall a b, In a l -> In b m -> R a b) -> ForallOrdPairs R (l ++ m).
Proof.
  induction 1 as [|a l H F IH]; intros M X; cbn [app]; [auto|]. constructor.
  - apply Forall_app. split; auto. apply Forall_forall. intros b I. apply X; [left; auto|auto].
  - apply IH; auto. intros. apply X; [right; auto|auto].
Qed.
Lemma branch_eq (r1 r2 : place) n1 n2 B : r1 ++ n1 :: B = r2 ++ n2 :: B -> n1 = n2.
Proof.
  intros E. change (n1 :: B) with ([n1] ++ B) in E. change (n2 :: B) with ([n2] ++ B) in E. rewrite !app_assoc in E. apply app_inv_tail in E. apply app_inj_tail in E. tauto.
Qed.
Lemma each_ok g B ord L (Sel : cstr -> cstr -> Prop) :
  (forall n, In n L -> exists a, g n = Ret a /\ (forall p, In p a <-> Sel n p) /\
     (ord -> inner_first (map place_of a) /\ forall p, In p a -> exists r, place_of p = r ++ n :: B)) ->
  exists l, each g L = Ret l /\ (forall p, In p l <-> exists n, In n L /\ Sel n p) /\
    (ord -> NoDup L -> inner_first (map place_of l) /\ forall p, In p l -> exists r n, In n L /\ place_of p = r ++ n :: B).
Proof.
  induction L as [|n L IH]; intros H.
  - exists []. split; [auto|]. split; [intros p; split; [intros []|intros (? & [] & _)]|]. intros _ _. split; [constructor|intros p []].
  - destruct (H n) as (a & E & Ia & Oa); [left; auto|]. destruct IH as (l & El & Il & Ol); [intros m I; apply H; right; auto|].
    exists (a ++ l). cbn [each]. rewrite E. cbn [bind]. rewrite El. cbn [bind]. split; [auto|]. split.
    + intros p. rewrite in_app_iff, Ia, Il. split; [intros [X|(m & I & X)]; [exists n; split; [left; auto|auto]|exists m; split; [right; auto|auto]]|].
      intros (m & [<-|I] & X); [left; auto|right; eauto].
    + intros O N. inversion N as [|? ? N1 N2]; subst. destruct (Oa O) as [Fa Pa]. destruct (Ol O N2) as [Fl Pl]. split.
      * rewrite map_app. apply pairs_app; auto. intros x y Ix Iy. apply in_map_iff in Ix, Iy. destruct Ix as (p & <- & Ip). destruct Iy as (p' & <- & Ip').
        destruct (Pa p Ip) as [r Ep]. destruct (Pl p' Ip') as (r' & n' & In' & Ep'). rewrite Ep, Ep'.
        assert (n <> n') by (intros ->; auto). split; [intros X; apply branch_eq in X; auto|]. intros (x & s & X). rewrite app_comm_cons, app_assoc in X. apply branch_eq in X. congruence.
      * intros p I. apply in_app_or in I. destruct I as [I|I]; [destruct (Pa p I) as [r Ep]; exists r, n; split; [left; auto|auto]|]. destruct (Pl p I) as (r & m & Im & Ep). exists r, m. split; [right; auto|auto].
Qed.

Section Walk.
Variables (f : fsys) (rec nopseudo ps : bool).
Hypotheses (Pr : proper f) (Tr : tree f).

Lemma add_short p : length p < FILENAME_MAX -> add p = p.
Proof. intros H. apply firstn_all2. lia. Qed.
Lemma depth_le p : get f p <> None -> length p <= depth f.
Proof.
  intros H. apply get_in in H. unfold depth. assert (X : Forall (fun k => k <= list_max (map (fun x => length (fst x)) f)) (map (fun x => length (fst x)) f)) by (apply list_max_le; lia).
  rewrite Forall_forall in X. apply X. apply in_map_iff in H. destruct H as (x & <- & I). apply in_map_iff. eauto.
Qed.
Lemma reach_one pl c n ns q : wild c -> (reach f rec ps pl [c] (n :: ns) q <->
  get f pl = Some Dir /\ meant c n /\ (get f (n :: pl) <> None /\ normal_comp n \/ ps = true /\ (n = s2l "." \/ n = s2l "..")) /\ ns = [] /\ q = step pl n /\ get f (step pl n) <> None \/
  rec = true /\ get f pl = Some Dir /\ get f (n :: pl) = Some Dir /\ normal_comp n /\ reach f rec ps (n :: pl) [c] ns q).
Proof.
  intros W. split.
  - intros R. inversion R; subst; [contradiction| |right; auto 6]. left. match goal with H : reach _ _ _ _ [] _ _ |- _ => inversion H; subst end. auto 8.
  - intros [(A & B & C & -> & -> & D)|(A & B & C & D & E)]; [apply r_wild; auto; constructor; auto|apply r_deep; auto].
Qed.
Lemma reach_ns pl c ns q : wild c -> reach f rec ps pl [c] ns q -> exists n ms, ns = n :: ms /\ In n (readdir f pl).
Proof.
  intros W R. inversion R; subst; [contradiction| |].
  - eexists. eexists. split; [reflexivity|]. unfold readdir. match goal with H : _ \/ ps = true /\ _ |- _ => destruct H as [[X _]|[_ [->| ->]]] end; [right; right; apply entries_in; auto|left; auto|right; left; auto].
  - eexists. eexists. split; [reflexivity|]. right. right. apply entries_in. congruence.
Qed.
Lemma dir_b p : pBat_DirExists f p = true <-> get f (place_of p) = Some Dir.
Proof. unfold pBat_DirExists. destruct (get f (place_of p)) as [[]|]; split; congruence. Qed.
Lemma file_b p : pBat_FileExists f p = true <-> exists t, get f (place_of p) = Some (File t).
Proof. unfold pBat_FileExists. destruct (get f (place_of p)) as [[t|]|]; split; try discriminate; eauto; intros [u X]; discriminate. Qed.
Lemma up_dir p : get f p = Some Dir -> get f (tl p) = Some Dir.
Proof. destruct p as [|n p]; auto. intros H. apply (Tr n). cbn. congruence. Qed.

(** What is in a directory: the names that are read *)
Lemma readdir_in n pl : In n (readdir f pl) -> (n = s2l "." \/ n = s2l "..") \/ get f (n :: pl) <> None /\ normal_comp n /\ nonul n.
Proof.
  unfold readdir. intros [<-|[<-|I]]; auto. right. apply entries_in in I. destruct (Pr _ n I) as [A B]; [left; auto|]. auto.
Qed.
Lemma readdir_once pl : once f -> NoDup (readdir f pl).
Proof.
  intros O. unfold readdir. constructor; [|constructor; [|apply entries_once; auto]].
  - intros [X|X]; [discriminate|]. apply entries_in in X. destruct (Pr _ (s2l ".") X) as [(_ & A & _) _]; [left; auto|]. congruence.
  - intros X. apply entries_in in X. destruct (Pr _ (s2l "..") X) as [(_ & _ & A & _) _]; [left; auto|]. congruence.
Qed.
Lemma nonul_pseudo n : n = s2l "." \/ n = s2l ".." -> nonul n.
Proof. intros [-> | ->]; apply nonul_b; reflexivity. Qed.

Definition found (b : cstr) (cs : list cstr) (l : list cstr) : Prop :=
  (forall p, In p l <-> exists ns q, reach f rec ps (place_of b) cs ns q /\ p = along b ns) /\
  (nopseudo = true -> once f -> Forall normal_comp cs -> inner_first (map place_of l)).
Definition short (b : cstr) (cs : list cstr) : Prop := forall ns q, reach f rec ps (place_of b) cs ns q -> length (along b ns) < FILENAME_MAX.

Lemma deep c : ps = negb nopseudo -> component c -> wild c -> understood c -> forall k b, 0 < k -> depth f < length (place_of b) + k -> short b [c] ->
  exists l, pBat_GetMatch f rec nopseudo k (Some b) (Some c) = Ret l /\ found b [c] l.
Proof.
  intros Eps Cc W U. assert (Nc : normal_comp c).
  { destruct Cc as [A B]. split; [auto|]. split; [|split; [|auto]]; intros ->; apply wild_b in W; discriminate. }
  induction k as [|k IH]; intros b K Dp Sh; [lia|]. cbn [pBat_GetMatch].
  change c with (slashed [c]) at 1. rewrite (level_wild c [] Cc W). cbn [negb].
  destruct (pBat_DirExists f b) eqn:D.
  2:{ exists []. split; [auto|]. split; [|constructor]. intros p. split; [intros []|]. intros (ns & q & R & _). exfalso.
      assert (X : get f (place_of b) = Some Dir) by (inversion R; subst; auto; contradiction). apply dir_b in X. congruence. }
  apply dir_b in D.
  assert (G : exists l, each (fun n =>
                if nopseudo && pseudo n then Ret []
                else
                  do m <- pBat_RegExpCaseMatch true c n;
                  if m then
                    if pBat_FileExists f (inside b n) then Ret [add (inside b n)]
                    else do l <- (if rec && negb (pseudo n) then pBat_GetMatch f rec nopseudo k (Some (inside b n)) (Some c) else Ret []); Ret (l ++ [add (inside b n)])
                  else if rec && true && negb (pseudo n) && pBat_DirExists f (inside b n)
                       then pBat_GetMatch f rec nopseudo k (Some (inside b n)) (Some c)
                       else Ret []) (readdir f (place_of b)) = Ret l /\
    (forall p, In p l <-> exists n, In n (readdir f (place_of b)) /\ exists ns q, reach f rec ps (place_of b) [c] (n :: ns) q /\ p = along b (n :: ns)) /\
    (nopseudo = true /\ once f -> NoDup (readdir f (place_of b)) -> inner_first (map place_of l) /\ forall p, In p l -> exists r n, In n (readdir f (place_of b)) /\ place_of p = r ++ n :: place_of b)).
  { apply (each_ok _ (place_of b) (nopseudo = true /\ once f) _ (fun n p => exists ns q, reach f rec ps (place_of b) [c] (n :: ns) q /\ p = along b (n :: ns))).
    intros n I. apply readdir_in in I. destruct I as [Pn|(En & Nn & Un)].
    - assert (Pb := proj2 (pseudo_b n) Pn). rewrite Pb. destruct (Bool.bool_dec nopseudo true) as [Np|Np]; [|apply not_true_is_false in Np]; rewrite Np in *; cbn [andb negb] in *.
      + exists []. split; [auto|]. split; [|intros _; split; [constructor|intros p []]]. intros p. split; [intros []|]. intros (ns & q & R & _). exfalso.
        apply reach_one in R; auto. destruct R as [(_ & _ & [[_ X]|[X _]] & _)|(_ & _ & _ & X & _)]; [|congruence|]; apply pseudo_normal in X; congruence.
      + destruct (rx_meant c n U (nonul_pseudo n Pn)) as (m & Em & Mm). rewrite Em. cbn [bind]. rewrite andb_false_r. cbn [andb bind].
        assert (St : get f (step (place_of b) n) = Some Dir) by (destruct Pn as [-> | ->]; [exact D|apply up_dir; exact D]).
        assert (Fi : pBat_FileExists f (inside b n) = false).
        { apply not_true_iff_false. rewrite file_b, place_inside by (apply pseudo_component; auto). intros [t X]. congruence. }
        rewrite Fi, andb_false_r. cbn [andb app]. destruct m.
        * assert (R : reach f rec ps (place_of b) [c] [n] (step (place_of b) n)).
          { apply reach_one; auto. left. split; [auto|]. split; [tauto|]. split; [right; split; auto|]. split; [auto|]. split; [auto|congruence]. }
          rewrite add_short by (rewrite inside_along; apply (Sh _ _ R)). eexists. split; [reflexivity|]. split; [|intros [X _]; discriminate]. intros p. split.
          -- intros [<-|[]]. exists [], (step (place_of b) n). split; [auto|]. apply inside_along.
          -- intros (ns & q & R' & ->). apply reach_one in R'; auto. destruct R' as [(_ & _ & _ & -> & _)|(_ & _ & _ & X & _)]; [left; apply inside_along|]. apply pseudo_normal in X. congruence.
        * exists []. split; [auto|]. split; [|intros [X _]; discriminate]. intros p. split; [intros []|]. intros (ns & q & R' & ->). exfalso.
          apply reach_one in R'; auto. destruct R' as [(_ & X & _)|(_ & _ & _ & X & _)]; [|apply pseudo_normal in X; congruence]. apply Mm in X. discriminate.
    - assert (Pb := pseudo_normal n Nn). rewrite Pb, andb_false_r. destruct (rx_meant c n U Un) as (m & Em & Mm). rewrite Em. cbn [bind negb]. rewrite !andb_true_r.
      assert (Pl : place_of (inside b n) = n :: place_of b) by (rewrite place_inside by (apply normal_component; auto); apply step_normal; auto).
      assert (Here : m = true -> reach f rec ps (place_of b) [c] [n] (n :: place_of b)).
      { intros ->. apply reach_one; auto. left. split; [auto|]. split; [tauto|]. split; [left; auto|]. rewrite step_normal by auto. auto. }
      destruct (get f (n :: place_of b)) as [[t|]|] eqn:G; [| |congruence].
      + assert (Fi : pBat_FileExists f (inside b n) = true) by (apply file_b; rewrite Pl; eauto).
        assert (Di : pBat_DirExists f (inside b n) = false) by (apply not_true_iff_false; rewrite dir_b, Pl; congruence).
        rewrite Fi, Di, andb_false_r. destruct m.
        * rewrite add_short by (rewrite inside_along; apply (Sh _ _ (Here eq_refl))). eexists. split; [reflexivity|]. split.
          -- intros p. split.
             ++ intros [<-|[]]. exists [], (n :: place_of b). split; [auto|]. apply inside_along.
             ++ intros (ns & q & R' & ->). apply reach_one in R'; auto. destruct R' as [(_ & _ & _ & -> & _)|(_ & _ & X & _)]; [left; apply inside_along|congruence].
          -- intros _. split; [repeat constructor|]. intros p [<-|[]]. exists []. auto.
        * exists []. split; [auto|]. split; [|intros _; split; [constructor|intros p []]]. intros p. split; [intros []|]. intros (ns & q & R' & ->). exfalso.
          apply reach_one in R'; auto. destruct R' as [(_ & X & _)|(_ & _ & X & _)]; [|congruence]. apply Mm in X. discriminate.
      + assert (Fi : pBat_FileExists f (inside b n) = false) by (apply not_true_iff_false; rewrite file_b, Pl, G; intros [? ?]; discriminate).
        assert (Di : pBat_DirExists f (inside b n) = true) by (apply dir_b; rewrite Pl; auto).
        rewrite Fi, Di, andb_true_r.
        assert (Sub : exists l, (if rec then pBat_GetMatch f rec nopseudo k (Some (inside b n)) (Some c) else Ret []) = Ret l /\
          (forall p, In p l <-> exists ns q, rec = true /\ reach f rec ps (n :: place_of b) [c] ns q /\ p = along b (n :: ns)) /\
          (nopseudo = true -> once f -> inner_first (map place_of l)) /\ (nopseudo = true -> forall p, In p l -> exists x r, place_of p = x :: r ++ n :: place_of b)).
        { destruct (Bool.bool_dec rec true) as [Rc|Rc]; [|apply not_true_is_false in Rc].
          - assert (If : forall (x y : outcome (list cstr)), (if rec then x else y) = x) by (rewrite Rc; auto). rewrite If. destruct (IH (inside b n)) as (l & El & Il & Ol).
            + assert (X := depth_le (n :: place_of b) ltac:(congruence)). cbn [length] in X. lia.
            + rewrite Pl. cbn [length]. lia.
            + intros ns q R'. rewrite <- along_cons. apply (Sh (n :: ns) q). apply reach_one; auto. right. rewrite Pl in R'. auto.
            + exists l. split; [auto|]. rewrite Pl in Il. split; [|split; [intros; apply Ol; auto|]].
              * intros p. rewrite Il. split; [intros (ns & q & R' & ->); exists ns, q; split; [auto|split; [auto|]]; rewrite along_cons; auto|intros (ns & q & _ & R' & ->); exists ns, q; rewrite along_cons; auto].
              * intros Np p Ip. apply Il in Ip. destruct Ip as (ns & q & R' & ->). assert (Eps' : ps = false) by (rewrite Eps, Np; auto). rewrite Eps' in R'.
                destruct (reach_deeper _ _ _ _ _ _ R') as [Eq Le]; [constructor; auto|].
                assert (Ep : place_of (along (inside b n) ns) = q).
                { rewrite place_along, Pl; [symmetry; eapply reach_place; eauto|]. eapply reach_comps; eauto. }
                rewrite Ep, Eq. destruct ns as [|y ns _] using rev_ind; [cbn in Le; lia|]. rewrite rev_app_distr. cbn [rev app]. exists y, (rev ns). auto.
          - assert (If : forall (x y : outcome (list cstr)), (if rec then x else y) = y) by (rewrite Rc; auto). rewrite If. exists []. split; [auto|]. split; [|split; [constructor|intros _ p []]]. intros p. split; [intros []|intros (_ & _ & X & _); congruence]. }
        destruct Sub as (l & El & Il & Ol & Dl). destruct m.
        * rewrite El. cbn [bind]. rewrite add_short by (rewrite inside_along; apply (Sh _ _ (Here eq_refl))). eexists. split; [reflexivity|]. split.
          -- intros p. rewrite in_app_iff, Il. split.
             ++ intros [(ns & q & Rc & R' & ->)|[<-|[]]]; [exists ns, q; split; [apply reach_one; auto 8|auto]|exists [], (n :: place_of b); split; [auto|apply inside_along]].
             ++ intros (ns & q & R' & ->). apply reach_one in R'; auto. destruct R' as [(_ & _ & _ & -> & _)|(Rc & _ & _ & _ & R')]; [right; left; apply inside_along|left; eauto].
          -- intros [Np O]. split.
             ++ rewrite map_app. apply pairs_app; [apply Ol; auto|repeat constructor|]. intros x y Ix [<-|[]]. apply in_map_iff in Ix. destruct Ix as (p & <- & Ip). destruct (Dl Np p Ip) as (z & r & ->). rewrite Pl. split.
                ** intros X. apply (f_equal (@length _)) in X. cbn [length] in X. rewrite app_length in X. cbn [length] in X. lia.
                ** intros (z' & r' & X). apply (f_equal (@length _)) in X. cbn [length] in X. rewrite !app_length in X. cbn [length] in X. rewrite app_length in X. cbn [length] in X. lia.
             ++ intros p Ip. apply in_app_or in Ip. destruct Ip as [Ip|[<-|[]]]; [destruct (Dl Np p Ip) as (z & r & ->); exists (z :: r); auto|exists []; auto].
        * exists l. split; [exact El|]. split.
          -- intros p. rewrite Il. split; [intros (ns & q & Rc & R' & ->); exists ns, q; split; [apply reach_one; auto 8|auto]|].
             intros (ns & q & R' & ->). apply reach_one in R'; auto. destruct R' as [(_ & X & _)|(Rc & _ & _ & _ & R')]; [apply Mm in X; discriminate|eauto].
          -- intros [Np O]. split; [auto|]. intros p Ip. destruct (Dl Np p Ip) as (z & r & ->). exists (z :: r). auto. }
  destruct G as (l & El & Il & Ol). exists l. split; [exact El|]. split.
  - intros p. rewrite Il. split; [intros (n & _ & ns & q & R & E); eauto|]. intros (ns & q & R & E). destruct (reach_ns _ _ _ _ W R) as (n & ms & -> & I). exists n. split; [auto|]. exists ms, q. auto.
  - intros Np O _. apply Ol; auto. apply readdir_once. auto.
Qed.
Lemma reach_more pl c n cs ns q : wild c -> cs <> [] -> (reach f rec ps pl (c :: cs) (n :: ns) q <->
  get f pl = Some Dir /\ meant c n /\ (get f (n :: pl) <> None /\ normal_comp n \/ ps = true /\ (n = s2l "." \/ n = s2l "..")) /\ get f (step pl n) = Some Dir /\ reach f rec ps (step pl n) cs ns q).
Proof.
  intros W N. split.
  - intros R. inversion R as [|? ? ? ? ? X|? ? ? ? ? ? ? G M E [D|D] R'|]; subst; [contradiction|congruence|auto 6|congruence].
  - intros (A & B & C & D & E). apply r_wild; auto.
Qed.
Lemma split_plain cs : exists pre rest, cs = pre ++ rest /\ Forall (fun c => ~ wild c) pre /\ (rest = [] \/ exists w r, rest = w :: r /\ wild w).
Proof.
  induction cs as [|c cs (pre & rest & -> & P & R)]; [exists [], []; auto|]. destruct (wild_dec c) as [W|W].
  - exists [], (c :: pre ++ rest). split; [auto|]. split; [constructor|]. right. eauto.
  - exists (c :: pre), rest. split; [auto|]. split; [constructor; auto|auto].
Qed.
Lemma slashed_split pre rest : pre <> [] -> rest <> [] -> slashed (pre ++ rest) = slashed pre ++ "/"%char :: slashed rest.
Proof.
  induction pre as [|c pre IH]; intros N M; [congruence|]. cbn [app]. rewrite slashed_app by (destruct pre; [exact M|discriminate]).
  destruct pre as [|d pre]; [reflexivity|]. rewrite IH by (auto; discriminate). rewrite (slashed_app c (d :: pre)) by discriminate. rewrite <- app_assoc. reflexivity.
Qed.
Lemma cut_at (a b : cstr) c : firstn (length a) (a ++ c :: b) = a /\ skipn (S (length a)) (a ++ c :: b) = b.
Proof.
  split; [rewrite firstn_app, Nat.sub_diag, firstn_all; apply app_nil_r|]. change (c :: b) with ([c] ++ b). rewrite app_assoc.
  replace (S (length a)) with (length (a ++ [c])) by (rewrite app_length; cbn; lia). rewrite skipn_app, skipn_all, Nat.sub_diag. reflexivity.
Qed.

Lemma walk : ps = negb nopseudo -> forall m comps, length comps <= m -> comps <> [] -> Forall component comps -> Forall (fun c => wild c -> understood c) comps ->
  (rec = true -> wild (last comps [])) -> forall b k, length comps + depth f < k -> short b comps ->
  exists l, pBat_GetMatch f rec nopseudo k (Some b) (Some (slashed comps)) = Ret l /\ found b comps l.
Proof.
  intros Eps. induction m as [|m IH]; intros comps Lm N Fc Fu La b k K Sh; [destruct comps; [congruence|cbn in Lm; lia]|].
  destruct (split_plain comps) as (pre & rest & E & Pp & [R0|(w & r & R1 & W)]).
  - (* no wildcard *)
    subst rest. rewrite app_nil_r in E. subst pre. destruct k as [|k]; [lia|]. cbn [pBat_GetMatch]. unfold pBat_GetNextLevel. rewrite level_plain by auto. cbn [negb].
    assert (Rf : rec = false).
    { apply not_true_is_false. intros Rc. rewrite Forall_forall in Pp. apply (Pp (last comps [])); [|auto]. destruct comps as [|x comps _] using rev_ind; [congruence|]. rewrite last_last. apply in_or_app. right. left. auto. }
    assert (If : forall (x y : outcome (list cstr)), (if rec then x else y) = y) by (rewrite Rf; auto). rewrite If. cbn [bind app].
    rewrite inside_slashed by auto. assert (Pl := place_along comps b Fc).
    assert (Ch : forall ns q, reach f rec ps (place_of b) comps ns q <-> ns = comps /\ q = fold_left step comps (place_of b) /\ get f q <> None).
    { intros ns q. rewrite <- (app_nil_r comps) at 1. rewrite reach_pre by auto. split.
      - intros (ms & -> & R). inversion R; subst. rewrite app_nil_r. auto.
      - intros (-> & -> & G). exists []. rewrite app_nil_r. split; [auto|]. constructor. auto. }
    assert (Fd : get f (place_of (along b comps)) <> None -> found b comps [add (along b comps)]).
    { intros G. assert (R : reach f rec ps (place_of b) comps comps (place_of (along b comps))) by (apply Ch; auto).
      rewrite add_short by apply (Sh _ _ R). split; [|intros; repeat constructor]. intros p. split; [intros [<-|[]]; eauto|]. intros (ns & q & R' & ->). apply Ch in R'. destruct R' as (-> & _). left. auto. }
    destruct (pBat_FileExists f (along b comps)) eqn:Fi.
    { apply file_b in Fi. destruct Fi as [t Fi]. eexists. split; [reflexivity|]. apply Fd. congruence. }
    destruct (pBat_DirExists f (along b comps)) eqn:Di.
    { apply dir_b in Di. eexists. split; [reflexivity|]. apply Fd. congruence. }
    exists []. split; [auto|]. split; [|intros; constructor]. intros p. split; [intros []|]. intros (ns & q & R' & _). apply Ch in R'. destruct R' as (_ & -> & G). rewrite <- Pl in G.
    unfold pBat_FileExists, pBat_DirExists in *. destruct (get f (place_of (along b comps))) as [[]|]; congruence.
  - subst rest. destruct pre as [|p0 pre0] eqn:Epre.
    + cbn [app] in E. subst comps. inversion Fc as [|? ? Cw Cr]; inversion Fu as [|? ? Uw Ur]; subst. destruct r as [|d r].
      { destruct (deep w Eps Cw W (Uw W) k b) as (l & El & Fd); [lia|cbn [length] in K; lia|auto|]. exists l. split; auto. }
      set (r' := d :: r) in *. assert (Nr : r' <> []) by discriminate.
      destruct k as [|k]; [lia|]. cbn [pBat_GetMatch]. rewrite (level_wild w r' Cw W). unfold r' at 1. rewrite slashed_app by auto.
      destruct (cut_at w (slashed r') "/"%char) as [C1 C2]. rewrite C1, C2. cbn [negb].
      destruct (pBat_DirExists f b) eqn:D.
      2:{ exists []. split; [auto|]. split; [|intros; constructor]. intros p. split; [intros []|]. intros (ns & q & R & _). exfalso.
          assert (X : get f (place_of b) = Some Dir) by (inversion R; subst; auto; contradiction). apply dir_b in X. congruence. }
      apply dir_b in D.
      assert (Lr : rec = true -> wild (last r' [])) by exact La.
      destruct (each_ok (fun n =>
                if nopseudo && pseudo n then Ret []
                else
                  do m <- pBat_RegExpCaseMatch true w n;
                  if m then
                    if pBat_FileExists f (inside b n) then Ret []
                    else pBat_GetMatch f rec nopseudo k (Some (inside b n)) (Some (slashed r'))
                  else if rec && false && negb (pseudo n) && pBat_DirExists f (inside b n)
                       then pBat_GetMatch f rec nopseudo k (Some (inside b n)) (Some w)
                       else Ret []) (place_of b) (nopseudo = true /\ once f /\ Forall normal_comp (w :: r')) (readdir f (place_of b))
        (fun n p => exists ns q, reach f rec ps (place_of b) (w :: r') (n :: ns) q /\ p = along b (n :: ns))) as (l & El & Il & Ol).
      * intros n I. apply readdir_in in I. rewrite andb_false_r. cbn [andb].
        assert (Cn : component n) by (destruct I as [I|(_ & I & _)]; [apply pseudo_component; auto|apply normal_component; auto]).
        assert (Un : nonul n) by (destruct I as [I|(_ & _ & I)]; [apply nonul_pseudo; auto|auto]).
        assert (Gn : get f (step (place_of b) n) <> None).
        { destruct I as [[-> | ->]|(I & I' & _)]; [cbn; congruence|change (get f (tl (place_of b)) <> None); rewrite up_dir by auto; discriminate|rewrite step_normal; auto]. }
        assert (Pl := place_inside b n Cn).
        assert (No : (forall ns q, ~ reach f rec ps (place_of b) (w :: r') (n :: ns) q) -> exists a, Ret [] = Ret a /\ (forall p, In p a <-> exists ns q, reach f rec ps (place_of b) (w :: r') (n :: ns) q /\ p = along b (n :: ns)) /\
                 (nopseudo = true /\ once f /\ Forall normal_comp (w :: r') -> inner_first (map place_of a) /\ forall p, In p a -> exists r, place_of p = r ++ n :: place_of b)).
        { intros H. exists []. split; [auto|]. split; [|intros _; split; [constructor|intros p []]]. intros p. split; [intros []|]. intros (ns & q & R & _). exfalso. eapply H; eauto. }
        destruct (nopseudo && pseudo n) eqn:Np.
        { apply No. intros ns q R. apply andb_true_iff in Np. destruct Np as [Np Pn]. apply reach_more in R; auto. destruct R as (_ & _ & [[_ X]|[X _]] & _); [apply pseudo_normal in X; congruence|rewrite Eps, Np in X; discriminate]. }
        destruct (rx_meant w n (Uw W) Un) as (mm & Em & Mm). rewrite Em. cbn [bind]. destruct mm.
        2:{ apply No. intros ns q R. apply reach_more in R; auto. destruct R as (_ & X & _). apply Mm in X. discriminate. }
        destruct (pBat_FileExists f (inside b n)) eqn:Fi.
        { apply No. intros ns q R. apply file_b in Fi. destruct Fi as [t Fi]. rewrite Pl in Fi. apply reach_more in R; auto. destruct R as (_ & _ & _ & X & _). congruence. }
        assert (Gd : get f (step (place_of b) n) = Some Dir).
        { rewrite <- Pl in Gn |- *. unfold pBat_FileExists in Fi. destruct (get f (place_of (inside b n))) as [[]|]; congruence. }
        assert (En : get f (n :: place_of b) <> None /\ normal_comp n \/ ps = true /\ (n = s2l "." \/ n = s2l "..")).
        { destruct I as [I|(I & I' & _)]; [right; split; [|auto]|left; auto]. apply pseudo_b in I. rewrite I, andb_true_r in Np. rewrite Eps, Np. auto. }
        assert (Ex : forall ns q, reach f rec ps (place_of (inside b n)) r' ns q -> reach f rec ps (place_of b) (w :: r') (n :: ns) q).
        { intros ns q R. rewrite Pl in R. apply reach_more; auto. split; [auto|]. split; [tauto|]. auto. }
        destruct (IH r' ltac:(cbn [length] in *; lia) Nr Cr Ur Lr (inside b n) k) as (a & Ea & Ia & Oa); [cbn [length] in *; lia| |].
        { intros ns q R. rewrite <- along_cons. apply (Sh _ _ (Ex _ _ R)). }
        exists a. split; [exact Ea|]. split.
        -- intros p. rewrite Ia. split.
           ++ intros (ns & q & R & ->). exists ns, q. split; [auto|]. rewrite along_cons. auto.
           ++ intros (ns & q & R & ->). exists ns, q. split; [|rewrite along_cons; auto]. rewrite Pl. apply reach_more in R; auto. tauto.
        -- intros (N1 & N2 & N3). inversion N3; subst. split; [apply Oa; auto|]. intros p Ip. apply Ia in Ip. destruct Ip as (ns & q & R & ->).
           assert (Ep : place_of (along (inside b n) ns) = q) by (rewrite place_along by (eapply reach_comps; eauto); symmetry; eapply reach_place; eauto).
           rewrite Ep. assert (Pf : ps = false) by (rewrite Eps, N1; auto). rewrite Pf in R. apply reach_deeper in R; auto. destruct R as [-> _]. rewrite Pl.
           destruct En as [[_ En]|[X _]]; [|congruence]. rewrite step_normal by auto. eauto.
      * exists l. split; [exact El|]. split.
        -- intros p. rewrite Il. split; [intros (n & _ & ns & q & R & E); eauto|]. intros (ns & q & R & E').
           assert (X : exists n ms, ns = n :: ms /\ In n (readdir f (place_of b))).
           { inversion R as [|? ? ? ? ? X|? ? n ? ms ? ? G M X Y R'|]; subst; [contradiction|]. exists n, ms. split; [auto|]. unfold readdir.
             destruct X as [[X _]|[_ [-> | ->]]]; [right; right; apply entries_in; auto|left; auto|right; left; auto]. }
           destruct X as (n & ms & -> & I). exists n. split; [auto|]. exists ms, q. auto.
        -- intros Np O Nn. apply Ol; auto. apply readdir_once. auto.
    + (* plain names first *)
      rewrite <- Epre in *. assert (Np : pre <> []) by (rewrite Epre; discriminate). clear Epre p0 pre0. subst comps.
      assert (Fp : Forall component pre) by (apply Forall_app in Fc; tauto). assert (Fr : Forall component (w :: r)) by (apply Forall_app in Fc; tauto).
      destruct k as [|k]; [lia|]. cbn [pBat_GetMatch]. unfold pBat_GetNextLevel. rewrite level_next by (auto; inversion Fr; auto). rewrite slashed_split by (auto; discriminate). cbn [plus].
      destruct (cut_at (slashed pre) (slashed (w :: r)) "/"%char) as [C1 C2]. rewrite C1, C2. cbn [negb]. rewrite inside_slashed by auto. assert (Pl := place_along pre b Fp).
      assert (Ch : forall ns q, reach f rec ps (place_of b) (pre ++ w :: r) ns q <-> exists ms, ns = pre ++ ms /\ reach f rec ps (place_of (along b pre)) (w :: r) ms q).
      { intros ns q. rewrite Pl. apply reach_pre. auto. }
      assert (No : get f (place_of (along b pre)) <> Some Dir -> found b (pre ++ w :: r) []).
      { intros G. split; [|intros; constructor]. intros p. split; [intros []|]. intros (ns & q & R & _). apply Ch in R. destruct R as (ms & _ & R). exfalso. apply G. inversion R; subst; auto. contradiction. }
      destruct (pBat_FileExists f (along b pre)) eqn:Fi.
      { apply file_b in Fi. destruct Fi as [t Fi]. exists []. split; [auto|]. apply No. congruence. }
      destruct (pBat_DirExists f (along b pre)) eqn:Di.
      2:{ exists []. split; [auto|]. apply No. intros X. apply dir_b in X. congruence. }
      assert (Lp : length (pre ++ w :: r) = length pre + length (w :: r)) by apply app_length. assert (length pre <> 0) by (destruct pre; [congruence|discriminate]).
      destruct (IH (w :: r) ltac:(lia) ltac:(discriminate) Fr ltac:(apply Forall_app in Fu; tauto)) with (b := along b pre) (k := k) as (l & El & Il & Ol).
      * intros Rc. specialize (La Rc). clear - La. induction pre as [|x pre IH]; [exact La|]. apply IH. cbn [app last] in La. destruct (pre ++ w :: r) eqn:X; [destruct pre; discriminate|auto].
      * lia.
      * intros ns q R. rewrite <- along_app. apply (Sh (pre ++ ns) q). apply Ch. eauto.
      * exists l. split; [exact El|]. split.
        -- intros p. rewrite Il. split.
           ++ intros (ns & q & R & ->). exists (pre ++ ns), q. split; [apply Ch; eauto|]. rewrite along_app. auto.
           ++ intros (ns & q & R & ->). apply Ch in R. destruct R as (ms & -> & R). exists ms, q. rewrite along_app. auto.
        -- intros N1 O Nn. apply Ol; auto. apply Forall_app in Nn. tauto.
Qed.
End Walk.
