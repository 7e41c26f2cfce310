(** Html_Proofs.v -- lemmas about Html_Model. *)

From Verif Require Import Base Tea_Model Tea_Spec Html_Model Html_Spec.
Require Import Lia.

(** ** writing characters *)
Lemma flat_flat : forall (f g : ascii -> cstr) s, flat_map g (flat_map f s) = flat_map (fun c => flat_map g (f c)) s.
Proof. induction s as [|c s IH]; cbn; [reflexivity|]. rewrite flat_map_app, IH. reflexivity. Qed.
Lemma escape_entity : forall s, Tea_HtmlEscapeChar s = flat_map entity s.
Proof.
  intro s. unfold Tea_HtmlEscapeChar, replace1. rewrite !flat_flat. apply flat_map_ext. intro c. unfold entity.
  destruct (ceq c "&") eqn:A; [reflexivity|]. cbn [flat_map app]. destruct (ceq c "<") eqn:B; [reflexivity|]. cbn [flat_map app].
  destruct (ceq c ">") eqn:C; reflexivity.
Qed.
Lemma entity_cases : forall c, (c = "&"%char /\ entity c = s2l "&amp;") \/ (c = "<"%char /\ entity c = s2l "&lt;") \/ (c = ">"%char /\ entity c = s2l "&gt;") \/
  (c <> "&"%char /\ c <> "<"%char /\ c <> ">"%char /\ entity c = [c]).
Proof.
  intro c. unfold entity. destruct (ceq c "&") eqn:A; [apply ceq_true in A; auto 10|]. destruct (ceq c "<") eqn:B; [apply ceq_true in B; auto 10|].
  destruct (ceq c ">") eqn:C; [apply ceq_true in C; auto 10|]. apply ceq_false in A, B, C. auto 12.
Qed.
Lemma entity_no_tag : forall s, no_tag (flat_map entity s).
Proof.
  intro s. split; intro X; apply in_flat_map in X as (c & _ & X); destruct (entity_cases c) as [(-> & E)|[(-> & E)|[(-> & E)|(A & B & C & E)]]];
    rewrite E in X; cbn in X; intuition congruence.
Qed.
Lemma entity_inj : forall s t, flat_map entity s = flat_map entity t -> s = t.
Proof.
  induction s as [|c s IH]; intros [|d t] E; cbn [flat_map] in E; [reflexivity| | |].
  - destruct (entity_cases d) as [(D & F)|[(D & F)|[(D & F)|(A & B & C & F)]]]; rewrite F in E; discriminate.
  - destruct (entity_cases c) as [(D & F)|[(D & F)|[(D & F)|(A & B & C & F)]]]; rewrite F in E; discriminate.
  - destruct (entity_cases c) as [(D & F)|[(D & F)|[(D & F)|(A & B & C & F)]]];
    destruct (entity_cases d) as [(D' & G)|[(D' & G)|[(D' & G)|(A' & B' & C' & G)]]]; rewrite F, G in E; cbn in E;
      try discriminate; injection E; intros; subst; try congruence; f_equal; auto.
Qed.

(** ** HTML *)
Lemma html_app : forall s t, html s -> html t -> html (s ++ t).
Proof.
  intros s t H. revert t. induction H as [|c s A B H IH|s H IH|a z s u P H1 IH1 H2 IH2|s u I H IH]; intros t T.
  - exact T.
  - cbn. constructor; auto.
  - rewrite <- app_assoc. apply ht_br. auto.
  - rewrite <- !app_assoc. apply ht_elem; auto.
  - rewrite <- !app_assoc. apply ht_list; auto.
Qed.
Lemma html_text : forall s, no_tag s -> html s.
Proof.
  induction s as [|c s IH]; intros [A B]; constructor.
  - intros ->. apply A. left; reflexivity.
  - intros ->. apply B. left; reflexivity.
  - apply IH. split; intro X; [apply A|apply B]; right; exact X.
Qed.
Lemma html_elem1 : forall a z s, plain_element a z -> html s -> html (a ++ s ++ z).
Proof. intros a z s P H. assert (X := ht_elem a z s [] P H ht_nil). rewrite app_nil_r in X. exact X. Qed.
Lemma no_tag_cons : forall c s, no_tag (c :: s) -> c <> "<"%char /\ c <> ">"%char /\ no_tag s.
Proof. intros c s [A B]. split; [intros ->; apply A; left; reflexivity|]. split; [intros ->; apply B; left; reflexivity|]. split; intro X; [apply A|apply B]; right; exact X. Qed.
Lemma html_br : forall s, no_tag s -> html (replace1 nl (s2l "<br />") s).
Proof.
  induction s as [|c s IH]; intro N; [constructor|]. apply no_tag_cons in N as (A & B & N). change (replace1 nl (s2l "<br />") (c :: s)) with ((if ceq c nl then s2l "<br />" else [c]) ++ replace1 nl (s2l "<br />") s).
  destruct (ceq c nl); [apply ht_br|apply ht_chr]; auto.
Qed.
Lemma no_tag_app : forall s t, no_tag s -> no_tag t -> no_tag (s ++ t).
Proof. intros s t [A B] [C D]. split; intro X; apply in_app_or in X as [X|X]; auto. Qed.
Lemma ext_cases : forall md a, link_ext md a = [] \/ link_ext md a = s2l ".html".
Proof.
  intros. unfold link_ext. destruct (strncmp0 a (s2l "http://") || strncmp0 a (s2l "https://") || strncmp0 a (s2l "mail://") || md); [auto|].
  destruct (existsb _ _); auto.
Qed.
Lemma ext_ok : forall md a, no_tag a -> ~ In quote a -> no_tag (a ++ link_ext md a) /\ ~ In quote (a ++ link_ext md a).
Proof.
  intros md a N Q. assert (X : no_tag (link_ext md a) /\ ~ In quote (link_ext md a)).
  { destruct (ext_cases md a) as [-> | ->]; (split; [split|]); cbn; intuition discriminate. }
  destruct X. split; [apply no_tag_app; assumption|]. intro X. apply in_app_or in X as [X|X]; auto.
Qed.
Definition node_html (md first : bool) (x : node) : cstr :=
  match x with
  | Link a t => s2l "<a href=" ++ [quote] ++ a ++ link_ext md a ++ [quote] ++ s2l ">" ++ t ++ s2l "</a>"
  | Emphasis t => s2l "<strong>" ++ t ++ s2l "</strong>"
  | Plain t => match t with c :: r => if first && ceq c "-"%char then r else t | [] => [] end
  end.
Lemma plain_no_tag : forall (first : bool) t, no_tag t -> no_tag (match t with c :: r => if first && ceq c "-"%char then r else t | [] => [] end).
Proof. intros first [|c t] N; [exact N|]. destruct (first && ceq c "-"); [|exact N]. apply no_tag_cons in N. tauto. Qed.
Lemma node_ok_html : forall md first x, node_ok x -> html (node_html md first x).
Proof.
  intros md first [t|t|a t] [N A]; cbn [text_of node_html] in *.
  - apply html_text. apply plain_no_tag. exact N.
  - apply html_elem1; [constructor|apply html_text; exact N].
  - destruct A as [A Q]. destruct (ext_ok md a A Q) as [X Y].
    assert (H := html_elem1 _ _ t (pe_a _ X Y) (html_text _ N)). rewrite <- !app_assoc in H. rewrite <- ?app_assoc. exact H.
Qed.
Lemma par_html : forall md ns first, Forall node_ok ns -> html (Tea_HtmlOutputParagraph md first ns).
Proof.
  induction ns as [|x ns IH]; intros first F; [constructor|]. inversion F as [|? ? X Y]; subst.
  change (html (node_html md first x ++ Tea_HtmlOutputParagraph md false ns)). apply html_app; [apply node_ok_html; exact X|auto].
Qed.

(** What closes [n] lists. *)
Inductive tail : nat -> cstr -> Prop :=
| tl_0 o : html o -> tail 0 o
| tl_end n s o : html s -> tail n o -> tail (S n) (s ++ s2l "</li></ul>" ++ o)
| tl_item n s o : html s -> tail (S n) o -> tail (S n) (s ++ s2l "</li><li>" ++ o).
Lemma tail_app : forall n s o, html s -> tail n o -> tail n (s ++ o).
Proof.
  intros n s o H T. destruct T.
  - constructor. apply html_app; assumption.
  - rewrite app_assoc. constructor; [apply html_app|]; assumption.
  - rewrite app_assoc. constructor; [apply html_app|]; assumption.
Qed.
Lemma tail_items : forall n o, tail (S n) o -> exists i t, o = i ++ s2l "</ul>" ++ t /\ items (s2l "<li>" ++ i) /\ tail n t.
Proof.
  intros n o T. remember (S n) as k eqn:K. revert n K. induction T as [|k s o H T IH|k s o H T IH]; intros n K; [discriminate| |]; injection K as ->.
  - exists (s ++ s2l "</li>"), o. split; [rewrite <- app_assoc; reflexivity|]. split; [|exact T]. apply it_one. exact H.
  - destruct (IH n eq_refl) as (i & t & -> & I & T2). exists (s ++ s2l "</li>" ++ s2l "<li>" ++ i), t.
    split; [rewrite <- !app_assoc; reflexivity|]. split; [|exact T2]. apply it_more; assumption.
Qed.
Lemma tail_open : forall n o, tail (S n) o -> tail n (s2l "<ul><li>" ++ o).
Proof.
  intros n o T. destruct (tail_items n o T) as (i & t & -> & I & T2).
  assert (H : html (s2l "<ul>" ++ (s2l "<li>" ++ i) ++ s2l "</ul>" ++ [])) by (apply ht_list; [exact I|apply ht_nil]).
  apply (tail_app n _ t H) in T2. rewrite <- !app_assoc in T2. exact T2.
Qed.
Lemma html_nl : forall s, html s -> html (nl :: s).
Proof. intros. constructor; [discriminate|discriminate|assumption]. Qed.
Lemma tail_nl : forall n o, tail n o -> tail n (nl :: o).
Proof. intros n o T. apply (tail_app n [nl] o); [apply html_nl; constructor|exact T]. Qed.
Lemma tail_close : forall k n o, tail n o -> tail (k + n) (times k ul_close ++ o).
Proof.
  induction k as [|k IH]; intros n o T; [exact T|]. cbn [times Nat.add]. unfold ul_close. rewrite <- !app_assoc.
  apply (tl_end (k + n) []); [constructor|]. apply tail_nl. apply IH. exact T.
Qed.
Lemma tail_opens : forall k n o, tail (k + n) o -> tail n (times k ul_open ++ o).
Proof.
  induction k as [|k IH]; intros n o T; [exact T|]. cbn [times]. unfold ul_open. rewrite <- !app_assoc.
  apply tail_open. apply tail_nl. apply IH. replace (k + S n) with (S k + n) by lia. exact T.
Qed.
Lemma tail_level : forall last lvl o, tail lvl o -> tail last (to_level last lvl ++ o).
Proof.
  intros last lvl o T. unfold to_level. rewrite <- app_assoc. destruct (Nat.le_gt_cases lvl last) as [L|L].
  - replace (lvl - last) with 0 by lia. cbn [times app]. replace last with ((last - lvl) + lvl) at 1 by lia. apply tail_close. exact T.
  - replace (last - lvl) with 0 by lia. cbn [times app]. apply tail_opens. replace (lvl - last + last) with lvl by lia. exact T.
Qed.
Definition head_tag (h1 : bool) : cstr := if h1 then s2l "<h1>" else s2l "<h2>".
Lemma blocks_tail : forall md l last h1, page_ok l -> tail last (html_blocks md last h1 l).
Proof.
  induction l as [|[b ns] l IH]; intros last h1 P.
  { cbn [html_blocks]. replace last with (last + 0) at 1 by lia. rewrite <- (app_nil_r (times last ul_close)). apply tail_close. constructor. constructor. }
  inversion P as [|? ? [A B] C]; subst. cbn [fst snd] in *. cbn [html_blocks]. destruct (b_kind b).
  - apply tail_level. set (rest := s2l "<p>" ++ _).
    assert (T : tail (b_level b) rest).
    { unfold rest. assert (H : html (s2l "<p>" ++ Tea_HtmlOutputParagraph md true ns ++ s2l "</p>")) by (apply html_elem1; [constructor|apply par_html; exact B]).
      assert (T := tail_app _ _ _ H (tail_nl _ _ (tail_nl _ _ (IH (b_level b) h1 C)))). rewrite <- !app_assoc in T. exact T. }
    destruct (negb (last <? b_level b) && negb (b_nomark b) && (0 <? b_level b)) eqn:E; [|exact T].
    apply andb_prop in E as [_ E]. apply Nat.ltb_lt in E. destruct (b_level b) as [|n]; [lia|].
    apply (tl_item n []); [constructor|exact T].
  - apply tail_level.
    assert (H : html (s2l "<pre><code>" ++ replace1 nl (s2l "<br />") (b_text b) ++ s2l "</code></pre>")) by (apply html_elem1; [constructor|apply html_br; exact A]).
    assert (T := tail_app _ _ _ H (tail_nl _ _ (tail_nl _ _ (IH (b_level b) h1 C)))). rewrite <- !app_assoc in T. exact T.
  - assert (H : html ((if h1 then s2l "<h1>" else s2l "<h2>") ++ replace1 nl (s2l "<br />") (b_text b) ++ (if h1 then s2l "</h1>" else s2l "</h2>"))).
    { apply html_elem1; [destruct h1; constructor|apply html_br; exact A]. }
    assert (T := tail_app _ _ _ H (tail_nl _ _ (tail_nl _ _ (IH 0 false C)))). rewrite <- !app_assoc in T.
    replace last with (last + 0) at 1 by lia. apply tail_close. exact T.
Qed.

(** ** the text and the tags of pieces *)
Definition piece (p x : cstr) (t : list cstr) : Prop := forall s, strip false (p ++ s) = x ++ strip false s /\ tags (p ++ s) = t ++ tags s.
Lemma piece_app : forall p q x y t u, piece p x t -> piece q y u -> piece (p ++ q) (x ++ y) (t ++ u).
Proof.
  intros p q x y t u P Q s. destruct (P (q ++ s)) as [A B]. destruct (Q s) as [C D]. rewrite <- !app_assoc.
  rewrite A, B, C, D. auto.
Qed.
Lemma piece_nil : piece [] [] [].
Proof. intro s. auto. Qed.
Lemma piece_eq : forall p x t, piece p x t -> strip false p = x /\ tags p = t.
Proof. intros p x t P. destruct (P []) as [A B]. rewrite !app_nil_r in A, B. auto. Qed.
Lemma piece_text : forall s, no_tag s -> piece s s [].
Proof.
  induction s as [|c s IH]; intros N; [exact piece_nil|]. apply no_tag_cons in N as (A & B & N). intro r. destruct (IH N r) as [C D].
  cbn. unfold tags. cbn. destruct (ceq c "<") eqn:E; [apply ceq_true in E; congruence|]. rewrite C. split; [reflexivity|exact D].
Qed.
Lemma in_tag : forall h r cur, ~ In ">"%char h -> strip true (h ++ ">"%char :: r) = strip false r /\ tags_ (Some cur) (h ++ ">"%char :: r) = (cur ++ h) :: tags r.
Proof.
  induction h as [|c h IH]; intros r cur N.
  - cbn. rewrite app_nil_r. auto.
  - cbn. destruct (ceq c ">") eqn:E; [apply ceq_true in E; subst; elim N; left; reflexivity|]. cbn [negb].
    destruct (IH r (cur ++ [c])) as [A B]; [intro X; apply N; right; exact X|]. split; [exact A|]. etransitivity; [exact B|]. rewrite <- app_assoc. reflexivity.
Qed.
Lemma piece_tag : forall h, ~ In ">"%char h -> piece ("<"%char :: h ++ s2l ">") [] [h].
Proof.
  intros h N s. cbn [app]. rewrite <- app_assoc. destruct (in_tag h s [] N) as [A B]. cbn. unfold tags. cbn. split; [exact A|exact B].
Qed.
Lemma visible_app : forall s t, visible (s ++ t) = visible s ++ visible t.
Proof. unfold visible. intros. apply filter_app. Qed.
Lemma piece_br : forall s, no_tag s -> exists x t, piece (replace1 nl (s2l "<br />") s) x t /\ visible x = visible s /\ count (s2l "ul") t = 0 /\ count (s2l "/ul") t = 0.
Proof.
  induction s as [|c s IH]; intro N; [exists [], []; split; [exact piece_nil|auto]|]. apply no_tag_cons in N as (A & B & N). destruct (IH N) as (x & t & P & V & C1 & C2).
  change (replace1 nl (s2l "<br />") (c :: s)) with ((if ceq c nl then s2l "<br />" else [c]) ++ replace1 nl (s2l "<br />") s).
  destruct (ceq c nl) eqn:E.
  - apply ceq_true in E. subst c. exists ([] ++ x), ([s2l "br /"] ++ t). split; [apply piece_app; [apply (piece_tag (s2l "br /")); cbn; intuition discriminate|exact P]|].
    split; [exact V|]. auto.
  - exists ([c] ++ x), ([] ++ t). split; [apply piece_app; [apply piece_text; split; intros [X|[]]; congruence|exact P]|]. split; [|auto].
    change (visible (c :: s)) with (visible ([c] ++ s)). rewrite !(visible_app [c]), V. reflexivity.
Qed.
Lemma count_app : forall a l m, count a (l ++ m) = count a l + count a m.
Proof. intros. unfold count. rewrite filter_app, app_length. reflexivity. Qed.

(** a piece with this text and these lists opened and closed *)
Definition says (p v : cstr) (o c : nat) : Prop :=
  exists x t, piece p x t /\ visible x = visible v /\ count (s2l "ul") t = o /\ count (s2l "/ul") t = c.
Lemma says_app : forall p q v w a b c d, says p v a b -> says q w c d -> says (p ++ q) (v ++ w) (a + c) (b + d).
Proof.
  intros p q v w a b c d (x & t & P & V & <- & <-) (y & u & Q & W & <- & <-). exists (x ++ y), (t ++ u).
  split; [apply piece_app; assumption|]. rewrite !visible_app, V, W, !count_app. auto.
Qed.
Lemma says_text : forall s, no_tag s -> says s s 0 0.
Proof. intros s N. exists s, []. split; [apply piece_text; exact N|auto]. Qed.
Lemma says_tag : forall h, ~ In ">"%char h -> streqb (s2l "ul") h = false -> streqb (s2l "/ul") h = false -> says ("<"%char :: h ++ s2l ">") [] 0 0.
Proof. intros h N A B. exists [], [h]. split; [apply piece_tag; exact N|]. unfold count. cbn [filter]. rewrite A, B. auto. Qed.
Lemma says_const : forall p x t, (forall s, strip false (p ++ s) = x ++ strip false s /\ tags (p ++ s) = t ++ tags s) -> forall v o c,
  visible x = visible v -> count (s2l "ul") t = o -> count (s2l "/ul") t = c -> says p v o c.
Proof. intros p x t P v o c V A B. exists x, t. auto. Qed.
Lemma says_nil : says [] [] 0 0.
Proof. exists [], []. split; [exact piece_nil|auto]. Qed.
Lemma says_nl2 : says [nl; nl] [] 0 0.
Proof. apply (says_const [nl; nl] [nl; nl] []); auto. Qed.
Ltac tagp t := match goal with |- says ?p ?v ?o ?c => apply (says_const p [] t (fun s => conj eq_refl eq_refl)); reflexivity end.
Lemma says_close : forall k, says (times k ul_close) [] 0 k.
Proof.
  induction k as [|k IH]; [exact says_nil|]. cbn [times]. change (@nil ascii) with (@nil ascii ++ []). change 0 with (0 + 0). change (S k) with (1 + k).
  apply says_app; [|exact IH]. apply (says_const ul_close [nl] [s2l "/li"; s2l "/ul"]); auto.
Qed.
Lemma says_open : forall k, says (times k ul_open) [] k 0.
Proof.
  induction k as [|k IH]; [exact says_nil|]. cbn [times]. change (@nil ascii) with (@nil ascii ++ []). change 0 with (0 + 0). change (S k) with (1 + k).
  apply says_app; [|exact IH]. apply (says_const ul_open [nl] [s2l "ul"; s2l "li"]); auto.
Qed.
Lemma says_level : forall last lvl, says (to_level last lvl) [] (lvl - last) (last - lvl).
Proof.
  intros. unfold to_level. assert (X := says_app _ _ _ _ _ _ _ _ (says_close (last - lvl)) (says_open (lvl - last))). rewrite Nat.add_0_r in X. exact X.
Qed.
Lemma says_elem : forall a z s v, says a [] 0 0 -> says z [] 0 0 -> says s v 0 0 -> says (a ++ s ++ z) v 0 0.
Proof.
  intros a z s v A Z S. assert (X := says_app _ _ _ _ _ _ _ _ A (says_app _ _ _ _ _ _ _ _ S Z)). cbn [app Nat.add] in X. rewrite app_nil_r in X. exact X.
Qed.
Lemma says_node : forall md first x, node_ok x -> says (node_html md first x) (match x with Plain (c :: t) => if first && ceq c "-"%char then t else c :: t | _ => text_of x end) 0 0.
Proof.
  intros md first [t|t|a t] [N A]; cbn [text_of node_html] in *.
  - destruct t as [|c t]; [exact says_nil|]. apply says_text. apply (plain_no_tag first (c :: t) N).
  - apply says_elem; [tagp [s2l "strong"]|tagp [s2l "/strong"]|apply says_text; exact N].
  - destruct A as [A Q]. destruct (ext_ok md a A Q) as [X Y].
    assert (H : says (("<"%char :: (s2l "a href=" ++ [quote] ++ (a ++ link_ext md a) ++ [quote]) ++ s2l ">") ++ t ++ s2l "</a>") t 0 0).
    { apply says_elem; [|tagp [s2l "/a"]|apply says_text; exact N]. apply says_tag; [|reflexivity|reflexivity].
      intro Z. apply in_app_or in Z as [Z|Z]; [cbn in Z; intuition discriminate|]. cbn in Z. destruct Z as [Z|Z]; [discriminate|].
      apply in_app_or in Z as [Z|Z]; [destruct X as [_ X]; exact (X Z)|]. cbn in Z. intuition discriminate. }
    cbn [app s2l] in H |- *. rewrite <- ?app_assoc in H. cbn [app] in H. rewrite <- ?app_assoc in H. exact H.
Qed.
Lemma says_nodes : forall md ns, Forall node_ok ns -> says (Tea_HtmlOutputParagraph md false ns) (concat (map text_of ns)) 0 0.
Proof.
  induction ns as [|x ns IH]; intro F; [exact says_nil|]. inversion F as [|? ? X Y]; subst.
  assert (H := says_app _ _ _ _ _ _ _ _ (says_node md false x X) (IH Y)). cbn [andb] in H.
  change (says (node_html md false x ++ Tea_HtmlOutputParagraph md false ns) (text_of x ++ concat (map text_of ns)) 0 0).
  destruct x as [[|c t]|t|a t]; exact H.
Qed.
Lemma says_par : forall md ns, Forall node_ok ns -> says (Tea_HtmlOutputParagraph md true ns) (par_text ns) 0 0.
Proof.
  intros md [|x ns] F; [exact says_nil|]. inversion F as [|? ? X Y]; subst.
  assert (H := says_app _ _ _ _ _ _ _ _ (says_node md true x X) (says_nodes md ns Y)). cbn [andb Nat.add] in H.
  change (says (node_html md true x ++ Tea_HtmlOutputParagraph md false ns) (par_text (x :: ns)) 0 0).
  destruct x as [[|c t]|t|a t]; try exact H. cbn [par_text]. destruct (ceq c "-"); exact H.
Qed.
Definition elem_html (md h1 : bool) (b : block) (ns : list node) : cstr :=
  match b_kind b with
  | Head => (if h1 then s2l "<h1>" else s2l "<h2>") ++ replace1 nl (s2l "<br />") (b_text b) ++ (if h1 then s2l "</h1>" else s2l "</h2>")
  | Code => s2l "<pre><code>" ++ replace1 nl (s2l "<br />") (b_text b) ++ s2l "</code></pre>"
  | Para => s2l "<p>" ++ Tea_HtmlOutputParagraph md true ns ++ s2l "</p>"
  end.
Lemma says_elem_html : forall md h1 b ns, no_tag (b_text b) -> Forall node_ok ns -> says (elem_html md h1 b ns) (block_text (b, ns)) 0 0.
Proof.
  intros md h1 b ns A B. unfold elem_html, block_text. cbn [fst snd]. destruct (b_kind b).
  - apply says_elem; [tagp [s2l "p"]|tagp [s2l "/p"]|apply says_par; exact B].
  - apply says_elem; [tagp [s2l "pre"; s2l "code"]|tagp [s2l "/code"; s2l "/pre"]|apply piece_br; exact A].
  - destruct h1; [apply says_elem; [tagp [s2l "h1"]|tagp [s2l "/h1"]|apply piece_br; exact A]|apply says_elem; [tagp [s2l "h2"]|tagp [s2l "/h2"]|apply piece_br; exact A]].
Qed.
Definition level_of (b : block) : nat := match b_kind b with Head => 0 | _ => b_level b end.
Lemma blocks_step : forall md last h1 b ns l, no_tag (b_text b) -> Forall node_ok ns -> exists u,
  html_blocks md last h1 ((b, ns) :: l) = u ++ elem_html md h1 b ns ++ [nl; nl] ++ html_blocks md (level_of b) (match b_kind b with Head => false | _ => h1 end) l /\
  exists o c, says u [] o c /\ last + o = level_of b + c.
Proof.
  intros md last h1 b ns l A B. cbn [html_blocks]. unfold elem_html, level_of. destruct (b_kind b).
  - exists (to_level last (b_level b) ++ (if negb (last <? b_level b) && negb (b_nomark b) && (0 <? b_level b) then s2l "</li><li>" else [])).
    split; [rewrite <- !app_assoc; reflexivity|]. exists (b_level b - last + 0), (last - b_level b + 0). split; [|lia].
    apply (says_app _ _ [] [] _ _ 0 0); [apply says_level|]. destruct (negb (last <? b_level b) && negb (b_nomark b) && (0 <? b_level b)); [tagp [s2l "/li"; s2l "li"]|exact says_nil].
  - exists (to_level last (b_level b)). split; [rewrite <- !app_assoc; reflexivity|]. eexists _, _. split; [apply says_level|lia].
  - exists (times last ul_close). split; [rewrite <- !app_assoc; reflexivity|]. eexists _, _. split; [apply says_close|lia].
Qed.
Lemma says_eq : forall p v w o c o' c', says p v o c -> visible v = visible w -> o = o' -> c = c' -> says p w o' c'.
Proof. intros p v w o c o' c' (x & t & P & V & A & B) E <- <-. exists x, t. rewrite <- E. auto. Qed.
Lemma blocks_at : forall md l1 last h1 b ns l2, page_ok (l1 ++ (b, ns) :: l2) -> exists h u v,
  html_blocks md last h1 (l1 ++ (b, ns) :: l2) = u ++ elem_html md h b ns ++ [nl; nl] ++ v /\
  (h = true <-> h1 = true /\ Forall (fun x => b_kind (fst x) <> Head) l1) /\
  exists o c, says u (concat (map block_text l1)) o c /\ last + o = level_of b + c.
Proof.
  induction l1 as [|[b1 n1] l1 IH]; intros last h1 b ns l2 P; cbn [app] in P |- *; inversion P as [|? ? [A B] C]; subst; cbn [fst snd] in A, B.
  - destruct (blocks_step md last h1 b ns l2 A B) as (u & E & o & c & S & L). exists h1, u. eexists. split; [exact E|].
    split; [intuition|]. exists o, c. auto.
  - destruct (blocks_step md last h1 b1 n1 (l1 ++ (b, ns) :: l2) A B) as (u & E & o & c & S & L).
    destruct (IH (level_of b1) (match b_kind b1 with Head => false | _ => h1 end) b ns l2 C) as (h & u2 & v & E2 & H & o2 & c2 & S2 & L2).
    exists h, (u ++ elem_html md h1 b1 n1 ++ [nl; nl] ++ u2), v. split; [rewrite E, E2, <- !app_assoc; reflexivity|]. split.
    + rewrite H. split.
      * intros [X Y]. destruct (b_kind b1) eqn:K; try discriminate; (split; [exact X|]); constructor; auto; cbn; congruence.
      * intros [X Y]. inversion Y as [|? ? Y1 Y2]; subst. cbn in Y1. destruct (b_kind b1); try congruence; auto.
    + exists (o + (0 + (0 + o2))), (c + (0 + (0 + c2))). split; [|lia].
      eapply says_eq; [|reflexivity|reflexivity|reflexivity].
      apply (says_app u _ [] _ _ _ _ _ S). apply says_app; [apply says_elem_html; assumption|]. apply (says_app _ _ [] _ _ _ _ _ says_nl2 S2).
Qed.
Lemma blocks_says : forall md l last h1, page_ok l -> exists o c, says (html_blocks md last h1 l) (concat (map block_text l)) o c /\ last + o = c.
Proof.
  induction l as [|[b ns] l IH]; intros last h1 P.
  - exists 0, last. split; [apply says_close|lia].
  - inversion P as [|? ? [A B] C]; subst; cbn [fst snd] in A, B. destruct (blocks_step md last h1 b ns l A B) as (u & -> & o & c & S & L).
    destruct (IH (level_of b) (match b_kind b with Head => false | _ => h1 end) C) as (o2 & c2 & S2 & L2).
    exists (o + (0 + (0 + o2))), (c + (0 + (0 + c2))). split; [|lia].
    apply (says_app u _ [] _ _ _ _ _ S). apply says_app; [apply says_elem_html; assumption|]. apply (says_app _ _ [] _ _ _ _ _ says_nl2 S2).
Qed.

(** ** the reading of a document keeps its characters *)
Section Chars.
Variable P : ascii -> Prop.
Hypothesis P_blank : P " "%char.
Notation all := (Forall P).
Lemma all_firstn : forall n s, all s -> all (firstn n s).
Proof. induction n as [|n IH]; intros [|c s] H; cbn; try constructor; inversion H; subst; auto. Qed.
Lemma all_skipn : forall n s, all s -> all (skipn n s).
Proof. induction n as [|n IH]; intros [|c s] H; cbn; auto. inversion H; subst; auto. Qed.
Lemma all_app : forall s t, all s -> all t -> all (s ++ t).
Proof. intros s t A B. apply Forall_app. auto. Qed.
Lemma all_blocks : forall f s l, all s -> parse_blocks f s = Ret (Some l) -> Forall (fun x => all (snd x)) l.
Proof.
  induction f as [|f IH]; intros s l A E; [discriminate|]. cbn [parse_blocks] in E. destruct (seek_open s) as [[k code]|].
  2:{ injection E as <-. constructor; [exact A|constructor]. }
  destruct (if code then Tea_SeekNextClosingBrace 0 (skipn (k + 2) s) else strstr2 "}" "}" (skipn (k + 2) s)) as [j|]; [|discriminate].
  destruct (parse_blocks f (skipn (j + (if code then 1 else 2)) (skipn (k + 2) s))) as [[r|]| |] eqn:R; cbn [bind] in E; try discriminate.
  injection E as <-. constructor; [apply all_firstn; exact A|]. constructor; [apply all_firstn, all_skipn; exact A|].
  apply (IH _ _ (all_skipn _ _ (all_skipn _ _ A)) R).
Qed.
Lemma all_break : forall f k s l, all s -> break_loop f k s = Ret l -> Forall all l.
Proof.
  induction f as [|f IH]; intros k s l A E; [discriminate|]. cbn [break_loop] in E. destruct (strchr_from k s) as [j|].
  2:{ injection E as <-. constructor; [exact A|constructor]. }
  destruct (skip_sp (skipn (S j) s)) as [|c r]; [eauto|]. destruct (ceq c nl); [|eauto].
  destruct (break_loop f 0 (skipn (j + 2) s)) as [r'| |] eqn:R; cbn [bind] in E; try discriminate. injection E as <-.
  constructor; [apply all_firstn; exact A|]. apply (IH _ _ _ (all_skipn _ _ A) R).
Qed.
Lemma all_sweep : forall n s, length s < n -> forall node first group seen out, all s -> all seen -> all out -> all (fst (sweep node first group seen out s)).
Proof.
  induction n as [|n IH]; intros s L node first group seen out A B C; [lia|]. destruct s as [|c s]; [exact C|]. inversion A as [|? ? A1 A2]; subst. cbn in L. cbn [sweep].
  assert (O : forall x, P x -> all [x]) by (intros; constructor; [assumption|constructor]).
  destruct (ceq c bslash).
  - destruct s as [|d s].
    + cbn [fst]. apply all_app; [exact C|]. apply all_skipn. apply all_app; auto.
    + inversion A2 as [|? ? A3 A4]; subst. cbn in L. apply IH; [lia|exact A4| |]; apply all_app; auto.
  - destruct (ceq c nl || ceq c tab || ceq c " "); [destruct group|]; (apply IH; [lia|exact A2| |]); try apply all_app; auto.
Qed.
Lemma all_tabs : forall s, all s -> all (Tea_SweepCodeTabs s).
Proof. induction 1; cbn; constructor; auto. destruct (ceq x tab); assumption. Qed.
Lemma all_purify : forall l r, Forall (fun x => all (snd x)) l -> Tea_PurifyPage l = Ret r -> Forall (fun x => all (snd x)) r.
Proof.
  induction l as [|[k s] l IH]; intros r A E; [injection E as <-; constructor|]. inversion A as [|? ? A1 A2]; subst. cbn [snd] in A1.
  cbn [Tea_PurifyPage] in E. destruct k.
  - destruct (Tea_BreakParagraph s) as [ps| |] eqn:B; cbn [bind] in E; try discriminate.
    destruct (Tea_PurifyPage l) as [q| |]; cbn [bind] in E; try discriminate. injection E as <-.
    apply Forall_app. split; [|auto]. apply Forall_map. cbn [snd]. exact (all_break _ _ _ _ A1 B).
  - destruct (Tea_PurifyPage l) as [q| |]; cbn [bind] in E; try discriminate. injection E as <-. constructor; [apply all_tabs; exact A1|auto].
  - destruct (Tea_PurifyPage l) as [q| |]; cbn [bind] in E; try discriminate. injection E as <-.
    constructor; [apply (all_sweep (S (length s))); auto|auto].
Qed.
Lemma all_white : forall s, all s -> all (skip_white s).
Proof. induction 1; cbn; [constructor|]. destruct (ceq x " " || ceq x tab || ceq x nl); [assumption|constructor; assumption]. Qed.
Lemma all_levels : forall l e last, Forall (fun x => all (snd x)) l -> Forall (fun b => all (b_text b)) (Tea_MakeLevels e last l).
Proof.
  induction l as [|[k s] l IH]; intros e last A; [constructor|]. inversion A as [|? ? A1 A2]; subst. cbn [snd] in A1.
  cbn [Tea_MakeLevels]. destruct k; [|constructor; auto|constructor; auto].
  pose proof (all_white s A1) as W. destruct (skip_white s) as [|c r]; [constructor; auto|]. constructor; [|apply IH; exact A2].
  cbn [b_text]. match goal with |- all (if ?b then _ else _) => destruct b end; [|exact A1]. inversion W; subst.
  destruct (ceq c "@"); apply all_skipn; assumption.
Qed.
Definition node_all (x : node) : Prop := all (text_of x) /\ match x with Link a _ => all a | _ => True end.
Lemma all_nodes : forall f s l, all s -> parse_nodes f s = Ret (Some l) -> Forall node_all l.
Proof.
  induction f as [|f IH]; intros s l A E; [discriminate|]. cbn [parse_nodes] in E. destruct (Tea_SeekNodeDelim "{" s) as [k|].
  2:{ injection E as <-. constructor; [split; [exact A|exact I]|constructor]. }
  pose proof (all_skipn (S k) s A) as A'. set (t := skipn (S k) s) in *. clearbody t.
  destruct (Tea_SeekNodeDelim "}" t) as [j|]; [|discriminate].
  pose proof (all_skipn (S j) t A') as A2. set (u := skipn (S j) t) in *. clearbody u.
  pose proof (all_firstn j t A') as B. set (i := firstn j t) in *. clearbody i.
  destruct (parse_nodes f u) as [[r|]| |] eqn:R; cbn [bind option_map] in E; try discriminate.
  injection E as <-. constructor; [split; [apply all_firstn; exact A|exact I]|]. constructor; [|exact (IH _ _ A2 R)].
  destruct (Tea_SeekNodeDelim "|" i) as [m|]; [|split; [exact B|exact I]].
  split; [exact (all_skipn (S m) i B)|exact (all_firstn m i B)].
Qed.
Lemma all_purify_node : forall l g, Forall node_all l -> Forall node_all (Tea_PurifyNode g l).
Proof.
  induction l as [|x l IH]; intros g A; [constructor|]. inversion A as [|? ? [A1 A2] A3]; subst. cbn [Tea_PurifyNode].
  pose proof (all_sweep (S (length (text_of x))) (text_of x) ltac:(lia) true g g [] [] A1 ltac:(constructor) ltac:(constructor)) as X.
  unfold Tea_SweepSpaceNode. destruct (sweep true g g [] [] (text_of x)) as [t g']. cbn [fst] in X. constructor; [|auto].
  destruct x; split; cbn in *; auto.
Qed.
Lemma all_paragraphs : forall l r, Forall (fun b => all (b_text b)) l -> Tea_ParseParagraphs l = Ret (Some r) ->
  Forall (fun x => all (b_text (fst x)) /\ Forall node_all (snd x)) r.
Proof.
  induction l as [|b l IH]; intros r A E; [injection E as <-; constructor|]. inversion A as [|? ? A1 A2]; subst. cbn [Tea_ParseParagraphs] in E.
  assert (X : forall y, parse_paragraph b = Ret (Some y) -> all (b_text (fst y)) /\ Forall node_all (snd y)).
  { intros y Y. unfold parse_paragraph in Y. destruct (b_kind b); try (injection Y as <-; split; [exact A1|constructor]).
    destruct (Tea_ParseStringNode (b_text b)) as [[q|]| |] eqn:Q; cbn [bind option_map] in Y; try discriminate. injection Y as <-. cbn [fst snd].
    split; [exact A1|]. apply incl_Forall with (l1 := Tea_PurifyNode true q); [intros z Z; apply filter_In in Z; tauto|].
    apply all_purify_node. exact (all_nodes _ _ _ A1 Q). }
  destruct (parse_paragraph b) as [[y|]| |]; cbn [bind] in E; try discriminate.
  destruct (Tea_ParseParagraphs l) as [[q|]| |]; cbn [bind option_map] in E; try discriminate. injection E as <-. constructor; auto.
Qed.
Lemma all_page : forall s l, all s -> Tea_Page s = Ret (Some l) -> Forall (fun x => all (b_text (fst x)) /\ Forall node_all (snd x)) l.
Proof.
  intros s l A E. unfold Tea_Page in E. destruct (Tea_ParseStringBlock s) as [[bs|]| |] eqn:B; cbn [bind] in E; try discriminate.
  destruct (Tea_PurifyPage bs) as [q| |] eqn:Q; cbn [bind] in E; try discriminate.
  apply (all_paragraphs _ _) with (2 := E). apply incl_Forall with (l1 := Tea_MakeLevels false 0 q); [intros z Z; apply filter_In in Z; tauto|].
  apply all_levels. apply (all_purify bs); [|exact Q]. exact (all_blocks _ _ _ A B).
Qed.
End Chars.

Lemma page_escaped : forall s l, ~ In quote s -> Tea_Page (flat_map entity s) = Ret (Some l) -> page_ok l.
Proof.
  intros s l Q E. set (P := fun c : ascii => c <> "<"%char /\ c <> ">"%char /\ c <> quote).
  assert (A : Forall P (flat_map entity s)).
  { apply Forall_forall. intros c X. destruct (entity_no_tag s) as [N1 N2]. split; [intros ->; auto|]. split; [intros ->; auto|]. intros ->.
    apply in_flat_map in X as (d & D & X). destruct (entity_cases d) as [(K & F)|[(K & F)|[(K & F)|(K1 & K2 & K3 & F)]]]; rewrite F in X; cbn in X; try (intuition discriminate).
    destruct X as [X|[]]. subst d. exact (Q D). }
  assert (T : forall t, Forall P t -> no_tag t /\ ~ In quote t).
  { intros t F. rewrite Forall_forall in F. split; [split|]; intro X; apply F in X as (X1 & X2 & X3); congruence. }
  pose proof (all_page P ltac:(repeat split; discriminate) _ _ A E) as R. unfold page_ok. eapply Forall_impl; [|exact R].
  intros [b ns] [X Y]. cbn [fst snd] in *. split; [apply T; exact X|]. eapply Forall_impl; [|exact Y]. intros [t|t|a t] [Z W]; split; try (apply T; assumption); auto.
Qed.

(** ** links *)
Lemma strncmp0_iff : forall a p, strncmp0 a p = true <-> exists r, a = p ++ r.
Proof.
  intros a p. unfold strncmp0. split.
  - intro E. apply streqb_true in E. exists (skipn (length p) a). rewrite <- E at 1. rewrite firstn_skipn. reflexivity.
  - intros (r & ->). apply streqb_true. rewrite firstn_app, firstn_all, Nat.sub_diag, firstn_O, app_nil_r. reflexivity.
Qed.
Lemma strrchr_none : forall c n, ~ In c n -> strrchr c n = None.
Proof.
  induction n as [|d n IH]; intro N; [reflexivity|]. cbn. rewrite IH by (intro X; apply N; right; exact X).
  destruct (ceq d c) eqn:E; [apply ceq_true in E; subst; elim N; left; reflexivity|reflexivity].
Qed.
Lemma strrchr_some : forall c d n, ~ In c n -> strrchr c (d ++ c :: n) = Some (c :: n).
Proof.
  induction d as [|x d IH]; intros n N; cbn; [rewrite (strrchr_none c n N), ceq_refl; reflexivity|]. rewrite IH by exact N. reflexivity.
Qed.
Lemma has_dot : forall n, existsb (fun c => ceq c "."%char) n = true <-> In "."%char n.
Proof.
  intro n. rewrite existsb_exists. split.
  - intros (x & I & E). apply ceq_true in E. subst. exact I.
  - intro I. exists "."%char. split; [exact I|apply ceq_refl].
Qed.
Lemma ext_else : forall md a, elsewhere a \/ md = true -> link_ext md a = [].
Proof.
  intros md a H. unfold link_ext. match goal with |- (if ?b then _ else _) = _ => replace b with true; [reflexivity|] end. symmetry.
  destruct H as [(p & r & I & E)| ->]; [|rewrite orb_true_r; reflexivity].
  assert (X : forall q, q = p -> strncmp0 a q = true) by (intros q ->; apply strncmp0_iff; eauto).
  cbn [In] in I. destruct I as [I|[I|[I|[]]]]; rewrite (X _ I), ?orb_true_r; reflexivity.
Qed.
Lemma ext_name : forall a n, ~ elsewhere a -> last_name a n -> (In "."%char n -> link_ext false a = []) /\ (~ In "."%char n -> link_ext false a = s2l ".html").
Proof.
  intros a n H [N L]. unfold link_ext. match goal with |- context [if ?b then [] else if _ then _ else _] => replace b with false end.
  2:{ symmetry. apply not_true_iff_false. intro X. apply H. rewrite orb_false_r, !orb_true_iff, !strncmp0_iff in X.
      destruct X as [[(r & ->)|(r & ->)]|(r & ->)]; eexists _, r; (split; [|reflexivity]); cbn; auto. }
  assert (E : existsb (fun c => ceq c "."%char) (match strrchr "/" a with Some t => t | None => a end) = existsb (fun c => ceq c "."%char) n).
  { destruct L as [-> |(d & ->)]; [rewrite strrchr_none by exact N; reflexivity|]. rewrite strrchr_some by exact N. reflexivity. }
  match goal with |- context [if existsb ?f ?x then _ else _] => replace (existsb f x) with (existsb f n) by (symmetry; exact E) end. split; intro X.
  - apply has_dot in X. rewrite X. reflexivity.
  - destruct (existsb (fun c => ceq c "."%char) n) eqn:Y; [apply has_dot in Y; contradiction|reflexivity].
Qed.
