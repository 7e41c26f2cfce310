(** Html_Props.v -- C102: how tea writes a page as HTML. *)

From Verif Require Import Base Tea_Model Tea_Spec Html_Model Html_Spec Html_Proofs.
Require Import Lia.

(** Each character is written as HTML wants it: no tag can come from the text of a document, and different texts stay different. *)
Theorem C102_escape : forall s, Tea_HtmlEscapeChar s = flat_map entity s /\ no_tag (Tea_HtmlEscapeChar s) /\
  forall t, Tea_HtmlEscapeChar t = Tea_HtmlEscapeChar s -> t = s.
Proof.
  intro s. rewrite escape_entity. split; [reflexivity|]. split; [apply entity_no_tag|]. intros t E. rewrite escape_entity in E. exact (entity_inj _ _ E).
Qed.
Print Assumptions C102_escape.

(** For every document without quotes the body is HTML: each element is closed, in the right order, and lists have only items.  All of
    the text is there, and nothing else but blanks and ends of lines. *)
Theorem C102_document : forall md s l, ~ In """"%char s -> Tea_Page (Tea_HtmlEscapeChar s) = Ret (Some l) ->
  html (html_body md l) /\ visible (strip false (html_body md l)) = visible (concat (map block_text l)) /\ open_lists (html_body md l) 0.
Proof.
  intros md s l Q E. rewrite escape_entity in E. pose proof (page_escaped s l Q E) as P. split.
  - pose proof (blocks_tail md l 0 true P) as T. inversion T. assumption.
  - destruct (blocks_says md l 0 true P) as (o & c & (x & t & X & V & A & B) & L). apply piece_eq in X as [X Y]. unfold html_body, open_lists.
    rewrite X, Y. split; [exact V|]. lia.
Qed.
Print Assumptions C102_document.

(** The same for any page whose texts hold no tags and whose targets hold no quotes either. *)
Theorem C102_page : forall md l, page_ok l -> html (html_body md l) /\ visible (strip false (html_body md l)) = visible (concat (map block_text l)).
Proof.
  intros md l P. split.
  - pose proof (blocks_tail md l 0 true P) as T. inversion T. assumption.
  - destruct (blocks_says md l 0 true P) as (o & c & (x & t & X & V & A & B) & L). apply piece_eq in X as [X Y]. unfold html_body. rewrite X. exact V.
Qed.
Print Assumptions C102_page.

(** Each block is an element of its kind that comes behind the text of the blocks before, and stands in as many lists as its level says:
    none for a title, and the first title is the only h1. *)
Theorem C102_levels : forall md l1 b ns l2, page_ok (l1 ++ (b, ns) :: l2) -> exists u e v,
  html_body md (l1 ++ (b, ns) :: l2) = u ++ e ++ v /\
  visible (strip false u) = visible (concat (map block_text l1)) /\
  visible (strip false e) = visible (block_text (b, ns)) /\
  open_lists u (match b_kind b with Head => 0 | _ => b_level b end) /\
  match b_kind b with
  | Para => exists t, e = s2l "<p>" ++ t ++ s2l "</p>"
  | Code => exists t, e = s2l "<pre><code>" ++ t ++ s2l "</code></pre>"
  | Head => (Forall (fun x => b_kind (fst x) <> Head) l1 -> exists t, e = s2l "<h1>" ++ t ++ s2l "</h1>") /\
            (~ Forall (fun x => b_kind (fst x) <> Head) l1 -> exists t, e = s2l "<h2>" ++ t ++ s2l "</h2>")
  end.
Proof.
  intros md l1 b ns l2 P. destruct (blocks_at md l1 0 true b ns l2 P) as (h & u & v & E & H & o & c & (x & t & X & V & A & B) & L).
  exists u, (elem_html md h b ns), ([nl; nl] ++ v). split; [exact E|]. apply piece_eq in X as [X Y]. split; [rewrite X; exact V|]. split.
  { apply Forall_elt in P as [P1 P2]. cbn [fst snd] in P1, P2. destruct (says_elem_html md h b ns P1 P2) as (x' & t' & X' & V' & _).
    apply piece_eq in X' as [-> _]. exact V'. }
  split; [unfold open_lists; rewrite Y, A, B; exact L|]. unfold elem_html. destruct (b_kind b); [eauto|eauto|]. split; intro F.
  - replace h with true by (symmetry; apply H; auto). eauto.
  - destruct h; [|eauto]. exfalso. apply F. apply H. reflexivity.
Qed.
Print Assumptions C102_levels.

(** A link is written with its target, which gets .html unless the name behind its last slash has a dot.  Links that begin with http://,
    https:// or mail:// stay as they are, and all links with /C:MD. *)
Theorem C102_link : forall md first a n t, last_name a n -> exists x,
  Tea_HtmlOutputParagraph md first [Link a t] = s2l "<a href=" ++ [""""%char] ++ a ++ x ++ [""""%char] ++ s2l ">" ++ t ++ s2l "</a>" /\
  (elsewhere a \/ md = true \/ In "."%char n -> x = []) /\ (~ elsewhere a -> md = false -> ~ In "."%char n -> x = s2l ".html").
Proof.
  intros md first a n t L. exists (link_ext md a). split.
  { cbn [Tea_HtmlOutputParagraph]. rewrite app_nil_r. reflexivity. }
  split.
  - intros [H|[H|H]]; [apply ext_else; auto|apply ext_else; auto|]. destruct md; [apply ext_else; auto|].
    destruct (strncmp0 a (s2l "http://") || strncmp0 a (s2l "https://") || strncmp0 a (s2l "mail://")) eqn:E.
    + unfold link_ext. rewrite E. reflexivity.
    + apply (ext_name a n); auto. intros (p & r & I & ->). rewrite !orb_false_iff in E. destruct E as [[E1 E2] E3].
      assert (X : strncmp0 (p ++ r) p = true) by (apply strncmp0_iff; eauto).
      cbn [In] in I. destruct I as [I|[I|[I|[]]]]; rewrite <- I in *; congruence.
  - intros H -> D. apply (ext_name a n); auto.
Qed.
Print Assumptions C102_link.

(** A quote in a link is not written as HTML wants it: what is behind it becomes an attribute of the link. *)
Theorem C102_quote_refuted : exists s l, Tea_Page (Tea_HtmlEscapeChar s) = Ret (Some l) /\
  html_body false l = s2l "<p><a href=""x.y"" onclick=""z"">t</a></p>" ++ [nl; nl].
Proof. exists (s2l "{x.y"" onclick=""z|t}"). eexists. split; [vm_compute; reflexivity|reflexivity]. Qed.
Print Assumptions C102_quote_refuted.

(** The dash of an item is left out, but so is one that the document says to take as it is. *)
Theorem C102_dash_refuted : exists s l, Tea_Page (Tea_HtmlEscapeChar s) = Ret (Some l) /\
  s = s2l "\-1 is less than 0" /\ html_body false l = s2l "<p>1 is less than 0</p>" ++ [nl; nl].
Proof. eexists. eexists. split; [|split; [reflexivity|]]; [vm_compute; reflexivity|reflexivity]. Qed.
Print Assumptions C102_dash_refuted.

(** A title, an item in an item with a link, code in it, and a paragraph behind the lists. *)
Local Definition ex_doc : cstr :=
  s2l "{{A & B}}" ++ [nl] ++ s2l "- one {b}" ++ [nl; nl] ++ s2l "-- two {dir/page|x<y}" ++ [nl; nl] ++ s2l "${a" ++ [nl] ++ s2l "b}" ++ [nl; nl] ++ s2l "- three" ++ [nl; nl] ++ s2l "end".
Example C102_ex : exists l, Tea_Page (Tea_HtmlEscapeChar ex_doc) = Ret (Some l) /\ ~ In """"%char ex_doc /\ length l = 6 /\
  html_body false l = s2l "<h1>A &amp; B</h1>" ++ [nl; nl] ++
    s2l "<ul><li>" ++ [nl] ++ s2l "<p> one <strong>b</strong></p>" ++ [nl; nl] ++
    s2l "<ul><li>" ++ [nl] ++ s2l "<p> two <a href=""dir/page.html"">x&lt;y</a></p>" ++ [nl; nl] ++
    s2l "<pre><code>a<br />b</code></pre>" ++ [nl; nl] ++
    s2l "</li></ul>" ++ [nl] ++ s2l "</li><li><p> three</p>" ++ [nl; nl] ++
    s2l "</li></ul>" ++ [nl] ++ s2l "<p>end</p>" ++ [nl; nl].
Proof.
  eexists. split; [vm_compute; reflexivity|]. split; [|split; [reflexivity|reflexivity]].
  intro X. vm_compute in X. repeat (destruct X as [X|X]; [discriminate|]). exact X.
Qed.
