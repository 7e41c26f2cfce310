(** Args_Props.v -- properties C21 and C22: parameters of a line. *)

From Verif Require Import Base StrLib_Model StrLib_Spec Var_Model Var_Props LocalVar_Model LocalVar_Props
  Expand_Model Expand_Spec Expand_Proofs Expand_Props Args_Model Args_Spec Args_Proofs.

(** C21: a line is either blank, and has no parameter, or is blanks, a parameter
    up to the first separator outside quotes, and a rest which is handed back.  The
    parameter, without surrounding quotes, is expanded.  The only exception is a
    '^' that ends the line.  Nothing is lost. *)
Theorem C21_next :
  forall w old line,
    (Forall blank line /\ pBat_GetNextParameterEs w old line = Ret (old, None, w)) \/
    (exists a raw rest t,
       line = a ++ raw ++ rest /\ Forall blank a /\ raw <> [] /\
       param_at PBAT_DELIMITERS raw rest /\ bare (is_nil rest) raw t /\
       ((t = s2l "^" /\ rest = [] /\ pBat_GetNextParameterEs w old line = Ret (s2l "^", None, w)) \/
        (t <> s2l "^" /\ pBat_GetNextParameterEs w old line
                         = do (t', w') <- pBat_DelayedExpand w t; Ret (t', Some rest, w')))).
Proof.
  intros w old line. destruct (next_ok w PBAT_DELIMITERS old line quote_std) as [H|H]; [left; exact H|right].
  destruct H as (a & raw & rest & t & H1 & H2 & H3 & H4 & H5 & H6 & H7). exists a, raw, rest, t.
  repeat (split; [first [assumption|eapply raw_nonempty; eauto]|]). exact H7.
Qed.
Print Assumptions C21_next.

(** C21: the same with other separators, as for files of redirections and
    expressions of SET /a; a separator which is no blank may then follow at once. *)
Theorem C21_next_delims :
  forall w delims old line, In """"%char delims ->
    (Forall blank line /\ pBat_GetNextParameterEsD w delims old line = Ret (old, None, w)) \/
    (exists a raw rest t,
       line = a ++ raw ++ rest /\ Forall blank a /\ (forall c r, raw ++ rest = c :: r -> ~ blank c) /\
       raw ++ rest <> [] /\ param_at delims raw rest /\ bare (is_nil rest) raw t /\
       ((t = s2l "^" /\ rest = [] /\ pBat_GetNextParameterEsD w delims old line = Ret (s2l "^", None, w)) \/
        (t <> s2l "^" /\ pBat_GetNextParameterEsD w delims old line
                         = do (t', w') <- pBat_DelayedExpand w t; Ret (t', Some rest, w')))).
Proof. intros. apply next_ok. auto. Qed.
Print Assumptions C21_next_delims.

(** C21: parameters written one after the other with blanks between them are
    read in order (their texts are expanded twice). *)
Theorem C21_list :
  forall w l vs tail,
    Forall (fun p => Forall blank (fst p)) l -> (forall p, In p (tl l) -> fst p <> []) -> Forall blank tail ->
    Forall2 (fun p v => whole (snd p) /\ exists t u, (forall last, bare last (snd p) t) /\ t <> s2l "^" /\
               pBat_DelayedExpand w t = Ret (u, w) /\ pBat_DelayedExpand w u = Ret (v, w)) l vs ->
    pBat_GetParamList w (concat (map (fun '(a, raw) => a ++ raw) l) ++ tail) = Ret (vs, w).
Proof. intros w l vs tail A B C D. unfold pBat_GetParamList. apply (list_ok w tail C l vs A B D). unfold line_of. lia. Qed.
Print Assumptions C21_list.

(** C21: splitting ends. *)
Theorem C21_ends : forall w line, x_delayed w = false -> pBat_GetParamList w line <> OutOfFuel.
Proof. intros w line D. unfold pBat_GetParamList. apply param_list_fuel; auto. Qed.
Print Assumptions C21_ends.

(** C21: the buffer version gives the same, cut to the size of the buffer. *)
Theorem C21_buffer :
  forall w line n t rest w', pBat_GetNextParameterEs w [] line = Ret (t, rest, w') ->
    pBat_GetNextParameter w line (S n) = Ret (firstn n t, rest, w') /\
    (length t <= n -> firstn n t = t).
Proof.
  intros w line n t rest w' H. unfold pBat_GetNextParameter. rewrite H. split; auto. apply firstn_all2.
Qed.
Print Assumptions C21_buffer.

Definition ex_w : xworld := ex_xworld false "v".

Example C21_ex :
  pBat_GetParamList ex_w (s2l " one ""two, three"" fo""u r""x^ y , ""a""b"" ^") =
    Ret ([s2l "one"; s2l "two, three"; s2l "fo""u r""x y"; s2l "a""b"" "], ex_w) /\
  pBat_GetNextParameterEs ex_w [] (s2l "a b") = Ret (s2l "a", Some (s2l " b"), ex_w) /\
  pBat_GetNextParameterEs ex_w (s2l "old") (s2l " ^") = Ret (s2l "^", None, ex_w) /\
  pBat_GetNextParameter ex_w (s2l "abcdef g") 4 = Ret (s2l "abc", Some (s2l " g"), ex_w) /\
  whole (s2l """two, three""") /\ (forall last, bare last (s2l """two, three""") (s2l "two, three")).
Proof.
  do 4 (split; [vm_compute; reflexivity|]).
  apply (quoted_whole (s2l "two, three") (s2l "two, three")).
  - repeat (apply esc_plain; [discriminate|]). constructor.
  - intros i [L (c & C1 & C2)]. apply nth_error_In in C1. apply ceq_true in C2. subst c.
    revert C1. cbv. intuition discriminate.
Qed.

(** Parameters of a list are expanded twice: an escaped '^' is lost. *)
Theorem C21_once_refuted :
  pBat_GetNextParameterEs ex_w [] (s2l "a^^b") = Ret (s2l "a^b", Some [], ex_w) /\
  pBat_GetParamList ex_w (s2l "a^^b") = Ret ([s2l "ab"], ex_w).
Proof. split; vm_compute; reflexivity. Qed.
Print Assumptions C21_once_refuted.

(** A protected quote is removed as if it closed the parameter, and with
    separators that are no blanks the same place may be read for ever. *)
Theorem C21_exact_refuted :
  pBat_GetNextParameterEs ex_w [] (s2l """a""b^"" c") = Ret (s2l "a""b", Some (s2l " c"), ex_w) /\
  pBat_GetNextParameterEsD ex_w (s2l """>") [] (s2l ">x") = Ret ([], Some (s2l ">x"), ex_w).
Proof. split; vm_compute; reflexivity. Qed.
Print Assumptions C21_exact_refuted.

(** C22: a value between quotes is one parameter, whatever separators it has; it
    may be written with '^', and only quotes and expansion signs need it. *)
Theorem C22_quoted :
  forall w old a v s rest,
    Forall blank a -> ends rest -> escaping v s ->
    (forall i, ~ live (fun c => ceq c """"%char) s i) -> (forall i, ~ live (fun c => ceq c "%"%char) s i) ->
    (x_delayed w = true -> forall i, ~ live (fun c => ceq c "!"%char) s i) ->
    pBat_GetNextParameterEs w old (a ++ """"%char :: s ++ """"%char :: rest) = Ret (v, Some rest, w).
Proof.
  intros w old a v s rest A R V Q P D. destruct (quoted_whole s v V Q) as [W B].
  replace (a ++ """"%char :: s ++ """"%char :: rest) with (a ++ (dquote :: s ++ [dquote]) ++ rest)
    by (simpl; rewrite <- app_assoc; reflexivity).
  rewrite (next_whole w old a _ rest s); auto.
  - rewrite (delayed_plain w s v); auto.
    + eapply plain_of; eauto.
    + intros X. eapply plain_of; eauto.
  - apply settled_not_caret. exists v. auto.
Qed.
Print Assumptions C22_quoted.

(** C22: without quotes, separators and quotes have to be protected. *)
Theorem C22_word :
  forall w old a v s rest,
    Forall blank a -> ends rest -> s <> [] -> escaping v s ->
    (forall i, ~ live (inset (""""%char :: blanks)) s i) -> (forall i, ~ live (fun c => ceq c "%"%char) s i) ->
    (x_delayed w = true -> forall i, ~ live (fun c => ceq c "!"%char) s i) ->
    pBat_GetNextParameterEs w old (a ++ s ++ rest) = Ret (v, Some rest, w).
Proof.
  intros w old a v s rest A R N V Q P D. destruct (word_whole s v N V Q) as [W B].
  rewrite (next_whole w old a _ rest s); auto.
  - rewrite (delayed_plain w s v); auto.
    + eapply plain_of; eauto.
    + intros X. eapply plain_of; eauto.
  - apply settled_not_caret. exists v. auto.
Qed.
Print Assumptions C22_word.

(** C22: so every text can be passed as a parameter, in any state: with a '^'
    before each character. *)
Theorem C22_any :
  forall w old a v rest, Forall blank a -> ends rest ->
    pBat_GetNextParameterEs w old (a ++ """"%char :: protect v ++ """"%char :: rest) = Ret (v, Some rest, w) /\
    (v <> [] -> pBat_GetNextParameterEs w old (a ++ protect v ++ rest) = Ret (v, Some rest, w)).
Proof.
  intros w old a v rest A R.
  assert (X : forall c, c <> caret -> forall i, ~ live (fun d => ceq d c) (protect v) i).
  { intros c H. apply protect_dead. intros d Hd. apply ceq_true in Hd. congruence. }
  split.
  - apply C22_quoted; auto; [apply protect_escaping|apply X; discriminate|apply X; discriminate|intros _; apply X; discriminate].
  - intros N. apply C22_word; auto.
    + destruct v; [congruence|discriminate].
    + apply protect_escaping.
    + apply protect_dead. intros c H. apply inset_in in H. intros ->. revert H. cbv. intuition discriminate.
    + apply X. discriminate.
    + intros _. apply X. discriminate.
Qed.
Print Assumptions C22_any.

Example C22_ex :
  pBat_GetNextParameterEs ex_w [] (s2l "; ""a b;c"",d") = Ret (s2l "a b;c", Some (s2l ",d"), ex_w) /\
  pBat_GetNextParameterEs (ex_xworld true "v") [] (protect (s2l "!foo! %i ""^ ") ++ s2l " x")
    = Ret (s2l "!foo! %i ""^ ", Some (s2l " x"), ex_xworld true "v").
Proof. split; vm_compute; reflexivity. Qed.
