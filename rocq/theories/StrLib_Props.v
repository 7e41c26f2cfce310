(** StrLib_Props.v -- properties C01 to C04 (and C41) of libpbat/cmdlib/pBat_String.c. *)

From Verif Require Import Base StrLib_Model StrLib_Spec StrLib_Proofs.

(** C01: the first unprotected occurrence. *)
Theorem C01_SearchChar_first_live :
  forall (s : cstr) (c : ascii),
    first_pos (live (fun x => Ascii.eqb x c) s) (pBat_SearchChar s c).
Proof. intros s c. exact (search_pred_spec (fun x => ceq x c) s). Qed.
Print Assumptions C01_SearchChar_first_live.

(** Loop of C01 always terminates (no out-of-fuel value is hidden). *)
Theorem C01_search_terminates :
  forall p s, exists r, search_loop p (S (length s)) s = Ret r /\ search_pred p s = r.
Proof.
  intros p s. destruct (search_loop_spec p (S (length s)) s) as (r & H & _); [lia|].
  exists r. unfold search_pred. rewrite H. auto.
Qed.
Print Assumptions C01_search_terminates.

Example C01_ex1 : pBat_SearchChar (s2l "a^&^^&b") "&"%char = Some 5.
Proof. reflexivity. Qed.
Example C01_ex2 : pBat_SearchChar (s2l "a^^^&b") "&"%char = None.
Proof. reflexivity. Qed.

(** C02: first and last unprotected member of a set. *)
Theorem C02_SearchToken_first_live :
  forall (s set : cstr),
    first_pos (live (inset set) s) (pBat_SearchToken s set).
Proof. intros s set. exact (search_pred_spec (inset set) s). Qed.
Print Assumptions C02_SearchToken_first_live.

Theorem C02_SearchLastToken_last_live :
  forall (s set : cstr), ~ In "^"%char set ->
    last_pos (live (inset set) s) (pBat_SearchLastToken s set).
Proof.
  intros s set H. apply inset_false in H. exact (search_last_pred_spec (inset set) s H).
Qed.
Print Assumptions C02_SearchLastToken_last_live.

Theorem C02_SearchLastChar_last_live :
  forall (s : cstr) (c : ascii), c <> "^"%char ->
    last_pos (live (fun x => Ascii.eqb x c) s) (pBat_SearchLastChar s c).
Proof.
  intros s c H. apply (search_last_pred_spec (fun x => ceq x c)).
  apply ceq_false. congruence.
Qed.
Print Assumptions C02_SearchLastChar_last_live.

(** The proviso on '^' is needed for the "last" variants. *)
Theorem C02_SearchLastChar_caret_refuted :
  exists s, ~ last_pos (live (fun x => Ascii.eqb x "^"%char) s) (pBat_SearchLastChar s "^"%char).
Proof.
  exists (s2l "^^"). vm_compute. intros [[H _] _]. discriminate.
Qed.
Print Assumptions C02_SearchLastChar_caret_refuted.

Example C02_ex : pBat_SearchLastToken (s2l "a;b^,c,d^;") (s2l ",;") = Some 6.
Proof. reflexivity. Qed.
Example C02_ex_first : pBat_SearchToken (s2l "ab^,c;d,") (s2l ",;") = Some 5.
Proof. reflexivity. Qed.

(** C03: unescaping inverts escaping. *)
Theorem C03_UnEscape_inverts :
  forall t s, escaping t s -> pBat_UnEscape s = t.
Proof. exact UnEscape_escaping. Qed.
Print Assumptions C03_UnEscape_inverts.

(** Every text is an escaped form of its unescaping, a lone trailing '^' apart. *)
Theorem C03_UnEscape_total :
  forall s, escaping (pBat_UnEscape s) s \/
            exists s', s = s' ++ ["^"%char] /\ escaping (pBat_UnEscape s) s'.
Proof. exact UnEscape_total. Qed.
Print Assumptions C03_UnEscape_total.

Theorem C03_UnEscape_plain : forall s, ~ In "^"%char s -> pBat_UnEscape s = s.
Proof.
  intros s H. apply UnEscape_escaping. induction s as [|c s IH]; constructor.
  - intros ->. apply H. left; auto.
  - apply IH. intros Hi. apply H. right; auto.
Qed.
Print Assumptions C03_UnEscape_plain.

Theorem C03_UnEscape_length : forall s, length (pBat_UnEscape s) <= length s.
Proof.
  assert (L : forall t s, escaping t s -> length t <= length s)
    by (induction 1; simpl; lia).
  intros s. destruct (UnEscape_total s) as [H|(s' & Hs & H)]; apply L in H; auto.
  rewrite Hs at 2. rewrite app_length. lia.
Qed.
Print Assumptions C03_UnEscape_length.

Example C03_ex : escaping (s2l "a^b&") (s2l "a^^^b^&") /\ pBat_UnEscape (s2l "a^^^b^&") = s2l "a^b&".
Proof.
  split; [|reflexivity]. apply esc_plain; [discriminate|]. repeat (apply esc_prot). constructor.
Qed.

(** C04: searches outside quotes. *)
Theorem C04_SearchToken_OutQuotes :
  forall s set, ~ In "^"%char set -> ~ In """"%char set ->
    first_pos (live_unquoted (inset set) s) (pBat_SearchToken_OutQuotes s set).
Proof.
  intros s set H1 H2. apply inset_false in H1. apply inset_false in H2.
  exact (search_outq_spec (inset set) s H1 H2).
Qed.
Print Assumptions C04_SearchToken_OutQuotes.

Theorem C04_SearchChar_OutQuotes :
  forall s c, c <> "^"%char -> c <> """"%char ->
    first_pos (live_unquoted (fun x => Ascii.eqb x c) s) (pBat_SearchChar_OutQuotes s c).
Proof.
  intros s c H1 H2. apply (search_outq_spec (fun x => ceq x c)); apply ceq_false; congruence.
Qed.
Print Assumptions C04_SearchChar_OutQuotes.

(** Loop of C04 always terminates. *)
Theorem C04_OutQuotes_terminates :
  forall s set, ~ In "^"%char set -> ~ In """"%char set ->
    exists r, outq_loop (S (length s)) (inset set) s 0 (next_quote s 0) = Ret r.
Proof.
  intros s set H1 H2. apply inset_false in H1. apply inset_false in H2.
  destruct (outq_loop_spec (S (length s)) (inset set) s 0 (next_quote s 0)) as (r & Hr & _);
    eauto; try lia.
  - rewrite quotes_0. reflexivity.
  - apply next_quote_spec. reflexivity.
Qed.
Print Assumptions C04_OutQuotes_terminates.

Theorem C04_Hybrid :
  forall s d q, ~ In "^"%char q -> ~ In """"%char q ->
    first_pos (fun i => live (inset d) s i \/ live_unquoted (inset q) s i)
              (pBat_SearchToken_Hybrid s d q).
Proof. exact Hybrid_spec. Qed.
Print Assumptions C04_Hybrid.

Example C04_ex1 : pBat_SearchToken_OutQuotes (s2l "a""b&c""^&d&e") (s2l "&|") = Some 9.
Proof. reflexivity. Qed.
Example C04_ex2 : pBat_SearchToken_OutQuotes (s2l "a""b&c^""&d") (s2l "&|") = None.
Proof. reflexivity. Qed.

(** C41: trimming blanks. *)
Theorem C41_StripEndDelims :
  forall s, exists t, s = pBat_StripEndDelims s ++ t /\
    Forall (fun c => pBat_IsDelim c = true) t /\
    forall u c, pBat_StripEndDelims s = u ++ [c] -> pBat_IsDelim c = false.
Proof. exact StripEndDelims_spec. Qed.
Print Assumptions C41_StripEndDelims.

Theorem C41_SkipBlanks :
  forall s, exists t, s = t ++ pBat_SkipBlanks s /\
    Forall (fun c => pBat_IsDelim c = true) t /\
    forall c u, pBat_SkipBlanks s = c :: u -> pBat_IsDelim c = false.
Proof. exact SkipBlanks_spec. Qed.
Print Assumptions C41_SkipBlanks.

Example C41_ex : pBat_StripEndDelims (s2l " a b ;, ") = s2l " a b".
Proof. reflexivity. Qed.
