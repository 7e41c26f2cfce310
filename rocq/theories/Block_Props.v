(** Block_Props.v -- property C53: blocks between parentheses. *)

From Verif Require Import Base Lex StrLib_Model StrLib_Spec StrLib_Proofs Args_Spec Block_Model Block_Spec Block_Proofs.

(** The end of a block is its own closing parenthesis, however blocks are
    nested and whatever follows. *)
Theorem C53_block : forall i rest, inner i ->
  pBat_GetNextBlockEnd ("("%char :: i ++ ")"%char :: rest) = Ret (Some (")"%char :: rest)).
Proof.
  intros i rest H. cbn [pBat_GetNextBlockEnd]. replace (ceq "("%char "("%char) with true by reflexivity.
  apply (proj1 blocks_ok i H). unfold scan_fuel. cbn [length]. rewrite app_length. cbn [length]. lia.
Qed.
Print Assumptions C53_block.

(** A line of commands ends at the first end of line or operator outside its
    blocks. *)
Theorem C53_line : forall par l rest, line par l -> after_line par rest ->
  pBat_GetBlockLineEndEx (l ++ rest) par = Ret (Some rest).
Proof.
  intros par l rest H A. apply (proj1 (proj2 blocks_ok) par l H); auto. unfold scan_fuel. rewrite app_length. lia.
Qed.
Print Assumptions C53_line.

(** The first block of a text is found behind commands without one. *)
Theorem C53_begin : forall h rest, heads h ->
  pBat_GetNextBlockBeginEx (h ++ "("%char :: rest) false = Ret (Some ("("%char :: rest)).
Proof. intros h rest H. apply heads_ok; auto. rewrite app_length. lia. Qed.
Print Assumptions C53_begin.

Theorem C53_flat : forall s, flat s -> pBat_GetNextBlockBeginEx s false = Ret None.
Proof. intros s H. apply flat_ok; auto. Qed.
Print Assumptions C53_flat.

(** Whatever the text, the searches stop without touching anything outside of
    it: the answer is a place in the text, a block starts at a '(' and ends at
    a ')'. *)
Theorem C53_total : forall s,
  (forall par, exists r, pBat_GetBlockLineEndEx s par = Ret r /\ forall q, r = Some q -> exists a, s = a ++ q) /\
  (exists r, pBat_GetNextBlockEnd s = Ret r /\
     forall q, r = Some q -> exists a y, s = "("%char :: a ++ q /\ q = ")"%char :: y) /\
  (forall b, exists r, pBat_GetNextBlockBeginEx s b = Ret r /\
     forall q, r = Some q -> exists a y, s = a ++ q /\ q = "("%char :: y).
Proof.
  intros s. split; [|split].
  - intros par. destruct (scan_total (scan_fuel s) (MLine par) s) as (r & R & X); [unfold room, scan_fuel; lia|].
    exists r. split; auto. intros q ->. destruct X as [X _]. exact X.
  - unfold pBat_GetNextBlockEnd. destruct s as [|c t]; [exists None; split; auto; discriminate|].
    destruct (ceq c "("%char) eqn:C; [|exists None; split; auto; discriminate]. apply ceq_true in C. subst c.
    destruct (scan_total (scan_fuel ("("%char :: t)) MBlock t) as (r & R & X); [unfold room, scan_fuel; cbn [length]; lia|].
    exists r. split; auto. intros q ->. destruct X as [(a & ->) (y & ->)]. exists a, y. auto.
  - intros b. unfold pBat_GetNextBlockBeginEx. destruct b.
    + destruct (pBat_SearchToken_Hybrid s [] (s2l "()")) as [n|]; [|exists None; split; auto; discriminate].
      destruct (suffix_skipn n s) as (a & A). destruct (skipn n s) as [|c t]; [exists None; split; auto; discriminate|].
      destruct (ceq c "("%char) eqn:C; [|exists None; split; auto; discriminate].
      exists (Some (c :: t)). split; auto. intros q [= <-]. apply ceq_true in C. subst c. exists a, t. auto.
    + destruct (begin_total (S (length s)) s) as (r & R & X); [lia|]. exists r. split; auto.
      intros q ->. destruct X as [(a & A) (y & Y)]. exists a, y. auto.
Qed.
Print Assumptions C53_total.

Example C53_ex :
  inner (s2l "echo a & (b|c)" ++ [nl] ++ s2l "if x (d) else (e)") /\
  pBat_GetNextBlockEnd (s2l "(echo a & (b|c)" ++ [nl] ++ s2l "if x (d) else (e)) & z") = Ret (Some (s2l ") & z")) /\
  pBat_GetBlockLineEndEx (s2l "@if x (a & b) & c") false = Ret (Some (s2l "& c")) /\
  pBat_GetNextBlockBeginEx (s2l "echo (1 && for %i in (a) do b") false = Ret (Some (s2l "(a) do b")) /\
  pBat_GetNextBlockEnd (s2l "(echo ^) "")"" )") = Ret (Some (s2l ")")) /\
  pBat_GetNextBlockEnd (s2l "(a") = Ret None.
Proof.
  split; [|vm_compute; repeat split].
  assert (P : forall b t, lead b -> plainly (s2l ")&|") t = true ->
    (forall c r, t = c :: r -> ~ In c (s2l " ,;@(" ++ ["009"%char])) -> block_cmd (t ++ [nl]) = false -> line true (b ++ t)).
  { intros b t B Q N K. apply ln_plain; auto; [|apply plainly_quiet; auto]. split; auto. intros X. apply block_cmd_iff in X. unfold nl in K. congruence. }
  assert (L0 : lead []) by constructor.
  assert (L1 : lead (s2l " ")) by (apply Forall_cons; [cbv; tauto|constructor]).
  apply (in_more (s2l "echo a ") "&"%char (s2l " (b|c)" ++ [nl] ++ s2l "if x (d) else (e)")).
  - apply (P [] (s2l "echo a ")); auto. intros c r [= <- _]. cbv. intuition discriminate.
  - cbv. tauto.
  - apply (in_more (s2l " (b|c)") nl (s2l "if x (d) else (e)")).
    + apply (ln_block true (s2l " ") (s2l "b|c")); auto. apply (in_more (s2l "b") "|"%char (s2l "c")).
      * apply (P [] (s2l "b")); auto. intros c r [= <- _]. cbv. intuition discriminate.
      * cbv. tauto.
      * apply in_last. apply (P [] (s2l "c")); auto. intros c r [= <- _]. cbv. intuition discriminate.
    + cbv. tauto.
    + apply in_last. apply (ln_cmd true [] (s2l "if x (d) else (e)")); auto.
      * intros c r [= <- _]. cbv. intuition discriminate.
      * exists (s2l "if"), " "%char, (s2l "x (d) else (e)"). split; auto. split; [cbv; tauto|]. left. reflexivity.
      * apply (tx_block true (s2l "if x ") (s2l "d") (s2l " else (e)")); [apply plainly_quiet; reflexivity| |].
        -- apply in_last. apply (P [] (s2l "d")); auto. intros c r [= <- _]. cbv. intuition discriminate.
        -- apply (tx_block true (s2l " else ") (s2l "e") []); [apply plainly_quiet; reflexivity| |].
           ++ apply in_last. apply (P [] (s2l "e")); auto. intros c r [= <- _]. cbv. intuition discriminate.
           ++ apply tx_end. apply plainly_quiet. reflexivity.
Qed.

(** Two blocks side by side in a block are not understood: the character behind
    the first one is skipped, and the outer block ends with the second. *)
Theorem C53_adjacent_refuted :
  ~ (forall i j rest, inner i -> inner j ->
       pBat_GetNextBlockEnd ("("%char :: ("("%char :: i ++ [")"%char]) ++ ("("%char :: j ++ [")"%char]) ++ ")"%char :: rest)
       = Ret (Some (")"%char :: rest))).
Proof.
  intros H.
  assert (P : forall c, ~ In c (s2l "^""()&|,;@ " ++ ["009"%char; nl]) -> inner [c]).
  { intros c C. apply in_last. apply (ln_plain true [] [c]); [constructor| |].
    - split; [intros d r [= <- _] X; apply C; cbv in X; cbv; tauto|].
      intros (n & d & r & E & _ & Nm).
      assert (L : length n <= 1).
      { apply (f_equal (@length _)) in E. cbn [app length] in E. rewrite app_length in E. cbn [length] in E. lia. }
      destruct Nm as [Nm|[Nm|Nm]]; apply (f_equal (@length _)) in Nm; rewrite map_length in Nm; cbn in Nm; lia.
    - apply plainly_quiet. unfold plainly. cbn [forallb]. rewrite Bool.andb_true_r. rewrite !Bool.andb_true_iff, !Bool.negb_true_iff.
      rewrite !ceq_false. repeat split; try (intros ->; apply C; cbv; tauto).
      destruct (inset (s2l ")&|") c) eqn:I; auto. apply inset_In in I. exfalso. apply C. cbv in I. cbv. tauto. }
  specialize (H (s2l "a") (s2l "b") [] (P "a"%char ltac:(cbv; intuition discriminate)) (P "b"%char ltac:(cbv; intuition discriminate))).
  vm_compute in H. discriminate H.
Qed.
Print Assumptions C53_adjacent_refuted.
