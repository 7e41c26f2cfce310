(** Parse_Props.v -- property C23: operators between commands. *)

From Verif Require Import Base StrLib_Model Block_Model Block_Spec Block_Proofs Parse_Model Parse_Spec Parse_Proofs.

(** C23: whatever the line, it is only cut: putting the operators back between the
    commands gives the line.  Otherwise its blocks are reported to be wrong. *)
Theorem C23_lossless :
  forall s, exists r, pBat_ParseOperators s = Ret r /\
    (r = None \/ exists t l, r = Some ((NODE_NONE, t) :: l) /\ s = t ++ joined l).
Proof. apply ops_lossless. Qed.
Print Assumptions C23_lossless.

(** C23: commands joined by operators are found again, with the operator before
    each: operators between quotes, protected ones and those inside blocks do not
    count, nor does the '&' of a redirection. *)
Theorem C23_operators :
  forall t l, cmdline (t :: map snd l) -> clear_ops t l ->
    pBat_ParseOperators (t ++ joined l) = Ret (Some ((NODE_NONE, t) :: l)).
Proof. apply ops_line. Qed.
Print Assumptions C23_operators.

Example C23_ex :
  let line := s2l "@echo ""a & b"" 2>&1 && if x (c | d) else (e^)) | (f & g)||h^|" in
  let l := [(NODE_YES, s2l " if x (c | d) else (e^)) "); (NODE_PIPE, s2l " (f & g)"); (NODE_NOT, s2l "h^|")] in
  cmdline (s2l "@echo ""a & b"" 2>&1 " :: map snd l) /\ clear_ops (s2l "@echo ""a & b"" 2>&1 ") l /\
  pBat_ParseOperators line = Ret (Some ((NODE_NONE, s2l "@echo ""a & b"" 2>&1 ") :: l)) /\
  pBat_ParseOperators (s2l "(a & b") = Ret None /\ pBat_ParseOperators (s2l "a&") = Ret (Some [(NODE_NONE, s2l "a"); (NODE_NONE, [])]).
Proof.
  cbv zeta. split; [|split; [|vm_compute; auto]].
  - assert (L : forall t b, plainly (s2l ")&|") t = true ->
      (forall c r, t = c :: r -> ~ In c (s2l " ,;@(" ++ ["009"%char])) -> block_cmd (t ++ [nl]) = false -> lead b -> line true (b ++ t)).
    { intros t b Q N K B. apply ln_plain; auto; [|apply plainly_quiet; auto]. split; auto. intros X. apply block_cmd_iff in X. unfold nl in K. congruence. }
    assert (B0 : lead []) by constructor.
    assert (B1 : lead (s2l " ")) by (apply Forall_cons; [cbv; tauto|constructor]).
    apply (cl_blocks [s2l "@echo ""a & b"" 2>&1 "]).
    + apply Forall_cons; [|constructor]. apply (cm_redir (s2l "@") (s2l "echo ""a & b"" 2") (s2l "1 ")).
      * apply Forall_cons; [cbv; tauto|constructor].
      * apply no_blockb_ok. reflexivity.
      * discriminate.
      * intros (r & [= X _]).
      * apply (cm_end [] (s2l "1 ")); [constructor|]. apply no_blockb_ok. reflexivity.
    + apply (bc_cmd (s2l " ") (s2l "if x ") (s2l "c | d") (s2l " else (e^)) ")).
      * apply Forall_cons; [cbv; tauto|constructor].
      * apply block_cmd_iff. reflexivity.
      * apply quietb_ok. reflexivity.
      * apply (in_more (s2l "c ") "|"%char (s2l " d")).
        -- apply (L (s2l "c ") []); auto. intros c r [= <- _]. cbv. intuition discriminate.
        -- cbv. tauto.
        -- apply in_last. apply (L (s2l "d") (s2l " ")); auto. intros c r [= <- _]. cbv. intuition discriminate.
      * apply (bt_block (s2l " else ") (s2l "e^)") (s2l " ")); [apply quietb_ok; reflexivity| |apply bt_end, quietb_ok; reflexivity].
        apply in_last. apply (ln_plain true [] (s2l "e^)")); auto; [|apply quietb_ok; reflexivity].
        split; [intros c r [= <- _]; cbv; intuition discriminate|]. intros X. apply block_cmd_iff in X. discriminate.
    + apply Forall_cons; [|apply Forall_cons; [|constructor]].
      * apply (bt_block (s2l " ") (s2l "f & g") []); [apply quietb_ok; reflexivity| |apply bt_end, quietb_ok; reflexivity].
        apply (in_more (s2l "f ") "&"%char (s2l " g")).
        -- apply (L (s2l "f ") []); auto. intros c r [= <- _]. cbv. intuition discriminate.
        -- cbv. tauto.
        -- apply in_last. apply (L (s2l "g") (s2l " ")); auto. intros c r [= <- _]. cbv. intuition discriminate.
      * apply bt_end, quietb_ok. reflexivity.
  - cbn [clear_ops]. repeat split; try (intros [X|X]; discriminate X); try discriminate; try (intros _ (r & X); discriminate X).
    intros _ (r & X). apply (f_equal (@rev _)) in X. rewrite rev_app_distr in X. discriminate X.
Qed.

(** Once the line had a block, any '(' starts one: commands of the same kind are
    not treated alike.  And a '&' behind a protected '>' is no operator. *)
Theorem C23_alike_refuted :
  pBat_ParseOperators (s2l "echo (b & c") = Ret (Some [(NODE_NONE, s2l "echo (b "); (NODE_NONE, s2l " c")]) /\
  pBat_ParseOperators (s2l "(a) & echo (b & c") = Ret None /\
  pBat_ParseOperators (s2l "echo ^>& b") = Ret (Some [(NODE_NONE, s2l "echo ^>& b")]).
Proof. vm_compute. auto. Qed.
Print Assumptions C23_alike_refuted.
