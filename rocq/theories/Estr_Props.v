(** Estr_Props.v -- properties C05, C06, C07 and C42: growable strings. *)

From Verif Require Import Base Estr_Model Estr_Spec Estr_Proofs.

(** C05: any history of calls, with any allocator answers and any content of
    freshly allocated memory, runs without touching memory outside the block and
    leaves a string that holds what the same calls give on ideal strings. *)
Theorem C05_history_refines :
  forall fuel junk h,
    (size_limit <= Z.of_nat fuel)%Z -> history_ok h [] ->
    exists es t, run_ops fuel junk h (pBat_EsInit junk) = Ret es /\
                 holds es t /\ ideal_history h [] t.
Proof.
  intros fuel junk h Hf Hok.
  apply run_ops_ok; auto; [apply EsInit_holds|unfold fits, size_limit; simpl; lia].
Qed.
Print Assumptions C05_history_refines.

(** C05, per call: success is total when memory is available. *)
Theorem C05_call_refines :
  forall fuel junk a op es t,
    holds es t -> op_ok a op t -> length t < fuel ->
    (exists es' t', run_op fuel junk a op es = Ret (0%Z, es') /\ holds es' t' /\ ideal op t t' /\
       fits (length t')) \/
    (run_op fuel junk a op es = Ret ((-1)%Z, es) /\ a = None).
Proof. exact run_op_ok. Qed.
Print Assumptions C05_call_refines.

(** The text of a string is determined and its length is below the capacity. *)
Theorem C05_holds_capacity :
  forall es t t', holds es t -> holds es t' ->
    t = t' /\ (Z.of_nat (length t) + 1 <= es_len es)%Z.
Proof. intros es t t' H H'. split; [eapply holds_fun; eauto|eapply holds_cap; eauto]. Qed.
Print Assumptions C05_holds_capacity.

Example C05_ex : exists junk,
  history_ok [(Some junk, OpCpy (s2l "abc")); (None, OpCatN (s2l "defgh") 2);
              (Some junk, OpReplace (s2l "c") (s2l "zz"))] [].
Proof.
  exists (fun _ => "x"%char). cbn [history_ok op_ok].
  assert (Hn : forall l : cstr, forallb (fun c => negb (ceq c "000"%char)) l = true -> nonul l).
  { intros l Hl Hin. rewrite forallb_forall in Hl. specialize (Hl _ Hin).
    rewrite ceq_refl in Hl. discriminate. }
  repeat split.
  - apply Hn. reflexivity.
  - unfold fits, size_limit. simpl. lia.
  - intros; apply Hn; reflexivity.
  - destruct H as [H|[H _]]; [|discriminate]. inversion H; subst. unfold fits, size_limit. simpl. lia.
  - discriminate.
  - discriminate.
  - apply Hn. reflexivity.
  - intros t2 Hr.
    assert (Hlen : forall s t, replaced (s2l "c") (s2l "zz") s t -> length t <= 2 * length s).
    { induction 1; [lia|]. rewrite !app_length. simpl. lia. }
    apply Hlen in Hr. assert (Ht : length t'0 <= 10).
    { destruct H as [H|[H _]]; [|discriminate]. inversion H; subst.
      destruct H0 as [H0|[_ ->]]; [inversion H0; subst; simpl; lia|simpl; lia]. }
    unfold fits, size_limit. lia.
Qed.

(** C06: replace-all. *)
Theorem C06_replace_all :
  forall fuel junk junk' es s t pat rep,
    holds es s -> pat <> [] -> nonul rep -> replaced pat rep s t -> fits (length t) ->
    length s < fuel ->
    exists es', pBat_EsReplace fuel (Some junk) junk' es pat rep = Ret (0%Z, es') /\ holds es' t.
Proof.
  intros fuel junk junk' es s t pat rep H1 H2 H3 H4 H5 H6.
  destruct (EsReplace_ok fuel junk junk' es s t pat rep) as (es' & H & H' & _); eauto.
Qed.
Print Assumptions C06_replace_all.

(** The specification determines the result. *)
Theorem C06_replaced_total_unique :
  forall pat rep s, pat <> [] ->
    exists t, replaced pat rep s t /\ forall t', replaced pat rep s t' -> t' = t.
Proof.
  intros pat rep s Hp. destruct (replaced_total pat rep s Hp) as [t Ht].
  exists t. split; auto. intros t' Ht'. eapply replaced_fun; eauto.
Qed.
Print Assumptions C06_replaced_total_unique.

(** With an empty pattern the call never returns. *)
Theorem C06_empty_pattern_never_returns :
  forall fuel a junk es rep x, pBat_EsReplace fuel a junk es [] rep <> Ret x.
Proof. exact EsReplace_empty. Qed.
Print Assumptions C06_empty_pattern_never_returns.

Definition ex_es (t : string) : estr :=
  mkEstr (s2l t ++ repeat nul (256 - String.length t)) 256.

Definition text_of (x : outcome result) : outcome cstr :=
  do (_, e) <- x; cstr_at (es_mem e) 0.

Example C06_ex :
  text_of (pBat_EsReplace 20 (Some (fun _ => "x"%char)) (fun _ => "y"%char)
             (ex_es "aaabaa") (s2l "aa") (s2l "c")) = Ret (s2l "cabc").
Proof. vm_compute. reflexivity. Qed.

(** C07: successive reads deliver the lines of the stream. *)
Theorem C07_read_lines :
  forall n fuel junk junk' es t0 s ls,
    lines s ls -> holds es t0 -> (Z.of_nat (length t0) < 268435456)%Z ->
    (2 <= es_len es <= 536870912)%Z ->
    nonul s -> Forall (fun l => Z.of_nat (length l) < 268435456)%Z ls ->
    length ls < n -> length s + 1 < fuel -> length t0 < fuel ->
    exists ts, read_all n fuel (Some junk) junk' es s = Ret (ts, 1%Z, []) /\
               Forall2 normalised ls ts.
Proof.
  intros. eapply read_all_ok; eauto; unfold line_limit, cap_limit; try tauto; lia.
Qed.
Print Assumptions C07_read_lines.

(** One read: one line, and the rest of the stream is untouched. *)
Theorem C07_read_one_line :
  forall fuel junk junk' es t0 s line rest,
    holds es t0 -> (2 <= es_len es <= 536870912)%Z ->
    nonul s -> first_line s line rest ->
    (Z.of_nat (length line) < 268435456)%Z -> length s + 1 < fuel ->
    exists es' t, pBat_EsGet fuel (Some junk) junk' es s = Ret (0%Z, es', rest) /\
      holds es' t /\ normalised line t.
Proof.
  intros fuel junk junk' es t0 s line rest H1 H2 H3 H4 H5 H6.
  destruct (EsGet_ok fuel junk junk' es t0 s line rest) as (es' & t & Ha & Hb & Hc & _); eauto.
Qed.
Print Assumptions C07_read_one_line.

(** Every stream has lines, and they concatenate to it. *)
Theorem C07_lines_exist : forall s, exists ls, lines s ls /\ concat ls = s.
Proof.
  intros s. destruct (lines_total s) as [ls H]. exists ls. split; auto.
  induction H as [|s line rest ls Hf Hl IH]; auto. simpl. rewrite IH. destruct Hf as [-> _]. auto.
Qed.
Print Assumptions C07_lines_exist.

(** Normalisation of the two usual line endings. *)
Theorem C07_normalised_unix :
  forall l t, ~ In "013"%char l -> normalised (l ++ ["010"%char]) t -> t = l ++ ["010"%char].
Proof.
  assert (Hno : forall pat rep l t, In "013"%char pat -> ~ In "013"%char l ->
            replaced pat rep l t -> t = l).
  { intros pat rep l t Hp Hl H. inversion H; subst; auto. exfalso. apply Hl.
    rewrite !in_app_iff. auto. }
  intros l t Hl (u & H1 & H2).
  assert (Hc : ~ In "013"%char (l ++ ["010"%char])).
  { rewrite in_app_iff. intros [H|[H|[]]]; [auto|discriminate]. }
  apply Hno in H1; [|left; auto|auto]. subst u.
  apply Hno in H2; [auto|left; auto|auto].
Qed.
Print Assumptions C07_normalised_unix.

Theorem C07_normalised_dos :
  forall l t, ~ In "013"%char l -> normalised (l ++ ["013"; "010"]%char) t -> t = l ++ ["010"%char].
Proof.
  intros l t Hl (u & H1 & H2).
  assert (Hu : replaced ["013"; "010"]%char ["010"]%char (l ++ ["013"; "010"]%char ++ [])
                 (l ++ ["010"]%char ++ [])).
  { apply rep_step.
    - intros k Hk (a & b & Heq & Hlen). simpl in Heq.
      assert (nth_error (l ++ ["013"; "010"]%char) k = Some "013"%char).
      { rewrite Heq, nth_error_app2 by lia. rewrite <- Hlen, Nat.sub_diag. reflexivity. }
      rewrite nth_error_app1 in H by auto. apply Hl. eapply nth_error_In; eauto.
    - constructor. intros k (a & b & Heq & _). destruct a; discriminate. }
  simpl in Hu. assert (u = l ++ ["010"%char]) by (eapply replaced_fun; eauto; discriminate).
  subst u. apply (C07_normalised_unix l t Hl).
  exists (l ++ ["010"%char]). split; auto. constructor.
  intros k (a & b & Heq & _). assert (Hin : In "013"%char (l ++ ["010"%char])).
  { rewrite Heq. rewrite !in_app_iff. right. left. left. auto. }
  apply in_app_iff in Hin as [H|[H|[]]]; [auto|discriminate].
Qed.
Print Assumptions C07_normalised_dos.

Example C07_ex :
  read_all 5 40 (Some (fun _ => "x"%char)) (fun _ => "y"%char) (mkEstr [nul; nul; nul; nul] 4)
    (s2l "abcdef" ++ [cr; nl] ++ s2l "gh" ++ [nl] ++ s2l "ij")
  = Ret ([s2l "abcdef" ++ [nl]; s2l "gh" ++ [nl]; s2l "ij"], 1%Z, []).
Proof. vm_compute. reflexivity. Qed.

(** C42: the case-insensitive replace does not replace what it should, even when
    the pattern occurs in the very same letter case. *)
Theorem C42_replace_nocase_refuted :
  exists es s t pat rep u,
    holds es s /\ replaced pat rep s t /\
    text_of (pBat_EsReplaceI 20 (Some (fun _ => "x"%char)) (fun _ => "y"%char) es pat rep) = Ret u /\
    u <> t.
Proof.
  exists (ex_es "abc def"), (s2l "abc def"), (s2l "X def"), (s2l "abc"), (s2l "X"), (s2l "aXdef").
  split; [|split; [|split]].
  - split; [intros H; simpl in H; intuition discriminate|]. split; [reflexivity|].
    eexists. vm_compute. reflexivity.
  - apply (rep_step (s2l "abc") (s2l "X") [] (s2l " def") (s2l " def")).
    + simpl. intros k Hk. lia.
    + constructor. intros k (a & b & H & _). simpl in H.
      destruct a as [|a0 [|a1 [|a2 [|a3 [|a4 a]]]]]; discriminate.
  - vm_compute. reflexivity.
  - discriminate.
Qed.
Print Assumptions C42_replace_nocase_refuted.

(** It even reads past the end of the text: the result depends on what the
    memory after the terminator contains. *)
Theorem C42_replace_nocase_reads_stale_refuted :
  exists es1 es2 s pat rep u1 u2,
    holds es1 s /\ holds es2 s /\ es_len es1 = es_len es2 /\
    text_of (pBat_EsReplaceI 20 (Some (fun _ => "x"%char)) (fun _ => "y"%char) es1 pat rep) = Ret u1 /\
    text_of (pBat_EsReplaceI 20 (Some (fun _ => "x"%char)) (fun _ => "y"%char) es2 pat rep) = Ret u2 /\
    u1 <> u2.
Proof.
  exists (mkEstr (s2l "xabc" ++ nul :: s2l "secret" ++ [nul]) 12),
         (mkEstr (s2l "xabc" ++ nul :: s2l "public" ++ [nul]) 12),
         (s2l "xabc"), (s2l "abc"), (s2l "Z"), (s2l "xaZsecret"), (s2l "xaZpublic").
  repeat split; try (vm_compute; reflexivity); try discriminate;
    try (intros H; simpl in H; intuition discriminate); eexists; simpl; reflexivity.
Qed.
Print Assumptions C42_replace_nocase_reads_stale_refuted.
