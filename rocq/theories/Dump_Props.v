(** Dump_Props.v -- C97: dump shows every byte of files. *)

From Coq Require Import Lia.
From Verif Require Import Base Lex Path_Proofs Dump_Model Dump_Spec Dump_Proofs.

(** With any options, the files are shown one after the other, each with its name above. *)
Theorem C97_files : forall show_g file opts name hex bytes signed width fs stdin,
  options opts name hex -> In (name, bytes, signed, width) int_types -> fs <> [] ->
  Forall (fun f => file_name f /\ exists rs, file f = Some (map Bytes rs) /\ readable hex signed bytes width rs) fs ->
  exists outs, dump_main show_g file (opts ++ fs) stdin = Ret (concat outs, 0%Z) /\
    Forall2 (fun f out => exists rs t, file f = Some (map Bytes rs) /\ dumped hex signed bytes width rs t /\ out = title f ++ t) fs outs.
Proof.
  intros show_g file opts name hex bytes signed width fs stdin O I N F. destruct (In_nth_error _ _ I) as [i Hi].
  unfold dump_main. rewrite (args_options show_g file opts name hex O i) by (rewrite nth_error_map, Hi; reflexivity).
  assert (X : forall fs m out, Forall (fun f => file_name f /\ exists rs, file f = Some (map Bytes rs) /\ readable hex signed bytes width rs) fs -> m + length fs <> 0 ->
    exists outs, dump_args show_g file fs i hex m out stdin = Ret (out ++ concat outs, 0%Z) /\
      Forall2 (fun f out => exists rs t, file f = Some (map Bytes rs) /\ dumped hex signed bytes width rs t /\ out = title f ++ t) fs outs).
  { clear N F fs. induction fs as [|f fs IH]; intros m out F M.
    - exists []. cbn [dump_args]. destruct (Nat.eqb_spec m 0) as [->|_]; [destruct (M eq_refl)|]. cbn. rewrite app_nil_r. split; [reflexivity|constructor].
    - inversion F as [|? ? [Nf (rs & Ef & R)] F']; subst. rewrite args_file by auto. unfold dump_file. rewrite Ef.
      destruct (dump_ok show_g i bytes signed width hex (ex_intro _ name Hi) rs R) as (t & Et & Dt). rewrite Et. cbn [bind].
      destruct (IH (S m) (out ++ f ++ s2l " -----------------" ++ nl :: t) F' ltac:(lia)) as (outs & E & G). rewrite E.
      exists ((title f ++ t) :: outs). split; [|constructor; auto; exists rs, t; auto].
      cbn [concat]. unfold title. repeat rewrite <- app_assoc. reflexivity. }
  apply (X fs 0 []); auto. destruct fs; [contradiction|discriminate].
Qed.
Print Assumptions C97_files.

(** Without files, dump shows what it reads, with no name. *)
Theorem C97_input : forall show_g file opts name hex bytes signed width rs,
  options opts name hex -> In (name, bytes, signed, width) int_types -> readable hex signed bytes width rs ->
  exists out, dump_main show_g file opts (map Bytes rs) = Ret (out, 0%Z) /\ dumped hex signed bytes width rs out.
Proof.
  intros show_g file opts name hex bytes signed width rs O I R. destruct (In_nth_error _ _ I) as [i Hi].
  unfold dump_main. rewrite <- (app_nil_r opts), (args_options show_g file opts name hex O i) by (rewrite nth_error_map, Hi; reflexivity).
  destruct (dump_ok show_g i bytes signed width hex (ex_intro _ name Hi) rs R) as (t & Et & Dt).
  cbn [dump_args Nat.eqb]. rewrite Et. cbn [bind app]. exists t. auto.
Qed.
Print Assumptions C97_input.

(** A file that cannot be opened ends dump with status 2, behind what the files before it gave. *)
Theorem C97_missing : forall show_g file opts name hex bytes signed width fs f rest stdin,
  options opts name hex -> In (name, bytes, signed, width) int_types ->
  Forall (fun f => file_name f /\ exists rs, file f = Some (map Bytes rs) /\ readable hex signed bytes width rs) fs ->
  file_name f -> file f = None ->
  exists outs, dump_main show_g file (opts ++ fs ++ f :: rest) stdin = Ret (concat outs, 2%Z) /\
    Forall2 (fun f out => exists rs t, file f = Some (map Bytes rs) /\ dumped hex signed bytes width rs t /\ out = title f ++ t) fs outs.
Proof.
  intros show_g file opts name hex bytes signed width fs f rest stdin O I F Nf Ef. destruct (In_nth_error _ _ I) as [i Hi].
  unfold dump_main. rewrite (args_options show_g file opts name hex O i) by (rewrite nth_error_map, Hi; reflexivity).
  assert (X : forall m out,
    exists outs, dump_args show_g file (fs ++ f :: rest) i hex m out stdin = Ret (out ++ concat outs, 2%Z) /\
      Forall2 (fun f out => exists rs t, file f = Some (map Bytes rs) /\ dumped hex signed bytes width rs t /\ out = title f ++ t) fs outs).
  { induction F as [|g fs [Ng (rs & Eg & R)] F IH]; intros m out; cbn [app].
    - exists []. rewrite args_file by auto. unfold dump_file. rewrite Ef. cbn [bind concat]. split; [reflexivity|constructor].
    - rewrite args_file by auto. unfold dump_file. rewrite Eg.
      destruct (dump_ok show_g i bytes signed width hex (ex_intro _ name Hi) rs R) as (t & Et & Dt). rewrite Et. cbn [bind].
      destruct (IH (S m) (out ++ g ++ s2l " -----------------" ++ nl :: t)) as (outs & E & G). rewrite E.
      exists ((title g ++ t) :: outs). split; [|constructor; auto; exists rs, t; auto].
      cbn [concat]. unfold title. repeat rewrite <- app_assoc. reflexivity. }
  apply (X 0 []).
Qed.
Print Assumptions C97_missing.

(** Input that lacks at least one element of a first row: the characters are printed up to memory that was
    never written. *)
Theorem C97_short_refuted : forall show_g file opts name hex bytes signed width b,
  options opts name hex -> In (name, bytes, signed, width) int_types -> b <> [] -> length b <= (per_row hex bytes width - 1) * bytes ->
  dump_main show_g file opts [Bytes b] = Undef.
Proof.
  intros show_g file opts name hex bytes signed width b O I Nb L. destruct (In_nth_error _ _ I) as [i Hi].
  assert (K : kind i bytes signed width) by (exists name; exact Hi).
  unfold dump_main. rewrite <- (app_nil_r opts), (args_options show_g file opts name hex O i) by (rewrite nth_error_map, Hi; reflexivity).
  destruct (ctx_facts i bytes signed width hex K) as (C1 & C2 & C3 & C4 & C5 & C6).
  cbn [dump_args Nat.eqb]. unfold dump_fd. cbn [dump_rows]. rewrite C2, C4. rewrite (row_short show_g i bytes signed width hex K) by auto. reflexivity.
Qed.
Print Assumptions C97_short_refuted.

(** The lines depend on how a pipe gives the bytes: a short read is shown as a row, with zeros, and the next one has
    a wrong address. *)
Theorem C97_pipe_refuted :
  ~ (forall show_g file rs rs', concat rs = concat rs' -> dump_main show_g file [] (map Bytes rs) = dump_main show_g file [] (map Bytes rs')).
Proof.
  intros H. specialize (H (fun _ _ _ => []) (fun _ => None) [s2l "0123456789"; s2l "abcdefghij"] [s2l "0123456789"; s2l "abc"; s2l "defghij"] eq_refl).
  vm_compute in H. discriminate H.
Qed.
Print Assumptions C97_pipe_refuted.

(** An error of read() copies (size_t)-1 bytes. *)
Theorem C97_error_refuted : ~ (forall show_g file, dump_main show_g file [] [Bytes (s2l "0123456789"); Failure] <> Undef).
Proof. intros H. exact (H (fun _ _ _ => []) (fun _ => None) eq_refl). Qed.
Print Assumptions C97_error_refuted.

Lemma row_len signed bytes width addr d cs out a : row_of true signed bytes width addr d cs out -> addr = 0%Z -> 1 <= bytes -> length d = a * bytes ->
  length out = 7 + a * (2 * bytes + 1) + (per_row true bytes width - a) * (2 * bytes + 1) + length cs.
Proof.
  intros (t & l & ts & A & P & F & ->) -> B L. cbn in A. subst t.
  pose proof P as Q. apply (parts_len (fun _ _ _ => [])) in Q. rewrite L in Q. assert (a = length l) as -> by (apply Nat.mul_cancel_r in Q; lia).
  rewrite !app_length. cbn [length]. rewrite !app_length, repeat_length. cbn [length s2l list_ascii_of_string].
  assert (X : length (concat (map (fun t => t ++ [" "%char]) ts)) = length l * (2 * bytes + 1)).
  { clear -F. induction F as [|t e ts l H F IH]; [reflexivity|]. cbn [map concat]. rewrite !app_length, IH. cbn [length]. destruct H as [_ H]. rewrite H. lia. }
  rewrite X. lia.
Qed.
(** In hexadecimal, negative numbers of one or two bytes have eight digits. *)
Theorem C97_wide_refuted :
  ~ (forall show_g file b out, length b = 15 -> dump_main show_g file [s2l "/H"] [Bytes b] = Ret (out, 0%Z) -> row_of true true 1 4 0 b (map visible b) out).
Proof.
  intros H. specialize (H (fun _ _ _ => []) (fun _ => None) (repeat "255"%char 15)). 
  match type of H with forall out, _ -> ?e = _ -> _ => let v := eval vm_compute in e in match v with Ret (?o, _) => specialize (H o eq_refl ltac:(vm_compute; reflexivity)) end end.
  apply (row_len _ _ _ _ _ _ _ 15) in H; [|reflexivity|lia|reflexivity]. vm_compute in H. discriminate H.
Qed.
Print Assumptions C97_wide_refuted.

(** Unsigned numbers of 8 bytes and floats: the wrong kind of argument for printf, or bytes past the buffer.  *)
Theorem C97_kinds_refuted : forall show_g file b a,
  In (a, length b) [("/Tull", 16); ("/Tf", 12)]%string -> dump_main show_g file [s2l a] [Bytes b] = Undef.
Proof.
  intros show_g file b a H.
  destruct H as [H|[H|[]]]; injection H as <- L.
  - do 16 (destruct b as [|? b]; [discriminate L|]). destruct b; [reflexivity|discriminate L].
  - do 12 (destruct b as [|? b]; [discriminate L|]). destruct b; [reflexivity|discriminate L].
Qed.
Print Assumptions C97_kinds_refuted.
(** Doubles are not shown at all. *)
Theorem C97_double_refuted : forall show_g file b, length b = 8 ->
  dump_main show_g file [s2l "/Td"] [Bytes b] = Ret (s2l "(nil)  " ++ map visible b ++ [nl], 0%Z).
Proof.
  intros show_g file b L. do 8 (destruct b as [|? b]; [discriminate L|]). destruct b; [|discriminate L].
  clear L. change (dump_main show_g file [s2l "/Td"]) with (fun stdin => do s <- dump_fd show_g (fill_context 9 false) stdin; Ret (s, 0%Z)). cbv beta.
  cbn -[dot visible ceq]. rewrite !dot_visible, !visible_nonul. reflexivity.
Qed.
Print Assumptions C97_double_refuted.

(** /B reads past its argument; paths that begin like an option are taken for one. *)
Theorem C97_names_refuted :
  (forall show_g file x r stdin, dump_main show_g file ((s2l "/B" ++ x) :: r) stdin = Undef) /\
  ~ (forall show_g file f rs, file f = Some (map Bytes rs) -> rs = [] -> exists out, dump_main show_g file [f] [] = Ret (out, 0%Z)).
Proof.
  split.
  - intros show_g file x r stdin. unfold dump_main. cbn [dump_args app s2l list_ascii_of_string]. destruct x; reflexivity.
  - intros H. destruct (H (fun _ _ _ => []) (fun _ => Some []) (s2l "/tmp/x") [] eq_refl eq_refl) as (out & E). vm_compute in E. discriminate E.
Qed.
Print Assumptions C97_names_refuted.

(** *** Cases *)
Example C97_ex :

  options [s2l "/t:US"] "us" false /\ options [s2l "/Tll"; s2l "/h"] "ll" true /\ In ("us"%string, 2, false, 5) int_types /\ per_row false 2 5 = 7 /\
  readable false false 2 5 [s2l "0123456789abcd"; s2l "XYZ"] /\
  file_name (s2l "a") /\ file_name (s2l "/a") /\
  dump_main (fun _ _ _ => []) (fun f => if streqb f (s2l "a") then Some (map Bytes [s2l "0123456789abcd"; s2l "XYZ"]) else None) [s2l "/t:US"; s2l "a"; s2l "b"] [] =
  Ret (s2l "a -----------------" ++ nl :: s2l "(nil) 12592 13106 13620 14134 14648 25185 25699 0123456789abcd" ++ nl ::
       s2l "0xe 22872 00090                               XYZ..56789abcd" ++ [nl], 2%Z) /\
  dump_main (fun _ _ _ => []) (fun _ => None) [] [Bytes (s2l "ab" ++ repeat "255"%char 8)] =
  Ret (s2l "(nil) 0097 0098 -001 -001 -001 -001 -001 -001 -001 -001 ab........" ++ [nl], 0%Z).
Proof.
  repeat split.
  - apply (op_type [] "c" false _ (s2l "us") "us" op_none); [right; reflexivity|cbn; tauto|reflexivity].
  - apply (op_hex [s2l "/Tll"] "ll" false). { apply (op_type [] "c" false _ (s2l "ll") "ll" op_none); [left; reflexivity|cbn; tauto|reflexivity]. } reflexivity.
  - cbn; tauto.
  - apply (rb_last _ _ _ _ [s2l "0123456789abcd"] (s2l "XYZ") (s2l "XYZ" ++ ["000"%char])).
    + constructor; [|constructor]. split; [reflexivity|]. intros l _. apply Forall_forall. intros x _ Q. discriminate Q.
    + exists 1. repeat split; [lia|]. exists 2. reflexivity.
    + discriminate.
    + vm_compute. lia.
    + intros l _. apply Forall_forall. intros x _ Q. discriminate Q.
    + left. discriminate.
  - intros c r Q. discriminate Q.
  - intros c r Q. injection Q as <- <-. cbn. intuition discriminate.
Qed.
