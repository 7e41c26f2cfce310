(** Timeout_Props.v -- C95: TIMEOUT waits as long as it is told. *)
From Coq Require Import Reals Lra.
From Flocq Require Import Core.Core IEEE754.BinarySingleNaN.
From Verif Require Import Prompt_Proofs Args_Props Set_Props Find_Props.
From Verif Require Import Base Lex Expand_Model Args_Model Args_Spec Params_Spec Timeout_Model Timeout_Spec Timeout_Proofs.

(** With one number from 0 to 100000 and perhaps options, TIMEOUT first shows the number, then sleeps for so many
    seconds, up to two milliseconds: all of it if no key is pressed or with /NOBREAK, else until the look that
    sees the key, ten of which are made each second.  Every number it shows is the time left, up to a tenth of a millisecond.  The
    error level is 0, and nothing else changes. *)
Theorem C95_waits (key : nat -> bool) (strtod : cstr -> dbl * nat) (w : xworld) (line : cstr) (ps : list cstr) (nobreak : bool) (d : dbl) (s : R) :
  written w line ps -> Forall nonul ps -> asked strtod ps nobreak d -> is_number d s -> (0 <= s <= 100000)%R ->
  exists n, forall fuel, n <= fuel -> exists l,
    pBat_CmdTimeout key strtod fuel w line = Ret (0%Z, TShow nobreak d :: l, w) /\
    ((nobreak = true \/ forall j, key j = false) -> near (seconds (slept l)) s (2 / 1000)) /\
    (forall k, nobreak = false -> first_key key k -> near (seconds (slept l)) (Rmin s (look k)) (2 / 1000)) /\
    (forall a b nb v, l = a ++ TShow nb v :: b -> nb = nobreak /\ exists r, is_number v r /\ near r (s - seconds (slept a)) (1 / 10000)).
Proof.
  intros W N A [F <-] B. destruct (wait_ok key nobreak d F B) as (n & H). exists n. intros fuel L. destruct (H fuel L) as (l & E & H1 & H2 & H3).
  exists l. rewrite (run_wait key strtod fuel w line ps nobreak d W N (decide_asked _ _ _ _ N A)), E. split; [reflexivity|]. split; [exact H1|]. split; [exact H2|].
  intros a b nb v X. destruct (H3 _ _ _ _ X) as (X1 & X2 & X3). split; [exact X1|]. exists (B2R v). split; [split; auto|exact X3].
Qed.
Print Assumptions C95_waits.

(** With a negative number, TIMEOUT waits for a key; ten looks are made each second. *)
Theorem C95_key (key : nat -> bool) (strtod : cstr -> dbl * nat) (w : xworld) (line : cstr) (ps : list cstr) (d : dbl) (s : R) (k : nat) :
  written w line ps -> Forall nonul ps -> asked strtod ps false d -> is_number d s -> (s < 0)%R -> first_key key k ->
  forall fuel, k < fuel -> pBat_CmdTimeout key strtod fuel w line = Ret (0%Z, TAsk false :: repeat (TSleep 100) k, w).
Proof.
  intros W N A [F <-] B [K1 K2] fuel L. rewrite (run_wait key strtod fuel w line ps false d W N (decide_asked _ _ _ _ N A)).
  unfold wait. rewrite (lt_b d dzero F eq_refl), zero_val, Rlt_bool_true by exact B. rewrite (key_ok key k 0) by auto. reflexivity.
Qed.
Print Assumptions C95_key.

(** ... and for ever with /NOBREAK or if none is pressed. *)
Theorem C95_for_ever (key : nat -> bool) (strtod : cstr -> dbl * nat) (w : xworld) (line : cstr) (ps : list cstr) (nobreak : bool) (d : dbl) (s : R) :
  written w line ps -> Forall nonul ps -> asked strtod ps nobreak d -> is_number d s -> (s < 0)%R -> nobreak = true \/ (forall j, key j = false) ->
  forall fuel, pBat_CmdTimeout key strtod fuel w line = OutOfFuel.
Proof.
  intros W N A [F <-] B Q fuel. rewrite (run_wait key strtod fuel w line ps nobreak d W N (decide_asked _ _ _ _ N A)).
  unfold wait. rewrite (lt_b d dzero F eq_refl), zero_val, Rlt_bool_true by exact B. rewrite key_never; [reflexivity|]. destruct Q; auto.
Qed.
Print Assumptions C95_for_ever.

(** Without a number, TIMEOUT does not wait. *)
Theorem C95_none (key : nat -> bool) (strtod : cstr -> dbl * nat) (w : xworld) (line : cstr) (ps : list cstr) (nobreak : bool) (fuel : nat) :
  written w line ps -> Forall nonul ps -> unasked ps nobreak -> 0 < fuel ->
  pBat_CmdTimeout key strtod fuel w line = Ret (0%Z, [TShow nobreak dzero], w).
Proof.
  intros W N A L. rewrite (run_wait key strtod fuel w line ps nobreak dzero W N (decide_unasked _ _ _ N A)). destruct fuel as [|f]; [lia|]. reflexivity.
Qed.
Print Assumptions C95_none.

(** What is no number, or a second number behind one that is not 0, is an error, and TIMEOUT does not wait; with
    "/?" it does not wait either. *)
Theorem C95_rejected (key : nat -> bool) (strtod : cstr -> dbl * nat) (w : xworld) (line : cstr) (a : list cstr) (p : cstr) (b : list cstr) (fuel : nat) :
  written w line (a ++ p :: b) -> Forall nonul (a ++ p :: b) ->
  (Forall (fun q => quiet q \/ no_key q) a /\ unread strtod p) \/
  (exists nobreak d, asked strtod a nobreak d /\ nonzero d = true /\ other p) ->
  pBat_CmdTimeout key strtod fuel w line = Ret (PBAT_UNEXPECTED_ELEMENT, [], w).
Proof.
  intros W N H. unfold pBat_CmdTimeout. rewrite (params_ok strtod w line _ W) by lia. pose proof N as N0. apply Forall_app in N. destruct N as [Na Nb]. inversion Nb; subst.
  replace (decide strtod (a ++ p :: b) false dzero) with TBad; [reflexivity|]. symmetry. destruct H as [[Q [O U]]|(nb & d & (a1 & q & a2 & -> & Q & R & _) & Z & O)].
  - destruct (decide_options strtod a (p :: b) false dzero Na Q) as (n1 & -> & _). rewrite decide_other by auto. cbn [nonzero dzero]. destruct (strtod p) as [d k]. cbn [snd] in U.
    destruct (skipn k p) eqn:E; [|reflexivity]. apply (f_equal (@length ascii)) in E. rewrite skipn_length in E. cbn [length] in E. lia.
  - rewrite <- app_assoc. apply Forall_app in Na. destruct Na as [Na1 Na2]. inversion Na2; subst. apply Forall_app in Q. destruct Q as [Qa Qb].
    destruct (decide_options strtod a1 ((q :: a2) ++ p :: b) false dzero Na1 Qa) as (n1 & -> & _). cbn [app]. rewrite (decide_reads strtod q d) by auto.
    destruct (decide_options strtod a2 (p :: b) n1 d) as (n2 & -> & _); auto. rewrite decide_other, Z by auto. reflexivity.
Qed.
Print Assumptions C95_rejected.

Theorem C95_help (key : nat -> bool) (strtod : cstr -> dbl * nat) (w : xworld) (line : cstr) (a : list cstr) (p : cstr) (b : list cstr) (fuel : nat) :
  written w line (a ++ p :: b) -> Forall nonul (a ++ p :: b) -> Forall (fun q => quiet q \/ no_key q) a -> help p ->
  pBat_CmdTimeout key strtod fuel w line = Ret (0%Z, [], w).
Proof.
  intros W N Q H. unfold pBat_CmdTimeout. rewrite (params_ok strtod w line _ W) by lia. apply Forall_app in N. destruct N as [Na Nb]. inversion Nb; subst.
  destruct (decide_options strtod a (p :: b) false dzero Na Q) as (n1 & -> & _). rewrite decide_help by auto. reflexivity.
Qed.
Print Assumptions C95_help.

(** Not so: that TIMEOUT ends with every number.  With 2 ^ 52 seconds, and with "inf", the count does not move. *)
Theorem C95_count_refuted (key : nat -> bool) (strtod : cstr -> dbl * nat) (w : xworld) (line : cstr) (ps : list cstr) (nobreak : bool) (d : dbl) :
  d = @B754_finite 53 1024 false 4503599627370496 0 eq_refl \/ d = B754_infinity false ->
  written w line ps -> Forall nonul ps -> asked strtod ps nobreak d -> nobreak = true \/ (forall j, key j = false) ->
  forall fuel, pBat_CmdTimeout key strtod fuel w line = OutOfFuel.
Proof.
  intros D W N A Q fuel. rewrite (run_wait key strtod fuel w line ps nobreak d W N (decide_asked _ _ _ _ N A)). unfold wait.
  destruct D as [->| ->]; cbv beta iota; rewrite count_never; try reflexivity; try (destruct Q; auto; fail). exact long_sub.
Qed.
Print Assumptions C95_count_refuted.

(** Not so: that only one number is taken, or that every text taken is a number.  A second number is taken if the first is 0; with "nan" there is no wait. *)
Theorem C95_second_refuted (key : nat -> bool) (strtod : cstr -> dbl * nat) (w : xworld) (line : cstr) (p q : cstr) (d : dbl) (sg : bool) :
  written w line [p; q] -> nonul p -> nonul q -> reads strtod p (B754_zero sg) -> reads strtod q d ->
  forall fuel, pBat_CmdTimeout key strtod fuel w line = do l <- wait key fuel false d; Ret (0%Z, l, w).
Proof.
  intros W N1 N2 R1 R2 fuel. apply (run_wait key strtod fuel w line [p; q]); [exact W|repeat (constructor; auto)|].
  rewrite (decide_reads strtod p (B754_zero sg)) by auto. rewrite (decide_reads strtod q d) by auto. reflexivity.
Qed.
Print Assumptions C95_second_refuted.
Theorem C95_nan_refuted (key : nat -> bool) (strtod : cstr -> dbl * nat) (w : xworld) (line : cstr) (ps : list cstr) (nobreak : bool) (fuel : nat) :
  written w line ps -> Forall nonul ps -> asked strtod ps nobreak B754_nan -> 0 < fuel ->
  pBat_CmdTimeout key strtod fuel w line = Ret (0%Z, [TShow nobreak B754_nan], w).
Proof.
  intros W N A L. rewrite (run_wait key strtod fuel w line ps nobreak B754_nan W N (decide_asked _ _ _ _ N A)). destruct fuel as [|f]; [lia|]. reflexivity.
Qed.
Print Assumptions C95_nan_refuted.

Definition ex_five : dbl := @B754_finite 53 1024 false 5629499534213120 (-50) eq_refl.
Definition ex_strtod (s : cstr) : dbl * nat := if streqb s (s2l "5") then (ex_five, 1) else (dzero, 0).
Definition ex_run (key : nat -> bool) (line : string) : option (Z * Z) :=
  match pBat_CmdTimeout key ex_strtod 60 ex_w (s2l line) with Ret (z, l, _) => Some (z, slept l) | _ => None end.

(** "TIMEOUT /t 5" waits 5 seconds, or 800 milliseconds if the eighth look sees a key, which does not count with /NOBREAK. *)
Example C95_ex :
  ex_run (fun _ => false) " /t 5" = Some (0, 5000)%Z /\ ex_run (fun n => 7 <=? n) " /t 5" = Some (0, 800)%Z /\
  ex_run (fun n => 7 <=? n) " /t 5 /nobreak" = Some (0, 5000)%Z /\ ex_run (fun _ => false) " 5 5" = Some (4, 0)%Z /\ ex_run (fun _ => false) " 5s" = Some (4, 0)%Z.
Proof. repeat split; vm_compute; reflexivity. Qed.

Example C95_ex_hyps :
  written ex_w (s2l " /t 5") [s2l "/t"; s2l "5"] /\ Forall nonul [s2l "/t"; s2l "5"] /\ asked ex_strtod [s2l "/t"; s2l "5"] false ex_five /\
  is_number ex_five 5 /\ first_key (fun n => 7 <=? n) 7 /\ unread ex_strtod (s2l "5s") /\ unasked [s2l "/NoBreak"] true.
Proof.
  assert (O : forall p, map tolower p <> s2l "/t" -> map tolower p <> s2l "/nobreak" -> map tolower p <> s2l "/?" -> other p).
  { intros p H1 H2 H3. repeat split; unfold quiet, no_key, help, same_name; cbn; auto. }
  split. { lw. lw. constructor. constructor. }
  split. { repeat (constructor; [apply nonul_b; reflexivity|]). constructor. }
  split. { exists [s2l "/t"], (s2l "5"), []. split; [reflexivity|]. split; [repeat (constructor; [left; reflexivity|]); constructor|].
    split; [split; [apply O; discriminate|exists 1; split; [reflexivity|cbn; lia]]|]. split; [discriminate|]. intros H. inversion H as [? ? X|? ? X]; subst; [discriminate X|].
    inversion X as [? ? Y|? ? Y]; subst; [discriminate Y|inversion Y]. }
  split. { split; [reflexivity|]. unfold ex_five, B2R, F2R. cbn [Fnum Fexp]. change (cond_Zopp false 5629499534213120) with 5629499534213120%Z.
    change (-50)%Z with (- (50))%Z. rewrite bpow_opp, bpow_IZR by lia. change (2 ^ 50)%Z with 1125899906842624%Z. lra. }
  split. { split; [reflexivity|]. intros j H. apply Nat.leb_gt. exact H. }
  split. { split; [apply O; discriminate|cbn; lia]. }
  split; [constructor; [right; reflexivity|constructor]|]. split; [intros _; left; reflexivity|reflexivity].
Qed.
