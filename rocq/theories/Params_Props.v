(** Params_Props.v -- properties C30 and C31: parameters of scripts, SHIFT and EXIT. *)

From Verif Require Import Base Num_Model Num_Proofs StrLib_Model StrLib_Spec Var_Model LocalVar_Model LocalVar_Props Expand_Model Expand_Props
  Args_Model Args_Spec Args_Proofs Args_Props Params_Model Params_Spec Params_Proofs.

(** C30: SHIFT removes [k] parameters at position [n] from the list of parameters, the
    surplus ones included, and everything behind moves up; at most 10 - n parameters are
    removed.  Nothing else changes. *)
Theorem C30_shift :
  forall w line ps os L, written w line ps -> Forall2 shift_option ps os -> holds w L ->
    exists w', pBat_CmdShift w line = Ret (0%Z, w') /\ others_stay w w' /\
      holds w' (drop (last_start os) (min (last_move os) (10 - last_start os)) L).
Proof.
  intros w line ps os L W O H. unfold pBat_CmdShift. rewrite (options_ok w line ps W os) by auto. cbn [bind].
  fold (last_start os) (last_move os).
  assert (N : last_start os < 10).
  { unfold last_start. assert (X : forall l n, n < 10 -> Forall (fun o => match o with Start m => m < 10 | Move _ => True end) l ->
      fold_left (fun n o => match o with Start m => m | Move _ => n end) l n < 10).
    { induction l as [|[m|m] l IH]; intros n Hn F; cbn [fold_left]; inversion F; auto. }
    apply X; [lia|]. clear -O. induction O as [|p o ps os S O IH]; constructor; auto.
    destruct S as [i c r S|i c S|i c S|i c S|i c S]; auto; apply digit_iff in S; tauto. }
  destruct (shift_ok w L _ (last_move os) N H) as (w' & -> & H1 & H2). cbn [bind]. eauto.
Qed.
Print Assumptions C30_shift.

(** C30: with anything else among its options SHIFT does nothing; this is an error,
    except for "/?". *)
Theorem C30_refused :
  forall w line good p bad, written w line (good ++ p :: bad) ->
    Forall (fun q => exists o, shift_option q o) good -> (forall o, ~ shift_option p o) ->
    pBat_CmdShift w line = Ret (if prefixb (s2l "/?") p then 0%Z else 4%Z, w).
Proof.
  intros w line good p bad W G B. unfold pBat_CmdShift. rewrite (options_bad w line _ W good p bad) by auto. cbn [bind].
  destruct (prefixb _ p); reflexivity.
Qed.
Print Assumptions C30_refused.

(** [m] times SHIFT. *)
Fixpoint shifts (m : nat) (w : xworld) : outcome xworld :=
  match m with
  | O => Ret w
  | S m => do (_, w) <- pBat_CmdShift w []; shifts m w
  end.

(** C30: repeated SHIFT goes through all parameters, however many. *)
Theorem C30_shifts :
  forall m w L, holds w L -> exists w', shifts m w = Ret w' /\ holds w' (skipn m L) /\ others_stay w w'.
Proof.
  induction m as [|m IH]; intros w L H.
  - exists w. split; [reflexivity|]. split; [exact H|]. unfold others_stay. auto.
  - destruct (C30_shift w [] [] [] L) as (w1 & E & O & H1); auto; [constructor; constructor|].
    change (last_start []) with 0 in H1. change (min (last_move []) (10 - 0)) with 1 in H1.
    change (drop 0 1 L) with (skipn 1 L) in H1. destruct (IH w1 _ H1) as (w2 & E2 & H2 & O2).
    exists w2. cbn [shifts]. rewrite E. cbn [bind]. split; [exact E2|]. split.
    + destruct L as [|x L]; [rewrite skipn_nil in H2; exact H2|exact H2].
    + unfold others_stay in *. destruct O as (A1 & A2 & A3 & A4 & A5), O2 as (B1 & B2 & B3 & B4 & B5).
      repeat (split; [congruence|]). intros c Hc. rewrite B5, A5; auto.
Qed.
Print Assumptions C30_shifts.

(** C30: CALL passes the parameters of its line, all of them if those from the tenth on
    can be written in %+: they may contain blanks and quotes, but are not empty and have
    no '^', '%', '!' or end of line. *)
Theorem C30_call :
  forall w zero line vs t, written w line vs -> pBat_DelayedExpand w line = Ret (t, w) -> Forall sturdy (skipn 9 vs) ->
    exists b, call_args w zero line = Ret (b, w) /\ b "*"%char = Some t /\
      (forall c, ~ In c (s2l "0123456789+*") -> b c = None) /\ forall w', holds (set_args w' b) (zero :: vs).
Proof. exact call_ok. Qed.
Print Assumptions C30_call.

(** C30: so do those of the command line of the interpreter. *)
Theorem C30_argv :
  forall zero argv, Forall sturdy (skipn 9 argv) ->
    exists b t, argv_args zero argv = Ret b /\ b "*"%char = Some t /\ (Forall sturdy argv -> forall w, written w t argv) /\
      forall w, holds (set_args w b) (zero :: argv).
Proof. exact argv_ok. Qed.
Print Assumptions C30_argv.

(** All parameters, one by one: what %1 is after each SHIFT. *)
Fixpoint firsts (m : nat) (w : xworld) : list (option cstr) :=
  match m with
  | O => []
  | S m => x_args w "1"%char :: match pBat_CmdShift w [] with Ret (_, w) => firsts m w | _ => [] end
  end.

Definition ex_line : cstr := s2l " a b c d e f g h i ""j ;k"" l""m n"" o".
Definition ex_called : xworld := match call_args ex_w (s2l ":f") ex_line with Ret (b, w) => set_args w b | _ => ex_w end.

Example C30_ex :
  firsts 14 ex_called = map (fun s => Some (s2l s)) (["a"; "b"; "c"; "d"; "e"; "f"; "g"; "h"; "i"; "j ;k"; "l""m n"""; "o"; ""; ""]%string) /\
  x_args ex_called "+"%char = Some (s2l "j^ ^;k l^""m^ n^"" o ") /\
  holds ex_called (map s2l ([":f"; "a"; "b"; "c"; "d"; "e"; "f"; "g"; "h"; "i"; "j ;k"; "l""m n"""; "o"]%string)) /\
  match pBat_CmdShift ex_called (s2l " /2 /d:3") with
  | Ret (e, w) => (e, map (x_args w) (s2l "0123456789"), x_args w "+"%char)
                  = (0%Z, map (fun s => Some (s2l s)) ([":f"; "a"; "e"; "f"; "g"; "h"; "i"; "j ;k"; "l""m n"""; "o"]%string), Some (s2l " "))
  | _ => False
  end.
Proof.
  split; [vm_compute; reflexivity|]. split; [vm_compute; reflexivity|]. split; [|vm_compute; reflexivity].
  split.
  - intros i c H. do 10 (destruct i as [|i]; [injection H as <-; vm_compute; reflexivity|]). destruct i; discriminate.
  - exists (s2l "j^ ^;k l^""m^ n^"" o "). split; [vm_compute; reflexivity|].
    apply (surplus_written ex_called (map s2l (["j ;k"; "l""m n"""; "o"]%string))).
    repeat constructor; try discriminate; intros c Hc Hb; revert Hc Hb; cbv; intuition (subst; discriminate).
Qed.

(** SHIFT /7 is documented but refused. *)
Theorem C30_seven_refuted : forall w L, holds w L -> pBat_CmdShift w (s2l " /7") = Ret (4%Z, w).
Proof.
  intros w L _. apply (C30_refused w (s2l " /7") [] (s2l "/7") []); auto.
  - apply written_blank; [apply space_blank|]. apply (written_plain w (s2l "/7") [] []); try discriminate.
    + intros c Hc Hb; revert Hc Hb; cbv; intuition (subst; discriminate).
    + constructor. constructor.
  - intros o H. inversion H as [i c r D N E| | | |]; subst. apply digit_iff in D. destruct D as [D1 D2].
    apply N. apply (dchar_inj i 7); auto.
Qed.
Print Assumptions C30_seven_refuted.

(** Parameters that are removed are never surplus ones: from the sixth parameter on, "/d:9" removes
    only five of them. *)
Theorem C30_far_refuted :
  exists w', pBat_CmdShift ex_called (s2l " /5 /d:9") = Ret (0%Z, w') /\ x_args w' "5"%char = Some (s2l "j ;k") /\
    nth 5 (drop 5 9 (map s2l ([":f"; "a"; "b"; "c"; "d"; "e"; "f"; "g"; "h"; "i"; "j ;k"; "l""m n"""; "o"]%string))) [] = [].
Proof. eexists. vm_compute. auto. Qed.
Print Assumptions C30_far_refuted.

(** Surplus parameters that are empty are lost, and '^' is lost in the others. *)
Theorem C30_surplus_refuted :
  match call_args ex_w (s2l ":f") (s2l "1 2 3 4 5 6 7 8 9 """" a^^^^b c") with
  | Ret (b, w) => firsts 12 (set_args w b) = map (fun s => Some (s2l s)) (["1"; "2"; "3"; "4"; "5"; "6"; "7"; "8"; "9"; "a^b"; "c"; ""]%string)
  | _ => False
  end.
Proof. vm_compute. reflexivity. Qed.
Print Assumptions C30_surplus_refuted.

(** C31: EXIT /B n, with nothing behind it, ends the current level with the code n, for
    every int; without a number the error level stays. *)
Theorem C31_level :
  forall w a o b z, Forall blank a -> In o [s2l "/b"; s2l "/B"] -> Forall blank b -> b <> [] -> in_int z = true ->
    pBat_CmdExit w (a ++ o ++ b ++ dec z) = Ret (ExLevel z, w) /\
    pBat_CmdExit w (a ++ o ++ b) = Ret (ExLevel (vw_err (x_var w)), w) /\
    pBat_CmdExit w (a ++ o) = Ret (ExLevel (vw_err (x_var w)), w).
Proof.
  intros w a o b z A O B N Z. destruct (dec_plain z) as [D1 D2].
  assert (EB : forall r, ends (b ++ r)).
  { intros r c t H. destruct b as [|x b]; [congruence|]. cbn [app] in H. injection H as -> _. inversion B; auto. }
  assert (OO : o <> [] /\ (forall c, In c o -> ~ In c (dquote :: blanks ++ s2l "^%!")) /\
     (stricmp o (s2l "/?") =? 0)%Z = false /\ (stricmp o (s2l "/b") =? 0)%Z = true).
  { destruct O as [<-|[<-|[]]]; (split; [discriminate|]); (split; [|split; reflexivity]);
      intros c Hc Hb; revert Hc Hb; cbv; intuition (subst; discriminate). }
  destruct OO as (O1 & O2 & O3 & O4). unfold pBat_CmdExit. split; [|split].
  - rewrite (plain_param w o a (b ++ dec z) []) by auto. cbn [bind]. rewrite O3, O4.
    rewrite <- (app_nil_r (dec z)) at 1. rewrite (plain_param w (dec z) b [] o) by (auto; discriminate). cbn [bind].
    rewrite <- (app_nil_r (dec z)), atoi_dec by (auto; discriminate). reflexivity.
  - rewrite (plain_param w o a b []); auto. 2:{ rewrite <- (app_nil_r b). apply EB. }
    cbn [bind]. rewrite O3, O4, next_end by auto. reflexivity.
  - rewrite <- (app_nil_r (a ++ o)), <- app_assoc. rewrite (plain_param w o a [] []) by (auto; discriminate).
    cbn [bind]. rewrite O3, O4, next_end by constructor. reflexivity.
Qed.
Print Assumptions C31_level.

(** C31: EXIT alone ends the interpreter with the error level. *)
Theorem C31_end : forall w a, Forall blank a -> pBat_CmdExit w a = Ret (ExEnd (vw_err (x_var w)), w).
Proof. intros w a A. unfold pBat_CmdExit. rewrite next_end by auto. reflexivity. Qed.
Print Assumptions C31_end.

(** EXIT n ends the interpreter with the code 0, whatever n. *)
Theorem C31_end_refuted :
  forall w a z b, Forall blank a -> Forall blank b -> pBat_CmdExit w (a ++ dec z ++ b) = Ret (ExEnd 0, w).
Proof.
  intros w a z b A B. destruct (dec_plain z) as [D1 D2]. unfold pBat_CmdExit.
  rewrite (plain_param w (dec z) a b []); auto. 2:{ intros c r ->. inversion B; auto. }
  cbn [bind].
  assert (S : forall x, ~ In x (s2l "0123456789-") -> (stricmp (dec z) ("/"%char :: x :: []) =? 0)%Z = false).
  { intros x _. unfold dec. destruct (Z.ltb_spec z 0); [reflexivity|].
    pose proof (dec_chars z) as F. unfold dec in F. destruct (Z.ltb_spec z 0); [lia|].
    destruct (udec z) as [|c r] eqn:U; [reflexivity|]. inversion F as [|? ? [D|D] _]; subst.
    - apply digit_of in D. destruct D as (i & I1 & I2 & _). subst c. do 10 (destruct i as [|i]; [reflexivity|]). lia.
    - reflexivity. }
  change (s2l "/?") with ["/"%char; "?"%char]. change (s2l "/b") with ["/"%char; "b"%char].
  rewrite !S by (cbv; intuition discriminate). rewrite atoi_blank by auto. reflexivity.
Qed.
Print Assumptions C31_end_refuted.

(** EXIT /B n with a blank behind it, as in "exit /b 1 & ..." or "(exit /b 1 )", is an
    error, and the level does not end. *)
Theorem C31_blank_refuted :
  forall w a o b z c, Forall blank a -> In o [s2l "/b"; s2l "/B"] -> Forall blank b -> b <> [] -> Forall blank c -> c <> [] ->
    pBat_CmdExit w (a ++ o ++ b ++ dec z ++ c) = Ret (ExBad, w).
Proof.
  intros w a o b z c A O B N C N'. destruct (dec_plain z) as [D1 D2].
  assert (E : forall b r, Forall blank b -> b <> [] -> ends (b ++ r)).
  { intros y r Y M d t H. destruct y as [|x y]; [congruence|]. cbn [app] in H. injection H as -> _. inversion Y; auto. }
  assert (OO : o <> [] /\ (forall c, In c o -> ~ In c (dquote :: blanks ++ s2l "^%!")) /\
     (stricmp o (s2l "/?") =? 0)%Z = false /\ (stricmp o (s2l "/b") =? 0)%Z = true).
  { destruct O as [<-|[<-|[]]]; (split; [discriminate|]); (split; [|split; reflexivity]);
      intros x Hc Hb; revert Hc Hb; cbv; intuition (subst; discriminate). }
  destruct OO as (O1 & O2 & O3 & O4). unfold pBat_CmdExit.
  rewrite (plain_param w o a (b ++ dec z ++ c) []) by auto. cbn [bind]. rewrite O3, O4.
  rewrite (plain_param w (dec z) b c o); auto. 2:{ rewrite <- (app_nil_r c). apply E; auto. }
  cbn [bind]. destruct c; [congruence|reflexivity].
Qed.
Print Assumptions C31_blank_refuted.

Example C31_ex :
  pBat_CmdExit ex_w (s2l " /B -12") = Ret (ExLevel (-12), ex_w) /\
  pBat_CmdExit ex_w (s2l " 3") = Ret (ExEnd 0, ex_w) /\
  pBat_CmdExit ex_w (s2l " 3 5") = Ret (ExEnd 5, ex_w) /\
  pBat_CmdExit ex_w (s2l " /b 3 ") = Ret (ExBad, ex_w) /\
  pBat_CmdExit ex_w (s2l " /b 3000000000") = Undef.
Proof. repeat split; vm_compute; reflexivity. Qed.
