(** MoreCmd_Props.v -- C83: the command MORE. *)

From Verif Require Import Base Lex StrLib_Model StrLib_Spec Num_Model Num_Proofs Path_Model Var_Model Expand_Model If_Model If_Spec If_Proofs Args_Model Args_Spec Args_Props Params_Model Params_Spec Params_Proofs Block_Proofs Find_Model Find_Proofs Prompt_Proofs For_Spec For_Proofs
  Attr_Model Wc_Model Fs_Model Fs_Spec Fs_Proofs Search_Model Search_Spec Search_Proofs Search_Props Copy_Model Copy_Spec Copy_Proofs Del_Proofs Find_Props Type_Spec Type_Props More_Model More_Spec More_Props MoreCmd_Spec.

Section Params.
Variables (w : xworld) (f : fsys).
Ltac notopt N O := match goal with |- context[(stricmp ?p (s2l ?o) =? 0)%Z] =>
  let X := fresh in assert (X : (stricmp p (s2l o) =? 0)%Z = false) by (apply not_true_iff_false; rewrite opt_b by (first [exact N|apply nonul_b; reflexivity]); let Y := fresh in intros Y; unfold same_name in Y; rewrite O in Y; discriminate Y);
  rewrite X; clear X end.
Ltac isopt N O := match goal with |- context[(stricmp ?p (s2l ?o) =? 0)%Z] =>
  let X := fresh in assert (X : (stricmp p (s2l o) =? 0)%Z = true) by (apply opt_b; [exact N|apply nonul_b; reflexivity|exact O]); rewrite X; clear X end.
Ltac nothelp O := match goal with |- context[streqb ?p (s2l "/?")] =>
  let X := fresh in assert (X : streqb p (s2l "/?") = false) by (apply streqb_false; let Y := fresh in intros Y; rewrite Y in O; discriminate O); rewrite X; clear X end.
Lemma not_t p : ~ (exists a r, p = a ++ r /\ same_name a (s2l "/t")) -> (strnicmp p (s2l "/T") 2 =? 0)%Z = false.
Proof.
  intros H. apply Z.eqb_neq. intros X. apply H. apply (strnicmp_kw (s2l "/T")) in X; [|apply nonul_b; reflexivity]. exact X.
Qed.
Lemma is_t a r : same_name a (s2l "/t") -> (strnicmp (a ++ r) (s2l "/T") 2 =? 0)%Z = true.
Proof. intros H. apply Z.eqb_eq. apply (strnicmp_kw (s2l "/T")); [apply nonul_b; reflexivity|]. exists a, r. split; auto. Qed.
Lemma int_word_colon num z : int_word num z -> match num with c :: r => if ceq c ":"%char then r else num | [] => num end = num.
Proof.
  assert (D : forall c, is_digit c = true -> ceq c ":"%char = false) by (intros c; clear; destruct c as [[] [] [] [] [] [] [] []]; vm_compute; congruence).
  intros [b n H|b n H|b n H]; try reflexivity. destruct (numeral_first b n [] H) as (c & r & E & _ & Dg). rewrite app_nil_r in E. subst b. rewrite D; auto.
Qed.
Lemma params_wished q ps q' : wishes q ps q' -> forall tail fuel old line acc new ms, written w line (ps ++ tail) -> length line < fuel ->
  w_names q' = w_names q ++ new -> Forall2 (fun n m => paths_of w f n m /\ m <> []) new ms ->
  exists fuel' old' line', written w line' tail /\ length line' < fuel' /\
    more_params fuel w f old line (w_fl q) (w_skip q) acc = more_params fuel' w f old' line' (w_fl q') (w_skip q') (acc ++ concat ms).
Proof.
  assert (Nm : forall q ps q', wishes q ps q' -> exists more, w_names q' = w_names q ++ more).
  { clear. induction 1 as [| | | | | | |q p ps q' M W [more IH]]; eauto; [exists []; rewrite app_nil_r; auto|]. rewrite IH. cbn [w_names]. rewrite <- app_assoc. eauto. }
  induction 1 as [q|q p o ps q' [N O] Io W IH|q p ps q' [N O] W IH|q p ps q' [N O] W IH|q p ps q' [N O] W IH|q p a num z ps q' N Sa Pa In_ Rz W IH|q num n ps q' Nn Nu Rn W IH|q p ps q' Mn W IH];
    intros tail fuel old line acc new ms Wr L En F2.
  { exists fuel, old, line. assert (new = []) as ->; [|inversion F2; subst; cbn [concat]; rewrite app_nil_r; auto]. apply (f_equal (@length _)) in En. rewrite app_length in En. destruct new; [auto|cbn [length] in En; lia]. }
  all: destruct fuel as [|fuel]; [lia|]; cbn [app] in Wr; destruct (Find_Proofs.written_next (fun _ => []) w _ _ _ Wr) as (rest & E & R & Lr); cbn [more_params]; rewrite E; cbn [bind].
  - unfold same_name in O; destruct Io as [<-|[<-|[<-|[]]]]; cbn in O; nothelp O; repeat first [isopt N O|notopt N O]; apply IH with (new := new); auto; lia.
  - unfold same_name in O; cbn in O; nothelp O; repeat first [isopt N O|notopt N O]; apply IH with (new := new); auto; lia.
  - unfold same_name in O; cbn in O; nothelp O; repeat first [isopt N O|notopt N O]; apply IH with (new := new); auto; lia.
  - unfold same_name in O; cbn in O; nothelp O; repeat first [isopt N O|notopt N O]; apply IH with (new := new); auto; lia.
  - assert (O : exists r, p = a ++ r /\ match r with c :: x => if ceq c ":"%char then x else r | [] => r end = num).
    { destruct Pa as [->| ->]; eexists; (split; [reflexivity|]); [eapply int_word_colon; eauto|reflexivity]. }
    destruct O as (r & Ep & Er). assert (O : map tolower p = "/"%char :: "t"%char :: map tolower r) by (rewrite Ep, map_app, Sa; reflexivity).
    nothelp O. repeat notopt N O. assert (It : (strnicmp p (s2l "/T") 2 =? 0)%Z = true) by (rewrite Ep; apply is_t; auto). rewrite It.
    assert (La : length a = 2) by (apply (f_equal (@length _)) in Sa; rewrite !map_length in Sa; exact Sa).
    assert (Es : skipn 2 p = r) by (rewrite Ep, <- La, skipn_app, skipn_all, Nat.sub_diag; reflexivity). cbv zeta. rewrite Es, Er.
    destruct (int_word_ok num z In_ Rz) as (_ & _ & Z). rewrite Z. rewrite to_int_id by exact Rz. apply IH with (new := new); auto; lia.
  - assert (N : nonul ("+"%char :: num)) by (intros [X|X]; [discriminate X|auto]). assert (O : map tolower ("+"%char :: num) = "+"%char :: map tolower num) by reflexivity.
    nothelp O. repeat notopt N O. rewrite not_t by (intros (a & r & Ea & Sa); rewrite Ea, map_app, Sa in O; discriminate O). cbn [ceq].
    destruct (int_word_ok _ n (iw_plus num n Nu) Rn) as (_ & _ & Z). change (ceq "+" "+")%char with true. rewrite Z. cbv iota. rewrite to_int_id by exact Rn. apply IH with (new := new); auto; lia.
  - destruct Mn as (N & Nh & Np & No & Nt).
    assert (Hs : streqb p (s2l "/?") = false) by (apply streqb_false; auto). rewrite Hs.
    assert (Ho : forall o, In o ["/e"; "/c"; "/p"; "/s"; "/u"; "/a"]%string -> (stricmp p (s2l o) =? 0)%Z = false).
    { intros o I. apply not_true_iff_false. rewrite opt_b; [apply No, in_map, I|auto|]. apply nonul_b. cbn in I. intuition subst; reflexivity. }
    assert (Hu : forall o u, map tolower (s2l o) = map tolower (s2l u) -> In o ["/e"; "/c"; "/p"; "/s"; "/u"; "/a"]%string -> nonul (s2l u) -> (stricmp p (s2l u) =? 0)%Z = false).
    { intros o u Eo I Nu2. apply not_true_iff_false. rewrite opt_b by auto. unfold same_name. rewrite <- Eo. apply (No (s2l o)), in_map, I. }
    rewrite (Hu "/e" "/E")%string, (Hu "/c" "/C")%string, (Hu "/p" "/P")%string, (Hu "/s" "/S")%string, (Hu "/u" "/U")%string, (Hu "/a" "/A")%string by (try reflexivity; try (apply nonul_b; reflexivity); cbn; tauto).
    rewrite not_t by (intros (a & r & Ea & Sa); exact (Nt a r Sa Ea)).
    assert (Hp : (match p with c :: _ => ceq c "+"%char | [] => false end) = false).
    { destruct p as [|c p]; [auto|]. destruct (ceq c "+"%char) eqn:C; [|auto]. apply ceq_true in C. subst. exfalso. eapply Np. reflexivity. }
    rewrite Hp. cbv zeta. destruct (Nm _ _ _ W) as [more Em]. cbn [w_names] in Em. rewrite En, <- app_assoc in Em. apply app_inv_head in Em. subst new. cbn [app] in F2.
    inversion F2 as [|? m ? ms' [Pm Nem] F2']; subst. unfold paths_of, full, pBat_FullPathDup in Pm. rewrite Pm. cbn [bind]. destruct m as [|y m]; [congruence|].
    destruct (IH tail fuel (pBat_MakeFullPathEs (vw_cd (x_var w)) p) rest (acc ++ y :: m) more ms') as (f2 & o2 & l2 & W2 & L2 & E2); auto; [lia| |].
    { cbn [w_names]. rewrite En, <- app_assoc. reflexivity. }
    exists f2, o2, l2. split; [auto|]. split; [auto|]. cbn [w_fl w_skip] in E2. rewrite E2. cbn [concat]. rewrite <- app_assoc. reflexivity.
Qed.
End Params.

Lemma params_end w f old line fl b l fuel : written w line [] -> length line < fuel -> more_params fuel w f old line fl b l = Ret (MGo fl b l, w).
Proof. intros R L. destruct fuel as [|k]; [lia|]. cbn [more_params]. assert (Rn : pBat_GetNextParameterEs w old line = Ret (old, None, w)) by (inversion R; subst; apply next_end; auto). rewrite Rn. reflexivity. Qed.

Lemma files_turn opens f fl b : forall l ts st out st', Forall (fun x => opens x = true) l -> Forall2 (text_at f) l ts -> in_turn fl b st ts out st' -> more_files opens f fl b st l = Ret (out, st').
Proof.
  induction l as [|x l IH]; intros ts st out st' O F I; inversion F as [|? t ? ts' T F']; subst; inversion I as [|? ? o st1 ? out' ? Et It]; subst; [reflexivity|].
  inversion O; subst. cbn [more_files]. unfold pBat_MoreFile. unfold text_at in T. rewrite T. rewrite H1. rewrite Et. cbn [bind]. rewrite (IH _ _ _ _ H2 F' It). reflexivity.
Qed.

(** The texts of the files are printed one after the other, printed as the options ask for; a
    directory is left out. *)
Theorem C83_files : forall opens perm dsize w f st input line ps q ms ts out st',
  written w line ps -> wishes no_wish ps q -> w_names q <> [] -> Forall2 (fun n m => paths_of w f n m /\ m <> []) (w_names q) ms ->
  let l := filter (is_file f) (concat ms) in
  Forall (fun x => opens x = true) l -> Forall2 (text_at f) l ts -> in_turn (w_fl q) (w_skip q) st ts out st' ->
  pBat_CmdMore opens perm dsize w f st input line = Ret (if (length l =? 0)%nat then PBAT_NO_MATCH else 0%Z, out, st', w).
Proof.
  intros opens perm dsize w f st input line ps q ms ts out st' Wr Ws Nn F2 l O T I. unfold pBat_CmdMore. rewrite <- (app_nil_r ps) in Wr.
  destruct (params_wished w f _ _ _ Ws [] (S (length line)) [] line [] (w_names q) ms Wr) as (fu & old & rest & R & Lr & E); auto. cbn [w_fl w_skip no_wish app] in E. rewrite E, (params_end w f) by auto. cbn [bind].
  assert (Nc : concat ms <> []). { destruct (w_names q) as [|n names]; [congruence|]. inversion F2 as [|? m ? ms' [_ Nm] _]; subst. destruct m as [|y m]; [congruence|]. discriminate. }
  subst l. destruct (concat ms) as [|c cs]; [congruence|]. rewrite (filter_ext _ (is_file f)) by apply attr_file. destruct (filter (is_file f) (c :: cs)) as [|x l] eqn:El.
  - inversion T; subst. inversion I; subst. reflexivity.
  - rewrite (files_turn opens f _ _ _ _ _ _ _ O T I). reflexivity.
Qed.
Print Assumptions C83_files.

(** The usual case: MORE and the name of a file whose characters take a column each, prints its
    lines, cut into rows, but for the first [n] rows. *)
Theorem C83_file : forall opens perm dsize w f prev input line ps q n p ls r rows pss,
  written w line ps -> wishes no_wish ps q -> w_names q = [p] -> w_skip q = Z.of_nat n -> let x := full w p in
  get f (place_of x) = Some (File (flat_map (fun l => l ++ [nl]) ls ++ r)) -> length x < FILENAME_MAX -> opens x = true ->
  Forall (Forall (plain (w_fl q))) ls -> Forall (plain (w_fl q)) r -> Forall2 cut (kept (f_squeeze (w_fl q)) prev ls) pss -> last_rows r rows ->
  pBat_CmdMore opens perm dsize w f (st_of prev) input line =
    Ret (0%Z, concat (skipn n (map (fun p => p ++ [nl]) (concat pss) ++ rows)), st_of (lastly prev (kept (f_squeeze (w_fl q)) prev ls ++ if streqb r [] then [] else [r])), w).
Proof.
  intros opens perm dsize w f prev input line ps q n p ls r rows pss Wr Ws Eq En x G Lx O F Fr C R.
  pose proof (C82_rows (w_fl q) n prev ls r rows pss F Fr C R) as E. rewrite <- En in E.
  assert (X : is_file f x = true) by (unfold is_file; rewrite G; auto).
  eapply eq_trans; [apply (C83_files opens perm dsize w f (st_of prev) input line ps q [[x]] [flat_map (fun l => l ++ [nl]) ls ++ r]
    (concat (skipn n (map (fun p => p ++ [nl]) (concat pss) ++ rows)) ++ []) (st_of (lastly prev (kept (f_squeeze (w_fl q)) prev ls ++ if streqb r [] then [] else [r]))) Wr Ws)|].
  - rewrite Eq. discriminate.
  - rewrite Eq. constructor; [|constructor]. split; [|discriminate]. apply C75_name; [auto|congruence|congruence].
  - cbn [concat app filter]. rewrite X. auto.
  - cbn [concat app filter]. rewrite X. constructor; [exact G|constructor].
  - eapply it_next; [exact E|apply it_end].
  - cbn [concat app filter]. rewrite X. cbn [length Nat.eqb]. rewrite app_nil_r. reflexivity.
Qed.
Print Assumptions C83_file.

(** Without a name, MORE reads the standard input. *)
Theorem C83_input : forall opens perm dsize w f st input line ps q out st',
  written w line ps -> wishes no_wish ps q -> w_names q = [] -> more_text (w_fl q) (w_skip q) st input = Ret (out, st') ->
  pBat_CmdMore opens perm dsize w f st input line = Ret (0%Z, out, st', w).
Proof.
  intros opens perm dsize w f st input line ps q out st' Wr Ws En E. unfold pBat_CmdMore. rewrite <- (app_nil_r ps) in Wr.
  destruct (params_wished w f _ _ _ Ws [] (S (length line)) [] line [] [] [] Wr) as (fu & old & rest & R & Lr & E2); [lia|rewrite En; reflexivity|constructor|]. cbn [w_fl w_skip no_wish app concat] in E2. rewrite E2, (params_end w f) by auto. cbn [bind].
  rewrite E. reflexivity.
Qed.
Print Assumptions C83_input.

(** A text that is neither blank nor a number. *)
Definition no_number (s : cstr) : Prop := ~ Forall blank s /\ ~ exists v, integer_text s v.
Lemma no_number_rest s : no_number s -> exists z c r, strtol0 s = (z, c :: r).
Proof.
  intros [B N]. destruct (strtol0 s) as [z [|c r]] eqn:E; [|eauto]. exfalso. destruct (strtol_inv s z [] E) as [[_ X]|(v & X & _)]; [constructor|auto|eauto].
Qed.
Ltac notopt N O := match goal with |- context[(stricmp ?p (s2l ?o) =? 0)%Z] =>
  let X := fresh in assert (X : (stricmp p (s2l o) =? 0)%Z = false) by (apply not_true_iff_false; rewrite opt_b by (first [exact N|apply nonul_b; reflexivity]); let Y := fresh in intros Y; unfold same_name in Y; rewrite O in Y; discriminate Y);
  rewrite X; clear X end.
Ltac nothelp O := match goal with |- context[streqb ?p (s2l "/?")] =>
  let X := fresh in assert (X : streqb p (s2l "/?") = false) by (apply streqb_false; let Y := fresh in intros Y; rewrite Y in O; discriminate O); rewrite X; clear X end.

(** At a wrong number, a name without any file or /?, nothing is printed. *)
Theorem C83_errors : forall opens perm dsize w f st input line ps q p more ms,
  written w line (ps ++ p :: more) -> wishes no_wish ps q -> Forall2 (fun n m => paths_of w f n m /\ m <> []) (w_names q) ms ->
  forall z, (z = 0%Z /\ p = s2l "/?" \/ z = PBAT_NO_MATCH /\ more_name p /\ paths_of w f p [] \/
     z = PBAT_INVALID_NUMBER /\ nonul p /\ exists num, no_number num /\ (p = num /\ (exists r, num = "+"%char :: r) \/ exists a, same_name a (s2l "/t") /\ p = a ++ ":"%char :: num)) ->
  pBat_CmdMore opens perm dsize w f st input line = Ret (z, [], st, w).
Proof.
  intros opens perm dsize w f st input line ps q p more ms Wr Ws F2 z H. unfold pBat_CmdMore.
  destruct (params_wished w f _ _ _ Ws (p :: more) (S (length line)) [] line [] (w_names q) ms Wr) as (fu & old & rest & R & Lr & E); auto. cbn [w_fl w_skip no_wish app] in E. rewrite E. clear E.
  destruct fu as [|fu]; [lia|]. destruct (Find_Proofs.written_next (fun _ => []) w _ _ _ R) as (rest2 & E & _ & _); cbn [more_params]; rewrite E; cbn [bind].
  destruct H as [[-> ->]|[(-> & (N & Nh & Np & No & Nt) & P)|(-> & N & num & Nn & [(-> & r & Er)|(a & Sa & Ep)])]].
  - reflexivity.
  - assert (Hs : streqb p (s2l "/?") = false) by (apply streqb_false; auto). rewrite Hs.
    assert (Hu : forall o u, map tolower (s2l o) = map tolower (s2l u) -> In o ["/e"; "/c"; "/p"; "/s"; "/u"; "/a"]%string -> nonul (s2l u) -> (stricmp p (s2l u) =? 0)%Z = false).
    { intros o u Eo I Nu2. apply not_true_iff_false. rewrite opt_b by auto. unfold same_name. rewrite <- Eo. apply (No (s2l o)), in_map, I. }
    rewrite (Hu "/e" "/E")%string, (Hu "/c" "/C")%string, (Hu "/p" "/P")%string, (Hu "/s" "/S")%string, (Hu "/u" "/U")%string, (Hu "/a" "/A")%string by (try reflexivity; try (apply nonul_b; reflexivity); cbn; tauto).
    rewrite not_t by (intros (a & r & Ea & Sa); exact (Nt a r Sa Ea)).
    assert (Hp : (match p with c :: _ => ceq c "+"%char | [] => false end) = false).
    { destruct p as [|c p]; [auto|]. destruct (ceq c "+"%char) eqn:C; [|auto]. apply ceq_true in C. subst. exfalso. eapply Np. reflexivity. }
    rewrite Hp. cbv zeta. unfold paths_of, full, pBat_FullPathDup in P. rewrite P. reflexivity.
  - assert (O : map tolower num = "+"%char :: map tolower r) by (rewrite Er; reflexivity).
    nothelp O. repeat notopt N O. rewrite not_t by (intros (a & r2 & Ea & Sa); rewrite Ea, map_app, Sa in O; discriminate O).
    destruct (no_number_rest num Nn) as (z & c & x & Z). rewrite Z. rewrite Er. reflexivity.
  - assert (O : map tolower p = "/"%char :: "t"%char :: map tolower (":"%char :: num)) by (rewrite Ep, map_app, Sa; reflexivity).
    nothelp O. repeat notopt N O. assert (It : (strnicmp p (s2l "/T") 2 =? 0)%Z = true) by (rewrite Ep; apply is_t; auto). rewrite It.
    assert (La : length a = 2) by (apply (f_equal (@length _)) in Sa; rewrite !map_length in Sa; exact Sa).
    assert (Es : skipn 2 p = ":"%char :: num) by (rewrite Ep, <- La, skipn_app, skipn_all, Nat.sub_diag; reflexivity). cbv zeta. rewrite Es. cbn [ceq]. change (ceq ":" ":")%char with true. cbv iota.
    destruct (no_number_rest num Nn) as (z & c & x & Z). rewrite Z. reflexivity.
Qed.
Print Assumptions C83_errors.

Definition mo_fs : fsys :=
  [at_ "/" Dir; at_ "/tmp" Dir; at_ "/tmp/a" (File (s2l "one" ++ [nl] ++ s2l "two")); at_ "/tmp/b" (File [nl; nl; "3"%char]); at_ "/tmp/d" Dir].
Definition mo (opens : cstr -> bool) (line : string) : outcome (Z * string) :=
  do (z, out, st, w) <- pBat_CmdMore opens (fun _ => (true, true)) (fun _ => 0%N) ex_w mo_fs (mkM false false) (s2l "in") (s2l line);
  Ret (z, string_of_list_ascii out).
(** A file that cannot be opened is closed nonetheless. *)
Theorem C83_unreadable_refuted : mo (fun _ => false) " a" = Undef /\ mo (fun _ => true) " a" = Ret (0%Z, lines_of ["one"; "two"]%string).
Proof. split; vm_compute; reflexivity. Qed.
Print Assumptions C83_unreadable_refuted.
(** A path that begins with /t is taken for an option, not for a file. *)
Theorem C83_path_refuted : mo (fun _ => true) " /tmp/a" = Ret (44%Z, EmptyString) /\ mo (fun _ => true) " //tmp/a" = Ret (42%Z, EmptyString) /\ is_file mo_fs (s2l "/tmp/a") = true.
Proof. repeat split; vm_compute; reflexivity. Qed.
Print Assumptions C83_path_refuted.

(** The hypotheses hold: options, a pattern, a directory. *)
Example C83_ex :
  written ex_w (s2l " /s /T:4 +1 ? b") (map s2l ["/s"; "/T:4"; "+1"; "?"; "b"]%string) /\
  wishes no_wish (map s2l ["/s"; "/T:4"; "+1"; "?"; "b"]%string) (mkWi (mkMF true true true 4) 1 [s2l "?"; s2l "b"]) /\
  paths_of ex_w mo_fs (s2l "?") (map s2l ["/tmp/."; "/tmp/a"; "/tmp/b"; "/tmp/d"]%string) /\ no_number (s2l "+x") /\
  mo (fun _ => true) " /s /T:4 +1 ? b" = Ret (0%Z, "two33"%string) /\ mo (fun _ => true) " b" = Ret (0%Z, lines_of [""; ""; "3"]%string) /\
  mo (fun _ => true) " d" = Ret (42%Z, EmptyString) /\ mo (fun _ => true) " b q" = Ret (42%Z, EmptyString) /\ mo (fun _ => true) "" = Ret (0%Z, "in"%string) /\ mo (fun _ => true) " +x" = Ret (44%Z, EmptyString).
Proof.
  split; [do 5 lw; constructor; constructor|]. split.
  { assert (D : forall c n, digit_val c = n -> (n < 10)%Z -> c <> "0"%char -> numeral [c] n).
    { intros c n Y Z N. apply num_dec; [auto|]. exists [n]. split; [constructor; [apply dig_iff; split; [subst; auto|lia]|constructor]|]. split; [constructor; [lia|constructor]|reflexivity]. }
    assert (V : forall s, forallb (fun c => negb (ceq c "000"%char)) (s2l s) = true -> nonul (s2l s)) by (intros s; apply nonul_b).
    apply ws_squeeze; [split; [apply V; reflexivity|reflexivity]|].
    apply (ws_tab _ (s2l "/T:4") (s2l "/T") (s2l "4") 4%Z); [apply V; reflexivity|reflexivity|right; reflexivity|constructor; apply D; [reflexivity|lia|discriminate]|unfold an_int; lia|].
    apply (ws_skip _ (s2l "1") 1%Z); [apply V; reflexivity|apply D; [reflexivity|lia|discriminate]|unfold an_int; lia|].
    assert (M : forall c, c <> "/"%char -> c <> "+"%char -> c <> "000"%char -> more_name [c]).
    { intros c A B C. split; [intros [X|[]]; auto|]. split; [discriminate|]. split; [intros r X; injection X as X _; auto|]. split.
      - intros o I X. apply (f_equal (@length _)) in X. rewrite !map_length in X. cbn in I. intuition (subst; discriminate).
      - intros a r Sa X. apply (f_equal (@length _)) in Sa, X. rewrite !map_length in Sa. rewrite app_length in X. cbn [length s2l list_ascii_of_string] in *. lia. }
    apply ws_name; [apply M; discriminate|]. apply ws_name; [apply M; discriminate|]. apply ws_nil. }
  split; [vm_compute; reflexivity|]. split.
  { split; [intros X; inversion X as [|? ? Y _]; subst; cbv in Y; intuition discriminate|]. intros [v X]. apply strtol_ok in X. destruct X as (t & B & E). assert (Q : strtol0 (s2l "+x") = (0%Z, s2l "+x")) by (vm_compute; reflexivity). rewrite Q in E. injection E as _ <-.
    inversion B as [|? ? Y _]; subst. cbv in Y; intuition discriminate. }
  repeat split; vm_compute; reflexivity.
Qed.
