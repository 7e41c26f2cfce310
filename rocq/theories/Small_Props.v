(** Small_Props.v -- C100: PAUSE, TITLE, CLS, BREAK, VER, REM, CHCP, LOCALE and HELP. *)

From Verif Require Import Base StrLib_Model Path_Model Expand_Model Args_Model CmdList_Model Args_Spec Args_Proofs Args_Props Set_Props Find_Props Params_Spec Params_Proofs Small_Model Small_Proofs.
Require Import Lia.

(** TITLE makes what is behind it the title, as it is and expanded; nothing is done without a word, and a first word that begins with
    /? gives the help. *)
Theorem C100_title : forall w name rest ps, length name = 5 -> written w rest ps ->
  (ps = [] -> pBat_CmdTitle w (name ++ rest) = Ret (0%Z, [], w)) /\
  (forall p qs, ps = p :: qs ->
     (firstn 2 p = s2l "/?" -> pBat_CmdTitle w (name ++ rest) = Ret (0%Z, [CHelp (s2l "TITLE")], w)) /\
     (firstn 2 p <> s2l "/?" -> forall t w', pBat_DelayedExpand w rest = Ret (t, w') ->
        pBat_CmdTitle w (name ++ rest) = Ret (0%Z, [CTitle t], w'))).
Proof.
  intros w name rest ps L W. unfold pBat_CmdTitle. rewrite (skipn_name name rest 5 L). cbv zeta.
  destruct (next_buf w rest ps 2 W) as [-> H]. split; [intros ->; reflexivity|]. intros p qs ->. destruct H as (r & ->). cbn [bind]. split.
  - intros E. rewrite E. reflexivity.
  - intros N t w' E. destruct (streqb (firstn 2 p) (s2l "/?")) eqn:S; [elim N; apply streqb_true; exact S|].
    unfold pBat_GetEndOfLine. rewrite E. reflexivity.
Qed.
Print Assumptions C100_title.

(** CLS clears the screen; with a word it does not, and gives the help for /? and error 4 with the first three characters of the
    word else. *)
Theorem C100_cls : forall w name rest ps, length name = 3 -> written w rest ps ->
  (ps = [] -> pBat_CmdCls w (name ++ rest) = Ret (0%Z, [CClear], w)) /\
  (forall p qs, ps = p :: qs ->
     (p = s2l "/?" -> pBat_CmdCls w (name ++ rest) = Ret (0%Z, [CHelp (s2l "CLS")], w)) /\
     (p <> s2l "/?" -> pBat_CmdCls w (name ++ rest) = Ret (4%Z, [CMessage 4 (firstn 3 p)], w))).
Proof.
  intros w name rest ps L W. unfold pBat_CmdCls. rewrite (skipn_name name rest 3 L).
  destruct (next_buf w rest ps 3 W) as [-> H]. split; [intros ->; reflexivity|]. intros p qs ->. destruct H as (r & ->). cbn [bind]. split.
  - intros ->. reflexivity.
  - intros N. destruct (streqb (firstn 3 p) (s2l "/?")) eqn:S; [|reflexivity].
    elim N. apply streqb_true in S. destruct p as [|a [|b [|c p]]]; cbn in S; try discriminate S; first [exact S|f_equal; exact S].
Qed.
Print Assumptions C100_cls.

(** BREAK, REM and CHCP do nothing, but for the help of BREAK. *)
Theorem C100_nothing : forall w name rest ps line, length name = 5 -> written w rest ps ->
  pBat_CmdRem w line = Ret (0%Z, [], w) /\ pBat_CmdChcp w line = Ret (0%Z, [], w) /\
  (hd_error ps = Some (s2l "/?") -> pBat_CmdBreak w (name ++ rest) = Ret (0%Z, [CHelp (s2l "BREAK")], w)) /\
  (hd_error ps <> Some (s2l "/?") -> pBat_CmdBreak w (name ++ rest) = Ret (0%Z, [], w)).
Proof.
  intros w name rest ps line L W. split; [reflexivity|]. split; [reflexivity|]. unfold pBat_CmdBreak. rewrite (skipn_name name rest 5 L).
  destruct (next_buf w rest ps 3 W) as [-> H]. destruct ps as [|p qs]; [split; [discriminate|reflexivity]|].
  destruct H as (r & ->). cbn [bind hd_error]. split.
  - intros E. injection E as ->. reflexivity.
  - intros N. destruct (streqb (firstn 3 p) (s2l "/?")) eqn:S; [|reflexivity].
    elim N. apply streqb_true in S. destruct p as [|a [|b [|c p]]]; cbn in S; try discriminate S; first [exact S|f_equal; exact S].
Qed.
Print Assumptions C100_nothing.

(** VER names the system unless its first word begins with /?. *)
Theorem C100_ver : forall w name rest ps, length name = 3 -> written w rest ps ->
  (forall p qs, ps = p :: qs -> firstn 2 p = s2l "/?" -> pBat_CmdVer w (name ++ rest) = Ret (0%Z, [CHelp (s2l "VER")], w)) /\
  ((forall p qs, ps = p :: qs -> nonul p /\ firstn 2 p <> s2l "/?") -> pBat_CmdVer w (name ++ rest) = Ret (0%Z, [CSystem], w)).
Proof.
  intros w name rest ps L W. unfold pBat_CmdVer. rewrite (skipn_name name rest 3 L).
  destruct (next_buf w rest ps 2 W) as [E H]. split.
  - intros p qs -> P. destruct rest as [|c rest].
    + exfalso. pose proof (next_of w [] [] _ W) as X. destruct X as (r & _ & _ & X). cbn in X. lia.
    + rewrite E. destruct H as (r & ->). cbn [bind]. rewrite P. reflexivity.
  - intros N. destruct rest as [|c rest]; [reflexivity|]. rewrite E. destruct ps as [|p qs]; [reflexivity|].
    destruct H as (r & ->). cbn [bind]. destruct (N p qs eq_refl) as [NN N'].
    destruct (stricmp (firstn 2 p) (s2l "/?") =? 0)%Z eqn:S; [|reflexivity]. exfalso. apply N'.
    destruct p as [|a [|b p]]; [discriminate S| |].
    + exfalso. clear - S. cbn in S. destruct a as [[] [] [] [] [] [] [] []]; discriminate S.
    + cbn [firstn] in S |- *. clear - S. cbn in S.
      destruct a as [[] [] [] [] [] [] [] []]; try discriminate S; cbn in S;
      destruct b as [[] [] [] [] [] [] [] []]; try discriminate S; reflexivity.
Qed.
Print Assumptions C100_ver.

(** PAUSE with something behind it waits for a key, unless it is one character and /?. *)
Theorem C100_pause : forall w name rest behind, length name = 5 -> (forall c r, name = c :: r -> ~ blank c) -> rest <> [] ->
  (forall c x, rest = c :: s2l "/?" ++ x -> pBat_CmdPause w (name ++ rest) behind = Ret (0%Z, [CHelp (s2l "PAUSE")], w)) /\
  ((forall c x, rest <> c :: s2l "/?" ++ x) -> pBat_CmdPause w (name ++ rest) behind = Ret (0%Z, [CKey], w)).
Proof.
  intros w name rest behind L B N. unfold pBat_CmdPause.
  assert (S : pBat_SkipBlanks (name ++ rest) = name ++ rest).
  { apply (skip_blanks [] (name ++ rest)); [constructor|]. intros c r E. destruct name as [|d name]; [discriminate|].
    cbn [app] in E. injection E as <- _. eapply B. reflexivity. }
  rewrite S. rewrite <- app_assoc. replace 6 with (length name + 1) by lia.
  assert (SK : forall (a b : cstr), skipn (length a + 1) (a ++ b) = skipn 1 b) by (induction a; cbn; auto).
  rewrite SK. destruct rest as [|c rest]; [congruence|]. cbn [app skipn]. split.
  - intros c' x E. injection E as -> ->. reflexivity.
  - intros F. destruct rest as [|d rest]; [reflexivity|]. cbn [app]. destruct (ceq d "/") eqn:D; [|reflexivity].
    apply ceq_true in D. subst d. destruct rest as [|e rest]; [reflexivity|]. cbn [app]. destruct (ceq e "?") eqn:G; [|reflexivity].
    apply ceq_true in G. subst e. elim (F c rest). reflexivity.
Qed.
Print Assumptions C100_pause.

(** HELP names every command once, except "("; HELP with one word runs it with /?; with several it refuses, and names the last. *)
Theorem C100_help : forall w name rest ps, length name = 4 -> written w rest ps ->
  (ps = [] -> exists l, pBat_CmdHelp w (name ++ rest) = Ret (0%Z, [CNames l], w) /\ NoDup l /\
     forall n, In n l <-> n <> s2l "(" /\ In n (map e_name lpCmdInfo)) /\
  (forall p, ps = [p] -> pBat_CmdHelp w (name ++ rest) = Ret (0%Z, [CRun (p ++ s2l " /?")], w)) /\
  (forall p q qs, ps = qs ++ [p; q] -> pBat_CmdHelp w (name ++ rest) = Ret (4%Z, [CMessage 4 q], w)).
Proof.
  intros w name rest ps L W. unfold pBat_CmdHelp. rewrite (skipn_name name rest 4 L). cbv zeta.
  rewrite (help_params_ok w rest ps W) by lia. cbn [bind Nat.add]. split; [|split].
  - intros ->. eexists. split; [reflexivity|]. split.
    + match goal with |- NoDup ?l => let v := eval vm_compute in l in change (NoDup v) end.
      repeat (constructor; [cbn; intro X; repeat (destruct X as [X|X]; [discriminate|]); exact X|]). constructor.
    + intro n. split.
      * intro H. apply in_map_iff in H as (e & <- & H). apply filter_In in H as [H1 H2]. split; [|apply in_map; exact H1].
        intro X. rewrite X in H2. discriminate.
      * intros [H1 H2]. apply in_map_iff in H2 as (e & <- & H2). apply in_map. apply filter_In. split; [exact H2|].
        clear - H1 H2. unfold lpCmdInfo in H2. cbn in H2. repeat (destruct H2 as [<-|H2]; [reflexivity || (elim H1; reflexivity)|]). destruct H2.
  - intros p ->. reflexivity.
  - intros p q qs ->. rewrite app_length. cbn [length]. replace (length qs + 2) with (S (S (length qs))) by lia. cbv iota.
    replace (last (qs ++ [p; q]) []) with q; [reflexivity|]. clear. induction qs as [|x qs IH]; [reflexivity|].
    cbn [app]. destruct (qs ++ [p; q]) as [|y l] eqn:E; [destruct qs; discriminate|]. exact IH.
Qed.
Print Assumptions C100_help.

(** LOCALE takes its own name for the directory: it loads messages from there, and refuses any word behind it. *)
Theorem C100_locale : forall cur cap w line p ps d, written w line (p :: ps) -> p <> s2l "/?" -> pBat_EsToFullPath cur p cap = Ret d ->
  (ps = [] -> pBat_CmdLocale cur cap w line = Ret (0%Z, [CMessages d], w)) /\
  (forall q qs, ps = q :: qs -> pBat_CmdLocale cur cap w line = Ret (4%Z, [CMessages d; CMessage 4 q], w)).
Proof.
  intros cur cap w line p ps d W N D. unfold pBat_CmdLocale. cbn [locale_loop].
  pose proof (next_of w [] line _ W) as (r & -> & W' & L). cbn [bind].
  destruct (streqb p (s2l "/?")) eqn:S; [elim N; apply streqb_true; exact S|]. rewrite D. cbn [bind].
  destruct (length line) as [|f]; [lia|]. cbn [locale_loop]. pose proof (next_of w d r ps W') as H. split.
  - intros ->. rewrite H. reflexivity.
  - intros q qs ->. destruct H as (r' & -> & _). reflexivity.
Qed.
Print Assumptions C100_locale.

(** So the directory that was given is not used, and the help cannot be asked for. *)
Theorem C100_locale_refuted : ~ (forall cur cap w line p q d, written w line [p; q] -> pBat_EsToFullPath cur q cap = Ret d ->
  exists z l w', pBat_CmdLocale cur cap w line = Ret (z, l, w') /\ In (CMessages d) l).
Proof.
  intro H. destruct (H (s2l "/d") 255 ex_w (s2l "locale /fr") (s2l "locale") (s2l "/fr") (s2l "/fr")) as (z & l & w' & E & I).
  - do 2 lw. constructor. constructor.
  - reflexivity.
  - assert (X : pBat_CmdLocale (s2l "/d") 255 ex_w (s2l "locale /fr") = Ret (4%Z, [CMessages (s2l "/d/locale"); CMessage 4 (s2l "/fr")], ex_w)) by (vm_compute; reflexivity).
    rewrite X in E. injection E as <- <- <-. destruct I as [I|[I|[]]]; discriminate I.
Qed.
Print Assumptions C100_locale_refuted.

(** PAUSE alone reads behind the end of its line: with /? there (left by a longer line) it does not wait. *)
Theorem C100_pause_refuted : ~ (forall w behind, pBat_CmdPause w (s2l "PAUSE") behind = Ret (0%Z, [CKey], w)).
Proof. intro H. specialize (H ex_w (s2l "/?")). discriminate H. Qed.
Print Assumptions C100_pause_refuted.

(** The message of CLS does not name a longer word, and TITLE cannot set a title that begins with /?. *)
Theorem C100_cut_refuted :
  ~ (forall w rest p, written w rest [p] -> p <> s2l "/?" -> pBat_CmdCls w (s2l "CLS" ++ rest) = Ret (4%Z, [CMessage 4 p], w)) /\
  ~ (forall w rest p t w', written w rest [p] -> p <> s2l "/?" -> pBat_DelayedExpand w rest = Ret (t, w') ->
       pBat_CmdTitle w (s2l "TITLE" ++ rest) = Ret (0%Z, [CTitle t], w')).
Proof.
  split; intro H.
  - specialize (H ex_w (s2l " word") (s2l "word") ltac:(lw; constructor; constructor) ltac:(discriminate)).
    assert (X : pBat_CmdCls ex_w (s2l "CLS" ++ s2l " word") = Ret (4%Z, [CMessage 4 (s2l "wor")], ex_w)) by (vm_compute; reflexivity).
    rewrite X in H. discriminate H.
  - specialize (H ex_w (s2l " /?x") (s2l "/?x") (s2l " /?x") ex_w ltac:(lw; constructor; constructor) ltac:(discriminate) ltac:(vm_compute; reflexivity)).
    assert (X : pBat_CmdTitle ex_w (s2l "TITLE" ++ s2l " /?x") = Ret (0%Z, [CHelp (s2l "TITLE")], ex_w)) by (vm_compute; reflexivity).
    rewrite X in H. discriminate H.
Qed.
Print Assumptions C100_cut_refuted.

Example C100_ex :
  pBat_CmdTitle ex_w (s2l "title My  shell") = Ret (0%Z, [CTitle (s2l " My  shell")], ex_w) /\
  pBat_CmdHelp ex_w (s2l "help dir") = Ret (0%Z, [CRun (s2l "dir /?")], ex_w) /\
  pBat_CmdHelp ex_w (s2l "help dir cd") = Ret (4%Z, [CMessage 4 (s2l "cd")], ex_w) /\
  pBat_CmdVer ex_w (s2l "ver") = Ret (0%Z, [CSystem], ex_w) /\
  pBat_CmdPause ex_w (s2l "pause /?") [] = Ret (0%Z, [CHelp (s2l "PAUSE")], ex_w) /\
  pBat_CmdPause ex_w (s2l "pause ") [] = Ret (0%Z, [CKey], ex_w) /\
  written ex_w (s2l " My  shell") [s2l "My"; s2l "shell"].
Proof. repeat split; try (vm_compute; reflexivity). do 2 lw. constructor. constructor. Qed.
