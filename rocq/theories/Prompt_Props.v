(** Prompt_Props.v -- properties C39 (prompt strings), C64 (colours) and C65 (ECHO). *)

From Verif Require Import Base Lex Num_Model StrLib_Model StrLib_Spec Env_Model Env_Spec Env_Props Var_Model Expand_Model Expand_Spec Args_Model Args_Spec
  Args_Proofs Args_Props Path_Proofs Params_Model Params_Spec Params_Proofs Prompt_Model Prompt_Spec Prompt_Proofs.

(** C39: every prompt string is shown: text as it is, and the codes as documented. *)
Theorem C39_prompt :
  forall p s, ready p ->
    exists o, pBat_OutputPromptString p s = Ret o /\ prompts p s o /\ forall o', prompts p s o' -> o' = o.
Proof.
  intros p s R. unfold pBat_OutputPromptString. destruct (prompt_ok p (Datatypes.S (length s)) s R) as (o & E & P); [lia|].
  exists o. split; auto. split; auto. intros o' P'. symmetry. eapply prompts_fun; eauto.
Qed.
Print Assumptions C39_prompt.

(** C39: the prompt is what the variable PROMPT holds, shown that way. *)
Theorem C39_variable :
  forall p v, ready p -> pBat_GetEnv (vw_env (p_var p)) (s2l "PROMPT") (p_ka p) = Ret (Some v) ->
    exists o, pBat_OutputPrompt p = Ret o /\ prompts p v o.
Proof.
  intros p v R E. unfold pBat_OutputPrompt, prompt_env. rewrite E. destruct (C39_prompt p v R) as (o & O & P & _). eauto.
Qed.
Print Assumptions C39_variable.

(** C39: text without '$' is shown as it is; '$$' shows one '$', and a lone '$' at the end
    nothing. *)
Theorem C39_text :
  forall p s t o, ~ In "$"%char s -> ready p -> pBat_OutputPromptString p t = Ret o ->
    pBat_OutputPromptString p (s ++ t) = Ret (s ++ o) /\
    pBat_OutputPromptString p (s ++ s2l "$$" ++ t) = Ret (s ++ "$"%char :: o) /\
    pBat_OutputPromptString p (s ++ ["$"%char]) = Ret s.
Proof.
  intros p s t o N R E.
  destruct (C39_prompt p t R) as (o1 & E1 & P1 & _). assert (o1 = o) by congruence. subst o1.
  assert (X : forall s o, prompts p s o -> pBat_OutputPromptString p s = Ret o).
  { intros s0 o0 P0. destruct (C39_prompt p s0 R) as (o2 & E2 & _ & U). rewrite (U o0 P0). auto. }
  split; [|split]; apply X.
  - apply prompts_text; auto.
  - apply prompts_text; auto. cbn [s2l list_ascii_of_string app]. apply (pr_code p "$"%char ["$"%char]); auto. apply st_char. cbn. tauto.
  - rewrite <- (app_nil_r s) at 2. apply prompts_text; auto. constructor.
Qed.
Print Assumptions C39_text.

(** C39: PECHO shows its text as a prompt string, with a new line behind it. *)
Theorem C39_pecho :
  forall w ka dirs col tty c text v, ready (mkP (x_var w) ka dirs col tty) -> expands w text v ->
    (In c punctuation \/ (c = " "%char \/ c = "009"%char) /\ v <> s2l "/?") ->
    exists o, pBat_CmdPecho w ka dirs col tty (c :: text) = Ret (0%Z, o ++ [nl], w) /\ prompts (mkP (x_var w) ka dirs col tty) v o.
Proof.
  intros w ka dirs col tty c text v R E H. unfold pBat_CmdPecho, pBat_GetEndOfLine. rewrite E. cbn [bind].
  destruct (C39_prompt _ v R) as (o & O & P & _). exists o. rewrite O. cbn [bind]. split; auto.
  destruct H as [H|[H N]].
  - apply punct_iff in H. rewrite H. cbn [negb andb]. rewrite andb_false_r. auto.
  - replace (streqb v (s2l "/?")) with false by (symmetry; apply streqb_false; auto).
    destruct H as [-> | ->]; reflexivity.
Qed.
Print Assumptions C39_pecho.

(** C39: PROMPT gives its text, without the blanks before it, to the variable PROMPT; an
    empty text stands for "$P$G". *)
Theorem C39_set :
  forall w a text v, Forall blank a -> (forall c r, text = c :: r -> ~ blank c) -> expands w text v -> v <> s2l "/?" ->
    pBat_CmdPrompt w (a ++ text) = Ret (Some (match v with [] => s2l "$P$G" | _ => v end), w).
Proof.
  intros w a text v B N E H. unfold pBat_CmdPrompt. rewrite skip_blanks by auto. unfold pBat_GetEndOfLine. rewrite E. cbn [bind].
  replace (streqb v (s2l "/?")) with false by (symmetry; apply streqb_false; auto). destruct v; reflexivity.
Qed.
Print Assumptions C39_set.

Definition ex_prompt (col : Z) (tty : bool) : pworld := mkP (mkVW ex_env (s2l "/home/u") 0 7 (s2l "12/31/26") (s2l "10:00:000")) 8 2 col tty.

Example C39_ex :
  ready (ex_prompt 768 true) /\
  pBat_OutputPromptString (ex_prompt 768 true) (s2l "[$P$+] $xaC;$T$_$n$u$m$?$$x$G$") =
    Ret (s2l "[/home/u++] " ++ "027"%char :: s2l "[102m" ++ "027"%char :: s2l "[91m10:00:000" ++ nl :: s2l "/$x>") /\
  pBat_OutputPromptString (ex_prompt 768 false) (s2l "$xaC;$x1$Gb$x$g") = Ret (s2l ">bg") /\
  match pBat_CmdPecho ex_w 8 1 768 false (s2l " a$gb") with Ret (e, o, _) => e = 0%Z /\ o = s2l "a>b" ++ [nl] | _ => False end.
Proof.
  split; [|vm_compute; auto]. split; [discriminate|]. exists true. split; [apply ex_env_ok|]. cbn. lia.
Qed.

(** PECHO with nothing behind it reads behind the end of the line. *)
Theorem C39_pecho_refuted : forall w ka dirs col tty, pBat_CmdPecho w ka dirs col tty [] = Undef.
Proof. reflexivity. Qed.
Print Assumptions C39_pecho_refuted.

(** A colour code that is not complete takes the next character with it, even the '$' of
    the next code. *)
Theorem C39_broken_refuted :
  forall p c s, In c (s2l "xX") -> ready p -> ~ In ";"%char s -> pBat_OutputPromptString p ("$"%char :: c :: "$"%char :: s) = pBat_OutputPromptString p s.
Proof.
  intros p c s C R N. assert (X : forall s o, prompts p s o -> pBat_OutputPromptString p s = Ret o).
  { intros s0 o0 P0. destruct (C39_prompt p s0 R) as (o2 & E2 & _ & U). rewrite (U o0 P0). auto. }
  destruct (C39_prompt p s R) as (o & E & P & _). rewrite E. apply X. apply pr_broken; auto.
  - cbn in C. destruct C as [<-|[<-|[]]]; reflexivity.
  - intros k t H. inversion H; subst; apply N; cbn; auto.
Qed.
Print Assumptions C39_broken_refuted.

(** C64: COLOR with two hexadecimal digits sets the background and the colour of the text,
    and clears the screen; twice the same digit is an error and changes nothing. *)
Theorem C64_digits :
  forall w tty col line a b ps n m, written w line ([a; b] :: ps) ->
    nth_error (s2l "0123456789abcdef") n = Some (tolower a) -> nth_error (s2l "0123456789abcdef") m = Some (tolower b) ->
    (n <> m -> exists col', back_of col' = Hue (Z.of_nat n) /\ fore_of col' = Hue (Z.of_nat m) /\
       pBat_CmdColor w tty col line =
       Ret (0%Z, col', if tty then paint (Hue (Z.of_nat n)) (Hue (Z.of_nat m)) ++ "027"%char :: s2l "[H" ++ "027"%char :: s2l "[2J" else [], w)) /\
    (n = m -> pBat_CmdColor w tty col line = Ret (4%Z, col, [], w)).
Proof.
  intros w tty col line a b ps n m W A B. pose proof A as A'. pose proof B as B'. apply hex_iff in A', B'.
  destruct (written_next w line ([a; b] :: ps) [] W) as (rest & E & _).
  pose proof (color_code_ok col [a; b]) as K.
  assert (G : pBat_GetColorCode col [a; b] = Some (Z.lor (FOREGROUND_COLOR (Z.of_nat m)) (BACKGROUND_COLOR (Z.of_nat n)))).
  { cbn [pBat_GetColorCode]. rewrite !color_char_ok, A', B'. auto. }
  rewrite G in K.
  assert (C : chooses col [a; b] (Hue (Z.of_nat n)) (Hue (Z.of_nat m))) by (constructor; constructor; auto).
  destruct (chooses_fun _ _ _ _ _ _ K C) as [K1 K2].
  assert (Q : streqb [a; b] (s2l "/?") = false).
  { apply streqb_false. intros X. injection X as -> ->. discriminate. }
  assert (S : pBat_CmdColor w tty col line = if (n =? m)%nat then Ret (4%Z, col, [], w) else
     Ret (0%Z, Z.lor (FOREGROUND_COLOR (Z.of_nat m)) (BACKGROUND_COLOR (Z.of_nat n)), pBat_SetConsoleColor tty (Z.lor (FOREGROUND_COLOR (Z.of_nat m)) (BACKGROUND_COLOR (Z.of_nat n))), w)).
  { unfold pBat_CmdColor, pBat_GetNextParameter. rewrite E. cbn [bind firstn]. rewrite Q, G.
    rewrite same_range by (eapply hex_lt; eauto). destruct (n =? m); reflexivity. }
  rewrite S. split.
  - intros N. apply Nat.eqb_neq in N. rewrite N. eexists. split; [apply K1|]. split; [apply K2|]. do 2 f_equal. f_equal.
    unfold pBat_SetConsoleColor. destruct tty; auto. rewrite console_ok, K1, K2. reflexivity.
  - intros ->. rewrite Nat.eqb_refl. auto.
Qed.
Print Assumptions C64_digits.

(** C64: whatever follows COLOR, the colours become the default ones, or the ones that the
    code chooses, or they stay; the terminal is told when they change, and another file
    gets nothing. *)
Theorem C64_colors :
  forall w tty col line ps, written w line ps ->
    exists e col' out, pBat_CmdColor w tty col line = Ret (e, col', out, w) /\
      let told := if tty then paint (back_of col') (fore_of col') ++ "027"%char :: s2l "[H" ++ "027"%char :: s2l "[2J" else [] in
      (ps = [] -> e = 0%Z /\ back_of col' = Default /\ fore_of col' = Default /\ out = told) /\
      forall p ps', ps = p :: ps' ->
        (e = 0%Z /\ chooses col (firstn 3 p) (back_of col') (fore_of col') /\ out = told) \/
        (col' = col /\ out = [] /\ (e = 4%Z \/ e = 0%Z /\ firstn 3 p = s2l "/?")).
Proof.
  intros w tty col line ps W. unfold pBat_CmdColor, pBat_GetNextParameter. pose proof (written_next w line ps [] W) as N.
  assert (T : forall c, pBat_SetConsoleColor tty c = if tty then paint (back_of c) (fore_of c) ++ "027"%char :: s2l "[H" ++ "027"%char :: s2l "[2J" else []).
  { intros c. unfold pBat_SetConsoleColor. destruct tty; auto. rewrite console_ok. auto. }
  destruct ps as [|p ps].
  - rewrite N. cbn [bind firstn]. do 3 eexists. split; [reflexivity|]. cbv zeta. rewrite <- T. split; [auto|]. intros p ps' H. discriminate.
  - destruct N as (rest & -> & _). cbn [bind]. destruct (streqb (firstn 3 p) (s2l "/?")) eqn:Q.
    { apply streqb_true in Q. do 3 eexists. split; [reflexivity|]. split; [discriminate|]. intros p' ps' X. injection X as <- <-. auto 6. }
    pose proof (color_code_ok col (firstn 3 p)) as K. destruct (pBat_GetColorCode col (firstn 3 p)) as [k|].
    2:{ do 3 eexists. split; [reflexivity|]. split; [discriminate|]. auto 6. }
    destruct (Z.shiftr (Z.land 240 k) 4 =? Z.land 15 k)%Z.
    { do 3 eexists. split; [reflexivity|]. split; [discriminate|]. auto 6. }
    do 3 eexists. split; [reflexivity|]. cbv zeta. rewrite <- T. split; [discriminate|]. intros p' ps' X. injection X as <- <-. auto.
Qed.
Print Assumptions C64_colors.

Example C64_ex :
  nth_error (s2l "0123456789abcdef") 10 = Some (tolower "A"%char) /\
  (exists col out, pBat_CmdColor ex_w true 768 (s2l " A1") = Ret (0%Z, col, out, ex_w) /\ back_of col = Hue 10 /\ fore_of col = Hue 1 /\
     out = "027"%char :: s2l "[102m" ++ "027"%char :: s2l "[34m" ++ "027"%char :: s2l "[H" ++ "027"%char :: s2l "[2J") /\
  (exists col out, pBat_CmdColor ex_w true 768 (s2l " .4") = Ret (0%Z, col, out, ex_w) /\ back_of col = Default /\ fore_of col = Hue 4) /\
  pBat_CmdColor ex_w true 768 (s2l " 33") = Ret (4%Z, 768%Z, [], ex_w).
Proof. split; [reflexivity|]. split; [do 2 eexists; vm_compute; auto|]. split; [do 2 eexists; vm_compute; auto|]. vm_compute. auto. Qed.

(** With one digit the background does not stay: the default one becomes black, and behind
    a green background the colour of the text is not set. *)
Theorem C64_one_refuted :
  exists col col' out, pBat_CmdColor ex_w true 768 (s2l " 4") = Ret (0%Z, col, out, ex_w) /\ back_of 768 = Default /\ back_of col = Hue 0 /\
    back_of 47 = Hue 2 /\ chooses 47 (s2l "4") (back_of col') (fore_of col') /\ fore_of col' = Default.
Proof.
  do 3 eexists. split; [vm_compute; reflexivity|]. split; [reflexivity|]. split; [reflexivity|]. split; [reflexivity|].
  split; [apply (color_code_ok 47 (s2l "4"))|reflexivity].
Qed.
Print Assumptions C64_one_refuted.

(** Default colours count as black: "COLOR .0" and "COLOR .." are refused. *)
Theorem C64_default_refuted :
  pBat_CmdColor ex_w true 768 (s2l " .0") = Ret (4%Z, 768%Z, [], ex_w) /\ pBat_CmdColor ex_w true 768 (s2l " ..") = Ret (4%Z, 768%Z, [], ex_w).
Proof. vm_compute. auto. Qed.
Print Assumptions C64_default_refuted.

(** C65: ECHO with a punctuation character behind it prints what follows, whatever it
    is. *)
Theorem C65_punctuation :
  forall w on c text v, In c punctuation -> expands w text v -> pBat_CmdEcho w on (c :: text) = Ret (0%Z, on, HText (v ++ [nl]), w).
Proof.
  intros w on c text v C E. apply punct_iff in C. unfold pBat_CmdEcho, pBat_GetEndOfLine. rewrite C, E. cbn [negb bind]. rewrite andb_false_r. auto.
Qed.
Print Assumptions C65_punctuation.

(** C65: ECHO and a blank print what follows the blank, unless this is a single order or
    there is nothing. *)
Theorem C65_text :
  forall w on c text p ps v, (c = " "%char \/ c = "009"%char) -> written w text (p :: ps) -> nonul p ->
    ~ (order p /\ ps = []) -> expands w text v ->
    pBat_CmdEcho w on (c :: text) = Ret (0%Z, on, HText (v ++ [nl]), w).
Proof.
  intros w on c text p ps v C W N O E.
  assert (B : blank c) by (destruct C as [-> | ->]; cbv; tauto).
  destruct (written_next w (c :: text) (p :: ps) [] (written_blank w c text _ B W)) as (rest & X & W').
  assert (P : ispunct c = false) by (destruct C as [-> | ->]; reflexivity).
  assert (Q : negb (ceq c " "%char) && negb (ceq c "009"%char) && negb (ispunct c) = false) by (destruct C as [-> | ->]; reflexivity).
  unfold pBat_CmdEcho. rewrite Q, P, X. cbn [bind]. unfold pBat_GetNextParameter. pose proof (written_next w rest ps [] W') as Y.
  assert (Z : forall (A : Type) (x y : A) b, (b = true -> order p) -> (if b && match ps with [] => true | _ => false end then x else y) = y).
  { intros A x y b H. destruct b; auto. destruct ps; auto. exfalso. apply O. auto. }
  assert (Z1 : (stricmp p (s2l "OFF") =? 0)%Z = true -> order p).
  { intros H. apply stricmp_name in H; [right; left; exact H|auto|apply nonul_b; reflexivity]. }
  assert (Z2 : (stricmp p (s2l "ON") =? 0)%Z = true -> order p).
  { intros H. apply stricmp_name in H; [left; exact H|auto|apply nonul_b; reflexivity]. }
  assert (Z3 : streqb p (s2l "/?") = true -> order p).
  { intros H. apply streqb_true in H. right. right. auto. }
  unfold pBat_GetEndOfLine. destruct ps as [|q ps].
  - rewrite Y. cbn [bind firstn]. cbv zeta.
    destruct (stricmp p (s2l "OFF") =? 0)%Z; [exfalso; apply O; auto|].
    destruct (stricmp p (s2l "ON") =? 0)%Z; [exfalso; apply O; auto|].
    destruct (streqb p (s2l "/?")); [exfalso; apply O; auto|]. cbn [andb]. rewrite E. reflexivity.
  - destruct Y as (rest' & -> & _). cbn [bind firstn]. cbv zeta. rewrite !andb_false_r. rewrite E. reflexivity.
Qed.
Print Assumptions C65_text.

(** C65: ECHO ON and ECHO OFF, in any case, set the state and print nothing; ECHO alone
    tells the state. *)
Theorem C65_state :
  forall w on c text, (c = " "%char \/ c = "009"%char) ->
    (forall p, written w text [p] -> nonul p -> same_name p (s2l "on") -> pBat_CmdEcho w on (c :: text) = Ret (0%Z, true, HNothing, w)) /\
    (forall p, written w text [p] -> nonul p -> same_name p (s2l "off") -> pBat_CmdEcho w on (c :: text) = Ret (0%Z, false, HNothing, w)) /\
    (Forall blank text -> pBat_CmdEcho w on (c :: text) = Ret (0%Z, on, HState on, w)) /\
    pBat_CmdEcho w on [] = Ret (0%Z, on, HState on, w).
Proof.
  intros w on c text C.
  assert (B : blank c) by (destruct C as [-> | ->]; cbv; tauto).
  assert (P : ispunct c = false) by (destruct C as [-> | ->]; reflexivity).
  assert (Q : negb (ceq c " "%char) && negb (ceq c "009"%char) && negb (ispunct c) = false) by (destruct C as [-> | ->]; reflexivity).
  assert (S : forall p, written w text [p] -> pBat_CmdEcho w on (c :: text) =
     if (stricmp p (s2l "OFF") =? 0)%Z then Ret (0%Z, false, HNothing, w)
     else if (stricmp p (s2l "ON") =? 0)%Z then Ret (0%Z, true, HNothing, w)
     else if streqb p (s2l "/?") then Ret (0%Z, on, HNothing, w)
     else do (v, w) <- pBat_GetEndOfLine w text; Ret (0%Z, on, HText (v ++ [nl]), w)).
  { intros p W. destruct (written_next w (c :: text) [p] [] (written_blank w c text _ B W)) as (rest & X & W').
    unfold pBat_CmdEcho. rewrite Q, P, X. cbn [bind]. unfold pBat_GetNextParameter. rewrite (written_next w rest [] [] W'). cbn [bind firstn].
    cbv zeta. rewrite !andb_true_r. reflexivity. }
  split; [|split; [|split]].
  - intros p W N H. rewrite (S p W).
    destruct (stricmp p (s2l "OFF") =? 0)%Z eqn:X.
    { apply stricmp_name in X; auto; [|apply nonul_b; reflexivity]. unfold same_name in H, X. rewrite H in X. discriminate. }
    replace (stricmp p (s2l "ON") =? 0)%Z with true; auto. symmetry. apply stricmp_name; auto. apply nonul_b. reflexivity.
  - intros p W N H. rewrite (S p W). replace (stricmp p (s2l "OFF") =? 0)%Z with true; auto. symmetry. apply stricmp_name; auto. apply nonul_b. reflexivity.
  - intros F. unfold pBat_CmdEcho. rewrite Q, P, next_end by auto. reflexivity.
  - unfold pBat_CmdEcho. rewrite next_end by auto. reflexivity.
Qed.
Print Assumptions C65_state.

(** C65: with any other character behind it, ECHO is an error. *)
Theorem C65_error :
  forall w on c text, c <> " "%char -> c <> "009"%char -> ~ In c punctuation -> pBat_CmdEcho w on (c :: text) = Ret (3%Z, on, HNothing, w).
Proof.
  intros w on c text A B C. unfold pBat_CmdEcho.
  replace (ceq c " "%char) with false by (symmetry; apply ceq_false; auto).
  replace (ceq c "009"%char) with false by (symmetry; apply ceq_false; auto).
  replace (ispunct c) with false; auto. symmetry. destruct (ispunct c) eqn:X; auto. apply punct_iff in X. tauto.
Qed.
Print Assumptions C65_error.

(** C65: text in which every character that means something to the interpreter is
    protected by '^' is printed as it was meant. *)
Theorem C65_escaped :
  forall w on text v, escaping v text ->
    (forall i, ~ live (fun c => ceq c "%"%char) text i) -> (forall i, ~ live (fun c => ceq c "!"%char) text i) ->
    pBat_CmdEcho w on ("."%char :: text) = Ret (0%Z, on, HText (v ++ [nl]), w).
Proof.
  intros w on text v E P D. apply C65_punctuation; [cbn; tauto|]. apply delayed_plain; auto; [|intros _]; eapply plain_of; eauto.
Qed.
Print Assumptions C65_escaped.

Example C65_ex :
  pBat_CmdEcho ex_w true (s2l " off x") = Ret (0%Z, true, HText (s2l "off x" ++ [nl]), ex_w) /\
  pBat_CmdEcho ex_w true (s2l "  OfF ") = Ret (0%Z, false, HNothing, ex_w) /\
  pBat_CmdEcho ex_w true (s2l ".off") = Ret (0%Z, true, HText (s2l "off" ++ [nl]), ex_w) /\
  pBat_CmdEcho ex_w true (s2l "  a ^& ""b""  ") = Ret (0%Z, true, HText (s2l " a & ""b""  " ++ [nl]), ex_w) /\
  pBat_CmdEcho ex_w false (s2l "  ") = Ret (0%Z, false, HState false, ex_w) /\
  pBat_CmdEcho ex_w true (s2l "x") = Ret (3%Z, true, HNothing, ex_w) /\
  written ex_w (s2l " OfF ") [s2l "OfF"] /\ expands ex_w (s2l " a ^& ""b""  ") (s2l " a & ""b""  ").
Proof.
  repeat (split; [vm_compute; reflexivity|]). split; [|vm_compute; reflexivity].
  apply written_blank; [apply space_blank|]. apply (written_plain ex_w (s2l "OfF") (s2l " ") []); [discriminate| |apply ends_space|].
  - intros c Hc Hb; revert Hc Hb; cbv; intuition (subst; discriminate).
  - constructor. constructor; [apply space_blank|constructor].
Qed.
