(** LocalVar_Props.v -- property C50: one-letter variables and their modifiers. *)

From Verif Require Import Base Num_Model StrLib_Model StrLib_Spec Path_Model Path_Spec
  LocalVar_Model LocalVar_Spec LocalVar_Proofs.

(** %c gives the text of the variable, untouched; nothing is read if it is not
    defined. *)
Theorem C50_plain :
  forall cur script stat cap b c r, c <> "~"%char ->
    (forall t, valid_name c -> b c = Some t ->
       pBat_GetLocalVar cur script stat cap b (c :: r) = Ret (Some (t, r))) /\
    (~ valid_name c \/ b c = None -> pBat_GetLocalVar cur script stat cap b (c :: r) = Ret None).
Proof.
  intros cur script stat cap b c r N. rewrite get_plain by auto. split.
  - intros t V B. rewrite (proj2 (name_ok_iff c) V), B. auto.
  - intros H. destruct (name_ok c) eqn:K; auto. apply name_ok_iff in K. destruct H as [H|H]; [tauto|]. rewrite H. auto.
Qed.
Print Assumptions C50_plain.

(** %~c gives the text without surrounding quotes. *)
Theorem C50_unquoted :
  forall cur script stat cap b r c rest v,
    longest_ref b r [] c rest -> b c = Some v ->
    exists text, unquoted v text /\
      pBat_GetLocalVar cur script stat cap b ("~"%char :: r) = Ret (Some (text, rest)).
Proof.
  intros cur script stat cap b r c rest v L B. destruct (unquoted_exists v) as (text & U). exists text. split; auto.
  rewrite (get_longest _ _ _ _ _ _ _ _ _ _ L B). rewrite (text_plain _ _ _ _ _ _ _ U). reflexivity.
Qed.
Print Assumptions C50_unquoted.

(** %~fl c, read with the most modifiers possible, gives the texts of the
    modifiers about the file named by the unquoted text. *)
Theorem C50_modifiers :
  forall cur script stat cap b r fl c rest v text file i,
    longest_ref b r fl c rest -> b c = Some v -> unquoted v text -> fl <> [] ->
    names_file cur script cap c text file -> nonul file -> length file < FILENAME_MAX -> ~ has_drive file ->
    (asks_file fl -> stat file = Some i) ->
    exists dir name ext t,
      parts_of file dir name ext /\ modifiers_text (modifier_text file dir name ext i) fl t /\
      pBat_GetLocalVar cur script stat cap b ("~"%char :: r) = Ret (Some (t, rest)).
Proof.
  intros cur script stat cap b r fl c rest v text file i L B U N NF Hn Hl Hd Hs.
  destruct (text_ok cur script stat cap c v fl text file i U N (proj1 (proj2 (proj1 L))) NF Hn Hl Hd Hs)
    as (dir & name & ext & t & P & T & M).
  exists dir, name, ext, t. split; auto. split; auto.
  rewrite (get_longest _ _ _ _ _ _ _ _ _ _ L B), T. reflexivity.
Qed.
Print Assumptions C50_modifiers.

(** If no reading exists, nothing is read. *)
Theorem C50_undefined :
  forall cur script stat cap b r,
    (forall fl c rest, ~ ref_at b r fl c rest) ->
    pBat_GetLocalVar cur script stat cap b ("~"%char :: r) = Ret None.
Proof. intros. apply get_nothing; auto. Qed.
Print Assumptions C50_undefined.

(** Each variable has the last text assigned to it; names that are not valid are
    ignored. *)
Theorem C50_assignments :
  forall (h : list (ascii * option cstr)) b c,
    (valid_name c -> pBat_GetLocalVarPointer (fold_right (fun '(d, v) b => pBat_SetLocalVar b d v) b h) c
                     = Ret (last_assigned h c (b c))) /\
    (~ valid_name c -> pBat_GetLocalVarPointer (fold_right (fun '(d, v) b => pBat_SetLocalVar b d v) b h) c
                     = Ret None).
Proof.
  intros h b c. unfold pBat_GetLocalVarPointer. split; intros V.
  - rewrite (proj2 (name_ok_iff c) V), at_block_valid, last_assigned_ok by auto. auto.
  - destruct (name_ok c) eqn:K; auto. apply name_ok_iff in K. tauto.
Qed.
Print Assumptions C50_assignments.

Definition ex_stat : cstr -> option finfo :=
  fun f => if streqb f (s2l "/home/a.txt") then Some (mkInfo false 42 (s2l "01/02/03 04:05:06")) else None.
Definition ex_block : block :=
  pBat_SetLocalVar (pBat_SetLocalVar pBat_GetLocalBlock "1"%char (Some (s2l """a.txt""")))
    "n"%char (Some (s2l "'x y'z")).
Definition ex_get := pBat_GetLocalVar (s2l "/home") (s2l "/s.bat") ex_stat (fun _ => 100).

Example C50_ex :
  ex_get ex_block (s2l "1 rest") = Ret (Some (s2l """a.txt""", s2l " rest")) /\
  ex_get ex_block (s2l "~1 rest") = Ret (Some (s2l "a.txt", s2l " rest")) /\
  ex_get ex_block (s2l "~dpnxz1 rest") = Ret (Some (s2l "/home/a.txt" ++ "009"%char :: s2l "42", s2l " rest")) /\
  ex_get ex_block (s2l "~n") = Ret (Some (s2l "x y", [])) /\
  ex_get ex_block (s2l "~q") = Ret None /\
  longest_ref ex_block (s2l "dpnxz1 rest") (s2l "dpnxz") "1"%char (s2l " rest") /\
  names_file (s2l "/home") (s2l "/s.bat") (fun _ => 100) "1"%char (s2l "a.txt") (s2l "/home/a.txt").
Proof.
  do 5 (split; [vm_compute; reflexivity|]). split.
  - split.
    + split; [reflexivity|]. split; [repeat constructor; cbv; tauto|]. split; [simpl; lia|]. split; [cbv; auto|discriminate].
    + intros fl' c' rest' (E & F & _ & _ & D). destruct (le_lt_dec (length fl') 5) as [|L]; auto.
      exfalso. assert (X : nth_error fl' 5 = Some "1"%char).
      { rewrite <- (nth_error_app1 fl' (c' :: rest')) by lia. rewrite <- E. reflexivity. }
      apply nth_error_In in X. rewrite Forall_forall in F. apply F in X. cbv in X.
      repeat (destruct X as [X|X]; [discriminate|]). destruct X.
  - right. split; [discriminate|]. split; [intros X; cbv in X; intuition discriminate|]. split.
    + split; intros w Hw; simpl in Hw; intuition subst; discriminate.
    + split; [exists (s2l "home"); split; [reflexivity|discriminate]|]. split; [discriminate|].
      split; [|simpl; lia]. right. split; [|reflexivity]. intros (r & X & _). discriminate.
Qed.

(** Reading the size of a missing file, or making a path that does not fit in
    the string, is undefined. *)
Theorem C50_total_refuted :
  pBat_GetLocalVar (s2l "/home") (s2l "/s.bat") (fun _ => None) (fun _ => 100) ex_block (s2l "~z1") = Undef /\
  pBat_GetLocalVar (s2l "/home") (s2l "/s.bat") ex_stat (fun _ => 8) ex_block (s2l "~f1") = Undef.
Proof. split; vm_compute; reflexivity. Qed.
Print Assumptions C50_total_refuted.
