(** Batbox_Props.v -- C103: the words of BATBOX are done one after the other. *)

From Coq Require Import Lia.
From Verif Require Import Base Lex Path_Spec StrLib_Model Env_Model Env_Spec Env_Proofs Var_Model Expand_Model Args_Model Args_Spec If_Model Num_Model Args_Props Set_Spec Set_Props Find_Props Env_Props Prompt_Proofs Params_Spec Batbox_Model Batbox_Spec Batbox_Proofs.

(** The words are done one after the other. [I] holds of the states that can come up. *)
Theorem C103_words : forall ka kbhit getch mouse assign assign_key sg (I : xworld -> Prop) w line ps ox oy lx ly n,
  (forall w, I w -> table_ok sg (vw_env (x_var w))) -> (forall w m z, I w -> I (assign w m z)) -> addr_ok sg ka ->
  I w -> stated I line ps -> (-32768 <= ox < 32768)%Z -> (-32768 <= oy < 32768)%Z ->
  (forall w q z, I w -> In q ps -> number ka w q z -> (-2147450880 <= z <= 2147450879)%Z) ->
  exists z l w' st, batbox ka kbhit getch mouse assign assign_key w line (mkB (ox, oy) (lx, ly) n) = Ret (z, l, w', st) /\
    box ka kbhit getch mouse assign w ox oy lx ly n ps z l w' st.
Proof. intros ka kbhit getch mouse assign assign_key sg I w line ps ox oy lx ly n It Ia K Iw S Ox Oy T. eapply loop_ok; eauto. Qed.
Print Assumptions C103_words.

(** An option that waits for a key ends the command: whatever follows it, the key is the status and nothing else happens. *)
Theorem C103_key : forall ka kbhit getch mouse assign assign_key (I : xworld -> Prop) w line p ps ox oy lx ly n,
  I w -> stated I line (p :: ps) -> opt "k" false p \/ opt "l" false p ->
  exists k m, batbox ka kbhit getch mouse assign assign_key w line (mkB (ox, oy) (lx, ly) n) = Ret (k, [], w, mkB (ox, oy) (lx, ly) m) /\ key getch n k m.
Proof.
  intros ka kbhit getch mouse assign assign_key I w line p ps ox oy lx ly n Iw S O. unfold batbox. cbn [batbox_loop].
  destruct (next_stated I w [] line (p :: ps) Iw S) as [(X & _)|(v & rest & l & [= <- <-] & E & _ & S1 & _)]; [discriminate|]. rewrite E. cbn [bind].
  assert (D : exists d, p = ["/"%char; d] /\ (d = "k"%char \/ d = "K"%char \/ d = "l"%char \/ d = "L"%char)).
  { destruct O as [(d & D & ->)|(d & D & ->)]; exists d; split; auto; destruct d as [[] [] [] [] [] [] [] []]; cbv in D; try discriminate D; auto. }
  assert (NX : exists q next, pBat_GetNextParameterEs w p rest = Ret (q, next, w) /\ match next with None => noswitch q | Some _ => false end = false).
  { destruct D as (d & -> & _). destruct (next_stated I w ["/"%char; d] rest ps Iw S1) as [(-> & E1)|(q & r2 & l2 & -> & E1 & _)]; rewrite E1; eauto. }
  destruct NX as (q & next & E1 & NM). pose proof (key_ok getch n) as K. destruct (read_key getch n) as [k m] eqn:R.
  exists k, m. split; auto.
  assert (B : forall c, In c (s2l "adnoghwc") -> sw p c = false).
  { intros c C. destruct D as (d & -> & D). cbv in C. repeat (destruct C as [<-|C]; [destruct D as [-> | [-> | [-> | ->]]]; reflexivity|]). destruct C. }
  rewrite !B by (cbv; tauto). replace (sw p "k" || sw p "l") with true by (destruct D as (d & -> & [-> | [-> | [-> | ->]]]); reflexivity).
  rewrite E1. cbn [bind]. rewrite NM. cbn [b_in b_orig b_last]. replace (under p) with false by (destruct D as (d & -> & _); reflexivity). cbn [andb].
  rewrite R. reflexivity.
Qed.
Print Assumptions C103_key.

(** /o sets the offset of /g: "/o x y /g a b" goes to x + a, y + b. *)
Theorem C103_offset : forall ka kbhit getch mouse assign assign_key sg (I : xworld -> Prop) w line o xs ys g a b x y j k z l w' st ox oy lx ly n,
  (forall w, I w -> table_ok sg (vw_env (x_var w))) -> (forall w m z, I w -> I (assign w m z)) -> addr_ok sg ka ->
  I w -> stated I line [o; xs; ys; g; a; b] -> opt "o" false o -> opt "g" false g ->
  strtol0 xs = (x, []) -> strtol0 ys = (y, []) -> strtol0 a = (j, []) -> strtol0 b = (k, []) ->
  (-32768 <= x < 32768)%Z -> (-32768 <= y < 32768)%Z -> (-32768 <= j < 32768)%Z -> (-32768 <= k < 32768)%Z ->
  (-32768 <= x + j < 32768)%Z -> (-32768 <= y + k < 32768)%Z ->
  batbox ka kbhit getch mouse assign assign_key w line (mkB (ox, oy) (lx, ly) n) = Ret (z, l, w', st) ->
  z = 0%Z /\ l = [BGo (x + j) (y + k)] /\ w' = w /\ st = mkB (x, y) (x + j, y + k)%Z n.
Proof.
  intros ka kbhit getch mouse assign assign_key sg I w line o xs ys g a b x y j k z l w' st ox oy lx ly n It Ia K Iw S (d & D & ->) (e & E & ->) X Y A B Rx Ry Rj Rk Rxj Ryk H.
  assert (TI : forall v, (-32768 <= v < 32768)%Z -> to_int v = v) by (intros v V; unfold to_int; rewrite Z.mod_small; lia).
  assert (TS : forall v, (-32768 <= v < 32768)%Z -> to_short v = v) by (intros v V; unfold to_short; rewrite Z.mod_small; lia).
  assert (AI : forall u v, (-32768 <= u + v < 32768)%Z -> add_int u v = Ret (u + v)%Z).
  { intros u v V. unfold add_int. replace ((-2147483648 <=? u + v) && (u + v <=? 2147483647))%Z with true; auto. symmetry. apply andb_true_intro. split; apply Z.leb_le; lia. }
  assert (NU : forall s v, strtol0 s = (v, []) -> (-32768 <= v < 32768)%Z -> args_get_number ka w s = Ret v) by (intros s v V W; unfold args_get_number; rewrite V, TI by auto; reflexivity).
  assert (Do : d = "o"%char \/ d = "O"%char) by (clear - D; destruct d as [[] [] [] [] [] [] [] []]; cbv in D; try discriminate D; auto).
  assert (Eg : e = "g"%char \/ e = "G"%char) by (clear - E; destruct e as [[] [] [] [] [] [] [] []]; cbv in E; try discriminate E; auto).
  clear D E.
  destruct (next_stated I w [] line _ Iw S) as [(Q & _)|(v & r1 & m & [= <- <-] & E1 & _ & S1 & L1)]; [discriminate|].
  destruct (next_stated I w ["/"%char; d] r1 _ Iw S1) as [(Q & _)|(v & r2 & m & [= <- <-] & E2 & _ & S2 & L2)]; [discriminate|].
  destruct (next_stated I w xs r2 _ Iw S2) as [(Q & _)|(v & r3 & m & [= <- <-] & E3 & _ & S3 & L3)]; [discriminate|].
  destruct (next_stated I w ys r3 _ Iw S3) as [(Q & _)|(v & r4 & m & [= <- <-] & E4 & _ & S4 & L4)]; [discriminate|].
  destruct (next_stated I w ["/"%char; e] r4 _ Iw S4) as [(Q & _)|(v & r5 & m & [= <- <-] & E5 & _ & S5 & L5)]; [discriminate|].
  destruct (next_stated I w a r5 _ Iw S5) as [(Q & _)|(v & r6 & m & [= <- <-] & E6 & _ & S6 & L6)]; [discriminate|].
  destruct (next_stated I w b r6 _ Iw S6) as [(_ & E7)|(v & r7 & m & Q & _)]; [|discriminate].
  unfold batbox in H. destruct (length line) as [|[|q]]; [lia|lia|].
  rewrite (step_offset ka kbhit getch mouse assign assign_key (Datatypes.S (Datatypes.S q)) w [] line ["/"%char; d] r1 xs r2 ys r3 x y ox oy lx ly n) in H; auto;
    [|destruct Do as [-> | ->]; reflexivity|intros c C; cbv in C; repeat (destruct C as [<-|C]; [destruct Do as [-> | ->]; reflexivity|]); destruct C].
  rewrite !TS in H by auto.
  rewrite (step_go ka kbhit getch mouse assign assign_key (Datatypes.S q) w ys r3 ["/"%char; e] r4 a r5 b r6 j k (x + j)%Z (y + k)%Z x y lx ly n) in H; auto;
    [|destruct Eg as [-> | ->]; reflexivity|intros c C; cbv in C; repeat (destruct C as [<-|C]; [destruct Eg as [-> | ->]; reflexivity|]); destruct C].
  rewrite !TS in H by auto. rewrite step_end in H by auto. cbn [put bind app] in H. injection H as <- <- <- <-. auto.
Qed.
Print Assumptions C103_offset.

Definition ex_box : xworld := set_var ex_w (mkVW ex_env (s2l "/d") 0 0 [] []).
Definition ex_keys (n : nat) : Z := nth n [65; 224; 72; 13]%Z 0%Z.
Definition ex_mouse (n : nat) (mv : bool) : Z * Z * Z := if mv then (3, 4, 0)%Z else (5, 6, 1)%Z.
Definition ex_set (w : xworld) (n : cstr) (z : Z) : xworld := w.
Definition BATBOX line n := batbox 16 (fun _ => true) ex_keys ex_mouse ex_set (fun w _ _ _ => w) ex_box (s2l line) (mkB (0, 0)%Z (0, 0)%Z n).
Lemma lead_stated w line p rest l : leads w line p rest -> nonul p -> stated (eq w) rest l -> stated (eq w) line (p :: l).
Proof. intros (a & raw & t & -> & A1 & A2 & A3 & A4 & A5 & A6 & A7) N W. eapply sd_next; eauto. intros ? <-. exact A7. Qed.
Ltac ls := eapply lead_stated; [apply leads_of; vm_compute; reflexivity|apply nonul_b; reflexivity|].
Example C103_ex :
  stated (eq ex_box) (s2l " /o 2 0x3 /g 10 1") [s2l "/o"; s2l "2"; s2l "0x3"; s2l "/g"; s2l "10"; s2l "1"] /\
  (forall w, ex_box = w -> table_ok true (vw_env (x_var w))) /\ (forall w m z, ex_box = w -> ex_box = ex_set w m z) /\ addr_ok true 16 /\
  BATBOX " /o 2 0x3 /g 10 1" 0 = Ret (0%Z, [BGo 12 4], ex_box, mkB (2, 3)%Z (12, 4)%Z 0) /\
  BATBOX " /d ""a b"" /a 0x41 /x /c 0x14 /n /h 0 /w" 0 = Ret (0%Z, [BText (s2l "a b"); BText (s2l "A"); BColor 0x41; BGo 0 1; BCursor 0], ex_box, mkB (0, 0)%Z (0, 1)%Z 0) /\
  BATBOX " /d a /k NAME /d b" 0 = Ret (65%Z, [BText (s2l "a")], ex_box, mkB (0, 0)%Z (0, 0)%Z 1) /\
  BATBOX " /L" 1 = Ret (296%Z, [], ex_box, mkB (0, 0)%Z (0, 0)%Z 3) /\
  BATBOX " /m X Y T /y X Y" 0 = Ret (0%Z, [BMouse false; BSet (s2l "X") 5; BSet (s2l "Y") 6; BSet (s2l "T") 1; BMouse true; BShow 3 4 0], ex_box, mkB (0, 0)%Z (0, 0)%Z 2).
Proof.
  split; [do 6 ls; constructor; constructor|]. split. { intros w <-. exact (proj1 ex_env_ok). } split; [auto|]. split; [vm_compute; intuition congruence|].
  repeat split.
Qed.

(** "/k name", which is documented to return the key through the variable, sets none. *)
Theorem C103_name_refuted :
  ~ (forall ka kbhit getch mouse assign assign_key w line nm z l w' st st', stated (eq w) line [s2l "/k"; nm] -> name nm ->
       batbox ka kbhit getch mouse assign assign_key w line st = Ret (z, l, w', st') -> exists c k, In (BSetKey nm c k) l).
Proof.
  intros H. destruct (H 16%Z (fun _ => true) ex_keys ex_mouse ex_set (fun w _ _ _ => w) ex_box (s2l " /k NAME") (s2l "NAME") 65%Z [] ex_box (mkB (0, 0)%Z (0, 0)%Z 0) (mkB (0, 0)%Z (0, 0)%Z 1)) as (c & k & []).
  - do 2 ls. constructor. constructor.
  - exists "N"%char, (s2l "AME"). split; [reflexivity|discriminate].
  - reflexivity.
Qed.
Print Assumptions C103_name_refuted.

(** The case of an option is of no importance but for that of the mouse: "/y" is content with a movement, "/Y" waits for a click. *)
Theorem C103_case_refuted :
  ~ (forall ka kbhit getch mouse assign assign_key w line line' p p' st r, stated (eq w) line [p] -> stated (eq w) line' [p'] -> map tolower p = map tolower p' ->
       batbox ka kbhit getch mouse assign assign_key w line st = Ret r -> batbox ka kbhit getch mouse assign assign_key w line' st = Ret r).
Proof.
  intros H. specialize (H 16%Z (fun _ => true) ex_keys ex_mouse ex_set (fun w _ _ _ => w) ex_box (s2l " /y") (s2l " /Y") (s2l "/y") (s2l "/Y") (mkB (0, 0)%Z (0, 0)%Z 0) _
    ltac:(ls; constructor; constructor) ltac:(ls; constructor; constructor) eq_refl eq_refl). vm_compute in H. discriminate H.
Qed.
Print Assumptions C103_case_refuted.

(** The place is kept in 16 bits: "/g 40000 0" goes to the left of the screen. *)
Theorem C103_wrap_refuted :
  ~ (forall ka kbhit getch mouse assign assign_key w line g a b x y r, stated (eq w) line [g; a; b] -> opt "g" false g ->
       strtol0 a = (x, []) -> strtol0 b = (y, []) -> (0 <= x < 65536)%Z -> (0 <= y < 65536)%Z ->
       batbox ka kbhit getch mouse assign assign_key w line (mkB (0, 0)%Z (0, 0)%Z 0) = Ret r -> In (BGo x y) (snd (fst (fst r)))).
Proof.
  intros H. specialize (H 16%Z (fun _ => true) ex_keys ex_mouse ex_set (fun w _ _ _ => w) ex_box (s2l " /g 40000 0") (s2l "/g") (s2l "40000") (s2l "0") 40000%Z 0%Z _
    ltac:(do 3 ls; constructor; constructor) ltac:(exists "g"%char; split; reflexivity) eq_refl eq_refl ltac:(lia) ltac:(lia) eq_refl).
  vm_compute in H. destruct H as [H|[]]. discriminate H.
Qed.
Print Assumptions C103_wrap_refuted.
