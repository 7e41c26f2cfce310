(** ForTok_Props.v -- C27: what FOR /F gives to its variables. *)

From Verif Require Import Base LocalVar_Model If_Spec ForTok_Model ForTok_Spec ForTok_Proofs.
Open Scope nat_scope.

(** Every line is made of words. *)
Theorem C27_words d line : exists ws tail, splits d line ws tail.
Proof. apply splits_ex. Qed.
Print Assumptions C27_words.

(** The options are understood; then each variable gets the words asked for, or, for
    the first one, those that the code takes instead when their numbers are even;
    other variables stay.  (With 96 ranges, the last one reuses the first variable.) *)
Theorem C27_options s l c line ws tail b : opts_text s l -> tokens_once l -> (33 <= code c <= 127)%Z ->
  let k := fold_left ask l default in
  splits (k_delims k) line ws tail ->
  exists info b', pBat_ForMakeInfo s (start_info c) = Ret (inr info) /\
    fi_delims info = k_delims k /\ fi_eol info = k_eol k /\ fi_skip info = k_skip k /\ fi_backq info = k_backq k /\
    fi_first info = c /\ fi_nb info = length (asked_ranges k) /\
    pBat_ForSplitTokens line info b = Ret b' /\
    (forall j n m, nth_error (code_ranges (asked_ranges k)) j = Some (n, m) -> (j = 0 -> length (asked_ranges k) <= 95) ->
       b' (var_name c j) = Some (pick ws tail (Z.to_nat n) (Z.to_nat m))) /\
    (forall x, (forall j, j < length (asked_ranges k) -> x <> var_name c j) -> b' x = b x).
Proof. apply for_options. Qed.
Print Assumptions C27_options.

(** More than 96 ranges are an error. *)
Theorem C27_overflow s l info : tokens_text s l -> Forall item_ok l -> all_ok 0 l -> 96 < length (ranges 0 l) ->
  pBat_ForMakeTokens s info = Ret (inl 19%Z).
Proof.
  intros T O A L. rewrite (make_tokens_ok s l info T O A). destruct (Nat.ltb_spec 96 (length (ranges 0 l))); [reflexivity|lia].
Qed.
Print Assumptions C27_overflow.

(** So is anything else than an option. *)
Theorem C27_bad s info : s <> [] -> ~ opt_start s -> pBat_ForMakeInfo s info = Ret (inl 4%Z).
Proof. apply bad_options. Qed.
Print Assumptions C27_bad.

(** Variables are forgotten afterwards, up to DEL. *)
Theorem C27_unassign info b x : (33 <= code (fi_first info) <= 127)%Z ->
  pBat_ForVarUnassign info b x =
  if (code (fi_first info) <=? code x)%Z && (code x <? code (fi_first info) + Z.of_nat (fi_nb info))%Z && (code x <? 128)%Z then None else b x.
Proof. intros C. unfold pBat_ForVarUnassign. rewrite unassign_at by lia. rewrite Z.add_0_r. reflexivity. Qed.
Print Assumptions C27_unassign.

Definition set_of (s : string) (line : string) (c : ascii) : list (option cstr) :=
  match pBat_ForMakeInfo (s2l s) (start_info c) with
  | Ret (inr info) => match pBat_ForSplitTokens (s2l line) info pBat_GetLocalBlock with
                      | Ret b => map b (map (var_name c) (seq 0 (fi_nb info)))
                      | _ => []
                      end
  | _ => []
  end.

(** [tokens=2] gives the third word. *)
Theorem C27_even_refuted : set_of "tokens=2" "one two three four" "a" = [Some (s2l "three")].
Proof. reflexivity. Qed.
Print Assumptions C27_even_refuted.

(** Variables after DEL are not forgotten. *)
Theorem C27_leak_refuted : exists info b',
  pBat_ForMakeInfo (s2l "tokens=1-3") (start_info "~") = Ret (inr info) /\
  pBat_ForSplitTokens (s2l "one two three") info pBat_GetLocalBlock = Ret b' /\
  pBat_ForVarUnassign info b' "!"%char = Some (s2l "three").
Proof. eexists. eexists. split; [reflexivity|]. split; reflexivity. Qed.
Print Assumptions C27_leak_refuted.

Example C27_ex : set_of "delims=, TOKENS=1, 3-4,0x5.6 , *" ",,one,,two, three,four,five,six,seven,,eight," "a" =
  [Some (s2l "one"); Some (s2l " three"); Some (s2l "four"); Some (s2l "five,six"); Some (s2l "seven,,eight,")].
Proof. reflexivity. Qed.

(** The hypotheses hold for these options and this line. *)
Example C27_ex_hyps :
  opts_text (s2l "delims=, TOKENS=1, 3-4,0x5.6 , *") [ODelims (s2l ","); OTokens [TOne 1; TList 3 4; TCat 5 6; TAll]] /\
  tokens_once [ODelims (s2l ","); OTokens [TOne 1; TList 3 4; TCat 5 6; TAll]] /\
  splits (s2l ",") (s2l ",,one,two") [(s2l ",,", s2l "one"); (s2l ",", s2l "two")] [].
Proof.
  assert (D : forall b n, is_dig b n -> (n < 10)%Z -> numeral [b] n \/ b = "0"%char).
  { intros b n D L. destruct (Ascii.ascii_dec b "0"%char); auto. left. constructor; auto. exists [n]. repeat split; auto. }
  assert (N : forall b n p q, is_dig b n -> (0 < n < 10)%Z -> pad p -> pad q -> padded (p ++ [b] ++ q) n).
  { intros b n p q H L P Q. exists p, q, [b]. repeat split; auto. destruct (D b n H) as [X|X]; auto; [lia|]. subst b.
    exfalso. apply If_Proofs.dig_iff in H. destruct H as [H _]. vm_compute in H. lia. }
  assert (P1 : pad (s2l " ")) by (repeat constructor).
  assert (P0 : pad []) by constructor.
  split; [|split].
  - apply (os_more (s2l "delims=,") _ (s2l "TOKENS=1, 3-4,0x5.6 , *")).
    + apply (ot_delims (s2l "delims=") (s2l ",")); [reflexivity|apply calm_test; reflexivity|simpl; lia].
    + apply os_one. apply (ot_tokens (s2l "TOKENS=") (s2l "1, 3-4,0x5.6 , *")); [reflexivity|apply calm_test; reflexivity| | | |simpl; lia].
      * apply (tt_more (s2l "1") _ (s2l " 3-4,0x5.6 , *")).
        { apply it_one. apply (N "1"%char 1%Z [] []); auto; [|lia]. apply If_Proofs.dig_iff. split; [reflexivity|lia]. }
        apply (tt_more (s2l " 3-4") _ (s2l "0x5.6 , *")).
        { apply (it_list (s2l " 3") (s2l "4")).
          - apply (N "3"%char 3%Z (s2l " ") []); auto; [|lia]. apply If_Proofs.dig_iff. split; [reflexivity|lia].
          - apply (N "4"%char 4%Z [] []); auto; [|lia]. apply If_Proofs.dig_iff. split; [reflexivity|lia]. }
        apply (tt_more (s2l "0x5.6 ") _ (s2l " *")).
        { apply (it_cat (s2l "0x5") (s2l "6 ")).
          - exists [], [], (s2l "0x5"). repeat split; auto. apply num_hex; [simpl; tauto|discriminate|]. exists [5%Z]. repeat split.
            + constructor; [|constructor]. apply If_Proofs.dig_iff. split; [reflexivity|lia].
            + constructor; [lia|constructor].
          - apply (N "6"%char 6%Z [] (s2l " ")); auto; [|lia]. apply If_Proofs.dig_iff. split; [reflexivity|lia]. }
        apply tt_one. apply (it_all (s2l " ") []); auto.
      * repeat constructor; simpl; lia.
      * simpl. repeat split; auto; try discriminate; intros _; lia.
  - unfold tokens_once. simpl. lia.
  - assert (G : gap (s2l ",") (s2l ",,")) by (repeat constructor).
    assert (W : forall w, w <> [] -> ~ In ","%char w -> word (s2l ",") w).
    { intros w W1 W2. split; auto. apply Forall_forall. intros x X [<-|[]]. auto. }
    split; [|split; [constructor|reflexivity]].
    constructor; auto; [apply W; [discriminate|cbv; intuition discriminate]|].
    constructor; [discriminate|repeat constructor|apply W; [discriminate|cbv; intuition discriminate]|constructor].
Qed.
