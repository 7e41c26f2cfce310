(** Dump_Proofs.v -- dump meets Dump_Spec. *)

From Coq Require Import Lia.
From Verif Require Import Base Lex Path_Proofs Dump_Model Dump_Spec.

(** ** Digits *)
Lemma xdigit_ok base d : (0 <= d < base)%Z -> (base <= 16)%Z -> digit_of base (xdigit d) d.
Proof.
  intros H B. exists (Z.to_nat d). rewrite Z2Nat.id by lia. split; [|lia].
  assert (L : Z.to_nat d < 16) by lia. replace (xdigit d) with (xdigit (Z.of_nat (Z.to_nat d))) by (rewrite Z2Nat.id; lia || reflexivity).
  clear -L. generalize dependent (Z.to_nat d). intros m L. do 16 (destruct m as [|m]; [reflexivity|]). lia.
Qed.
Lemma zero_front base s z : (1 < base)%Z -> spells base s z -> spells base ("0"%char :: s) z.
Proof.
  intros B H. assert (Z0 : digit_of base "0"%char 0) by (exists 0; repeat split; lia). induction H as [c d H|s z c d H IH Hd].
  - change ["0"%char; c] with (["0"%char] ++ [c]). replace d with (0 * base + d)%Z by lia. constructor; auto. constructor. auto.
  - rewrite app_comm_cons. constructor; auto.
Qed.
Lemma zeros_front base k s z : (1 < base)%Z -> spells base s z -> spells base (zeros k ++ s) z.
Proof. intros B H. induction k; [exact H|]. cbn. apply zero_front; auto. Qed.
Lemma loop_app f base : forall z acc, unum_loop f base z acc = unum_loop f base z [] ++ acc.
Proof.
  induction f as [|f IH]; intros z acc; [reflexivity|]. cbn [unum_loop]. destruct (z <? base)%Z; [reflexivity|].
  rewrite IH, (IH _ [_]). rewrite <- app_assoc. reflexivity.
Qed.
Lemma loop_ok base : (2 <= base <= 16)%Z -> forall f z, f <> 0 -> (0 <= z < 2 ^ Z.of_nat f)%Z -> spells base (unum_loop f base z []) z.
Proof.
  intros B. induction f as [|f IH]; intros z Nf Hz; [congruence|]. cbn [unum_loop].
  assert (M := Z.mod_pos_bound z base). assert (Dm := Z.div_mod z base). destruct (Z.ltb_spec z base) as [L|L].
  - rewrite Z.mod_small by lia. constructor. apply xdigit_ok; lia.
  - assert (Q : (1 <= z / base)%Z) by (apply Z.div_le_lower_bound; lia).
    assert (Q2 : (z / base < 2 ^ Z.of_nat f)%Z).
    { apply Z.div_lt_upper_bound; [lia|]. rewrite Nat2Z.inj_succ, Z.pow_succ_r in Hz by lia. nia. }
    rewrite loop_app. rewrite Dm at 3 by lia. rewrite (Z.mul_comm base). constructor; [|apply xdigit_ok; lia].
    apply IH; [|lia]. intros ->. cbn in Q2. lia.
Qed.
Lemma unum_ok base z : (2 <= base <= 16)%Z -> (0 <= z)%Z -> spells base (unum base z) z.
Proof.
  intros B H. unfold unum. apply loop_ok; auto. split; auto. rewrite Nat2Z.inj_succ, Z2Nat.id by apply Z.log2_nonneg.
  destruct (Z.eq_dec z 0) as [->|N]; [reflexivity|]. apply Z.log2_spec. lia.
Qed.
Lemma loop_len base : (2 <= base)%Z -> forall k f z, 1 <= k -> (0 <= z < base ^ Z.of_nat k)%Z -> length (unum_loop f base z []) <= k.
Proof.
  intros B. induction k as [|k IH]; intros f z K Hz; [lia|]. destruct f as [|f]; [cbn; lia|]. cbn [unum_loop].
  destruct (Z.ltb_spec z base) as [L|L]; [cbn; lia|]. rewrite loop_app, app_length. cbn [length].
  assert (Q : (1 <= z / base)%Z) by (apply Z.div_le_lower_bound; lia).
  assert (Q2 : (z / base < base ^ Z.of_nat k)%Z).
  { apply Z.div_lt_upper_bound; [lia|]. rewrite Nat2Z.inj_succ, Z.pow_succ_r in Hz by lia. nia. }
  destruct k; [cbn in Q2; lia|]. specialize (IH f (z / base)%Z). lia.
Qed.
Lemma padded_pos base w z : (2 <= base <= 16)%Z -> 1 <= w -> (0 <= z < base ^ Z.of_nat w)%Z -> spells base (padded w base z) z /\ length (padded w base z) = w.
Proof.
  intros B W H. unfold padded. destruct (Z.ltb_spec z 0); [lia|]. split; [apply zeros_front; [lia|apply unum_ok; lia]|].
  assert (L : length (unum base z) <= w) by (apply loop_len; lia || auto). unfold zeros. rewrite app_length, repeat_length. lia.
Qed.
Lemma padded_neg base w z : (2 <= base <= 16)%Z -> 1 <= w -> (z < 0)%Z -> (- z < base ^ Z.of_nat w)%Z ->
  length (padded (S w) base z) = S w /\ exists u, padded (S w) base z = "-"%char :: u /\ spells base u (- z).
Proof.
  intros B W N H. unfold padded. destruct (Z.ltb_spec z 0); [|lia].
  assert (L : length (unum base (- z)) <= w) by (apply loop_len; lia || auto). split.
  - cbn [length]. unfold zeros. rewrite app_length, repeat_length. lia.
  - eexists. split; [reflexivity|]. apply zeros_front; [lia|apply unum_ok; lia].
Qed.

(** ** Elements *)
Lemma code_range c : (0 <= code c < 256)%Z.
Proof. unfold code. pose proof (N_ascii_bounded c). lia. Qed.
Lemma le_eq l : le l = unsigned_of l.
Proof. induction l as [|c l IH]; [reflexivity|]. cbn [le unsigned_of]. rewrite IH. lia. Qed.
Lemma unsigned_range l : (0 <= unsigned_of l < 2 ^ (8 * Z.of_nat (length l)))%Z.
Proof.
  induction l as [|c l IH]; [cbn; lia|]. cbn [unsigned_of length]. pose proof (code_range c).
  replace (8 * Z.of_nat (S (length l)))%Z with (8 + 8 * Z.of_nat (length l))%Z by lia. rewrite Z.pow_add_r by lia. change (2 ^ 8)%Z with 256%Z. lia.
Qed.
Lemma wrap_ok k l : length l = k -> 1 <= k -> wrap_s (8 * Z.of_nat k) (le l) = number_of true l.
Proof.
  intros <- K. rewrite le_eq. pose proof (unsigned_range l) as R. unfold wrap_s, number_of. cbn [andb]. rewrite Z.mod_small by lia.
  set (n := (8 * Z.of_nat (length l))%Z) in *. assert (P : (2 ^ n = 2 * 2 ^ (n - 1))%Z) by (rewrite <- Z.pow_succ_r by lia; f_equal; lia).
  destruct (Z.ltb_spec (unsigned_of l) (2 ^ (n - 1))), (Z.leb_spec (2 ^ n) (2 * unsigned_of l)); lia.
Qed.
Lemma number_range l : 1 <= length l -> let n := (8 * Z.of_nat (length l))%Z in (- 2 ^ (n - 1) <= number_of true l < 2 ^ (n - 1))%Z.
Proof.
  intros K n. pose proof (unsigned_range l) as R. unfold number_of. cbn [andb]. fold n in R |- *.
  assert (P : (2 ^ n = 2 * 2 ^ (n - 1))%Z) by (rewrite <- Z.pow_succ_r by lia; f_equal; lia).
  destruct (Z.leb_spec (2 ^ n) (2 * unsigned_of l)); lia.
Qed.
Lemma wrap_small m z : (0 < m)%Z -> (- 2 ^ (m - 1) <= z < 2 ^ (m - 1))%Z -> wrap_s m z = z.
Proof.
  intros M H. assert (P : (2 ^ m = 2 * 2 ^ (m - 1))%Z) by (rewrite <- Z.pow_succ_r by lia; f_equal; lia). unfold wrap_s.
  destruct (Z.ltb_spec z 0) as [N|N].
  - replace (z mod 2 ^ m)%Z with (z + 2 ^ m)%Z by (apply (Z.mod_unique z (2 ^ m) (-1)); lia). destruct (Z.ltb_spec (z + 2 ^ m) (2 ^ (m - 1))); lia.
  - rewrite Z.mod_small by lia. destruct (Z.ltb_spec z (2 ^ (m - 1))); lia.
Qed.
Lemma mod_neg m z : (0 < m)%Z -> (- 2 ^ m <= z < 0)%Z -> (z mod 2 ^ m = z + 2 ^ m)%Z.
Proof. intros M H. symmetry. apply (Z.mod_unique z (2 ^ m) (-1)); lia. Qed.

Section P.
Variable show_g : bool -> nat -> cstr -> cstr.
(** The number of a type *)
Definition kind (i : nat) (bytes : nat) (signed : bool) (width : nat) : Prop := exists name, nth_error int_types i = Some (name, bytes, signed, width).

Lemma shows_dec_u (w : nat) l : 1 <= w -> (2 ^ (8 * Z.of_nat (length l)) <= 10 ^ Z.of_nat w)%Z -> shows false false (length l) w (padded w 10 (unsigned_of l)) l.
Proof.
  intros W H. pose proof (unsigned_range l). destruct (padded_pos 10 w (unsigned_of l)) as [A B]; try lia. split; auto. left. split; [unfold number_of; cbn [andb]; lia|exact A].
Qed.
Lemma shows_dec_s (w : nat) l : 1 <= length l -> 1 <= w -> (2 ^ (8 * Z.of_nat (length l) - 1) < 10 ^ Z.of_nat w)%Z -> shows false true (length l) (S w) (padded (S w) 10 (number_of true l)) l.
Proof.
  intros L W H. pose proof (number_range l L) as R. cbn zeta in R. unfold shows. destruct (Z.ltb_spec (number_of true l) 0) as [N|N].
  - destruct (padded_neg 10 w (number_of true l)) as [A B]; try lia. split; auto.
  - destruct (padded_pos 10 (S w) (number_of true l)) as [A B]; try lia.
    { split; [lia|]. rewrite Nat2Z.inj_succ, Z.pow_succ_r by lia. lia. }
    split; auto.
Qed.
Lemma shows_hex l s w : 1 <= length l -> shows true s (length l) w (padded (length l * 2) 16 (unsigned_of l)) l.
Proof.
  intros L. pose proof (unsigned_range l). destruct (padded_pos 16 (length l * 2) (unsigned_of l)) as [A B]; try lia.
  { split; [lia|]. replace 16%Z with (2 ^ 4)%Z by reflexivity. rewrite <- Z.pow_mul_r by lia. replace (4 * Z.of_nat (length l * 2))%Z with (8 * Z.of_nat (length l))%Z by lia. lia. }
  split; [exact A|]. lia.
Qed.
Lemma print_ok i bytes signed width hex l : kind i bytes signed width -> length l = bytes -> plain hex signed bytes l ->
  let c := fill_context i hex in
  elem_size (cast i) = bytes /\ c_size c = bytes /\ c_width c = (if hex then 2 * bytes else width) /\ c_n c = per_row hex bytes width /\ c_type c = i /\
  exists t, print show_g (c_conv c) (c_width c) (cast i) l = Ret t /\ shows hex signed bytes width t l.
Proof.
  intros K L P. pose proof (unsigned_range l) as R. rewrite L in R.
  assert (Nn : signed = true -> bytes < 4 -> hex = true -> number_of true l = unsigned_of l).
  { intros -> B ->. specialize (P eq_refl eq_refl B). unfold number_of in *. rewrite L in *. cbn [andb] in *. destruct (_ <=? _)%Z; lia. }
  destruct K as (name & K). destruct i as [|[|[|[|[|[|[|i]]]]]]]; cbn [nth_error int_types] in K; try (destruct i; discriminate K); injection K as <- <- <- <-; (destruct hex; (split; [reflexivity|]; split; [reflexivity|]; split; [reflexivity|]; split; [reflexivity|]; split; [reflexivity|])).
  all: cbn [fill_context type_at nth types c_conv c_width c_size cast]; unfold print, cast; cbn [Nat.eqb DUMP_CHAR DUMP_UCHAR DUMP_SHORT DUMP_USHORT DUMP_INT DUMP_UINT DUMP_LONGLONG DUMP_ULONGLONG d_hex d_dec d_size d_min d_max].
  all: eexists; (split; [reflexivity|]).
  all: cbn [length s2l list_ascii_of_string Nat.max]; try (match goal with H : length _ = _ |- _ => rewrite (wrap_ok _ _ H) by lia end).
  all: try (match goal with |- shows true ?s ?k ?w (padded _ 16 ?e) ?l => replace e with (unsigned_of l);
    [refine (eq_rect (length l) (fun q => shows true s q w (padded (q * 2) 16 (unsigned_of l)) l) (shows_hex l s w _) k ltac:(assumption)); lia|] end).
  all: try (match goal with |- shows false false ?k ?w (padded _ 10 ?e) ?l => replace e with (unsigned_of l);
    [refine (eq_rect (length l) (fun q => shows false false q w (padded w 10 (unsigned_of l)) l) (shows_dec_u w l _ _) k ltac:(assumption)); [lia|match goal with H : length _ = _ |- _ => rewrite H end; vm_compute; discriminate]|] end).
  all: try (match goal with |- shows false true ?k (S ?w) (padded _ 10 ?e) ?l => replace e with (number_of true l);
    [refine (eq_rect (length l) (fun q => shows false true q (S w) (padded (S w) 10 (number_of true l)) l) (shows_dec_s w l _ _ _) k ltac:(assumption)); [lia|lia|match goal with H : length _ = _ |- _ => rewrite H end; vm_compute; reflexivity]|] end).
  all: try (rewrite le_eq; symmetry; apply Z.mod_small; match goal with R : (0 <= unsigned_of _ < _)%Z |- _ => cbn in R; lia end).
  all: try (match goal with H : _ -> _ -> _ -> number_of _ _ = _ |- _ => rewrite H by (reflexivity || lia) end; symmetry; apply Z.mod_small; match goal with R : (0 <= unsigned_of _ < _)%Z |- _ => cbn in R; lia end).
  all: try (symmetry; apply wrap_small; [lia|]; match goal with H : length ?l = _ |- _ => let NR := fresh in pose proof (number_range l) as NR; rewrite H in NR; cbn in NR |- *; lia end).
  - symmetry. unfold number_of. cbn [andb]. rewrite L. change (8 * Z.of_nat 4)%Z with 32%Z in *. destruct (Z.leb_spec (2 ^ 32) (2 * unsigned_of l)).
    + rewrite mod_neg; lia.
    + apply Z.mod_small. lia.
  - apply (eq_sym (wrap_ok 8 l L ltac:(lia))).
Qed.

(** ** Rows *)
Lemma kind_pos i bytes signed width : kind i bytes signed width -> 1 <= bytes.
Proof. intros (name & K). destruct i as [|[|[|[|[|[|[|i]]]]]]]; cbn in K; try (destruct i; discriminate K); injection K; lia. Qed.
Lemma ctx_facts i bytes signed width hex : kind i bytes signed width ->
  let c := fill_context i hex in
  elem_size (cast i) = bytes /\ c_size c = bytes /\ c_width c = (if hex then 2 * bytes else width) /\ c_n c = per_row hex bytes width /\ c_type c = i /\ 1 <= c_n c.
Proof.
  intros (name & K). destruct i as [|[|[|[|[|[|[|i]]]]]]]; cbn [nth_error int_types] in K; try (destruct i; discriminate K); injection K as <- <- <- <-;
    destruct hex; (split; [reflexivity|]; split; [reflexivity|]; split; [reflexivity|]; split; [reflexivity|]; split; [reflexivity|apply Nat.leb_le; vm_compute; reflexivity]).
Qed.
Lemma elements_ok i bytes signed width hex : kind i bytes signed width -> forall (l : list cstr) tl, Forall (fun e => length e = bytes) l -> Forall (plain hex signed bytes) l ->
  exists ts, elements show_g (fill_context i hex) (length l) (concat l ++ tl) = Ret (concat (map (fun t => t ++ [" "%char]) ts)) /\ Forall2 (shows hex signed bytes width) ts l.
Proof.
  intros K. induction l as [|e l IH]; intros tl L P; [exists []; split; [reflexivity|constructor]|].
  inversion L as [|? ? Le Ll]; subst. inversion P as [|? ? Pe Pl]; subst. destruct (IH tl Ll Pl) as (ts & E & F).
  destruct (print_ok i (length e) signed width hex e K eq_refl Pe) as (C1 & C2 & C3 & C4 & C5 & t & Et & St).
  exists (t :: ts). split; [|constructor; auto]. cbn [length elements concat]. rewrite C5, C1, C2. rewrite <- app_assoc.
  destruct (Nat.ltb_spec (length (e ++ concat l ++ tl)) (length e)) as [X|_]; [rewrite app_length in X; lia|].
  rewrite firstn_app, firstn_all, Nat.sub_diag, skipn_app, skipn_all, Nat.sub_diag. cbn [firstn skipn]. rewrite app_nil_r.
  rewrite Et. cbn [bind app]. rewrite E. cbn [bind map concat]. rewrite <- app_assoc. reflexivity.
Qed.
Lemma parts_len bytes d l : parts bytes d l -> length d = length l * bytes.
Proof. intros [<- F]. induction F as [|e l E F IH]; [reflexivity|]. cbn [concat length]. rewrite app_length, IH. lia. Qed.
Lemma parts_of bytes : 1 <= bytes -> forall k d, length d = k * bytes -> exists l, parts bytes d l.
Proof.
  intros B. induction k as [|k IH]; intros d L.
  - destruct d; [|discriminate]. exists []. split; [reflexivity|constructor].
  - destruct (IH (skipn bytes d)) as (l & E & F). { rewrite skipn_length. lia. }
    exists (firstn bytes d :: l). split; [cbn; rewrite E; apply firstn_skipn|]. constructor; auto. rewrite firstn_length. lia.
Qed.
Lemma parts_unique bytes d l l' : 1 <= bytes -> parts bytes d l -> parts bytes d l' -> l = l'.
Proof.
  intros B [<- F] H. revert l' H. induction F as [|e l E F IH]; intros l' [C F'].
  - destruct l' as [|e' l']; auto. inversion F'; subst. destruct e'; cbn in *; [lia|discriminate].
  - destruct l' as [|e' l']; [cbn in C; destruct e; cbn in *; [lia|discriminate]|]. inversion F' as [|? ? E' F'']; subst. cbn [concat] in C.
    assert (X : e' = e). { apply (f_equal (firstn (length e))) in C. rewrite !firstn_app, firstn_all, Nat.sub_diag in C. rewrite firstn_all2 in C by lia. replace (length e - length e') with 0 in C by lia. cbn [firstn] in C. rewrite !app_nil_r in C. auto. }
    subst e'. f_equal. apply IH. split; auto. apply app_inv_head in C. auto.
Qed.
Lemma dot_visible c : dot c = visible c.
Proof. unfold dot, visible. destruct (Z.ltb_spec (code c) 32), (Z.leb_spec 128 (code c)), (Z.leb_spec 32 (code c)), (Z.ltb_spec (code c) 128); cbn; try lia; reflexivity. Qed.
Lemma visible_nonul c : ceq (visible c) "000"%char = false.
Proof. unfold visible. destruct (ceq _ _) eqn:E; auto. apply ceq_true in E. destruct ((32 <=? code c)%Z && (code c <? 128)%Z) eqn:X; [|discriminate]. subst c. discriminate X. Qed.
Lemma visible_visible c : visible (visible c) = visible c.
Proof. unfold visible at 2 3. destruct ((32 <=? code c)%Z && (code c <? 128)%Z) eqn:X; [|reflexivity]. unfold visible. rewrite X. reflexivity. Qed.
Lemma print_s_ok s r : print_s (map Some (map visible s) ++ Some "000"%char :: r) = Ret (map visible s).
Proof. induction s as [|c s IH]; [reflexivity|]. cbn [map app print_s]. rewrite visible_nonul, IH. reflexivity. Qed.
Lemma print_s_none s n : print_s (map Some (map visible s) ++ repeat None n) = Undef.
Proof. induction s as [|c s IH]; [destruct n; reflexivity|]. cbn [map app print_s]. rewrite visible_nonul, IH. reflexivity. Qed.
Lemma map_dot s : map (option_map dot) (map Some s) = map Some (map visible s).
Proof. rewrite !map_map. apply map_ext. intros c. cbn. f_equal. apply dot_visible. Qed.

Lemma count_ok bytes n b d : 1 <= bytes -> pads bytes b d -> length b <= n * bytes ->
  (if (length b <? n * bytes) && negb (length b mod bytes =? 0) then length b + (bytes - length b mod bytes) else length b) = length d /\
  length d <= n * bytes /\ firstn (length d) (b ++ repeat "000"%char (n * bytes - length b)) = d /\
  exists tl, b ++ repeat "000"%char (n * bytes - length b) = d ++ tl.
Proof.
  intros B (j & -> & J & k & L) Lb. rewrite app_length, repeat_length in *.
  assert (M : length b mod bytes + j = 0 \/ length b mod bytes + j = bytes).
  { pose proof (Nat.div_mod (length b) bytes ltac:(lia)) as DM. pose proof (Nat.mod_upper_bound (length b) bytes ltac:(lia)).
    destruct (Nat.eq_dec (length b mod bytes + j) 0) as [|N0]; auto. right. assert (E : length b mod bytes + j = (k - length b / bytes) * bytes) by nia.
    assert (k - length b / bytes = 1) by nia. nia. }
  assert (Up : length b + j <= n * bytes).
  { assert (k <= n \/ n < k) as [|]; [lia| |]; [nia|]. assert ((n + 1) * bytes <= k * bytes) by nia. lia. }
  split; [|split; [exact Up|split]].
  - destruct (Nat.eqb_spec (length b mod bytes) 0) as [Z0|Z0]; cbn [negb andb]; rewrite ?andb_false_r, ?andb_true_r; [lia|].
    destruct (Nat.ltb_spec (length b) (n * bytes)) as [|G]; [lia|]. assert (E : length b = n * bytes) by lia. rewrite E, Nat.mod_mul in Z0; lia.
  - rewrite firstn_app. rewrite firstn_all2 by lia. f_equal. replace (length b + j - length b) with j by lia.
    replace (n * bytes - length b) with (j + (n * bytes - length b - j)) by lia. rewrite repeat_app, firstn_app, repeat_length, Nat.sub_diag. cbn [firstn]. rewrite app_nil_r.
    apply firstn_all2. rewrite repeat_length. lia.
  - exists (repeat "000"%char (n * bytes - length b - j)). rewrite <- app_assoc. f_equal. rewrite <- repeat_app. f_equal. lia.
Qed.

Lemma address_ok z : (0 <= z)%Z -> address z (pointer z).
Proof. intros H. unfold address, pointer. destruct (z =? 0)%Z; [reflexivity|]. eexists. split; [reflexivity|]. apply unum_ok; lia. Qed.

Section K.
Variables (i bytes : nat) (signed : bool) (width : nat) (hex : bool).
Hypothesis K : kind i bytes signed width.
Notation c := (fill_context i hex).
Notation n := (per_row hex bytes width).

(** What a round prints before the characters *)
Lemma row_ok addr b d old : (0 <= addr)%Z -> pads bytes b d -> length d <= n * bytes -> (forall l, parts bytes d l -> Forall (plain hex signed bytes) l) ->
  let chars := map Some (map visible d) ++
    (if length d =? n * bytes then Some "000"%char :: skipn (S (length d)) old
     else map (option_map dot) (firstn (n * bytes - length d) (Some "000"%char :: skipn (S (length d)) old)) ++ skipn (n * bytes - length d) (Some "000"%char :: skipn (S (length d)) old)) in
  exists front, dump_row show_g c addr b old = (do cs <- print_s chars; Ret (front ++ cs ++ [nl], chars)) /\
    forall cs, row_of hex signed bytes width addr d cs (front ++ cs ++ [nl]).
Proof.
  intros A Pd Ld Pl chars. assert (B := kind_pos _ _ _ _ K). destruct (ctx_facts i bytes signed width hex K) as (C1 & C2 & C3 & C4 & C5 & C6).
  assert (Lb : length b <= n * bytes). { destruct Pd as (j & -> & _). rewrite app_length in Ld. lia. }
  destruct (count_ok bytes n b d B Pd Lb) as (Ec & _ & Ef & tl & Et).
  assert (Pd' := Pd). destruct Pd' as (_ & _ & _ & k & Lk). destruct (parts_of bytes B k d Lk) as (l & Pa).
  assert (Ll := parts_len _ _ _ Pa). destruct (elements_ok i bytes signed width hex K l tl (proj2 Pa) (Pl l Pa)) as (ts & Ee & Fs).
  exists (pointer addr ++ " "%char :: concat (map (fun t => t ++ [" "%char]) ts) ++ repeat " "%char ((n - length l) * ((if hex then 2 * bytes else width) + 1))). split.
  - unfold dump_row. rewrite C2, C3, C4. destruct (Nat.ltb_spec (n * bytes) (length b)) as [|_]; [lia|]. cbv zeta. rewrite Ec, Ef.
    assert (Ek : length d / bytes = length l) by (rewrite Ll; apply Nat.div_mul; lia). rewrite Ek.
    rewrite (proj1 Pa), <- Et in Ee. rewrite Ee. cbn [bind].
    replace (map (option_map dot) (firstn (n * bytes) (map Some d ++ Some "000"%char :: skipn (S (length d)) old)) ++ skipn (n * bytes) (map Some d ++ Some "000"%char :: skipn (S (length d)) old)) with chars.
    { destruct (print_s chars); cbn [bind]; [|reflexivity..]. rewrite <- !app_assoc. cbn [app]. rewrite <- !app_assoc. reflexivity. }
    unfold chars. rewrite firstn_app, skipn_app, map_length. rewrite (firstn_all2 (map Some d)) by (rewrite map_length; lia). rewrite (skipn_all2 (map Some d)) by (rewrite map_length; lia). cbn [app].
    rewrite map_app, map_dot, <- app_assoc. f_equal. destruct (Nat.eqb_spec (length d) (n * bytes)) as [E|E]; [rewrite E, Nat.sub_diag; reflexivity|reflexivity].
  - intros cs. exists (pointer addr), l, ts. split; [apply address_ok; auto|]. split; [exact Pa|]. split; [exact Fs|].
    rewrite <- !app_assoc. cbn [app]. rewrite <- !app_assoc. reflexivity.
Qed.
Definition filled (d : cstr) : list (option ascii) := map Some (map visible d) ++ [Some "000"%char].
Lemma row_whole addr b d old : (0 <= addr)%Z -> pads bytes b d -> whole hex signed bytes width d -> length old = n * bytes + 1 ->
  exists o, dump_row show_g c addr b old = Ret (o, filled d) /\ row_of hex signed bytes width addr d (map visible d) o.
Proof.
  intros A Pd [L Pl] Lo. destruct (row_ok addr b d old A Pd ltac:(lia) Pl) as (front & E & R). cbv zeta in E. rewrite L, Nat.eqb_refl in E.
  rewrite skipn_all2 in E by lia. rewrite print_s_ok in E. cbn [bind] in E. eexists. split; [exact E|]. apply R.
Qed.
Lemma row_last addr b d prev : (0 <= addr)%Z -> pads bytes b d -> length d < n * bytes -> (forall l, parts bytes d l -> Forall (plain hex signed bytes) l) ->
  length prev = n * bytes ->
  exists o cs, dump_row show_g c addr b (filled prev) = Ret (o, cs) /\ row_of hex signed bytes width addr d (map visible d ++ "."%char :: skipn (S (length d)) (map visible prev)) o.
Proof.
  intros A Pd L Pl Lp. destruct (row_ok addr b d (filled prev) A Pd ltac:(lia) Pl) as (front & E & R). cbv zeta in E.
  destruct (Nat.eqb_spec (length d) (n * bytes)) as [|_]; [lia|].
  assert (S1 : skipn (S (length d)) (filled prev) = map Some (skipn (S (length d)) (map visible prev)) ++ [Some "000"%char]).
  { unfold filled. rewrite skipn_app, !map_length. replace (S (length d) - length prev) with 0 by lia. rewrite skipn_O, skipn_map. reflexivity. }
  rewrite S1 in E.
  replace (firstn (n * bytes - length d) (Some "000"%char :: map Some (skipn (S (length d)) (map visible prev)) ++ [Some "000"%char]))
    with (Some "000"%char :: map Some (skipn (S (length d)) (map visible prev))) in E.
  2:{ replace (n * bytes - length d) with (S (n * bytes - S (length d))) by lia. cbn [firstn]. f_equal.
      rewrite firstn_app. replace (length (map Some (skipn (S (length d)) (map visible prev)))) with (n * bytes - S (length d)) by (rewrite map_length, skipn_length, map_length; lia).
      rewrite Nat.sub_diag. cbn [firstn]. rewrite app_nil_r. symmetry. apply firstn_all2. rewrite map_length, skipn_length, map_length. lia. }
  replace (skipn (n * bytes - length d) (Some "000"%char :: map Some (skipn (S (length d)) (map visible prev)) ++ [Some "000"%char])) with [Some "000"%char] in E.
  2:{ replace (n * bytes - length d) with (S (n * bytes - S (length d))) by lia. rewrite skipn_cons, skipn_app, skipn_all2.
      2:{ rewrite map_length, skipn_length, map_length. lia. }
      replace (n * bytes - S (length d) - length (map Some (skipn (S (length d)) (map visible prev)))) with 0 by (rewrite map_length, skipn_length, map_length; lia). reflexivity. }
  cbn [map option_map] in E. rewrite map_dot in E.
  replace (map Some (map visible d) ++ (Some (dot "000"%char) :: map Some (map visible (skipn (S (length d)) (map visible prev)))) ++ [Some "000"%char])
    with (map Some (map visible (d ++ "."%char :: skipn (S (length d)) (map visible prev))) ++ [Some "000"%char]) in E.
  2:{ rewrite !map_app. cbn [map]. rewrite <- app_assoc. reflexivity. }
  rewrite print_s_ok in E. cbn [bind] in E. eexists _, _. split; [exact E|].
  replace (map visible (d ++ "."%char :: skipn (S (length d)) (map visible prev))) with (map visible d ++ "."%char :: skipn (S (length d)) (map visible prev)); [apply R|].
  rewrite map_app. cbn [map]. f_equal. f_equal. rewrite <- skipn_map, map_map. apply f_equal. symmetry. apply map_ext. intros. apply visible_visible.
Qed.
Lemma elements_fuel k : forall data, elements show_g c k data <> OutOfFuel.
Proof.
  induction k as [|k IH]; intros data; cbn [elements]; [discriminate|]. destruct (_ <? _); [discriminate|].
  assert (P : forall e w z l, print show_g e w z l <> OutOfFuel). { intros e w z l. destruct z as [s m| | |]; cbn [print]; destruct e; try discriminate; destruct (m =? 8); discriminate. }
  destruct (print _ _ _ _ _) eqn:E; cbn [bind]; [|discriminate|elim (P _ _ _ _ E)]. destruct (elements _ _ _ _) eqn:F; cbn [bind]; [discriminate|discriminate|elim (IH _ F)].
Qed.
Lemma row_short addr b : length b <= (n - 1) * bytes -> b <> [] -> dump_row show_g c addr b (repeat None (n * bytes + 1)) = Undef.
Proof.
  intros L Nb. assert (B := kind_pos _ _ _ _ K). destruct (ctx_facts i bytes signed width hex K) as (C1 & C2 & C3 & C4 & C5 & C6). rewrite C4 in C6.
  assert (Pd : exists d, pads bytes b d).
  { destruct (Nat.eq_dec (length b mod bytes) 0) as [Z0|Z0].
    - exists b. exists 0. rewrite app_nil_r. split; auto. split; [lia|]. exists (length b / bytes). pose proof (Nat.div_mod (length b) bytes ltac:(lia)). lia.
    - exists (b ++ repeat "000"%char (bytes - length b mod bytes)). eexists. split; [reflexivity|]. split; [lia|]. exists (S (length b / bytes)). rewrite app_length, repeat_length.
      pose proof (Nat.div_mod (length b) bytes ltac:(lia)). pose proof (Nat.mod_upper_bound (length b) bytes ltac:(lia)). lia. }
  destruct Pd as (d & Pd). assert (Lb : length b <= n * bytes) by nia. destruct (count_ok bytes n b d B Pd Lb) as (Ec & _ & Ef & tl & Et).
  assert (Ld : length d <= (n - 1) * bytes). { destruct (count_ok bytes (n - 1) b d B Pd L) as (_ & X & _). exact X. }
  unfold dump_row. rewrite C2, C3, C4. destruct (Nat.ltb_spec (n * bytes) (length b)) as [|_]; [reflexivity|]. cbv zeta. rewrite Ec, Ef.
  destruct (elements _ _ _ _) eqn:E; cbn [bind]; [|reflexivity|elim (elements_fuel _ _ E)].
  assert (S1 : skipn (S (length d)) (repeat (@None ascii) (n * bytes + 1)) = repeat None (n * bytes - length d)).
  { replace (n * bytes + 1) with (S (length d) + (n * bytes - length d)) by nia. rewrite repeat_app, skipn_app, repeat_length, Nat.sub_diag. rewrite skipn_all2 by (rewrite repeat_length; lia). reflexivity. }
  rewrite S1.
  assert (P : print_s (map (option_map dot) (firstn (n * bytes) (map Some d ++ Some "000"%char :: repeat None (n * bytes - length d))) ++
     skipn (n * bytes) (map Some d ++ Some "000"%char :: repeat None (n * bytes - length d))) = Undef); [|rewrite P; reflexivity].
  assert (Lt : length d < n * bytes) by nia.
  rewrite firstn_app, skipn_app, map_length. rewrite (firstn_all2 (map Some d)) by (rewrite map_length; lia). rewrite (skipn_all2 (map Some d)) by (rewrite map_length; lia). cbn [app].
  rewrite map_app, map_dot, <- app_assoc. replace (n * bytes - length d) with (S (n * bytes - length d - 1)) by lia. cbn [firstn skipn map option_map app].
  set (m := n * bytes - length d - 1).
  replace (map (option_map dot) (firstn m (repeat None (S m))) ++ skipn m (repeat None (S m))) with (repeat (@None ascii) (S m)).
  2:{ rewrite <- (firstn_skipn m (repeat None (S m))) at 1. f_equal. clear. generalize (S m). induction m as [|m IH]; intros [|k]; cbn; auto. f_equal. apply IH. }
  replace (map Some (map visible d) ++ Some (dot "000"%char) :: repeat None (S m)) with (map Some (map visible (d ++ ["."%char])) ++ repeat None (S m)).
  { apply print_s_none. }
  rewrite !map_app, <- app_assoc. reflexivity.
Qed.
Lemma rows_ok l : forall addr bs ds old, (0 <= addr)%Z -> Forall2 (pads bytes) bs ds -> Forall (whole hex signed bytes width) ds -> length old = n * bytes + 1 ->
  exists os, rows_of hex signed bytes width addr ds os /\
    dump_rows show_g c addr (map Bytes bs ++ l) old =
    do r <- dump_rows show_g c (addr + Z.of_nat (length ds * (n * bytes))) l (match ds with [] => old | _ => filled (last ds []) end); Ret (concat os ++ r).
Proof.
  intros addr bs ds old A F. revert addr old A. induction F as [|b d bs ds P F IH]; intros addr old A W Lo.
  - exists []. split; [constructor|]. cbn [map app length Nat.mul concat]. rewrite Z.add_0_r. destruct (dump_rows _ _ _ _ _); reflexivity.
  - inversion W as [|? ? Wd Wl]; subst. destruct (row_whole addr b d old A P Wd Lo) as (o & E & R).
    destruct (ctx_facts i bytes signed width hex K) as (C1 & C2 & C3 & C4 & C5 & C6).
    destruct (IH (addr + Z.of_nat (n * bytes))%Z (filled d)) as (os & Ro & Eo); auto; [lia|unfold filled; rewrite app_length, !map_length; cbn; destruct Wd; lia|].
    exists (o :: os). split; [constructor; auto|]. cbn [map app dump_rows]. rewrite E. cbn [bind]. rewrite C2, C4, Eo.
    replace (addr + Z.of_nat (n * bytes) + Z.of_nat (length ds * (n * bytes)))%Z with (addr + Z.of_nat (length (d :: ds) * (n * bytes)))%Z by (cbn [length]; lia).
    replace (match ds with [] => filled d | _ => filled (last ds []) end) with (filled (last (d :: ds) [])) by (destruct ds; reflexivity).
    change (match d :: ds with [] => old | _ :: _ => filled (last (d :: ds) []) end) with (filled (last (d :: ds) [])).
    clear Eo. match goal with |- context [dump_rows show_g c ?A l (filled (last (d :: ds) []))] => destruct (dump_rows show_g c A l (filled (last (d :: ds) []))) end; cbn [bind concat]; [f_equal; rewrite <- app_assoc; reflexivity|reflexivity..].
Qed.

Theorem dump_ok rs : readable hex signed bytes width rs -> exists out, dump_fd show_g c (map Bytes rs) = Ret out /\ dumped hex signed bytes width rs out.
Proof.
  assert (B := kind_pos _ _ _ _ K). destruct (ctx_facts i bytes signed width hex K) as (C1 & C2 & C3 & C4 & C5 & C6).
  assert (PD : forall full, Forall (whole hex signed bytes width) full -> Forall2 (pads bytes) full full).
  { intros full F. induction F as [|d l [L P] F IH]; constructor; auto. exists 0. rewrite app_nil_r. split; [reflexivity|]. split; [lia|]. exists n. exact L. }
  assert (L0 : length (repeat (@None ascii) (n * bytes + 1)) = n * bytes + 1) by apply repeat_length.
  intros R. unfold dump_fd. rewrite C2, C4. destruct R as [full F|full b d F Pd Nb Ld Pl Hf].
  - destruct (rows_ok [] 0 full full (repeat None (n * bytes + 1)) ltac:(lia) (PD _ F) F L0) as (os & Ro & E).
    rewrite app_nil_r in E. rewrite E. cbn [dump_rows bind]. rewrite app_nil_r. eexists. split; [reflexivity|]. constructor; auto.
  - rewrite map_app. destruct (rows_ok (map Bytes [b]) 0 full full (repeat None (n * bytes + 1)) ltac:(lia) (PD _ F) F L0) as (os & Ro & E).
    rewrite E. cbn [map dump_rows]. set (old := match full with [] => _ | _ => _ end).
    assert (Lo : length old = n * bytes + 1).
    { unfold old. destruct full as [|x full]; auto. unfold filled. rewrite app_length, !map_length. cbn [length].
      assert (W : In (last (x :: full) []) (x :: full)). { destruct (exists_last (l := x :: full)) as (u & z & ->); [discriminate|]. rewrite last_last. apply in_or_app. right. left. reflexivity. }
      rewrite Forall_forall in F. destruct (F _ W) as [Lw _]. lia. }
    destruct (Nat.eq_dec (length d) (n * bytes)) as [Ed|Ed].
    + destruct (row_whole (0 + Z.of_nat (length full * (n * bytes)))%Z b d old ltac:(lia) Pd (conj Ed Pl) Lo) as (o & Eo & Rr).
      rewrite Eo. cbn [bind]. rewrite app_nil_r. eexists. split; [reflexivity|].
      apply (du_last _ _ _ _ full b d os o []); auto; [rewrite Ed, Nat.eqb_refl; reflexivity|rewrite app_nil_r; exact Rr].
    + destruct Hf as [Hf|Hf]; [|contradiction]. destruct full as [|x full]; [contradiction|]. unfold old.
      assert (W : In (last (x :: full) []) (x :: full)). { destruct (exists_last (l := x :: full)) as (u & z & ->); [discriminate|]. rewrite last_last. apply in_or_app. right. left. reflexivity. }
      rewrite Forall_forall in F. destruct (F _ W) as [Lw _].
      destruct (row_last (0 + Z.of_nat (length (x :: full) * (n * bytes)))%Z b d (last (x :: full) []) ltac:(lia) Pd ltac:(lia) Pl Lw) as (o & cs & Eo & Rr).
      rewrite Eo. cbn [bind]. rewrite app_nil_r. eexists. split; [reflexivity|].
      eapply du_last; [exact Ro|exact Pd|exact Nb| |exact Rr]. destruct (Nat.eqb_spec (length d) (n * bytes)); [contradiction|reflexivity].
Qed.
End K.

(** ** Arguments *)
Variable file : cstr -> option (list rd).
Lemma args_type a x k l i h m out stdin : map tolower a = s2l "/t" ++ map tolower x \/ map tolower a = s2l "/t:" ++ map tolower x ->
  nth_error (map (fun e => fst (fst (fst e))) int_types) i = Some k -> map tolower x = s2l k -> forall t,
  dump_args show_g file (a :: l) t h m out stdin = dump_args show_g file l i h m out stdin.
Proof.
  intros A I E t. cbn [dump_args].
  assert (T : forall c d, In d (s2l "/t:") -> tolower c = d -> c = d \/ d = "t"%char /\ c = "T"%char).
  { intros [b0 b1 b2 b3 b4 b5 b6 b7] d Hd. cbn in Hd. destruct Hd as [<-|[<-|[<-|[]]]]; destruct b0, b1, b2, b3, b4, b5, b6, b7; cbn; intros Q; try discriminate Q; auto. }
  assert (Nx : nonul x).
  { intros J. apply (in_map tolower) in J. rewrite E in J. apply nth_error_In in I. cbn in I. repeat (destruct I as [<-|I]; [cbn in J; intuition discriminate|]). destruct I. }
  assert (G : get_type x = Some i).
  { assert (N : forall s, nonul s -> (stricmp x s =? 0)%Z = streqb (s2l k) (map tolower s)).
    { intros s Ns. rewrite <- E. destruct (streqb _ _) eqn:Q.
      - apply streqb_true in Q. apply stricmp_eq_lower; auto.
      - destruct (stricmp x s =? 0)%Z eqn:Y; auto. apply stricmp_eq_lower in Y; auto. rewrite Y in Q. rewrite (proj2 (streqb_true _ _) eq_refl) in Q. discriminate Q. }
    unfold get_type, types. cbn [get_type_from d_name]. rewrite !N by (apply nonul_s2l; reflexivity).
    destruct i as [|[|[|[|[|[|[|i]]]]]]]; cbn [nth_error map int_types fst] in I; try (injection I as <-; reflexivity). destruct i; discriminate I. }
  assert (S2 : exists c d y, a = c :: d :: y /\ tolower c = "/"%char /\ tolower d = "t"%char /\ (map tolower y = map tolower x \/ map tolower y = s2l ":" ++ map tolower x)).
  { destruct a as [|c [|d y]]; destruct A as [A|A]; try discriminate A; cbn [map] in A; injection A as A1 A2 A3; exists c, d, y; auto. }
  destruct S2 as (c & d & y & -> & Tc & Td & Y).
  destruct (T c _ ltac:(left; reflexivity) Tc) as [->|[Q _]]; [|discriminate Q].
  assert (S3 : (strnicmp ("/"%char :: d :: y) (s2l "/T") 2 =? 0)%Z = true) by (destruct (T d _ ltac:(right; left; reflexivity) Td) as [->|[_ ->]]; destruct y; reflexivity).
  rewrite S3. cbn [skipn].
  assert (G2 : get_type (skip_colon y) = Some i); [|rewrite G2; reflexivity].
  assert (GL : forall u v, nonul u -> nonul v -> map tolower u = map tolower v -> get_type u = get_type v).
  { intros u v Nu Nv Q. unfold get_type, types. cbn [get_type_from d_name].
    assert (Q2 : forall s, nonul s -> (stricmp u s =? 0)%Z = (stricmp v s =? 0)%Z).
    { intros s Ns. destruct (stricmp u s =? 0)%Z eqn:Y1, (stricmp v s =? 0)%Z eqn:Y2; auto; exfalso.
      - apply stricmp_eq_lower in Y1; auto. rewrite Q in Y1. apply stricmp_eq_lower in Y1; auto. congruence.
      - apply stricmp_eq_lower in Y2; auto. rewrite <- Q in Y2. apply stricmp_eq_lower in Y2; auto. congruence. }
    rewrite !Q2 by (apply nonul_s2l; reflexivity). reflexivity. }
  assert (NL : forall u, map tolower u = map tolower x -> nonul u).
  { intros u Q J. apply (in_map tolower) in J. rewrite Q in J. apply in_map_iff in J. destruct J as (z & Z1 & Z2). apply Nx. change (tolower "000"%char) with "000"%char in Z1.
    assert (z = "000"%char) as <-; auto. destruct z as [b0 b1 b2 b3 b4 b5 b6 b7]. destruct b0, b1, b2, b3, b4, b5, b6, b7; try discriminate Z1; reflexivity. }
  destruct Y as [Y|Y].
  - rewrite <- G. destruct y as [|e y]; [apply GL; auto; intros []|]. cbn [skip_colon]. destruct (ceq e ":"%char) eqn:Ee; [|apply GL; auto].
    exfalso. apply ceq_true in Ee. subst e. rewrite E in Y. apply nth_error_In in I. cbn in I. repeat (destruct I as [<-|I]; [discriminate Y|]). destruct I.
  - destruct y as [|e y]; [discriminate Y|]. cbn [map s2l app list_ascii_of_string] in Y. injection Y as Y1 Y2. destruct (T e _ ltac:(right; right; left; reflexivity) Y1) as [->|[Q _]]; [|discriminate Q].
    cbn [skip_colon]. change (ceq ":"%char ":"%char) with true. cbv iota. rewrite <- G. apply GL; auto.
Qed.
Lemma args_hex a l t h m out stdin : map tolower a = s2l "/h" -> dump_args show_g file (a :: l) t h m out stdin = dump_args show_g file l t true m out stdin.
Proof.
  intros A. destruct a as [|c [|d [|e a]]]; try discriminate A. cbn in A. injection A as A1 A2. cbn [dump_args].
  assert (c = "/"%char) as -> by (destruct c as [b0 b1 b2 b3 b4 b5 b6 b7]; destruct b0, b1, b2, b3, b4, b5, b6, b7; try discriminate A1; reflexivity).
  assert (d = "h"%char \/ d = "H"%char) as [->| ->] by (destruct d as [b0 b1 b2 b3 b4 b5 b6 b7]; destruct b0, b1, b2, b3, b4, b5, b6, b7; try discriminate A2; auto); reflexivity.
Qed.
Lemma args_options l k h : options l k h -> forall i, nth_error (map (fun e => fst (fst (fst e))) int_types) i = Some k -> forall r out stdin,
  dump_args show_g file (l ++ r) 0 false 0 out stdin = dump_args show_g file r i h 0 out stdin.
Proof.
  induction 1 as [|l t h a x k O IH A I E|l t h a O IH A]; intros i Hi r out stdin.
  - assert (i = 0) as -> by (do 7 (destruct i as [|i]; [first [reflexivity|discriminate Hi]|]); destruct i; discriminate Hi). reflexivity.
  - rewrite <- app_assoc. cbn [app].
    assert (HT : exists j, nth_error (map (fun e => fst (fst (fst e))) int_types) j = Some t).
    { clear -O. induction O as [|? ? ? ? ? ? ? ? ? I|]; auto; [exists 0; reflexivity|]. apply In_nth_error in I. exact I. }
    destruct HT as [j Hj]. rewrite (IH j Hj). apply (args_type a x k); auto.
  - rewrite <- app_assoc. cbn [app]. rewrite (IH i Hi). apply args_hex; auto.
Qed.
Lemma args_file f l i h m out stdin : file_name f ->
  dump_args show_g file (f :: l) i h m out stdin =
  (do (s, ok) <- dump_file show_g file f (fill_context i h); if ok then dump_args show_g file l i h (S m) (out ++ s) stdin else Ret (out ++ s, 2%Z)).
Proof.
  intros N. cbn [dump_args]. destruct f as [|c [|d f]].
  - reflexivity.
  - destruct c as [b0 b1 b2 b3 b4 b5 b6 b7]; destruct b0, b1, b2, b3, b4, b5, b6, b7; reflexivity.
  - destruct (ceq c "/"%char) eqn:Ec.
    + apply ceq_true in Ec. subst c. specialize (N d f eq_refl).
      destruct d as [b0 b1 b2 b3 b4 b5 b6 b7]; destruct b0, b1, b2, b3, b4, b5, b6, b7; try (destruct f; reflexivity); exfalso; apply N; cbn; tauto.
    + destruct c as [b0 b1 b2 b3 b4 b5 b6 b7]; destruct b0, b1, b2, b3, b4, b5, b6, b7; try discriminate Ec; destruct f; reflexivity.
Qed.
End P.
