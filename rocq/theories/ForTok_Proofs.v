(** ForTok_Proofs.v -- the tokens of FOR /F. *)

From Verif Require Import Base Num_Model Num_Proofs StrLib_Model Args_Spec Args_Proofs LocalVar_Model If_Model If_Spec If_Proofs Lex Path_Proofs Block_Proofs ForTok_Model ForTok_Spec.
Open Scope nat_scope.

(** ** Words *)

Lemma pbrk_word d w s : Forall (fun c => ~ In c d) w -> strpbrk (w ++ s) d = option_map (fun k => length w + k) (strpbrk s d).
Proof.
  unfold strpbrk. induction 1 as [|c w H F IH]; simpl.
  - destruct (find_idx (inset d) s); reflexivity.
  - destruct (inset d c) eqn:E; [apply inset_In in E; tauto|]. rewrite IH. destruct (find_idx (inset d) s); reflexivity.
Qed.

Lemma gap_inv d g : gap d g -> g = [] \/ exists c r, g = c :: r /\ inset d c = true /\ gap d r.
Proof.
  intros H. inversion H; subst; auto. right. exists x, l. repeat split; auto. apply inset_In; auto.
Qed.

Lemma get_gap g : forall f d s pos b e from, gap d g -> length (g ++ s) < f ->
  exists f', length s < f' /\ get_loop f d (g ++ s) pos b e from = get_loop f' d s pos b e from.
Proof.
  induction g as [|c g IH]; intros f d s pos b e from G L.
  - exists f. auto.
  - inversion G; subst. destruct f as [|f]; [simpl in L; lia|].
    destruct (IH f d s pos b e from) as (f' & L' & E); auto; [simpl in L; lia|].
    exists f'. split; auto. rewrite <- E. cbn [get_loop app]. unfold strpbrk. cbn [find_idx].
    apply inset_In in H1. rewrite H1. reflexivity.
Qed.

(** What is selected at the end of the loop. *)
Definition finish (b : Z) (x : cstr * Z * option cstr * option cstr) : cstr :=
  let '(s, pos, from, til) := x in
  let from := match from with None => if (pos =? b)%Z then Some s else None | Some x => Some x end in
  match from with
  | None => []
  | Some x => match til with Some y => firstn (length x - length y) x | None => x end
  end.
Lemma get_token_finish line d b e : get_token line d b e = do x <- get_loop (S (length line)) d line 1 b e None; Ret (finish b x).
Proof. unfold get_token. destruct get_loop as [[[[s pos] from] til]| |]; reflexivity. Qed.

(** The part of the line from where the selection goes on. *)
Definition rest_of (ws : list (cstr * cstr)) (tail : cstr) (k : nat) : cstr :=
  if length ws <? k then flat ws ++ tail else flat (firstn k ws).

Lemma flat_cons g w ws : flat ((g, w) :: ws) = g ++ w ++ flat ws.
Proof. unfold flat. simpl. rewrite app_assoc. reflexivity. Qed.
Lemma flat_len ws : forall d, more_words d ws -> flat ws = [] -> ws = [].
Proof. intros d M E. destruct M; auto. rewrite flat_cons in E. destruct g; [congruence|discriminate]. Qed.
Lemma firstn_suffix {A} (x y : list A) : firstn (length (x ++ y) - length y) (x ++ y) = x.
Proof.
  rewrite app_length, Nat.add_sub, firstn_app, Nat.sub_diag, firstn_O, app_nil_r. apply firstn_all.
Qed.

(** Words without the first delimiter. *)
Lemma drop_delim d r tail : more_words d r -> gap d tail -> flat r ++ tail <> [] ->
  exists c r' tail', inset d c = true /\ flat r ++ tail = c :: flat r' ++ tail' /\ words d r' /\ gap d tail' /\ length r' = length r /\
    (forall k, 1 <= k -> k <= length r -> skipn k r' = skipn k r /\ tail' = tail /\ flat (firstn k r) = c :: flat (firstn k r')) /\
    (forall k, match skipn k r, skipn k r' with
               | (_, w) :: x, (_, w') :: x' => w' = w /\ x' = x /\ tail' = tail
               | [], [] => True
               | _, _ => False
               end).
Proof.
  intros M T N. destruct M as [|g w r G1 G W M].
  - cbn [flat map concat app] in *. destruct (gap_inv _ _ T) as [->|(c & t & -> & I & T')]; [congruence|].
    exists c, [], t. repeat split; auto; try (constructor; fail); try (simpl in *; lia).
    intros k. rewrite skipn_nil. auto.
  - destruct (gap_inv _ _ G) as [->|(c & t & -> & I & G')]; [congruence|].
    exists c, ((t, w) :: r), tail. split; [auto|]. split; [rewrite !flat_cons; reflexivity|]. split; [constructor; auto|].
    split; [auto|]. split; [reflexivity|]. split.
    + intros [|k] K1 K2; [lia|]. cbn [firstn]. rewrite !flat_cons. auto.
    + intros [|k]; cbn [skipn]; auto. destruct (skipn k r) as [|[a b] x]; auto.
Qed.

Lemma flat_split k ws : flat (firstn k ws) ++ flat (skipn k ws) = flat ws.
Proof. unfold flat. rewrite <- concat_app, <- map_app, firstn_skipn. reflexivity. Qed.

(** The loop, from any word on. *)
Lemma get_words d : forall ws tail f pos b e from, words d ws -> gap d tail -> length (flat ws ++ tail) < f ->
  1 <= pos -> pos <= e -> (from <> None -> b < pos) ->
  exists x, get_loop f d (flat ws ++ tail) (Z.of_nat pos) (Z.of_nat b) (Z.of_nat e) from = Ret x /\
  finish (Z.of_nat b) x =
  match from with
  | None => if b <? pos then [] else match skipn (b - pos) ws with
            | [] => []
            | (_, w) :: r => if e <? b then [] else w ++ rest_of r tail (e - b)
            end
  | Some y => if length ws <? S e - pos then y
              else firstn (length y - length (flat (skipn (S e - pos) ws) ++ tail)) y
  end.
Proof.
  intros ws. remember (length ws) as n eqn:En. revert ws En. induction n as [|n IH]; intros ws En tail f pos b e from Wd T L P E B.
  - destruct ws; [|discriminate]. cbn [flat map concat app] in *.
    destruct (get_gap tail f d [] (Z.of_nat pos) (Z.of_nat b) (Z.of_nat e) from T) as (f' & Lf & R); [rewrite app_nil_r; auto|].
    rewrite app_nil_r in R. rewrite R. clear R. destruct f' as [|f']; [lia|]. cbn [get_loop strpbrk find_idx].
    eexists. split; [reflexivity|]. cbn [finish].
    destruct from as [y|].
    + destruct (Nat.ltb_spec 0 (S e - pos)); [reflexivity|lia].
    + rewrite skipn_nil. destruct (_ =? _)%Z; destruct (b <? pos); reflexivity.
  - destruct ws as [|[g w] r]; [discriminate|]. injection En as En. inversion Wd as [|? ? ? G [W0 W] M]; subst.
    rewrite flat_cons, <- !app_assoc in L |- *.
    destruct (get_gap g f d (w ++ flat r ++ tail) (Z.of_nat pos) (Z.of_nat b) (Z.of_nat e) from G L) as (f' & Lf & ->).
    destruct f' as [|f']; [lia|]. cbn [get_loop]. rewrite pbrk_word by auto.
    destruct (flat r ++ tail) as [|c0 u0] eqn:Eu.
    + apply app_eq_nil in Eu. destruct Eu as [Er ->]. apply (flat_len r d) in Er; auto. subst r.
      cbn [strpbrk find_idx option_map]. eexists. split; [reflexivity|]. cbn [finish app]. rewrite app_nil_r.
      destruct from as [y|].
      * cbn [length]. destruct (Nat.ltb_spec 1 (S e - pos)); auto.
        assert (X : S e - pos = 1) by lia. rewrite X. cbn [skipn flat map concat app length]. rewrite Nat.sub_0_r, firstn_all. reflexivity.
      * destruct (Z.eqb_spec (Z.of_nat pos) (Z.of_nat b)) as [Hp|Hp].
        -- assert (pos = b) by lia. subst b. rewrite Nat.ltb_irrefl, Nat.sub_diag. cbn [skipn].
           destruct (Nat.ltb_spec e pos); [lia|]. unfold rest_of. cbn [length flat map concat app].
           destruct (0 <? e - pos); [rewrite app_nil_r; reflexivity|]. rewrite firstn_nil. cbn. rewrite app_nil_r. reflexivity.
        -- destruct (Nat.ltb_spec b pos); auto. destruct (b - pos) as [|k] eqn:X; [lia|]. cbn [skipn]. rewrite skipn_nil. reflexivity.
    + assert (N : flat r ++ tail <> []) by congruence.
      destruct (drop_delim d r tail M T N) as (c & r' & tail' & I & Ec & Wr & T' & Lr & K1 & K2).
      rewrite Eu in Ec. injection Ec as -> ->.
      unfold strpbrk. cbn [find_idx]. rewrite I. cbn [option_map]. rewrite Nat.add_0_r.
      destruct (length w) as [|lw] eqn:Ew; [destruct w; [congruence|discriminate]|].
      assert (S1 : skipn (Datatypes.S lw) (w ++ c :: flat r' ++ tail') = c :: flat r' ++ tail').
      { rewrite <- Ew, skipn_app, skipn_all, Nat.sub_diag. reflexivity. }
      assert (S2 : skipn (Datatypes.S (Datatypes.S lw)) (w ++ c :: flat r' ++ tail') = flat r' ++ tail').
      { rewrite skipn_app, <- Ew. rewrite skipn_all2 by lia. replace (S (length w) - length w) with 1 by lia. reflexivity. }
      rewrite S1, S2.
      set (from' := if (Z.of_nat pos =? Z.of_nat b)%Z then Some (w ++ c :: flat r' ++ tail') else from).
      destruct (Z.eqb_spec (Z.of_nat pos) (Z.of_nat e)) as [He|He].
      * assert (pos = e) by lia. subst e. eexists. split; [reflexivity|]. cbn [finish]. subst from'.
        destruct (Z.eqb_spec (Z.of_nat pos) (Z.of_nat b)) as [Hp|Hp].
        -- assert (pos = b) by lia. subst b. destruct from as [y|]; [exfalso; assert (pos < pos) by (apply B; discriminate); lia|].
           rewrite Nat.ltb_irrefl, Nat.sub_diag. cbn [skipn].
           rewrite firstn_suffix. unfold rest_of. cbn [firstn].
           destruct (length r <? 0) eqn:Z0; [apply Nat.ltb_lt in Z0; lia|]. cbn [flat map concat]. rewrite app_nil_r. reflexivity.
        -- destruct from as [y|].
           ++ replace (S pos - pos) with 1 by lia. cbn [length skipn].
              destruct (Nat.ltb_spec (S (length r)) 1); [lia|]. rewrite Eu. reflexivity.
           ++ destruct (Nat.ltb_spec b pos); auto. destruct (skipn (b - pos) ((g, w) :: r)) as [|[? ?] ?]; auto.
              destruct (Nat.ltb_spec pos b); [reflexivity|lia].
      * replace (Z.of_nat pos + 1)%Z with (Z.of_nat (S pos)) by lia.
        destruct (IH r' (eq_sym Lr) tail' f' (S pos) b e from' Wr T') as (x & Hx & Fx).
        { rewrite app_length in Lf. cbn [length] in Lf. lia. }
        { lia. } { lia. }
        { subst from'. destruct (Z.eqb_spec (Z.of_nat pos) (Z.of_nat b)); [lia|]. intros Q. specialize (B Q). lia. }
        exists x. split; auto. rewrite Fx. subst from'. replace (S e - S pos) with (e - pos) by lia.
        destruct (Z.eqb_spec (Z.of_nat pos) (Z.of_nat b)) as [Hp|Hp].
        -- assert (pos = b) by lia. subst b. destruct from as [y|]; [exfalso; assert (pos < pos) by (apply B; discriminate); lia|].
           rewrite Nat.ltb_irrefl, Nat.sub_diag. cbn [skipn]. destruct (Nat.ltb_spec e pos); [lia|].
           unfold rest_of. destruct (Nat.ltb_spec (length r) (e - pos)); [rewrite Eu; reflexivity|].
           destruct (K1 (e - pos)) as (Q1 & Q2 & Q3); [lia|lia|]. subst tail'. rewrite Q3.
           assert (Ex : w ++ c :: flat r' ++ tail = (w ++ c :: flat (firstn (e - pos) r')) ++ (flat (skipn (e - pos) r') ++ tail)).
           { rewrite <- app_assoc. cbn [app]. rewrite app_assoc, flat_split. reflexivity. }
           rewrite Ex. apply firstn_suffix.
        -- destruct from as [y|].
           ++ replace (S e - pos) with (S (e - pos)) by lia. cbn [length skipn].
              destruct (Nat.ltb_spec (length r) (e - pos)); destruct (Nat.ltb_spec (S (length r)) (S (e - pos))); try lia; auto.
              destruct (K1 (e - pos)) as (Q1 & Q2 & Q3); [lia|lia|]. subst tail'. rewrite Q1. reflexivity.
           ++ destruct (Nat.ltb_spec b pos); destruct (Nat.ltb_spec b (S pos)); try lia; auto.
              replace (b - pos) with (S (b - S pos)) by lia. cbn [skipn]. specialize (K2 (b - S pos)).
              destruct (skipn (b - S pos) r) as [|[? ?] ?], (skipn (b - S pos) r') as [|[? ?] ?]; try tauto.
              destruct K2 as (-> & -> & ->). reflexivity.
Qed.

Lemma get_token_pick d line ws tail b e : splits d line ws tail -> 1 <= b -> 1 <= e ->
  get_token line d (Z.of_nat b) (Z.of_nat e) = Ret (pick ws tail b e).
Proof.
  intros (W & T & ->) B E. rewrite get_token_finish.
  destruct (get_words d ws tail (S (length (flat ws ++ tail))) 1 b e None W T) as (x & Hx & Fx); auto.
  { congruence. }
  change (Z.of_nat 1) with 1%Z in Hx. rewrite Hx. cbn [bind]. rewrite Fx. unfold pick.
  destruct (Nat.ltb_spec b 1); [lia|]. destruct (skipn (b - 1) ws) as [|[g w] r] eqn:Es; auto.
  destruct (Nat.ltb_spec e b); auto. f_equal. f_equal. unfold rest_of.
  assert (Q : length ws = b + length r).
  { pose proof (f_equal (@length _) (firstn_skipn (b - 1) ws)) as Q. rewrite Es, app_length in Q. cbn [length] in Q.
    assert (b - 1 < length ws).
    { destruct (Nat.lt_ge_cases (b - 1) (length ws)); auto. rewrite skipn_all2 in Es by auto. discriminate. }
    rewrite firstn_length_le in Q by lia. lia. }
  rewrite Q. destruct (Nat.ltb_spec (length r) (e - b)); destruct (Nat.ltb_spec (b + length r) e); auto; lia.
Qed.

(** Every line has words. *)
Lemma splits_ex d line : exists ws tail, splits d line ws tail.
Proof.
  induction line as [|c line (ws & tail & W & T & E)].
  - exists [], []. split; [constructor|]. split; [constructor|reflexivity].
  - destruct (inset d c) eqn:I.
    + apply inset_In in I. inversion W as [|g w r G Wd M]; subst.
      * exists [], (c :: tail). split; [constructor|]. split; [constructor; auto|reflexivity].
      * exists ((c :: g, w) :: r), tail. split; [constructor; auto; constructor; auto|]. split; [auto|].
        rewrite !flat_cons. reflexivity.
    + assert (N : ~ In c d) by (rewrite <- inset_In; congruence). inversion W as [|g w r G Wd M]; subst.
      * exists [([], [c])], tail. split; [|split; [auto|reflexivity]].
        constructor; [constructor|split; [discriminate|constructor; auto]|constructor].
      * destruct g as [|c' g].
        -- exists (([], c :: w) :: r), tail. destruct Wd. split; [|split; [auto|reflexivity]].
           constructor; auto. split; [discriminate|constructor; auto].
        -- exists (([], [c]) :: (c' :: g, w) :: r), tail. split; [|split; [auto|reflexivity]].
           constructor; [constructor|split; [discriminate|constructor; auto]|].
           constructor; auto. discriminate.
Qed.

(** ** Token specifications *)

Definition ends_num (t : cstr) : Prop := match t with [] => True | c :: _ => inset (" "%char :: "009"%char :: s2l ",-.*") c = true end.
Lemma ends_num_no t : ends_num t -> no_digit 16 t /\ match t with c :: _ => ceq (tolower c) "x"%char = false | [] => True end.
Proof.
  destruct t as [|c t]; cbn [ends_num no_digit]; auto. intros H.
  pose proof (ascii_forall (fun c => implb (inset (" "%char :: "009"%char :: s2l ",-.*") c) ((16 <=? digit_val c)%Z && negb (ceq (tolower c) "x"%char))) eq_refl c) as X.
  cbv beta in X. rewrite H in X. cbn [implb] in X. apply andb_true_iff in X. destruct X as [X1 X2].
  apply negb_true_iff in X2. split; auto. lia.
Qed.

Lemma unsigned_num b n t : numeral b n -> ends_num t -> unsigned0 (b ++ t) = Some (n, t).
Proof.
  intros N T. destruct (ends_num_no t T) as [T16 Tx].
  assert (T10 : no_digit 10 t) by (destruct t; simpl in *; auto; lia).
  assert (T8 : no_digit 8 t) by (destruct t; simpl in *; auto; lia).
  destruct N as [c s v H (ns & F & L & E)|s v (ns & F & L & E)|x s v X S0 (ns & F & L & E)]; subst v.
  - destruct (numeral_first (c :: s) (value 10 ns) t) as (c' & r & E1 & _ & D).
    { constructor; auto. exists ns. auto. }
    simpl in E1. injection E1 as <- _.
    assert (Z0 : ceq c "0"%char = false) by (apply ceq_false; auto).
    pose proof (read_num_ok 10 (c :: s) ns t 0 ltac:(lia) F L T10) as R. simpl app in R.
    unfold unsigned0. cbn [app]. unfold value.
    destruct (s ++ t) as [|x [|h y]]; rewrite Z0, D, R; reflexivity.
  - pose proof (read_num_ok 8 s ns t 0 ltac:(lia) F L T8) as R.
    unfold unsigned0, value. cbn [app].
    assert (R2 : read_num 8 ("0"%char :: s ++ t) 0 = (fold_left (fun a n => a * 8 + n)%Z ns 0%Z, t)).
    { cbn [read_num]. change (digit_val "0"%char) with 0%Z. cbn [Z.ltb Z.compare]. exact R. }
    destruct (s ++ t) as [|x [|h y]] eqn:Es; rewrite R2; change (ceq "0" "0")%char with true; cbn [andb]; auto.
    destruct (ceq (tolower x) "x"%char) eqn:Ex; cbn [andb]; auto.
    exfalso. destruct s as [|x' s].
    + simpl in Es. subst t. congruence.
    + simpl in Es. injection Es as <- _. inversion F as [|c0 n s0 ns0 X Y]; subst. inversion L; subst. apply dig_iff in X.
      assert (Z1 : implb (ceq (tolower x') "x"%char) (8 <=? digit_val x')%Z = true).
      { clear. revert x'. apply (ascii_forall (fun x' => implb (ceq (tolower x') "x"%char) (8 <=? digit_val x')%Z)). vm_compute. reflexivity. }
      rewrite Ex in Z1. cbn [implb] in Z1. lia.
  - pose proof (read_num_ok 16 s ns t 0 ltac:(lia) F L T16) as R.
    destruct s as [|h s]; [congruence|].
    unfold unsigned0, value. cbn [app].
    assert (Y : ceq (tolower x) "x"%char = true) by (cbv in X; destruct X as [<-|[<-|[]]]; reflexivity).
    assert (Hh : (digit_val h <? 16)%Z = true).
    { inversion F as [|c0 n s0 ns0 D G]; subst. apply dig_iff in D. lia. }
    rewrite Y, Hh. change (ceq "0" "0")%char with true. cbn [andb skipn]. cbn [app] in R. rewrite R. reflexivity.
Qed.

Lemma strtol_num b n t : numeral b n -> (0 <= n <= 2147483647)%Z -> ends_num t -> strtol0 (b ++ t) = (n, t) /\ length t < length (b ++ t).
Proof.
  intros N B T. destruct (numeral_first b n t N) as (c & r & E & _ & D). destruct (digit_facts c D) as (D1 & D2 & D3).
  pose proof (unsigned_num b n t N T) as U. split.
  - unfold strtol0. rewrite E. cbn [skip_space]. rewrite D1, D2, D3, <- E, U. unfold clip_long. f_equal.
    destruct (_ <? _)%Z eqn:X; [apply Z.ltb_lt in X; lia|]. destruct (_ <? n)%Z eqn:Y; [apply Z.ltb_lt in Y; lia|]. reflexivity.
  - rewrite app_length. destruct b; [inversion N|simpl; lia].
Qed.

Lemma strtol_none c t : In c (s2l "*,") -> strtol0 (c :: t) = (0%Z, c :: t).
Proof. intros H. cbv in H. destruct H as [<-|[<-|[]]]; unfold strtol0; destruct t as [|x [|h t]]; reflexivity. Qed.

Definition solid (t : cstr) : Prop := match t with c :: _ => inset (s2l ",-.*") c = true | [] => True end.
Lemma solid_skip t : solid t -> skip_st t = t.
Proof.
  destruct t as [|c t]; simpl; auto. intros H.
  destruct (ceq c " "%char) eqn:A; [apply ceq_true in A; subst; discriminate|].
  destruct (ceq c "009"%char) eqn:B; [apply ceq_true in B; subst; discriminate|]. reflexivity.
Qed.
Lemma pad_skip p t : pad p -> skip_st (p ++ t) = skip_st t.
Proof. induction 1 as [|c p [-> | ->] P IH]; auto. Qed.
Lemma pad_ends q t : pad q -> solid t -> ends_num (q ++ t).
Proof.
  intros P H. destruct P as [|c p [-> | ->] P]; try reflexivity. destruct t as [|c t]; simpl in *; auto.
  rewrite H, !orb_true_r. reflexivity.
Qed.
Lemma numeral_skip b n t : numeral b n -> skip_st (b ++ t) = b ++ t.
Proof.
  intros N. destruct (numeral_first b n t N) as (c & r & E & _ & D). rewrite E. cbn [skip_st].
  destruct (ceq c " "%char) eqn:A; [apply ceq_true in A; subst; discriminate|].
  destruct (ceq c "009"%char) eqn:B; [apply ceq_true in B; subst; discriminate|]. reflexivity.
Qed.

(** The second half of a turn. *)
Definition switch (f : nat) (p : cstr) (start stop : Z) (op : tokop) (last : Z) (i : nat) (a : list Z) : outcome (Z + nat * list Z) :=
  let c := match p with c :: _ => c | [] => "000"%char end in
  if (start =? -1)%Z && negb (ceq c "*"%char) then bad_token
  else if ceq c ","%char || ceq c "000"%char then
    do w <- match op with
            | OpNone => if TOKENINFO_NB_MAX <=? i then overflow
                        else do a' <- put_token a i start start; Ret (inr (start, S i, a'))
            | OpCat => if (stop =? -1)%Z then bad_token
                       else if TOKENINFO_NB_MAX <=? i then overflow
                       else do a' <- put_token a i start stop; Ret (inr (stop, S i, a'))
            | OpList => if (stop =? -1)%Z then bad_token
                        else do r <- put_list (TOKENINFO_NB_MAX - i) a i start stop;
                             match r with
                             | None => overflow
                             | Some (i', a') => Ret (inr (stop, i', a'))
                             end
            end;
    match w with
    | inl e => Ret (inl e)
    | inr (last', i', a') =>
        if ceq c "000"%char then Ret (inr (i', a'))
        else make_tokens f (skipn 1 p) (-1) (-1) OpNone c last' i' a'
    end
  else if ceq c "-"%char then
    if negb (stop =? -1)%Z then bad_token else make_tokens f (skipn 1 p) start stop OpList c last i a
  else if ceq c "."%char then
    if negb (stop =? -1)%Z then bad_token else make_tokens f (skipn 1 p) start stop OpCat c last i a
  else if ceq c "*"%char then
    if (start =? -1)%Z then
      if (last =? 2147483647)%Z then Undef else
      make_tokens f (skipn 1 p) (last + 1) ALL_TOKEN OpCat c last i a
    else match op with
         | OpNone => if TOKENINFO_NB_MAX <=? i then overflow
                     else do a' <- put_token a i start start;
                          make_tokens f (skipn 1 p) (start + 1) ALL_TOKEN OpCat c last (S i) a'
         | OpList => bad_token
         | OpCat => make_tokens f (skipn 1 p) start ALL_TOKEN OpCat c last i a
         end
  else bad_token.

Lemma turn_number f s t n start stop op prev last i a : padded s n -> (0 <= n <= 2147483647)%Z -> solid t -> prev <> "*"%char ->
  (op <> OpNone -> start <> (-1)%Z) ->
  make_tokens (S f) (s ++ t) start stop op prev last i a =
  match op with OpNone => switch f t n stop OpNone last i a | _ => switch f t start n op last i a end.
Proof.
  intros (p & q & b & -> & P & Q & N) B T Hp Ho. cbn [make_tokens].
  rewrite <- !app_assoc, pad_skip, (numeral_skip b n) by auto.
  destruct (strtol_num b n (q ++ t) N B (pad_ends q t Q T)) as [E L]. rewrite E.
  rewrite (to_int_id n) by (unfold INT_MIN, INT_MAX; lia).
  destruct (Nat.eqb_spec (length (q ++ t)) (length (b ++ q ++ t))) as [X|_]; [lia|].
  destruct (ceq prev "*"%char) eqn:Y; [apply ceq_true in Y; congruence|].
  rewrite (pad_skip q t), (solid_skip t) by auto.
  destruct op; try reflexivity;
    (destruct (Z.eqb_spec start (-1)) as [X|X]; [exfalso; apply Ho; auto; discriminate|]; reflexivity).
Qed.

Lemma turn_none f p t start stop op prev last i a : pad p ->
  match t with c :: _ => In c (s2l "*,") | [] => True end ->
  make_tokens (S f) (p ++ t) start stop op prev last i a = switch f t start stop op last i a.
Proof.
  intros P H. cbn [make_tokens]. rewrite pad_skip by auto.
  assert (K : solid t). { destruct t as [|c t]; simpl in *; auto. destruct H as [<-|[<-|[]]]; reflexivity. }
  rewrite (solid_skip t K).
  assert (E : strtol0 t = (0%Z, t)). { destruct t as [|c t]; [reflexivity|]. apply strtol_none; auto. }
  rewrite E, Nat.eqb_refl, (solid_skip t K).
  assert (G : forall A B : bool, negb (ceq (match t with c :: _ => c | [] => "000"%char end) "000"%char) &&
      negb (ceq (match t with c :: _ => c | [] => "000"%char end) "*"%char) &&
      (ceq prev "*"%char && negb (ceq (match t with c :: _ => c | [] => "000"%char end) ","%char) &&
       negb (ceq (match t with c :: _ => c | [] => "000"%char end) "000"%char)) = false).
  { intros _ _. destruct t as [|c t]; [destruct (ceq prev "*"%char); reflexivity|].
    simpl in H. destruct H as [<-|[<-|[]]]; destruct (ceq prev "*"%char); reflexivity. }
  rewrite (G true true). reflexivity.
Qed.

(** Writing the pairs. *)
Definition pack (p : Z * Z) : Z := (fst p * 65536 + snd p)%Z.
Fixpoint store (a : list Z) (i : nat) (l : list (Z * Z)) : list Z :=
  match l with [] => a | p :: r => store (set_nth a i (fun x => Z.lor x (pack p))) (S i) r end.
Definition pair_ok (p : Z * Z) : Prop := (1 <= fst p <= 32767 /\ 1 <= snd p <= 65535)%Z.

Lemma store_app l1 : forall a i l2, store a i (l1 ++ l2) = store (store a i l1) (i + length l1) l2.
Proof.
  induction l1 as [|p l1 IH]; intros a i l2; simpl; [rewrite Nat.add_0_r; auto|].
  rewrite IH. f_equal. lia.
Qed.
Lemma put_ok a i n m : pair_ok (n, m) -> put_token a i n m = Ret (store a i [(n, m)]).
Proof.
  intros [P Q]. cbn [fst snd] in *. unfold put_token.
  destruct (Z.ltb_spec n 0); [lia|]. destruct (Z.ltb_spec 32767 n); [lia|]. cbn [orb].
  assert (X : Z.land m 65535 = m). { change 65535%Z with (Z.ones 16). rewrite Z.land_ones by lia. apply Z.mod_small. lia. }
  rewrite X. reflexivity.
Qed.
Lemma put_list_ok k : forall room a i n m, Z.to_nat (m - n + 1) = k -> (1 <= n)%Z -> (m <= 32767)%Z ->
  put_list room a i n m = Ret (if k <=? room then Some (i + k, store a i (upto k n)) else None).
Proof.
  induction k as [|k IH]; intros room a i n m K N M.
  - destruct room; cbn [put_list]; (destruct (Z.leb_spec n m); [lia|]); cbn [Nat.leb upto store]; rewrite Nat.add_0_r; reflexivity.
  - destruct room as [|room]; cbn [put_list]; (destruct (Z.leb_spec n m); [|lia]); [reflexivity|].
    rewrite put_ok by (split; simpl; lia). cbn [bind]. rewrite (IH room _ (S i) (n + 1)%Z m) by lia.
    cbn [Nat.leb upto store]. rewrite Nat.add_succ_r. reflexivity.
Qed.

Lemma upto_len k : forall n, length (upto k n) = k.
Proof. induction k; intros; simpl; auto. Qed.

(** What follows an item. *)
Inductive rest_text : cstr -> cstr -> Prop :=
| rt_end : rest_text [] []
| rt_more t : rest_text (","%char :: t) t.
Definition next_item (f : nat) (t : cstr) (it : item) (i : nat) (a : list Z) (r : list (Z * Z)) : outcome (Z + nat * list Z) :=
  if TOKENINFO_NB_MAX <? i + length r then Ret (inl PBAT_FOR_TOKEN_OVERFLOW)
  else match t with
       | [] => Ret (inr (i + length r, store a i r))
       | _ :: t' => make_tokens f t' (-1) (-1) OpNone ","%char (item_last it) (i + length r) (store a i r)
       end.

Lemma rest_solid t t' : rest_text t t' -> solid t.
Proof. intros []; reflexivity. Qed.

Lemma switch_write f t t' start stop op last i a it r : rest_text t t' -> start <> (-1)%Z ->
  match op with
  | OpNone => r = [(start, start)] /\ pair_ok (start, start) /\ item_last it = start
  | OpCat => r = [(start, stop)] /\ pair_ok (start, stop) /\ item_last it = stop
  | OpList => r = upto (Z.to_nat (stop - start + 1)) start /\ (1 <= start)%Z /\ (1 <= stop <= 32767)%Z /\ item_last it = stop
  end -> i <= TOKENINFO_NB_MAX ->
  switch f t start stop op last i a = next_item f t it i a r.
Proof.
  intros R S0 H I. unfold switch, next_item.
  destruct (Z.eqb_spec start (-1)) as [X|_]; [congruence|]. cbn [andb].
  set (w := match op with OpNone => _ | _ => _ end).
  assert (W : w = if TOKENINFO_NB_MAX <? i + length r then overflow else Ret (inr (item_last it, i + length r, store a i r))).
  { unfold w. destruct op.
    - destruct H as (-> & P & E). cbn [length]. rewrite (Nat.add_comm i 1). cbn [Nat.add].
      destruct (Nat.leb_spec TOKENINFO_NB_MAX i); destruct (Nat.ltb_spec TOKENINFO_NB_MAX (S i)); try lia; auto.
      rewrite put_ok by auto. cbn [bind]. rewrite E. reflexivity.
    - destruct H as (-> & P & Q & E). destruct (Z.eqb_spec stop (-1)); [lia|].
      rewrite (put_list_ok (Z.to_nat (stop - start + 1))) by (auto; lia). cbn [bind]. rewrite upto_len.
      destruct (Nat.leb_spec (Z.to_nat (stop - start + 1)) (TOKENINFO_NB_MAX - i)); destruct (Nat.ltb_spec TOKENINFO_NB_MAX (i + Z.to_nat (stop - start + 1))); try lia; auto.
      rewrite E. reflexivity.
    - destruct H as (-> & P & E). assert (Q := proj2 P). cbn [snd] in Q. destruct (Z.eqb_spec stop (-1)); [lia|]. cbn [length]. rewrite (Nat.add_comm i 1). cbn [Nat.add].
      destruct (Nat.leb_spec TOKENINFO_NB_MAX i); destruct (Nat.ltb_spec TOKENINFO_NB_MAX (S i)); try lia; auto.
      rewrite put_ok by auto. cbn [bind]. rewrite E. reflexivity. }
  rewrite W. destruct R; destruct (TOKENINFO_NB_MAX <? i + length r); reflexivity.
Qed.

Lemma padded_len s n : padded s n -> 1 <= length s.
Proof. intros (p & q & b & -> & _ & _ & N). rewrite !app_length. destruct N; simpl; lia. Qed.

Lemma item_step s it : item_text s it -> item_ok it -> forall f t t' last prev i a, rest_text t t' -> prev <> "*"%char ->
  (0 <= last)%Z -> (it = TAll -> (last < 32767)%Z) -> i <= TOKENINFO_NB_MAX -> length (s ++ t) < f ->
  exists f', length t <= f' /\
    make_tokens f (s ++ t) (-1) (-1) OpNone prev last i a = next_item f' t it i a (item_ranges last it).
Proof.
  intros T O f t t' last prev i a R Hp L0 Hl I F. rewrite app_length in F. pose proof (rest_solid _ _ R) as Sd.
  assert (St : match t with c :: _ => In c (s2l "*,") | [] => True end) by (destruct R; simpl; auto).
  destruct T as [s n P|s u n m P Q|s u n m P Q|s p q n P Hp' Hq|s q n P Hq|p q Hp' Hq]; cbn [item_ok] in O; rewrite ?app_length in F; cbn [length] in F;
    try (pose proof (padded_len _ _ P) as LP); try (pose proof (padded_len _ _ Q) as LQ).
  - destruct f as [|f]; [lia|]. exists f. split; [lia|].
    rewrite (turn_number f s t n) by (auto; try lia; congruence).
    apply (switch_write f t t'); auto; try lia; (split; [reflexivity|]; split; [split; simpl; lia|reflexivity]).
  - destruct f as [|[|f]]; [lia|lia|]. exists f. split; [lia|].
    rewrite <- app_assoc. cbn [app].
    rewrite (turn_number (S f) s ("-"%char :: u ++ t) n) by (auto; try lia; try reflexivity; congruence).
    unfold switch. destruct (Z.eqb_spec n (-1)); [lia|]. cbn [andb negb ceq]. change (ceq "-" ",")%char with false. change (ceq "-" "000")%char with false.
    change (ceq "-" "-")%char with true. cbn [orb Z.eqb negb skipn].
    rewrite (turn_number f u t m) by (auto; try lia; discriminate).
    apply (switch_write f t t'); auto; try lia; (split; [reflexivity|]; split; [lia|]; split; [lia|reflexivity]).
  - destruct f as [|[|f]]; [lia|lia|]. exists f. split; [lia|].
    rewrite <- app_assoc. cbn [app].
    rewrite (turn_number (S f) s ("."%char :: u ++ t) n) by (auto; try lia; try reflexivity; congruence).
    unfold switch. destruct (Z.eqb_spec n (-1)); [lia|]. cbn [andb negb ceq]. change (ceq "." ",")%char with false. change (ceq "." "000")%char with false.
    change (ceq "." "-")%char with false. change (ceq "." ".")%char with true. cbn [orb Z.eqb negb skipn].
    rewrite (turn_number f u t m) by (auto; try lia; discriminate).
    apply (switch_write f t t'); auto; try lia; (split; [reflexivity|]; split; [split; simpl; lia|reflexivity]).
  - rewrite ?app_length in F; cbn [length] in F. destruct f as [|[|[|f]]]; [lia|lia|lia|]. exists f. split; [lia|].
    rewrite <- app_assoc. cbn [app]. rewrite <- app_assoc. cbn [app].
    rewrite (turn_number (S (S f)) s ("."%char :: p ++ "*"%char :: q ++ t) n) by (auto; try lia; try reflexivity; congruence).
    unfold switch at 1. destruct (Z.eqb_spec n (-1)); [lia|]. cbn [andb negb ceq]. change (ceq "." ",")%char with false. change (ceq "." "000")%char with false.
    change (ceq "." "-")%char with false. change (ceq "." ".")%char with true. cbn [orb Z.eqb negb skipn].
    rewrite (turn_none (S f) p ("*"%char :: q ++ t)) by (auto; simpl; auto).
    unfold switch at 1. destruct (Z.eqb_spec n (-1)); [lia|]. cbn [andb negb ceq]. change (ceq "*" ",")%char with false. change (ceq "*" "000")%char with false.
    change (ceq "*" "-")%char with false. change (ceq "*" ".")%char with false. change (ceq "*" "*")%char with true. cbn [orb Z.eqb negb skipn].
    rewrite (turn_none f q t) by auto.
    apply (switch_write f t t'); auto; try lia; (split; [reflexivity|]; split; [split; simpl; unfold ALL_TOKEN; lia|reflexivity]).
  - destruct f as [|[|f]]; [lia|lia|]. exists f. split; [lia|].
    rewrite <- app_assoc. cbn [app].
    rewrite (turn_number (S f) s ("*"%char :: q ++ t) n) by (auto; try lia; try reflexivity; congruence).
    unfold switch at 1. destruct (Z.eqb_spec n (-1)); [lia|]. cbn [andb negb ceq]. change (ceq "*" ",")%char with false. change (ceq "*" "000")%char with false.
    change (ceq "*" "-")%char with false. change (ceq "*" ".")%char with false. change (ceq "*" "*")%char with true. cbn [orb Z.eqb negb skipn].
    unfold next_item at 1. cbn [item_ranges length].
    destruct (Nat.leb_spec TOKENINFO_NB_MAX i) as [I'|I'].
    { destruct (Nat.ltb_spec TOKENINFO_NB_MAX (i + 2)); [reflexivity|lia]. }
    rewrite put_ok by (split; simpl; lia). cbn [bind]. rewrite (turn_none f q t) by auto.
    rewrite (switch_write f t t' (n + 1) ALL_TOKEN OpCat last (S i) (store a i [(n, n)]) (TOneAll n) [((n + 1)%Z, all)] R); [|lia| |lia].
    2:{ split; [reflexivity|]. split; [split; simpl; unfold ALL_TOKEN; lia|reflexivity]. }
    unfold next_item. cbn [length store]. replace (S i + 1) with (i + 2) by lia. reflexivity.
  - destruct f as [|[|f]]; [lia|lia|]. exists f. split; [lia|]. specialize (Hl eq_refl).
    rewrite <- app_assoc. cbn [app].
    rewrite (turn_none (S f) p ("*"%char :: q ++ t)) by (auto; simpl; auto).
    unfold switch at 1. cbn [andb negb ceq]. change (ceq "*" ",")%char with false. change (ceq "*" "000")%char with false.
    change (ceq "*" "-")%char with false. change (ceq "*" ".")%char with false. change (ceq "*" "*")%char with true. cbn [orb andb Z.eqb negb skipn]. rewrite Pos.eqb_refl.
    destruct (Z.eqb_spec last 2147483647); [lia|].
    rewrite (turn_none f q t) by auto.
    apply (switch_write f t t'); auto; try lia; (split; [reflexivity|]; split; [split; simpl; unfold ALL_TOKEN; lia|reflexivity]).
Qed.

Lemma item_last_pos it : item_ok it -> (0 <= item_last it)%Z.
Proof. destruct it; simpl; unfold all; lia. Qed.

Lemma tokens_step s l : tokens_text s l -> Forall item_ok l -> forall f last prev i a, prev <> "*"%char ->
  (0 <= last)%Z -> all_ok last l -> i <= TOKENINFO_NB_MAX -> length s < f ->
  make_tokens f s (-1) (-1) OpNone prev last i a =
  Ret (if TOKENINFO_NB_MAX <? i + length (ranges last l) then inl PBAT_FOR_TOKEN_OVERFLOW
       else inr (i + length (ranges last l), store a i (ranges last l))).
Proof.
  induction 1 as [s it T|s it t l T Ts IH]; intros O f last prev i a Hp L0 A I F; inversion O; subst; destruct A as [A1 A2]; cbn [ranges].
  - destruct (item_step s it T H1 f [] [] last prev i a) as (f' & _ & E); auto; [constructor|rewrite app_nil_r; auto|].
    rewrite app_nil_r in E. rewrite E, app_nil_r. unfold next_item. destruct (_ <? _); reflexivity.
  - destruct (item_step s it T H1 f (","%char :: t) t last prev i a) as (f' & L & E); auto; [constructor|].
    rewrite E. cbn [length] in L. unfold next_item. rewrite app_length.
    destruct (Nat.ltb_spec TOKENINFO_NB_MAX (i + length (item_ranges last it))).
    + destruct (Nat.ltb_spec TOKENINFO_NB_MAX (i + (length (item_ranges last it) + length (ranges (item_last it) l)))); [reflexivity|lia].
    + rewrite IH; auto; [|discriminate|apply item_last_pos; auto].
      rewrite store_app, <- !Nat.add_assoc. reflexivity.
Qed.

Lemma make_tokens_ok s l info : tokens_text s l -> Forall item_ok l -> all_ok 0 l ->
  pBat_ForMakeTokens s info =
  Ret (if 96 <? length (ranges 0 l) then inl PBAT_FOR_TOKEN_OVERFLOW
       else inr (mkFI (fi_delims info) (fi_eol info) (fi_skip info) (fi_first info) (fi_backq info) (length (ranges 0 l)) (store (fi_tokens info) 0 (ranges 0 l)))).
Proof.
  intros T O A. unfold pBat_ForMakeTokens. rewrite (tokens_step s l T O) by (auto; try lia; discriminate).
  cbn [bind Nat.add]. change TOKENINFO_NB_MAX with 96. destruct (96 <? _); reflexivity.
Qed.

(** The table afterwards. *)
Lemma set_nth_nth f l : forall i j, nth_error (set_nth l i f) j = if i =? j then option_map f (nth_error l j) else nth_error l j.
Proof.
  induction l as [|x l IH]; intros [|i] [|j]; simpl; auto.
  destruct (i =? j); auto.
Qed.
Lemma store_nth r : forall a i j, nth_error (store a i r) j =
  if j <? i then nth_error a j
  else match nth_error r (j - i) with Some p => option_map (fun x => Z.lor x (pack p)) (nth_error a j) | None => nth_error a j end.
Proof.
  induction r as [|p r IH]; intros a i j; cbn [store].
  - rewrite nth_error_nil || destruct (j - i); destruct (j <? i); try reflexivity.
  - rewrite IH, set_nth_nth. destruct (Nat.ltb_spec j (S i)); destruct (Nat.ltb_spec j i); try lia.
    + destruct (Nat.eqb_spec i j); [lia|]. reflexivity.
    + assert (j = i) by lia. subst j. rewrite Nat.eqb_refl, Nat.sub_diag. reflexivity.
    + destruct (Nat.eqb_spec i j); [lia|]. replace (j - i) with (S (j - S i)) by lia. reflexivity.
Qed.

Lemma nth_repeat0 n j : j < n -> nth_error (repeat 0%Z n) j = Some 0%Z.
Proof. revert j. induction n; intros [|j] H; simpl; try lia; auto. apply IHn. lia. Qed.

Lemma high_pack p : pair_ok p -> HIGHWORD (pack p) = fst p.
Proof.
  intros [A B]. unfold HIGHWORD, pack. change 65536%Z with (2 ^ 16)%Z at 2. rewrite <- Z.shiftr_div_pow2 by lia.
  rewrite Z.shiftr_land, Z.shiftr_div_pow2 by lia. change (2 ^ 16)%Z with 65536%Z.
  rewrite Z.div_add_l, (Z.div_small (snd p)), Z.add_0_r by lia. change (Z.shiftr 4294901760 16) with (Z.ones 16).
  rewrite Z.land_ones by lia. apply Z.mod_small. lia.
Qed.
Lemma low_pack p : pair_ok p -> LOWWORD (pack p) = snd p.
Proof.
  intros [A B]. unfold LOWWORD, pack. change 65535%Z with (Z.ones 16). rewrite Z.land_ones by lia.
  change (2 ^ 16)%Z with 65536%Z. rewrite Z.add_comm, Z.mod_add by lia. apply Z.mod_small. lia.
Qed.
Lemma lor_odd n : (0 <= n)%Z -> Z.lor n 1 = odd_up n.
Proof.
  intros H. unfold odd_up. destruct n as [|p|p]; try reflexivity; [|lia]. destruct p; reflexivity.
Qed.
Lemma odd_up_ok n k : (1 <= n <= 2 * k + 1)%Z -> (1 <= odd_up n <= 2 * k + 1)%Z.
Proof.
  intros H. unfold odd_up. destruct (Z.even n) eqn:E; [|lia].
  apply Z.even_spec in E. destruct E as [q E]. lia.
Qed.
Lemma high_first p : pair_ok p -> HIGHWORD (Z.lor 65537 (pack p)) = odd_up (fst p).
Proof.
  intros P. pose proof (high_pack p P) as H. unfold HIGHWORD in *. rewrite Z.land_lor_distr_l.
  change 65536%Z with (2 ^ 16)%Z in *. rewrite <- Z.shiftr_div_pow2 in * by lia. rewrite Z.shiftr_lor, H, Z.lor_comm. apply lor_odd. destruct P; lia.
Qed.
Lemma low_first p : pair_ok p -> LOWWORD (Z.lor 65537 (pack p)) = odd_up (snd p).
Proof.
  intros P. pose proof (low_pack p P) as H. unfold LOWWORD in *. rewrite Z.land_lor_distr_l, H, Z.lor_comm. apply lor_odd. destruct P; lia.
Qed.

Lemma upto_ok k : forall n, (1 <= n)%Z -> (n + Z.of_nat k <= 32768)%Z -> Forall pair_ok (upto k n).
Proof.
  induction k as [|k IH]; intros n A B; simpl; constructor.
  - split; simpl; lia.
  - apply IH; lia.
Qed.
Lemma ranges_ok l : forall last, Forall item_ok l -> (0 <= last)%Z -> all_ok last l -> Forall pair_ok (ranges last l).
Proof.
  induction l as [|it l IH]; intros last O L A; [constructor|]. inversion O; subst. destruct A as [A1 A2]. cbn [ranges].
  apply Forall_app. split; [|apply IH; auto; apply item_last_pos; auto].
  destruct it; cbn [item_ok item_ranges] in *; try (repeat constructor; cbn [fst snd]; unfold all; try lia; fail).
  - destruct (Z.le_gt_cases n (m + 1)).
    + apply upto_ok; lia.
    + replace (Z.to_nat (m - n + 1)) with 0 by lia. constructor.
Qed.

(** ** Variables *)

Lemma code_of k : (0 <= k < 256)%Z -> code (ascii_of_N (Z.to_N k)) = k.
Proof. intros H. unfold code. rewrite N_ascii_embedding by lia. lia. Qed.
Lemma ascii_code c : ascii_of_N (Z.to_N (code c)) = c.
Proof. unfold code. rewrite N2Z.id. apply ascii_N_embedding. Qed.

Lemma next_var_name c i : (33 <= code c <= 127)%Z -> next_var (var_name c i) = var_name c (S i).
Proof.
  intros H. unfold next_var, var_name. set (m := ((code c - 33 + Z.of_nat i) mod 95)%Z).
  pose proof (Z.mod_pos_bound (code c - 33 + Z.of_nat i) 95 ltac:(lia)) as B. fold m in B.
  rewrite code_of by lia.
  assert (E : ((code c - 33 + Z.of_nat (S i)) mod 95 = (m + 1) mod 95)%Z).
  { unfold m. rewrite Zplus_mod_idemp_l. f_equal. lia. }
  rewrite E. destruct (Z.ltb_spec (33 + m) 127).
  - rewrite Z.mod_small by lia. rewrite N_ascii_embedding by lia. f_equal. lia.
  - assert (m = 94)%Z by lia. rewrite H1. reflexivity.
Qed.
Lemma var_name_0 c : (33 <= code c <= 127)%Z -> var_name c 0 = c.
Proof. intros H. unfold var_name. rewrite Z.mod_small by lia. rewrite <- (ascii_code c) at 2. f_equal. lia. Qed.
Lemma var_name_ok c i : name_ok (var_name c i) = true.
Proof.
  pose proof (Z.mod_pos_bound (code c - 33 + Z.of_nat i) 95 ltac:(lia)) as B. unfold name_ok, var_name. rewrite code_of by lia.
  destruct (Z.leb_spec 128 (33 + (code c - 33 + Z.of_nat i) mod 95)); [lia|].
  destruct (Z.leb_spec (33 + (code c - 33 + Z.of_nat i) mod 95) 32); [lia|]. reflexivity.
Qed.
Lemma var_name_inj c i j : var_name c i = var_name c j -> i < j -> j < i + 95 -> False.
Proof.
  intros E L R. apply (f_equal code) in E. unfold var_name in E.
  pose proof (Z.mod_pos_bound (code c - 33 + Z.of_nat i) 95 ltac:(lia)) as B1.
  pose proof (Z.mod_pos_bound (code c - 33 + Z.of_nat j) 95 ltac:(lia)) as B2.
  rewrite !code_of in E by lia. assert (E' : ((code c - 33 + Z.of_nat i) mod 95 = (code c - 33 + Z.of_nat j) mod 95)%Z) by lia.
  pose proof (Z.div_mod (code c - 33 + Z.of_nat i) 95 ltac:(lia)). pose proof (Z.div_mod (code c - 33 + Z.of_nat j) 95 ltac:(lia)). lia.
Qed.

(** The variables afterwards. *)
Lemma split_step n : forall line info i c b vals, (33 <= code c <= 127)%Z ->
  (forall j, j < n -> pBat_ForGetToken line info (i + j) = Ret (vals (i + j))) ->
  exists b', split_tokens n line info i (var_name c i) b = Ret b' /\
    (forall j, j < n -> (forall k, j < k -> k < n -> var_name c (i + k) <> var_name c (i + j)) -> b' (var_name c (i + j)) = Some (vals (i + j))) /\
    (forall x, (forall j, j < n -> x <> var_name c (i + j)) -> b' x = b x).
Proof.
  induction n as [|n IH]; intros line info i c b vals C H.
  - exists b. repeat split; auto. intros; lia.
  - cbn [split_tokens]. pose proof (H 0 ltac:(lia)) as H0. rewrite Nat.add_0_r in H0. rewrite H0. cbn [bind].
    rewrite next_var_name by auto.
    destruct (IH line info (S i) c (pBat_SetLocalVar b (var_name c i) (Some (vals i))) vals C) as (b' & E & F1 & F2).
    { intros j J. replace (S i + j) with (i + S j) by lia. apply H. lia. }
    exists b'. split; auto. split.
    + intros [|j] J K.
      * rewrite Nat.add_0_r in *. rewrite F2.
        -- unfold pBat_SetLocalVar. rewrite var_name_ok, ceq_refl. reflexivity.
        -- intros j J' X. apply (K (S j)); [lia|lia|]. replace (i + S j) with (S i + j) by lia. auto.
      * replace (i + S j) with (S i + j) by lia. apply F1; [lia|]. intros k K1 K2.
        replace (S i + k) with (i + S k) by lia. replace (S i + j) with (i + S j) by lia. apply K; lia.
    + intros x X. rewrite F2.
      * unfold pBat_SetLocalVar. rewrite var_name_ok. destruct (ceq x (var_name c i)) eqn:Y; auto. apply ceq_true in Y.
        exfalso. apply (X 0); [lia|]. rewrite Nat.add_0_r. auto.
      * intros j J. replace (S i + j) with (i + S j) by lia. apply X. lia.
Qed.

(** All together. *)
Lemma split_all R info line ws tail b : Forall pair_ok R -> length R <= 96 -> fi_nb info = length R ->
  fi_tokens info = store (65537%Z :: repeat 0%Z 95) 0 R -> (33 <= code (fi_first info) <= 127)%Z -> splits (fi_delims info) line ws tail ->
  exists b', pBat_ForSplitTokens line info b = Ret b' /\
    (forall j n m, nth_error (code_ranges R) j = Some (n, m) -> (j = 0 -> length R <= 95) ->
       b' (var_name (fi_first info) j) = Some (pick ws tail (Z.to_nat n) (Z.to_nat m))) /\
    (forall x, (forall j, j < length R -> x <> var_name (fi_first info) j) -> b' x = b x).
Proof.
  intros RO L Nb I C Sp.
  set (vals := fun j => match nth_error (code_ranges R) j with Some (n, m) => pick ws tail (Z.to_nat n) (Z.to_nat m) | None => [] end).
  assert (CR : length (code_ranges R) = length R) by (destruct R as [|[? ?] ?]; reflexivity).
  assert (G : forall j, j < length R -> pBat_ForGetToken line info (0 + j) = Ret (vals (0 + j))).
  { intros j J. cbn [Nat.add]. unfold pBat_ForGetToken. rewrite I.
    rewrite store_nth. destruct (Nat.ltb_spec j 0); [lia|]. rewrite Nat.sub_0_r.
    destruct (nth_error R j) as [p|] eqn:Ep; [|apply nth_error_None in Ep; lia].
    assert (Po : pair_ok p). { rewrite Forall_forall in RO. apply RO. eapply nth_error_In; eauto. }
    unfold vals. destruct j as [|j].
    - cbn [nth_error option_map]. rewrite high_first, low_first by auto. destruct R as [|p' R']; [discriminate|]. injection Ep as ->.
      destruct p as [n m]. destruct Po as [P1 P2]. cbn [fst snd code_ranges nth_error] in *.
      pose proof (odd_up_ok n 16383 ltac:(lia)). pose proof (odd_up_ok m 32767 ltac:(lia)).
      rewrite <- (Z2Nat.id (odd_up n)), <- (Z2Nat.id (odd_up m)) at 1 by lia. apply get_token_pick; auto; lia.
    - assert (E2 : nth_error (code_ranges R) (S j) = Some p) by (destruct R as [|[? ?] R']; [discriminate|exact Ep]). rewrite E2.
      cbn [nth_error]. rewrite nth_repeat0 by lia. cbn [option_map Z.lor]. rewrite high_pack, low_pack by auto.
      destruct p as [n m]. destruct Po as [P1 P2]. cbn [fst snd] in *.
      rewrite <- (Z2Nat.id n), <- (Z2Nat.id m) at 1 by lia. apply get_token_pick; auto; lia. }
  destruct (split_step (length R) line info 0 (fi_first info) b vals C G) as (b' & E & F1 & F2).
  exists b'. split.
  { unfold pBat_ForSplitTokens. rewrite Nb. rewrite (var_name_0 _ C) in E. exact E. }
  split; auto. intros j n m Ej J0. assert (J : j < length R) by (rewrite <- CR; apply nth_error_Some; congruence).
  specialize (F1 j J). cbn [Nat.add] in F1. unfold vals in F1. rewrite Ej in F1. apply F1.
  intros k K1 K2 X. symmetry in X. apply var_name_inj in X; auto.
  destruct j as [|j]; [|lia]. specialize (J0 eq_refl). lia.
Qed.

Lemma unassign_at n : forall c i b x, (33 <= code c <= 127)%Z -> (code c + Z.of_nat i <= 128)%Z ->
  unassign n c i b x = if (code c + Z.of_nat i <=? code x)%Z && (code x <? code c + Z.of_nat i + Z.of_nat n)%Z && (code x <? 128)%Z then None else b x.
Proof.
  induction n as [|n IH]; intros c i b x C I.
  - cbn [unassign]. destruct (Z.leb_spec (code c + Z.of_nat i) (code x)); destruct (Z.ltb_spec (code x) (code c + Z.of_nat i + Z.of_nat 0)); try lia; reflexivity.
  - cbn [unassign]. rewrite Z.mod_small by lia.
    set (k := (code c + Z.of_nat i)%Z) in *.
    assert (X : pBat_SetLocalVar b (ascii_of_N (Z.to_N k)) None x = if (code x =? k)%Z && (k <? 128)%Z then None else b x).
    { unfold pBat_SetLocalVar, name_ok. rewrite code_of by lia.
      destruct (Z.leb_spec 128 k); destruct (Z.leb_spec k 32); destruct (Z.ltb_spec k 128); try lia; cbn [negb andb]; rewrite ?andb_false_r; auto.
      destruct (Z.eqb_spec (code x) k) as [E|E]; cbn [andb].
      - assert (X : x = ascii_of_N (Z.to_N k)) by (rewrite <- E; symmetry; apply ascii_code). rewrite <- X, ceq_refl. reflexivity.
      - destruct (ceq x (ascii_of_N (Z.to_N k))) eqn:Y; auto. apply ceq_true in Y. subst x. rewrite code_of in E by lia. congruence. }
    destruct (Z.ltb_spec k 128).
    + rewrite IH by lia. rewrite X. replace (code c + Z.of_nat (S i))%Z with (k + 1)%Z by lia.
      destruct (Z.leb_spec k (code x)); destruct (Z.leb_spec (k + 1) (code x)); destruct (Z.eqb_spec (code x) k);
      destruct (Z.ltb_spec (code x) (k + 1 + Z.of_nat n)); destruct (Z.ltb_spec (code x) (k + Z.of_nat (S n)));
      destruct (Z.ltb_spec (code x) 128); cbn [andb]; try lia; reflexivity.
    + rewrite X. destruct (Z.leb_spec k (code x)); destruct (Z.ltb_spec (code x) 128); rewrite ?andb_false_r; try lia; cbn [andb]; reflexivity.
Qed.

(** ** Options *)
Lemma key_len k name : key_of k name -> length k = length (s2l name).
Proof. unfold key_of. intros H. rewrite <- H, map_length. reflexivity. Qed.

Lemma kw_iff name s : nonul (s2l name) -> map tolower (s2l name) = s2l name ->
  ((strnicmp s (s2l name) (length (s2l name)) =? 0)%Z = true <-> exists k r, s = k ++ r /\ key_of k name).
Proof.
  intros N E. rewrite Z.eqb_eq, (strnicmp_kw _ N). unfold key_of. split; intros (a & r & A & B); exists a, r; split; auto.
  - unfold same_name in B. congruence.
  - unfold same_name. congruence.
Qed.
Lemma kw_no name s k r n2 : s = k ++ r -> key_of k n2 -> nonul (s2l name) -> map tolower (s2l name) = s2l name ->
  (forall x, firstn (min (length (s2l name)) (length (s2l n2))) (s2l name) <> firstn (min (length (s2l name)) (length (s2l n2))) (s2l n2) \/ x = 0) ->
  (strnicmp s (s2l name) (length (s2l name)) =? 0)%Z = false.
Proof.
  intros -> K N E D. destruct (strnicmp _ _ _ =? 0)%Z eqn:X; auto. exfalso.
  apply kw_iff in X; auto. destruct X as (k' & r' & A & K').
  destruct (D 1) as [D'|D']; [|discriminate]. apply D'. clear D D'.
  pose proof (key_len _ _ K) as L. pose proof (key_len _ _ K') as L'. unfold key_of in *. rewrite <- K, <- K', !firstn_map.
  f_equal. set (m := min _ _).
  assert (H : firstn m (k ++ r) = firstn m (k' ++ r')) by congruence.
  rewrite !firstn_app in H. unfold m in *. rewrite !map_length in *.
  replace (min (length k') (length k) - length k) with 0 in H by lia.
  replace (min (length k') (length k) - length k') with 0 in H by lia. rewrite !firstn_O, !app_nil_r in H. congruence.
Qed.

(** The kind of an option. *)
Ltac kinds := match goal with
  | K : key_of ?k ?n2 |- context [strnicmp (?k ++ ?r) (s2l ?n) ?m] =>
      first [ let X := fresh in assert (X : (strnicmp (k ++ r) (s2l n) m =? 0)%Z = true) by
                (change m with (length (s2l n)); apply kw_iff; [cbv; intuition discriminate|reflexivity|exists k, r; split; [reflexivity|exact K]]); rewrite X; clear X
            | let X := fresh in assert (X : (strnicmp (k ++ r) (s2l n) m =? 0)%Z = false) by
                (change m with (length (s2l n)); apply (kw_no n (k ++ r) k r n2); [reflexivity|exact K|cbv; intuition discriminate|reflexivity|intros ?; left; vm_compute; discriminate]); rewrite X; clear X ]
  end.
Lemma spec_tokens k r : key_of k "tokens=" -> pBat_ForIsSpecifier (k ++ r) = SPEC_TOKENS.
Proof. intros K. unfold pBat_ForIsSpecifier. kinds. reflexivity. Qed.
Lemma spec_eol k r : key_of k "eol=" -> pBat_ForIsSpecifier (k ++ r) = SPEC_EOL.
Proof. intros K. unfold pBat_ForIsSpecifier. repeat kinds. reflexivity. Qed.
Lemma spec_delims k r : key_of k "delims=" -> pBat_ForIsSpecifier (k ++ r) = SPEC_DELIMS.
Proof. intros K. unfold pBat_ForIsSpecifier. repeat kinds. reflexivity. Qed.
Lemma spec_skip k r : key_of k "skip=" -> pBat_ForIsSpecifier (k ++ r) = SPEC_SKIP.
Proof. intros K. unfold pBat_ForIsSpecifier. repeat kinds. reflexivity. Qed.
Lemma spec_backq k r : key_of k "usebackq" -> (r = [] \/ exists t, r = " "%char :: t) -> pBat_ForIsSpecifier (k ++ r) = SPEC_USEBACKQ.
Proof.
  intros K R. unfold pBat_ForIsSpecifier. repeat kinds. cbn [andb].
  assert (S8 : skipn 8 (k ++ r) = r).
  { pose proof (key_len _ _ K) as L. change (length (s2l "usebackq")) with 8 in L. rewrite <- L, skipn_app, skipn_all, Nat.sub_diag. reflexivity. }
  rewrite S8. destruct R as [-> |(t & ->)]; reflexivity.
Qed.
Lemma spec_iff s : is_spec s = true <-> opt_start s.
Proof.
  unfold is_spec, opt_start. split.
  - unfold pBat_ForIsSpecifier. intros H.
    destruct (strnicmp s (s2l "tokens=") 7 =? 0)%Z eqn:A.
    { apply (kw_iff "tokens=") in A; [|cbv; intuition discriminate|reflexivity]. destruct A as (k & r & A & B). exists k, r. tauto. }
    destruct (strnicmp s (s2l "eol=") 4 =? 0)%Z eqn:A2.
    { apply (kw_iff "eol=") in A2; [|cbv; intuition discriminate|reflexivity]. destruct A2 as (k & r & A2 & B). exists k, r. tauto. }
    destruct (strnicmp s (s2l "delims=") 7 =? 0)%Z eqn:A3.
    { apply (kw_iff "delims=") in A3; [|cbv; intuition discriminate|reflexivity]. destruct A3 as (k & r & A3 & B). exists k, r. tauto. }
    destruct (strnicmp s (s2l "skip=") 5 =? 0)%Z eqn:A4.
    { apply (kw_iff "skip=") in A4; [|cbv; intuition discriminate|reflexivity]. destruct A4 as (k & r & A4 & B). exists k, r. tauto. }
    destruct (strnicmp s (s2l "usebackq") 8 =? 0)%Z eqn:A5; [|discriminate].
    apply (kw_iff "usebackq") in A5; [|cbv; intuition discriminate|reflexivity]. destruct A5 as (k & r & -> & B). exists k, r. split; auto.
    repeat right. split; auto. cbn [andb] in H.
    assert (S8 : skipn 8 (k ++ r) = r).
    { pose proof (key_len _ _ B) as L. change (length (s2l "usebackq")) with 8 in L. rewrite <- L, skipn_app, skipn_all, Nat.sub_diag. reflexivity. }
    rewrite S8 in H. destruct r as [|c r]; auto. destruct (ceq c " "%char) eqn:C; [|discriminate]. apply ceq_true in C. subst. eauto.
  - intros (k & r & -> & [K|[K|[K|[K|[K R]]]]]).
    + rewrite spec_tokens; auto.
    + rewrite spec_delims; auto.
    + rewrite spec_eol; auto.
    + rewrite spec_skip; auto.
    + rewrite spec_backq; auto.
Qed.

(** Where the next option is. *)
Fixpoint first_spec (s : cstr) : cstr :=
  match s with c :: r => if ceq c " "%char && is_spec r then s else first_spec r | [] => [] end.

Lemma key_first k name c t : key_of k name -> s2l name = c :: t -> exists c' t', k = c' :: t' /\ tolower c' = c.
Proof. unfold key_of. intros K E. rewrite E in K. destruct k as [|c' t']; [discriminate|]. injection K as K _. eauto. Qed.
Lemma spec_space s : is_spec (" "%char :: s) = false.
Proof.
  reflexivity.
Qed.
Lemma spec_nil : is_spec [] = false.
Proof. reflexivity. Qed.

Lemma to_space_ok s : exists a, (to_space s = [] /\ first_spec s = []) \/
  (exists r, to_space s = " "%char :: r /\ s = a ++ " "%char :: r /\ first_spec s = first_spec (" "%char :: r)).
Proof.
  unfold to_space, strchr. induction s as [|c s IH].
  - exists []. left. auto.
  - cbn [find_idx]. destruct (ceq c " "%char) eqn:C.
    + apply ceq_true in C. subst c. cbn [skipn]. clear IH. induction s as [|d s IH].
      * exists []. right. exists []. auto.
      * cbn [last_space]. destruct (ceq d " "%char) eqn:D.
        -- apply ceq_true in D. subst d. destruct IH as (a & [[X _]|(r & X & Y & Z0)]).
           ++ exfalso. clear -X. induction s as [|e s IH]; [discriminate|]. cbn [last_space] in X. destruct (ceq e " "%char) eqn:E; [|discriminate]. apply ceq_true in E. subst. auto.
           ++ exists (" "%char :: a). right. exists r. split; [exact X|]. split; [simpl; congruence|].
              cbn [first_spec]. rewrite spec_space, andb_false_r. exact Z0.
        -- exists []. right. exists (d :: s). auto.
    + destruct (find_idx (fun x => ceq x " "%char) s) as [k|] eqn:F.
      * cbn [skipn]. destruct IH as (a & [[X Y]|(r & X & Y & Z0)]).
        -- exists a. left. split; auto. cbn [first_spec]. rewrite C. auto.
        -- exists (c :: a). right. exists r. split; auto. split; [simpl; congruence|]. cbn [first_spec]. rewrite C. auto.
      * exists []. left. split; auto. destruct IH as (a & [[X Y]|(r & X & _)]); [|discriminate]. cbn [first_spec]. rewrite C. auto.
Qed.

Lemma to_spec_ok : forall f s, length s <= f -> to_spec (S f) (to_space s) = Ret (first_spec s).
Proof.
  induction f as [|f IH]; intros s L; cbn [to_spec]; destruct (to_space_ok s) as (a & [[X Y]|(r & X & Y & Z0)]); rewrite X.
  - rewrite Y. reflexivity.
  - exfalso. subst s. rewrite app_length in L. simpl in L. lia.
  - rewrite Y. reflexivity.
  - rewrite Z0. cbn [first_spec]. rewrite ceq_refl. cbn [andb]. destruct (is_spec r) eqn:E; [reflexivity|].
    apply IH. subst s. rewrite app_length in L. simpl in L. lia.
Qed.

Lemma opt_start_cut b t : opt_start (b ++ " "%char :: t) -> opt_start b.
Proof.
  intros (k & r & E & H).
  assert (N : ~ In " "%char k).
  { intros I. apply (in_map tolower) in I. change (tolower " "%char) with " "%char in I. destruct H as [K|[K|[K|[K|[K _]]]]]; unfold key_of in K; rewrite K in I; cbv in I; intuition discriminate. }
  assert (Q : exists r', b = k ++ r' /\ (r = r' ++ " "%char :: t)).
  { clear H. revert b E. induction k as [|c k IH]; intros b E; [exists b; auto|].
    destruct b as [|c' b]; [injection E as <- _; exfalso; apply N; simpl; auto|].
    injection E as -> E. destruct (IH ltac:(simpl in N; tauto) b E) as (r' & -> & ->). exists r'. auto. }
  destruct Q as (r' & -> & ->). exists k, r'. split; auto.
  destruct H as [K|[K|[K|[K|[K R]]]]]; try tauto. repeat right. split; auto.
  destruct r' as [|c r']; auto. right. destruct R as [R|(u & R)]; [discriminate|]. injection R as -> R. eauto.
Qed.

Lemma calm_first v t : calm v -> opt_start t -> first_spec (v ++ " "%char :: t) = " "%char :: t.
Proof.
  intros C T. apply spec_iff in T. induction v as [|c v IH]; cbn [app first_spec].
  - rewrite ceq_refl, T. reflexivity.
  - destruct (ceq c " "%char && is_spec (v ++ " "%char :: t)) eqn:E.
    + exfalso. apply andb_true_iff in E. destruct E as [E1 E2]. apply ceq_true in E1. subst c. apply spec_iff, opt_start_cut in E2.
      exact (C [] v eq_refl E2).
    + apply IH. intros a b E'. apply (C (c :: a)). simpl. congruence.
Qed.
Lemma calm_none v : calm v -> first_spec v = [].
Proof.
  intros C. induction v as [|c v IH]; auto. cbn [first_spec].
  destruct (ceq c " "%char && is_spec v) eqn:E.
  - exfalso. apply andb_true_iff in E. destruct E as [E1 E2]. apply ceq_true in E1. subst c. apply spec_iff in E2. exact (C [] v eq_refl E2).
  - apply IH. intros a b E'. apply (C (c :: a)). simpl. congruence.
Qed.
Lemma key_no_space k name : key_of k name -> ~ In " "%char (s2l name) -> ~ In " "%char k.
Proof. intros K N I. apply N. unfold key_of in K. rewrite <- K. apply (in_map tolower) in I. exact I. Qed.
Lemma calm_key k name v : key_of k name -> ~ In " "%char (s2l name) -> calm v -> calm (k ++ v).
Proof.
  intros K N C. pose proof (key_no_space k name K N) as N'. clear K. intros a b E. revert a E. induction k as [|c k IH]; intros a E; [exact (C a b E)|].
  destruct a as [|c' a]; [injection E as -> _; exfalso; apply N'; simpl; auto|]. injection E as <- E. simpl in N'. apply (IH ltac:(tauto) a E).
Qed.
Lemma calm_nospace v : ~ In " "%char v -> calm v.
Proof. intros N a b ->. exfalso. apply N, in_or_app. simpl. auto. Qed.
Lemma first_nospace a t : ~ In " "%char a -> to_space (a ++ " "%char :: t) = last_space (" "%char :: t).
Proof.
  intros N. unfold to_space, strchr. induction a as [|c a IH].
  - cbn [app find_idx]. rewrite ceq_refl. reflexivity.
  - cbn [app find_idx]. destruct (ceq c " "%char) eqn:C; [apply ceq_true in C; subst; exfalso; apply N; simpl; auto|].
    destruct (find_idx _ (a ++ _)); [|apply IH; simpl in N; tauto]. cbn [skipn]. apply IH. simpl in N. tauto.
Qed.
Lemma to_space_none a : ~ In " "%char a -> to_space a = [].
Proof.
  intros N. unfold to_space, strchr. induction a as [|c a IH]; auto. cbn [find_idx].
  destruct (ceq c " "%char) eqn:C; [apply ceq_true in C; subst; exfalso; apply N; simpl; auto|].
  destruct (find_idx _ a); auto. cbn [skipn]. apply IH. simpl in N. tauto.
Qed.

Lemma numeral_nospace b n : numeral b n -> ~ In " "%char b.
Proof.
  assert (H : forall base s v, digits base s v -> ~ In " "%char s).
  { intros base s v (ns & F & _) I. clear v. induction F as [|c n0 s ns D F IH]; [contradiction|]. destruct I as [-> |I]; auto.
    apply dig_iff in D. destruct D as [D1 D2]. vm_compute in D1. subst n0. lia. }
  intros [c s v _ D|s v D|x s v X _ D] I.
  - apply H in D. auto.
  - destruct I as [I|I]; [discriminate|]. apply H in D. auto.
  - destruct I as [I|[I|I]]; [discriminate| |apply H in D; auto]. subst x. cbv in X. intuition discriminate.
Qed.

Definition opt_spec (o : opt) : spec :=
  match o with OTokens _ => SPEC_TOKENS | ODelims _ => SPEC_DELIMS | OEol _ => SPEC_EOL | OSkip _ => SPEC_SKIP | OBackq => SPEC_USEBACKQ end.
Inductive after_opt : cstr -> cstr -> Prop :=
| ao_end : after_opt [] []
| ao_more t : opt_start t -> after_opt (" "%char :: t) t.

Lemma opt_text_start s o r : opt_text s o -> (r = [] \/ exists t, r = " "%char :: t) -> opt_start (s ++ r).
Proof.
  intros H R. unfold opt_start. destruct H as [k v l K _ _ _ _ _|k v K _ _|k v K _ _|k v n K _ _|k K]; rewrite <- ?app_assoc; eauto 12.
Qed.

Lemma valued k name v r t ty : key_of k name -> ~ In " "%char (s2l name) -> calm v -> after_opt r t -> s2l name <> [] ->
  pBat_ForIsSpecifier ((k ++ v) ++ r) = ty -> ty <> SPEC_INVALID -> ty <> SPEC_USEBACKQ ->
  pBat_ForGetSpecifier ((k ++ v) ++ r) = Ret (Some (ty, k ++ v, t)).
Proof.
  intros K N C R Nn T T1 T2. pose proof (calm_key k name v K N C) as C'.
  unfold pBat_ForGetSpecifier.
  assert (E : exists c s, (k ++ v) ++ r = c :: s).
  { destruct k as [|c k]; [|simpl; eauto]. exfalso. apply Nn. unfold key_of in K. simpl in K. auto. }
  destruct E as (c & s & E). rewrite E, <- E, T.
  assert (X : to_spec (S (length ((k ++ v) ++ r))) (to_space ((k ++ v) ++ r)) = Ret r).
  { rewrite to_spec_ok by auto. f_equal. destruct R as [|t O]; [rewrite app_nil_r; apply calm_none; auto|apply calm_first; auto]. }
  destruct ty; try congruence; rewrite X; cbn [bind]; rewrite firstn_suffix; destruct R; reflexivity.
Qed.

Lemma get_opt s o r t : opt_text s o -> after_opt r t ->
  pBat_ForGetSpecifier (s ++ r) = Ret (Some (opt_spec o, s, t)).
Proof.
  intros H R. destruct H as [k v l K C _ _ _ _|k v K C _|k v K C _|k v n K V _|k K]; cbn [opt_spec].
  - apply (valued k "tokens="); auto; try (cbv; intuition discriminate). rewrite <- app_assoc. apply spec_tokens; auto.
  - apply (valued k "delims="); auto; try (cbv; intuition discriminate). rewrite <- app_assoc. apply spec_delims; auto.
  - apply (valued k "eol="); auto; try (cbv; intuition discriminate). rewrite <- app_assoc. apply spec_eol; auto.
  - apply (valued k "skip="); auto; try (cbv; intuition discriminate).
    + apply calm_nospace, (numeral_nospace v n); auto.
    + rewrite <- app_assoc. apply spec_skip; auto.
  - pose proof (key_no_space k "usebackq" K ltac:(cbv; intuition discriminate)) as N.
    unfold pBat_ForGetSpecifier. rewrite spec_backq; auto.
    2:{ destruct R; eauto. }
    assert (E : exists c s, k ++ r = c :: s).
    { destruct k as [|c k]; [discriminate K|simpl; eauto]. }
    destruct E as (c & s & E). rewrite E, <- E. cbn [bind].
    assert (X : to_space (k ++ r) = r).
    { destruct R as [|t O]; [rewrite app_nil_r; apply to_space_none; auto|]. rewrite first_nospace by auto.
      destruct t as [|d t]; [reflexivity|]. cbn [last_space]. destruct (ceq d " "%char) eqn:D; auto.
      apply ceq_true in D. subst d. apply spec_iff in O. rewrite spec_space in O. discriminate. }
    rewrite X, firstn_suffix. destruct R; reflexivity.
Qed.

(** The options against what they ask for. *)
Definition holds (k : asked) (first : ascii) (info : forinfo) : Prop :=
  fi_delims info = k_delims k /\ fi_eol info = k_eol k /\ fi_skip info = k_skip k /\ fi_backq info = k_backq k /\ fi_first info = first /\
  fi_nb info = length (asked_ranges k) /\
  fi_tokens info = store (65537%Z :: repeat 0%Z 95) 0 (asked_ranges k) /\ Forall pair_ok (asked_ranges k) /\ length (asked_ranges k) <= 96.

Lemma opts_start s l : opts_text s l -> opt_start s.
Proof.
  intros [s' o H|s' o t l' H _].
  - rewrite <- (app_nil_r s'). apply (opt_text_start _ o); auto.
  - apply (opt_text_start _ o); eauto.
Qed.

Lemma skip_key k name v : key_of k name -> skipn (length (s2l name)) (k ++ v) = v.
Proof. intros K. rewrite <- (key_len k name K), skipn_app, skipn_all, Nat.sub_diag. reflexivity. Qed.

Lemma value_nonneg base ns : (0 <= base)%Z -> Forall (fun n => (0 <= n)%Z) ns -> forall a, (0 <= a)%Z -> (0 <= fold_left (fun a n => a * base + n)%Z ns a)%Z.
Proof. intros B. induction 1; intros a A; simpl; auto. apply IHForall. nia. Qed.
Lemma digits_nonneg base s v : (0 <= base)%Z -> digits base s v -> (0 <= v)%Z.
Proof.
  intros B (ns & F & _ & ->). apply value_nonneg; [auto| |lia]. clear B. induction F as [|c n s ns D F IH]; constructor; auto.
  apply dig_iff in D. destruct D as [D1 D2]. subst n.
  pose proof (ascii_forall (fun c => (0 <=? digit_val c)%Z) eq_refl c) as X. cbv beta in X. lia.
Qed.
Lemma numeral_nonneg b n : numeral b n -> (0 <= n)%Z.
Proof. intros [c s v _ D|s v D|x s v _ _ D]; (eapply digits_nonneg; [|exact D]; lia). Qed.

Lemma make_info_step f s o r t k first info : opt_text s o -> after_opt r t -> holds k first info -> (is_tokens o = true -> k_items k = None) ->
  exists info', make_info (S f) (s ++ r) info = make_info f t info' /\ holds (ask k o) first info'.
Proof.
  intros H R (H1 & H2 & H3 & H4 & H5 & H6 & H7 & H8 & H9) Once. cbn [make_info]. rewrite (get_opt s o r t H R). cbn [bind].
  destruct H as [q v l K C T O A L|q v K C L|q v K C L|q v n K V L|q K]; cbn [opt_spec ask].
  - change 7 with (length (s2l "tokens=")). rewrite (skip_key _ _ v K), (make_tokens_ok v l info T O A).
    destruct (Nat.ltb_spec 96 (length (ranges 0 l))); [lia|]. cbn [bind]. eexists. split; [reflexivity|].
    specialize (Once eq_refl). unfold holds. unfold asked_ranges in H7. rewrite Once in H7. rewrite H7.
    assert (RO : Forall pair_ok (ranges 0 l)) by (apply ranges_ok; auto; lia).
    unfold asked_ranges. cbn [k_items k_delims k_eol k_skip k_backq fi_delims fi_eol fi_skip fi_backq fi_first fi_nb fi_tokens].
    repeat (split; [auto|]). auto.
  - change 7 with (length (s2l "delims=")). rewrite (skip_key _ _ v K), (firstn_all2 v) by auto.
    eexists. split; [reflexivity|]. unfold holds, asked_ranges in *. cbn [k_items k_delims k_eol k_skip k_backq fi_delims fi_eol fi_skip fi_backq fi_first fi_nb fi_tokens]. rewrite H2. repeat (split; [auto|]). auto.
  - change 4 with (length (s2l "eol=")). rewrite (skip_key _ _ v K), (firstn_all2 v) by auto.
    eexists. split; [reflexivity|]. unfold holds, asked_ranges in *. cbn [k_items k_delims k_eol k_skip k_backq fi_delims fi_eol fi_skip fi_backq fi_first fi_nb fi_tokens]. repeat (split; [auto|]). auto.
  - change 5 with (length (s2l "skip=")). rewrite (skip_key _ _ v K).
    eexists. split; [reflexivity|]. unfold holds, asked_ranges in *. cbn [k_items k_delims k_eol k_skip k_backq fi_delims fi_eol fi_skip fi_backq fi_first fi_nb fi_tokens]. split; [auto|]. split; [auto|]. split; [|repeat (split; [auto|]); auto].
    pose proof (numeral_nonneg v n V) as P. destruct (strtol_num v n [] V ltac:(lia) I) as [E _]. rewrite app_nil_r in E. rewrite E. cbn [fst].
    apply to_int_id. unfold INT_MIN, INT_MAX. lia.
  - eexists. split; [reflexivity|]. unfold holds, asked_ranges in *. cbn [k_items k_delims k_eol k_skip k_backq fi_delims fi_eol fi_skip fi_backq fi_first fi_nb fi_tokens]. repeat (split; [auto|]). auto.
Qed.

Lemma make_info_ok s l : opts_text s l -> forall f k first info, holds k first info -> tokens_once l -> (k_items k <> None -> filter is_tokens l = []) ->
  length s < f -> exists info', make_info f s info = Ret (inr info') /\ holds (fold_left ask l k) first info'.
Proof.
  induction 1 as [s o H|s o t l H Hs IH]; intros f k first info Hk On Ex L.
  - destruct f as [|[|f]]; [lia| |].
    { exfalso. assert (0 < length s); [|lia]. destruct (opts_start s [o]) as (q & r & -> & Q); [constructor; auto|].
      rewrite app_length. destruct Q as [Q|[Q|[Q|[Q|[Q _]]]]]; apply key_len in Q; rewrite Q; simpl; lia. }
    destruct (make_info_step (S f) s o [] [] k first info H) as (info' & E & Hk'); auto; [constructor| |].
    { intros T. destruct (k_items k); auto. exfalso. specialize (Ex ltac:(discriminate)). simpl in Ex. rewrite T in Ex. discriminate. }
    rewrite app_nil_r in E. exists info'. split; auto.
  - destruct f as [|f]; [lia|].
    destruct (make_info_step f s o (" "%char :: t) t k first info H) as (info' & E & Hk'); auto.
    { constructor. apply (opts_start t l); auto. }
    { intros T. destruct (k_items k); auto. exfalso. specialize (Ex ltac:(discriminate)). simpl in Ex. rewrite T in Ex. discriminate. }
    rewrite E. cbn [fold_left]. apply IH; auto.
    + unfold tokens_once in *. simpl in On. destruct (is_tokens o); simpl in On; lia.
    + intros Q. unfold tokens_once in On. simpl in On, Ex. destruct (is_tokens o) eqn:T.
      * simpl in On. destruct (filter is_tokens l); auto. simpl in On. lia.
      * apply Ex. destruct o; try discriminate; exact Q.
    + rewrite app_length in L. simpl in L. lia.
Qed.

Lemma holds_default c : holds default c (mkFI (fi_delims forInfo) (fi_eol forInfo) 0 c false 1 (fi_tokens forInfo)).
Proof.
  unfold holds, asked_ranges. cbn. repeat (split; [reflexivity|]). split; [|lia]. repeat constructor; cbn; lia.
Qed.

Lemma for_options s l c line ws tail b : opts_text s l -> tokens_once l -> (33 <= code c <= 127)%Z ->
  let k := fold_left ask l default in
  splits (k_delims k) line ws tail ->
  exists info b', pBat_ForMakeInfo s (start_info c) = Ret (inr info) /\
    fi_delims info = k_delims k /\ fi_eol info = k_eol k /\ fi_skip info = k_skip k /\ fi_backq info = k_backq k /\
    fi_first info = c /\ fi_nb info = length (asked_ranges k) /\
    pBat_ForSplitTokens line info b = Ret b' /\
    (forall j n m, nth_error (code_ranges (asked_ranges k)) j = Some (n, m) -> (j = 0 -> length (asked_ranges k) <= 95) ->
       b' (var_name c j) = Some (pick ws tail (Z.to_nat n) (Z.to_nat m))) /\
    (forall x, (forall j, j < length (asked_ranges k) -> x <> var_name c j) -> b' x = b x).
Proof.
  intros T On C k Sp.
  destruct (make_info_ok s l T (S (length s)) default c (start_info c) (holds_default c) On) as (info & E & H1 & H2 & H3 & H4 & H5 & H6 & H7 & H8 & H9); auto.
  { intros X. exfalso. apply X. reflexivity. }
  fold k in H1, H2, H3, H4, H6, H7, H8, H9.
  destruct (split_all (asked_ranges k) info line ws tail b H8 H9 H6 H7) as (b' & F1 & F2 & F3); [rewrite H5; auto|rewrite H1; auto|].
  rewrite H5 in F2, F3. exists info, b'. repeat (split; [auto|]). auto.
Qed.

Lemma bad_options s info : s <> [] -> ~ opt_start s -> pBat_ForMakeInfo s info = Ret (inl 4%Z).
Proof.
  intros N H. unfold pBat_ForMakeInfo. cbn [make_info]. unfold pBat_ForGetSpecifier.
  assert (E : pBat_ForIsSpecifier s = SPEC_INVALID).
  { destruct (is_spec s) eqn:X; [apply spec_iff in X; tauto|]. unfold is_spec in X. destruct (pBat_ForIsSpecifier s); auto; discriminate. }
  rewrite E. destruct s; [congruence|]. reflexivity.
Qed.

Lemma calm_test v : first_spec v = [] -> calm v.
Proof.
  intros H a b -> O. apply spec_iff in O. induction a as [|c a IH]; cbn [app first_spec] in H.
  - rewrite ceq_refl, O in H. discriminate.
  - destruct (ceq c " "%char && is_spec (a ++ " "%char :: b)); [discriminate|auto].
Qed.
