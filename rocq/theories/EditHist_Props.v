(** EditHist_Props.v -- C86: the lines of before can be found again. *)

From Verif Require Import Base Edit_Model Edit_Spec Edit_Proofs Edit_Props.

(** A line that can be typed as it is *)
Definition typeable (comb : Z -> bool) (room : nat) (line : cstr) : Prop :=
  exists cs, text comb cs /\ bytes cs = line /\ Forall (fun c => exists cp, encodes c cp /\ ~ control cp /\ cp <> 0%Z) cs /\ length line <= room.
(** A line that can be shown again *)
Definition showable (comb : Z -> bool) (room : nat) (line : cstr) : Prop :=
  exists cs, text comb cs /\ bytes cs = line /\ nonul line /\ length line < room.
(** The lines that are read one after the other *)
Inductive reads (comb : Z -> bool) (buflen max : nat) : list cstr -> cstr -> list cstr -> list cstr -> cstr -> Prop :=
| rd_nil h inp : reads comb buflen max h inp [] h inp
| rd_cons h inp l h1 inp1 ls h2 inp2 : pBat_LineNoise comb buflen max h inp = Ret (Some l, h1, inp1) -> reads comb buflen max h1 inp1 ls h2 inp2 -> reads comb buflen max h inp (l :: ls) h2 inp2.

Lemma typing comb room o x cs : forall l, text comb l \/ l = [] -> text comb (l ++ cs) -> Forall (fun c => exists cp, encodes c cp /\ ~ control cp /\ cp <> 0%Z) cs -> length (bytes (l ++ cs)) <= room ->
  types comb room (map Type_ cs) (bytes cs) (At o x l [] []) (At o x (l ++ cs) [] []).
Proof.
  induction cs as [|c cs IH]; intros l Tl T F L; [rewrite app_nil_r; constructor|]. inversion F as [|? ? (cp & E & C & Z) F']; subst. cbn [map concat]. eapply ty_cons; [eapply se_type; eauto| |].
  - eapply d_type; eauto.
    + destruct l as [|b l]; [right|left; discriminate]. apply text_iff in T. destruct T as [_ St]. exact St.
    + rewrite !concat_app, !app_length in *. cbn [concat length] in *. rewrite app_length in *. cbn [length]. lia.
  - replace (l ++ c :: cs) with ((l ++ [c]) ++ cs) in * by (rewrite <- app_assoc; reflexivity). apply IH; auto. left. eapply text_pre; eauto.
Qed.
Lemma enter comb buflen max past line rest : 0 < max -> length past <= max -> typeable comb buflen line ->
  pBat_LineNoise comb buflen max (rev past) (line ++ "013"%char :: rest) = Ret (Some line, rev (remember (seen max past) line), rest).
Proof.
  intros M L (cs & T & E & F & Lc). subst line. pose proof (C85_edit comb buflen max past (map Type_ cs) (bytes cs) rest (seen max past) [] cs [] [] M L) as K.
  rewrite app_nil_r in K. apply K. apply (typing comb buflen _ _ cs []); auto.
Qed.

Lemma distinct_first l : match distinct l with [] => True | x :: _ => x <> [] end.
Proof. induction l as [|[|c s] l IH]; cbn [distinct]; auto. destruct (distinct l) as [|y r]; [discriminate|]. destruct (streqb y (c :: s)); [auto|discriminate]. Qed.
(** How many of the lines are there still *)
Definition holds (max : nat) (past D : list cstr) : Prop := exists k, found past = firstn k D /\ (max - 1 <= k \/ length D <= k).
Lemma found_open max past : exists k, (seen max past) = firstn k (found past) /\ (max - 1 <= k \/ length (found past) <= k).
Proof. unfold seen. destruct past as [|[|c s] p]; cbn [found]; [exists (max - 1); auto|exists (length p); rewrite firstn_all; auto|exists (max - 1); auto]. Qed.
Lemma holds_enter max past D line : holds max past (distinct D) -> holds max (remember (seen max past) line) (distinct (line :: D)).
Proof.
  intros (k & E & K). destruct (found_open max past) as (j & Ej & J). rewrite Ej, E, firstn_firstn. clear Ej.
  assert (I : max - 1 <= min j k \/ length (distinct D) <= min j k). { rewrite E, firstn_length in J. lia. }
  set (i := min j k) in *. clearbody i. clear E J K j k. pose proof (distinct_first D) as N. unfold holds. destruct line as [|c s].
  - cbn [distinct]. exists i. split; [|auto]. destruct (firstn i (distinct D)) as [|p q] eqn:Ef; [reflexivity|]. cbn [remember]. destruct (streqb p []) eqn:Es; [|reflexivity].
    apply streqb_true in Es. subst p. destruct (distinct D) as [|y r]; [destruct i; discriminate|]. destruct i; [discriminate|]. injection Ef as -> _. congruence.
  - cbn [distinct]. destruct (distinct D) as [|y r].
    + rewrite firstn_nil. exists 1. split; [reflexivity|right; cbn; lia].
    + destruct i as [|i]; [cbn [firstn remember]|cbn [firstn remember]].
      * exists 1. assert (max - 1 <= 0) by (destruct I as [I|I]; [lia|cbn in I; lia]). destruct (streqb y (c :: s)) eqn:Es; [apply streqb_true in Es; subst|]; split; auto; lia.
      * destruct (streqb y (c :: s)) eqn:Es; [exists (S i)|exists (S (S i))]; (split; [destruct y; [congruence|reflexivity]|cbn [length] in *; lia]).
Qed.

(** Lines that are entered one after the other are read as they were typed, and the last 99 of
    them, at least, are found again, if none is counted that was empty or that was the same as the
    one before; there are never more than 100. *)
Theorem C86_history : forall comb buflen max lines rest, 0 < max -> Forall (typeable comb buflen) lines ->
  exists h, reads comb buflen max [] (flat_map (fun l => l ++ ["013"%char]) lines ++ rest) lines h rest /\ length h <= max /\
    exists k, found (rev h) = firstn k (distinct (rev lines)) /\ (max - 1 <= k \/ length (distinct (rev lines)) <= k).
Proof.
  intros comb buflen max lines rest M F.
  assert (G : forall done past, length past <= max -> holds max past (distinct (rev done)) -> exists p, reads comb buflen max (rev past) (flat_map (fun l => l ++ ["013"%char]) lines ++ rest) lines (rev p) rest /\ length p <= max /\ holds max p (distinct (rev (done ++ lines)))).
  { induction F as [|l ls Tl F IH]; intros done past L H; [exists past; rewrite app_nil_r; split; [constructor|auto]|].
    set (q := remember (seen max past) l). destruct (IH (done ++ [l]) q) as (p & R & Lp & Hp).
    - subst q. pose proof (opened_len max past M L) as O. unfold opened, lines_at in O. cbn [length] in O. set (o := seen max past) in *. clearbody o. destruct o as [|y o]; cbn [remember length] in *; [lia|]. destruct (streqb y l); cbn [length]; lia.
    - rewrite rev_app_distr. cbn [rev app]. apply holds_enter. auto.
    - exists p. split; [|rewrite <- app_assoc in Hp; auto]. cbn [flat_map]. rewrite <- !app_assoc. cbn [app]. eapply rd_cons; [apply enter; auto|exact R]. }
  destruct (G [] []) as (p & R & L & H); [cbn; lia|exists 0; split; [reflexivity|right; cbn; lia]|]. exists (rev p). rewrite rev_length, rev_involutive. auto.
Qed.
Print Assumptions C86_history.

Lemma ups comb room k : forall o x l r n p, nth_error o k = Some p -> Forall (showable comb room) (firstn (S k) o) ->
  exists cs, text comb cs /\ bytes cs = p /\ types comb room (repeat Up (S k)) (repeat "016"%char (S k)) (At o x l r n) (At (skipn (S k) o) p cs [] (rev (firstn k o) ++ bytes (l ++ r) :: n)).
Proof.
  induction k as [|k IH]; intros o x l r n p N F; (destruct o as [|q o]; [discriminate|]); cbn [firstn] in F; inversion F as [|? ? (cs & T & E & Nn & L) F']; subst.
  - injection N as <-. exists cs. split; [auto|]. split; [auto|]. cbn [repeat firstn rev app skipn]. apply (ty_cons _ _ Up ["016"%char] _ (At o (bytes cs) cs [] (bytes (l ++ r) :: n)) [] []); [constructor|constructor; auto|constructor].
  - cbn [nth_error] in N. destruct (IH o (bytes cs) cs [] (bytes (l ++ r) :: n) p N F') as (cs' & T' & E' & Ty). exists cs'. split; [auto|]. split; [auto|].
    change (repeat Up (S (S k))) with (Up :: repeat Up (S k)). change (repeat "016"%char (S (S k))) with (["016"%char] ++ repeat "016"%char (S k)). eapply ty_cons; [constructor|apply (d_up _ _ _ _ _ _ _ _ cs); auto|].
    rewrite app_nil_r in Ty. change (rev (firstn (S k) (bytes cs :: o))) with (rev (firstn k o) ++ [bytes cs]). rewrite <- app_assoc. exact Ty.
Qed.
Lemma cut_at k : forall (o : list cstr) p, nth_error o k = Some p -> firstn k o ++ p :: skipn (S k) o = o.
Proof. induction k as [|k IH]; intros [|y o] p N; try discriminate; [injection N as ->; reflexivity|]. cbn [firstn app]. f_equal. apply IH. exact N. Qed.
Lemma others_snoc o x l r n y : others (At o x l r (n ++ [y])) = rev n ++ x :: o.
Proof. destruct n as [|z n]; [reflexivity|]. change (tl (rev ((z :: n) ++ [y])) ++ x :: o = rev (z :: n) ++ x :: o). rewrite tl_rev, removelast_last. reflexivity. Qed.
(** The line that was entered as the [k]-th before is found by pressing the key [k] times, and the
    lines that are remembered are the same. *)
Theorem C86_recall : forall comb buflen max past k p rest, 0 < max -> length past <= max ->
  let seen := seen max past in nth_error seen k = Some p -> Forall (showable comb buflen) (firstn (S k) seen) ->
  pBat_LineNoise comb buflen max (rev past) (repeat "016"%char (S k) ++ "013"%char :: rest) = Ret (Some p, rev (remember seen p), rest).
Proof.
  intros comb buflen max past k p rest M L seen N F. destruct (ups comb buflen k seen [] [] [] [] p N F) as (cs & T & E & Ty).
  pose proof (C85_edit comb buflen max past _ _ rest _ _ _ _ _ M L Ty) as K. rewrite app_nil_r, E in K. rewrite K. do 4 f_equal.
  rewrite others_snoc, rev_involutive, cut_at; auto.
Qed.
Print Assumptions C86_recall.

Lemma first_more k : forall (o : list cstr) q, In q (firstn k o) -> In q (firstn (S k) o).
Proof. induction k as [|k IH]; intros [|y o] q I; try (destruct I; fail). destruct I as [I|I]; [left; auto|right; apply IH; auto]. Qed.
Lemma downs comb room : forall n o x l r t cs, Forall (showable comb room) n -> text comb cs -> bytes cs = t -> nonul t -> length t < room ->
  types comb room (repeat Down (S (length n))) (repeat "014"%char (S (length n))) (At o x l r (n ++ [t])) (At (rev n ++ bytes (l ++ r) :: o) t cs [] []).
Proof.
  induction n as [|q n IH]; intros o x l r t cs F T E Nn L.
  - cbn [length repeat app rev]. apply (ty_cons _ _ Down ["014"%char] _ (At (bytes (l ++ r) :: o) t cs [] []) [] []); [constructor|constructor; auto|constructor].
  - inversion F as [|? ? (cq & Tq & Eq & Nq & Lq) F']; subst. cbn [length app]. change (repeat Down (S (S (length n)))) with (Down :: repeat Down (S (length n))). change (repeat "014"%char (S (S (length n)))) with (["014"%char] ++ repeat "014"%char (S (length n))).
    eapply ty_cons; [constructor|apply (d_down _ _ _ _ _ _ _ _ cq); auto|]. cbn [rev]. rewrite <- app_assoc. cbn [app]. replace (bytes cq) with (bytes (cq ++ [])) at 2 by (rewrite app_nil_r; reflexivity). apply IH; auto.
Qed.
Lemma types_app comb room ks bs s s' ks' bs' s'' : types comb room ks bs s s' -> types comb room ks' bs' s' s'' -> types comb room (ks ++ ks') (bs ++ bs') s s''.
Proof. induction 1; intros T; [auto|]. rewrite <- app_comm_cons, <- app_assoc. eapply ty_cons; eauto. Qed.
(** To look at older lines and to come back changes nothing: what was typed is there again. *)
Theorem C86_back : forall comb buflen max past line k rest, 0 < max -> length past <= max ->
  let seen := seen max past in k < length seen -> Forall (showable comb buflen) (firstn (S k) seen) ->
  typeable comb buflen line -> length line < buflen ->
  pBat_LineNoise comb buflen max (rev past) (line ++ repeat "016"%char (S k) ++ repeat "014"%char (S k) ++ "013"%char :: rest) = pBat_LineNoise comb buflen max (rev past) (line ++ "013"%char :: rest).
Proof.
  intros comb buflen max past line k rest M L seen Lk F Ty Ll. rewrite enter by auto. destruct Ty as (cs & T & E & Fc & Lc). fold seen.
  assert (Nl : nonul line).
  { subst line. clear -Fc. induction Fc as [|c cs (cp & E & _ & Z) F IH]; [intros []|]. cbn [concat]. apply nonul_app. split; [|auto]. intros I. destruct E; cbn in I; repeat (destruct I as [I|I]; [subst; change (code "000") with 0%Z in *; lia|]); destruct I. }
  assert (T1 := typing comb buflen seen [] cs [] (or_intror eq_refl) T Fc ltac:(cbn [app]; rewrite E; exact Lc)). cbn [app] in T1. rewrite E in T1.
  destruct (nth_error seen k) as [p|] eqn:N; [|apply nth_error_None in N; lia]. destruct (ups comb buflen k seen [] cs [] [] p N F) as (cp & Tp & Ep & T2). rewrite app_nil_r, E in T2.
  assert (Fk : Forall (showable comb buflen) (rev (firstn k seen))).
  { apply Forall_rev. rewrite Forall_forall in *. intros q I. apply F. apply first_more. auto. }
  assert (T3 := downs comb buflen (rev (firstn k seen)) (skipn (S k) seen) p cp [] line cs Fk T E Nl Ll). rewrite rev_length, firstn_length_le in T3 by lia. rewrite app_nil_r, Ep, rev_involutive in T3.
  assert (Es : firstn k seen ++ p :: skipn (S k) seen = seen).
  { apply cut_at. auto. }
  pose proof (eq_ind _ (fun z => types comb buflen (repeat Down (S k)) (repeat "014"%char (S k)) (At (skipn (S k) seen) p cp [] (rev (firstn k seen) ++ [line])) (At z line cs [] [])) T3 _ Es) as T3'. cbv beta in T3'. pose proof (types_app _ _ _ _ _ _ _ _ _ T1 (types_app _ _ _ _ _ _ _ _ _ T2 T3')) as T4.
  pose proof (C85_edit comb buflen max past _ _ rest _ _ _ _ _ M L T4) as K. rewrite app_nil_r, E in K. rewrite <- !app_assoc in K. rewrite K. reflexivity.
Qed.
Print Assumptions C86_back.

(** A line that fills the buffer loses its last byte when it is shown again. *)
Theorem C86_cut_refuted : exists line h', length line = 4095 /\ pBat_LineNoise comb0 4095 100 [line] ["016"; "013"]%char = Ret (Some (removelast line), h', []) .
Proof. exists (repeat "a"%char (Z.to_nat 4095)). eexists. split; vm_compute; reflexivity. Qed.
Print Assumptions C86_cut_refuted.
(** A line that was given up by CTRL+C is remembered, if an older line was looked at. *)
Theorem C86_cancel_refuted : line_noise ["dir"%string] [inl "FORMAT"; inr 16; inr 3]%string = Ret (None, ["dir"; "FORMAT"], 0)%string.
Proof. vm_compute. reflexivity. Qed.
Print Assumptions C86_cancel_refuted.
(** What is typed while an older line is shown changes it. *)
Theorem C86_edited_refuted : line_noise ["dir"%string] [inr 16; inl "x"; inr 14; inl "cls"; inr 13]%string = Ret (Some "cls", ["dirx"; "cls"], 0)%string.
Proof. vm_compute. reflexivity. Qed.
Print Assumptions C86_edited_refuted.

(** The hypotheses hold. *)
Lemma ascii_typeable comb room s : (forall z, (z < 128)%Z -> comb z = false) -> Forall (fun c => (32 <= code c < 127)%Z) s -> length s <= room -> typeable comb room s.
Proof.
  intros C F L. exists (map (fun c => [c]) s). assert (E : bytes (map (fun c => [c]) s) = s) by (clear; induction s; cbn; congruence). split; [|split; [auto|split; [|auto]]].
  - exists (map (fun c => [[c]]) s). split; [|clear; induction s as [|c s IH]; [reflexivity|]; cbn [map concat app]; f_equal; exact IH]. apply Forall_map. eapply Forall_impl; [|exact F]. cbv beta; intros c K. exists [c], []. repeat split; auto. exists (code c). split; [apply enc1; lia|apply C; lia].
  - apply Forall_map. eapply Forall_impl; [|exact F]. cbv beta; intros c K. exists (code c). split; [apply enc1; lia|]. split; [|lia]. intros I. unfold control in I. cbn in I. repeat (destruct I as [I|I]; [lia|]). destruct I.
Qed.
Example C86_ex :
  Forall (typeable comb0 4095) [s2l "dir"; s2l "dir"; []; s2l "cd x"; s2l "dir"] /\
  distinct (rev [s2l "dir"; s2l "dir"; []; s2l "cd x"; s2l "dir"]) = [s2l "dir"; s2l "cd x"; s2l "dir"] /\
  Forall (showable comb0 4095) [s2l "dir"; s2l "cd x"] /\
  line_noise ["dir"; "cd x"; "dir"]%string [inl "cl"; inr 16; inr 16; inr 14; inr 14; inl "s"; inr 13]%string = Ret (Some "cls", ["dir"; "cd x"; "dir"; "cls"], 0)%string /\
  line_noise ["dir"; "cd x"; "dir"]%string [inr 16; inr 16; inr 13]%string = Ret (Some "cd x", ["dir"; "cd x"; "dir"; "cd x"], 0)%string.
Proof.
  assert (C : forall z, (z < 128)%Z -> comb0 z = false) by (intros z Z; unfold comb0; destruct (768 <=? z)%Z eqn:E; [apply Z.leb_le in E; lia|reflexivity]).
  assert (A : forall s : string, forallb (fun c => (32 <=? code c) && (code c <? 127))%Z (s2l s) = true -> length (s2l s) <=? 10 = true -> typeable comb0 4095 (s2l s)).
  { intros s B L. apply ascii_typeable; auto; [|apply Nat.leb_le in L; lia]. rewrite forallb_forall in B. apply Forall_forall. intros c I. specialize (B c I). apply andb_prop in B. destruct B as [B1 B2]. apply Z.leb_le in B1. apply Z.ltb_lt in B2. auto. }
  split; [repeat constructor; try (apply (A "dir"%string); reflexivity); [apply (A ""%string)|apply (A "cd x"%string)]; reflexivity|]. split; [reflexivity|].
  split; [|split; vm_compute; reflexivity].
  assert (S1 : forall s : string, typeable comb0 4095 (s2l s) -> nonul (s2l s) -> length (s2l s) <=? 10 = true -> showable comb0 4095 (s2l s)) by (intros s (cs & T & E & _) N L; exists cs; repeat split; auto; apply Nat.leb_le in L; lia).
  repeat constructor; apply S1; try (apply A; reflexivity); try reflexivity; intros I; cbn in I; intuition discriminate.
Qed.
