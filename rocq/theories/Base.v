(** Base.v -- bytes, C strings and outcomes shared by every model file.

    A C [char] is an [ascii]; a C string is the [list ascii] that precedes the
    terminating NUL, so "end of the list" stands for reading '\0'.  The Linux
    build of the code is modelled (WIN32 undefined). *)

From Coq Require Export String Ascii.
From Coq Require Export List Arith ZArith Lia Bool.
From Coq Require Export ZifyBool ZifyNat ZifyN.
Export ListNotations.
Open Scope list_scope.
Open Scope nat_scope.

Definition byte := ascii.
Definition cstr := list ascii.

(** Literal helper: [s2l "abc"] is the C string "abc". *)
Definition s2l (s : string) : cstr := list_ascii_of_string s.

(** Outcome of a modelled C function.  [Undef] is undefined behaviour
    (out-of-bounds access, use of uninitialised data, signed overflow, ...);
    [OutOfFuel] is a loop that has not finished within the given fuel. *)
Inductive outcome (A : Type) : Type :=
| Ret (a : A)
| Undef
| OutOfFuel.
Arguments Ret {A} a.
Arguments Undef {A}.
Arguments OutOfFuel {A}.

Definition bind {A B} (x : outcome A) (f : A -> outcome B) : outcome B :=
  match x with
  | Ret a => f a
  | Undef => Undef
  | OutOfFuel => OutOfFuel
  end.

Notation "'do' x <- e ; f" := (bind e (fun x => f))
  (at level 200, x pattern, e at level 100, f at level 200).

(** ** Characters *)

Definition caret : ascii := "^"%char.
Definition dquote : ascii := """"%char.
Definition tab : ascii := "009"%char.
Definition nl : ascii := "010"%char.
Definition cr : ascii := "013"%char.
Definition space : ascii := " "%char.

Definition ceq (a b : ascii) : bool := Ascii.eqb a b.
Definition code (c : ascii) : Z := Z.of_N (N_of_ascii c).

Lemma ceq_true a b : ceq a b = true <-> a = b.
Proof. unfold ceq. apply Ascii.eqb_eq. Qed.
Lemma ceq_false a b : ceq a b = false <-> a <> b.
Proof. unfold ceq. apply Ascii.eqb_neq. Qed.
Lemma ceq_refl a : ceq a a = true.
Proof. apply ceq_true; reflexivity. Qed.

(** [tolower]/[toupper] of <ctype.h> in the C locale. *)
Definition is_upper (c : ascii) : bool := (65 <=? code c)%Z && (code c <=? 90)%Z.
Definition is_lower (c : ascii) : bool := (97 <=? code c)%Z && (code c <=? 122)%Z.
Definition tolower (c : ascii) : ascii :=
  if is_upper c then ascii_of_N (N_of_ascii c + 32) else c.
Definition toupper (c : ascii) : ascii :=
  if is_lower c then ascii_of_N (N_of_ascii c - 32) else c.
Definition is_digit (c : ascii) : bool := (48 <=? code c)%Z && (code c <=? 57)%Z.

(** Membership test of a character in a C string of delimiters ([strchr] on a
    non NUL character, used through [strpbrk]). *)
Definition inset (set : cstr) (c : ascii) : bool := existsb (ceq c) set.

Lemma inset_In set c : inset set c = true <-> In c set.
Proof.
  unfold inset. rewrite existsb_exists. split.
  - intros [x [Hx He]]. apply ceq_true in He. subst; auto.
  - intros H. exists c. split; auto. apply ceq_refl.
Qed.

(** libpbat/libpBat.h:492-493, macro [pBat_IsDelim]. *)
Definition pBat_IsDelim (c : ascii) : bool :=
  ceq c space || ceq c tab || ceq c ","%char || ceq c ";"%char || ceq c nl.

(** ** C string functions *)

(** [find_idx p s]: index of the first character satisfying [p]; models both
    [strchr] (p = equality) and [strpbrk] (p = membership), returning an offset
    instead of a pointer and [None] for NULL. *)
Fixpoint find_idx (p : ascii -> bool) (s : cstr) : option nat :=
  match s with
  | [] => None
  | c :: r => if p c then Some 0
              else match find_idx p r with
                   | Some n => Some (S n)
                   | None => None
                   end
  end.

Definition strchr (s : cstr) (c : ascii) : option nat := find_idx (fun x => ceq x c) s.
Definition strpbrk (s set : cstr) : option nat := find_idx (inset set) s.

(** [prefixb p s]: [strncmp(s, p, strlen(p)) == 0]. *)
Fixpoint prefixb (p s : cstr) : bool :=
  match p, s with
  | [], _ => true
  | a :: p', b :: s' => ceq a b && prefixb p' s'
  | _ :: _, [] => false
  end.

(** [strstr]: offset of the first occurrence of [p] in [s] (the empty needle
    is found at offset 0). *)
Fixpoint strstr (s p : cstr) : option nat :=
  if prefixb p s then Some 0
  else match s with
       | [] => None
       | _ :: r => match strstr r p with
                   | Some n => Some (S n)
                   | None => None
                   end
       end.

Fixpoint streqb (a b : cstr) : bool :=
  match a, b with
  | [], [] => true
  | x :: a', y :: b' => ceq x y && streqb a' b'
  | _, _ => false
  end.

Lemma streqb_true a b : streqb a b = true <-> a = b.
Proof.
  revert b; induction a as [|x a IH]; intros [|y b]; simpl; split; intros H;
    try congruence; try reflexivity.
  - apply andb_true_iff in H as [H1 H2]. apply ceq_true in H1. apply IH in H2. congruence.
  - injection H as -> ->. rewrite ceq_refl. simpl. apply IH; reflexivity.
Qed.
Lemma streqb_false a b : streqb a b = false <-> a <> b.
Proof.
  destruct (streqb a b) eqn:E.
  - apply streqb_true in E. split; congruence.
  - split; auto. intros _ H. apply streqb_true in H. congruence.
Qed.
Lemma streqb_refl a : streqb a a = true.
Proof. apply streqb_true; reflexivity. Qed.

(** [strcasecmp] in the C locale: sign of the first difference after
    [tolower], end of string counting as 0. *)
Fixpoint stricmp (a b : cstr) : Z :=
  match a, b with
  | [], [] => 0
  | [], y :: _ => - code (tolower y)
  | x :: _, [] => code (tolower x)
  | x :: a', y :: b' =>
      if ceq (tolower x) (tolower y) then stricmp a' b'
      else code (tolower x) - code (tolower y)
  end%Z.

(** [strncasecmp]. *)
Fixpoint strnicmp (a b : cstr) (n : nat) : Z :=
  match n with
  | O => 0
  | S n' =>
    match a, b with
    | [], [] => 0
    | [], y :: _ => - code (tolower y)
    | x :: _, [] => code (tolower x)
    | x :: a', y :: b' =>
        if ceq (tolower x) (tolower y) then strnicmp a' b' n'
        else code (tolower x) - code (tolower y)
    end
  end%Z.

Definition lower (s : cstr) : cstr := map tolower s.

(** A C string contains no NUL. *)
Definition nonul (s : cstr) : Prop := ~ In "000"%char s.

(** ** Facts *)

Lemma code_range c : (0 <= code c <= 255)%Z.
Proof.
  unfold code. destruct c as [b0 b1 b2 b3 b4 b5 b6 b7].
  destruct b0, b1, b2, b3, b4, b5, b6, b7; vm_compute; split; discriminate.
Qed.

Lemma code_inj a b : code a = code b -> a = b.
Proof.
  unfold code. intros H. apply N2Z.inj in H.
  rewrite <- (ascii_N_embedding a), <- (ascii_N_embedding b). congruence.
Qed.

(** Lift a boolean check over the 256 characters. *)
Definition all_ascii : list ascii := map ascii_of_nat (seq 0 256).

Lemma all_ascii_In c : In c all_ascii.
Proof.
  unfold all_ascii. rewrite in_map_iff. exists (nat_of_ascii c).
  split; [apply ascii_nat_embedding|].
  apply in_seq. split; [lia|].
  simpl. pose proof (nat_ascii_bounded c). lia.
Qed.

Lemma ascii_forall (P : ascii -> bool) : forallb P all_ascii = true -> forall c, P c = true.
Proof. intros H c. rewrite forallb_forall in H. apply H, all_ascii_In. Qed.

Lemma tolower_idem c : tolower (tolower c) = tolower c.
Proof.
  apply ceq_true.
  revert c; apply (ascii_forall (fun c => ceq (tolower (tolower c)) (tolower c))).
  vm_compute; reflexivity.
Qed.

Lemma find_idx_Some p s n :
  find_idx p s = Some n ->
  exists c, nth_error s n = Some c /\ p c = true /\
            (forall m d, m < n -> nth_error s m = Some d -> p d = false).
Proof.
  revert n; induction s as [|c s IH]; simpl; intros n H; [discriminate|].
  destruct (p c) eqn:Ec.
  - injection H as <-. exists c. repeat split; auto. intros; lia.
  - destruct (find_idx p s) as [k|] eqn:Ek; [|discriminate].
    injection H as <-. destruct (IH k eq_refl) as (d & H1 & H2 & H3).
    exists d. repeat split; auto. intros [|m] e Hm He; simpl in He.
    + congruence.
    + apply (H3 m e); auto; lia.
Qed.

Lemma find_idx_None p s :
  find_idx p s = None <-> forall c, In c s -> p c = false.
Proof.
  induction s as [|c s IH]; simpl; [split; auto; intros; contradiction|].
  destruct (p c) eqn:Ec.
  - split; [discriminate|]. intros H. specialize (H c (or_introl eq_refl)). congruence.
  - destruct (find_idx p s) eqn:Ek.
    + split; [discriminate|]. intros H. exfalso.
      assert (Hn : Some n = None) by (apply IH; auto). discriminate.
    + split; auto. intros _ d [->|Hd]; auto. apply IH; auto.
Qed.

Lemma find_idx_lt p s n : find_idx p s = Some n -> n < length s.
Proof.
  intros H. apply find_idx_Some in H as (c & H & _).
  apply nth_error_Some. congruence.
Qed.

Lemma prefixb_spec p s : prefixb p s = true <-> exists t, s = p ++ t.
Proof.
  revert s; induction p as [|a p IH]; intros s; simpl.
  - split; eauto.
  - destruct s as [|b s]; [split; [discriminate|intros [t H]; discriminate]|].
    rewrite andb_true_iff, ceq_true, IH. split.
    + intros [-> [t ->]]. eauto.
    + intros [t H]. injection H as -> ->. eauto.
Qed.
