(** ForTok_Spec.v -- which parts of a line FOR /F gives to its variables. *)

From Verif Require Import Base If_Spec.

(** ** Words *)

(** A line as words, each after the delimiters that precede it, and the delimiters
    that end it.  Only the first word may come without delimiters before it. *)
Definition gap (d g : cstr) : Prop := Forall (fun c => In c d) g.
Definition word (d w : cstr) : Prop := w <> [] /\ Forall (fun c => ~ In c d) w.
Inductive more_words (d : cstr) : list (cstr * cstr) -> Prop :=
| mw_nil : more_words d []
| mw_cons g w r : g <> [] -> gap d g -> word d w -> more_words d r -> more_words d ((g, w) :: r).
Inductive words (d : cstr) : list (cstr * cstr) -> Prop :=
| wd_nil : words d []
| wd_cons g w r : gap d g -> word d w -> more_words d r -> words d ((g, w) :: r).
Definition flat (ws : list (cstr * cstr)) : cstr := concat (map (fun p => fst p ++ snd p) ws).
Definition splits (d line : cstr) (ws : list (cstr * cstr)) (tail : cstr) : Prop :=
  words d ws /\ gap d tail /\ line = flat ws ++ tail.

(** From the word [b] to the word [e], counted from 1: up to the end of the line, its
    last delimiters included, when the line has less than [e] words. *)
Definition pick (ws : list (cstr * cstr)) (tail : cstr) (b e : nat) : cstr :=
  match skipn (b - 1) ws with
  | [] => []
  | (_, w) :: r => if e <? b then []
                   else if length ws <? e then w ++ flat r ++ tail
                   else w ++ flat (firstn (e - b) r)
  end.

(** ** Token specifications *)

(** [n], [n-m], [n.m], [n.*], [n*] and [*]. *)
Inductive item := TOne (n : Z) | TList (n m : Z) | TCat (n m : Z) | TFrom (n : Z) | TOneAll (n : Z) | TAll.
Definition all : Z := 65535.

(** Blanks allowed between the parts. *)
Definition pad (s : cstr) : Prop := Forall (fun c => c = " "%char \/ c = "009"%char) s.
(** A number written in decimal, or with the prefixes 0 and 0x. *)
Definition padded (s : cstr) (n : Z) : Prop := exists p q b, s = p ++ b ++ q /\ pad p /\ pad q /\ numeral b n.
Inductive item_text : cstr -> item -> Prop :=
| it_one s n : padded s n -> item_text s (TOne n)
| it_list s t n m : padded s n -> padded t m -> item_text (s ++ "-"%char :: t) (TList n m)
| it_cat s t n m : padded s n -> padded t m -> item_text (s ++ "."%char :: t) (TCat n m)
| it_from s p q n : padded s n -> pad p -> pad q -> item_text (s ++ "."%char :: p ++ "*"%char :: q) (TFrom n)
| it_oneall s q n : padded s n -> pad q -> item_text (s ++ "*"%char :: q) (TOneAll n)
| it_all p q : pad p -> pad q -> item_text (p ++ "*"%char :: q) TAll.
Inductive tokens_text : cstr -> list item -> Prop :=
| tt_one s i : item_text s i -> tokens_text s [i]
| tt_more s i t l : item_text s i -> tokens_text t l -> tokens_text (s ++ ","%char :: t) (i :: l).

(** The words that the items ask for, one pair for each variable, and the last word
    they mention, after which [*] starts. *)
Fixpoint upto (k : nat) (n : Z) : list (Z * Z) :=
  match k with O => [] | S k' => (n, n) :: upto k' (n + 1) end.
Definition item_ranges (last : Z) (i : item) : list (Z * Z) :=
  match i with
  | TOne n => [(n, n)]
  | TList n m => upto (Z.to_nat (m - n + 1)) n
  | TCat n m => [(n, m)]
  | TFrom n => [(n, all)]
  | TOneAll n => [(n, n); ((n + 1)%Z, all)]
  | TAll => [((last + 1)%Z, all)]
  end.
Definition item_last (i : item) : Z :=
  match i with TOne n => n | TList _ m | TCat _ m => m | _ => all end.
Fixpoint ranges (last : Z) (l : list item) : list (Z * Z) :=
  match l with [] => [] | i :: r => item_ranges last i ++ ranges (item_last i) r end.

(** The numbers that mean something; the first words of ranges are limited to 32767. *)
Definition item_ok (i : item) : Prop :=
  match i with
  | TOne n | TFrom n => (1 <= n <= 32767)%Z
  | TOneAll n => (1 <= n < 32767)%Z
  | TList n m => (1 <= n <= 32767 /\ 1 <= m <= 32767)%Z
  | TCat n m => (1 <= n <= 32767 /\ 1 <= m <= 65535)%Z
  | TAll => True
  end.
(** [*] not after an item that goes to the end already; nor first after 32767. *)
Fixpoint all_ok (last : Z) (l : list item) : Prop :=
  match l with
  | [] => True
  | i :: r => (i = TAll -> (last < 32767)%Z) /\ all_ok (item_last i) r
  end.

(** What the code makes of the first pair: even numbers become the next ones. *)
Definition odd_up (n : Z) : Z := if Z.even n then (n + 1)%Z else n.
Definition code_ranges (l : list (Z * Z)) : list (Z * Z) :=
  match l with (n, m) :: r => (odd_up n, odd_up m) :: r | [] => [] end.

(** ** Variables *)

(** The variables used from [c] on: the following characters, up to DEL, then from '!'. *)
Definition var_name (c : ascii) (i : nat) : ascii :=
  ascii_of_N (Z.to_N (33 + (code c - 33 + Z.of_nat i) mod 95)).

(** ** Options *)

(** The text [s] starts an option: one of the four with a value, or [usebackq] on its own. *)
Definition key_of (k : cstr) (name : string) : Prop := map tolower k = s2l name.
Definition opt_start (s : cstr) : Prop :=
  exists k r, s = k ++ r /\
    (key_of k "tokens=" \/ key_of k "delims=" \/ key_of k "eol=" \/ key_of k "skip=" \/
     key_of k "usebackq" /\ (r = [] \/ exists t, r = " "%char :: t)).
(** Values in which no option starts after a space. *)
Definition calm (v : cstr) : Prop := forall a b, v = a ++ " "%char :: b -> ~ opt_start b.

Inductive opt := OTokens (l : list item) | ODelims (d : cstr) | OEol (e : cstr) | OSkip (n : Z) | OBackq.
Inductive opt_text : cstr -> opt -> Prop :=
| ot_tokens k v l : key_of k "tokens=" -> calm v -> tokens_text v l -> Forall item_ok l -> all_ok 0 l -> length (ranges 0 l) <= 96 ->
    opt_text (k ++ v) (OTokens l)
| ot_delims k v : key_of k "delims=" -> calm v -> length v <= 4095 -> opt_text (k ++ v) (ODelims v)
| ot_eol k v : key_of k "eol=" -> calm v -> length v <= 4095 -> opt_text (k ++ v) (OEol v)
| ot_skip k v n : key_of k "skip=" -> numeral v n -> (n <= 2147483647)%Z -> opt_text (k ++ v) (OSkip n)
| ot_backq k : key_of k "usebackq" -> opt_text k OBackq.
Inductive opts_text : cstr -> list opt -> Prop :=
| os_one s o : opt_text s o -> opts_text s [o]
| os_more s o t l : opt_text s o -> opts_text t l -> opts_text (s ++ " "%char :: t) (o :: l).

(** What the options ask for. *)
Record asked := mkAsked { k_delims : cstr; k_eol : cstr; k_skip : Z; k_backq : bool; k_items : option (list item) }.
Definition default : asked := mkAsked (" "%char :: ["009"%char]) (s2l ";") 0 false None.
(** The semicolon stops starting comments when it becomes a delimiter. *)
Definition ask (k : asked) (o : opt) : asked :=
  match o with
  | OTokens l => mkAsked (k_delims k) (k_eol k) (k_skip k) (k_backq k) (Some l)
  | ODelims d => mkAsked d (if inset d ";"%char && streqb (k_eol k) (s2l ";") then [] else k_eol k) (k_skip k) (k_backq k) (k_items k)
  | OEol e => mkAsked (k_delims k) e (k_skip k) (k_backq k) (k_items k)
  | OSkip n => mkAsked (k_delims k) (k_eol k) n (k_backq k) (k_items k)
  | OBackq => mkAsked (k_delims k) (k_eol k) (k_skip k) true (k_items k)
  end.
(** Without [tokens=], the first word. *)
Definition asked_ranges (k : asked) : list (Z * Z) :=
  match k_items k with Some l => ranges 0 l | None => [(1, 1)%Z] end.
Definition is_tokens (o : opt) : bool := match o with OTokens _ => true | _ => false end.
Definition tokens_once (l : list opt) : Prop := length (filter is_tokens l) <= 1.
