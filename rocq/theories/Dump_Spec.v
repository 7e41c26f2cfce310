(** Dump_Spec.v -- what dump shows of files. *)

From Verif Require Import Base.

(** *** Numbers *)
Definition digit_of (base : Z) (c : ascii) (d : Z) : Prop :=
  exists n, nth_error (s2l "0123456789abcdef") n = Some c /\ d = Z.of_nat n /\ (d < base)%Z.
(** [spells base s z]: [s] is the number [z], perhaps with zeros in front. *)
Inductive spells (base : Z) : cstr -> Z -> Prop :=
| sp_one c d : digit_of base c d -> spells base [c] d
| sp_more s z c d : spells base s z -> digit_of base c d -> spells base (s ++ [c]) (z * base + d).
(** The number with these bytes, the lowest first *)
Fixpoint unsigned_of (l : cstr) : Z := match l with [] => 0%Z | c :: r => (unsigned_of r * 256 + code c)%Z end.
Definition number_of (signed : bool) (l : cstr) : Z :=
  let z := unsigned_of l in
  if signed && (2 ^ (8 * Z.of_nat (length l)) <=? 2 * z)%Z then (z - 2 ^ (8 * Z.of_nat (length l)))%Z else z.

(** *** The types of numbers: name, bytes, with sign or not, characters of the longest number *)
Definition int_types : list (string * nat * bool * nat) :=
  [("c", 1, true, 4); ("uc", 1, false, 3); ("s", 2, true, 6); ("us", 2, false, 5); ("i", 4, true, 11); ("ui", 4, false, 10); ("ll", 8, true, 20)]%string.
(** [shows hex signed bytes width t l]: the text [t] is the number with the bytes [l]; in decimal with a sign, or in
    hexadecimal without, and always as long. *)
Definition shows (hex signed : bool) (bytes width : nat) (t l : cstr) : Prop :=
  if hex then spells 16 t (unsigned_of l) /\ length t = 2 * bytes
  else length t = width /\ let z := number_of signed l in
       ((0 <= z)%Z /\ spells 10 t z \/ (z < 0)%Z /\ exists u, t = "-"%char :: u /\ spells 10 u (- z)).
(** Negative numbers of one or two bytes in hexadecimal are another matter. *)
Definition plain (hex signed : bool) (bytes : nat) (l : cstr) : Prop := hex = true -> signed = true -> bytes < 4 -> (0 <= number_of signed l)%Z.

(** *** Rows *)
(** The bytes of [b], and zeros so that there are whole elements *)
Definition pads (bytes : nat) (b d : cstr) : Prop :=
  exists j, d = b ++ repeat "000"%char j /\ j < bytes /\ exists k, length d = k * bytes.
(** [parts bytes d l]: [l] are the elements of [d]. *)
Definition parts (bytes : nat) (d : cstr) (l : list cstr) : Prop := concat l = d /\ Forall (fun e => length e = bytes) l.
Definition address (z : Z) (t : cstr) : Prop :=
  if (z =? 0)%Z then t = s2l "(nil)" else exists h, t = s2l "0x" ++ h /\ spells 16 h z.
(** Characters of ASCII as they are, others as a dot *)
Definition visible (c : ascii) : ascii := if (32 <=? code c)%Z && (code c <? 128)%Z then c else "."%char.
(** As many elements in a row as 80 columns have place for *)
Definition per_row (hex : bool) (bytes width : nat) : nat := 63 / ((if hex then 2 * bytes else width) + 1 + bytes).
(** [row_of hex signed bytes width addr d chars out]: the line [out] shows the bytes [d] from the address [addr] on, and the characters [chars]. *)
Definition row_of (hex signed : bool) (bytes width : nat) (addr : Z) (d chars out : cstr) : Prop :=
  exists a l ts, address addr a /\ parts bytes d l /\ Forall2 (shows hex signed bytes width) ts l /\
    out = a ++ " "%char :: concat (map (fun t => t ++ [" "%char]) ts) ++
          repeat " "%char ((per_row hex bytes width - length l) * ((if hex then 2 * bytes else width) + 1)) ++ chars ++ ["010"%char].
(** [rows_of ... addr ds outs]: the lines for whole rows *)
Inductive rows_of (hex signed : bool) (bytes width : nat) : Z -> list cstr -> list cstr -> Prop :=
| ro_nil addr : rows_of hex signed bytes width addr [] []
| ro_cons addr d ds o os : row_of hex signed bytes width addr d (map visible d) o ->
    rows_of hex signed bytes width (addr + Z.of_nat (per_row hex bytes width * bytes)) ds os -> rows_of hex signed bytes width addr (d :: ds) (o :: os).
(** Whole rows that have only plain elements *)
Definition whole (hex signed : bool) (bytes width : nat) (d : cstr) : Prop :=
  length d = per_row hex bytes width * bytes /\ forall l, parts bytes d l -> Forall (plain hex signed bytes) l.

(** *** Files *)
(** What reading gives, row by row: whole rows, and perhaps a shorter one; a row before the shorter one. *)
Inductive readable (hex signed : bool) (bytes width : nat) : list cstr -> Prop :=
| rb_full full : Forall (whole hex signed bytes width) full -> readable hex signed bytes width full
| rb_last full b d : Forall (whole hex signed bytes width) full -> pads bytes b d -> b <> [] ->
    length d <= per_row hex bytes width * bytes -> (forall l, parts bytes d l -> Forall (plain hex signed bytes) l) ->
    full <> [] \/ length d = per_row hex bytes width * bytes -> readable hex signed bytes width (full ++ [b]).
(** Lines for the rows.  Behind the characters of a shorter row come a dot and what the row before had at these places. *)
Inductive dumped (hex signed : bool) (bytes width : nat) : list cstr -> cstr -> Prop :=
| du_full full os : rows_of hex signed bytes width 0 full os -> dumped hex signed bytes width full (concat os)
| du_last full b d os o after : rows_of hex signed bytes width 0 full os -> pads bytes b d -> b <> [] ->
    after = (if length d =? per_row hex bytes width * bytes then [] else "."%char :: skipn (S (length d)) (map visible (last full []))) ->
    row_of hex signed bytes width (Z.of_nat (length full * (per_row hex bytes width * bytes))) d (map visible d ++ after) o ->
    dumped hex signed bytes width (full ++ [b]) (concat os ++ o).

(** *** Arguments *)
(** Options, the last one wins. *)
Inductive options : list cstr -> string -> bool -> Prop :=
| op_none : options [] "c" false
| op_type l t h a x k : options l t h -> map tolower a = s2l "/t" ++ map tolower x \/ map tolower a = s2l "/t:" ++ map tolower x ->
    In k (map (fun e => fst (fst (fst e))) int_types) -> map tolower x = s2l k -> options (l ++ [a]) k h
| op_hex l t h a : options l t h -> map tolower a = s2l "/h" -> options (l ++ [a]) t true.
(** Names of files that cannot be taken for options *)
Definition file_name (f : cstr) : Prop := forall c r, f = "/"%char :: c :: r -> ~ In c (s2l "tTbBhH?").
Definition title (f : cstr) : cstr := f ++ s2l " -----------------" ++ ["010"%char].
