(** Wc_Spec.v -- what WC counts, and what it prints. *)

From Verif Require Import Base Num_Model Path_Model Var_Model Expand_Model Params_Spec Wc_Model.

(** What comes out of a file or of the standard input: the texts that the successive
    reads give, until one gives nothing or fails. *)
Definition reads_as (rs : list (option cstr)) (s : cstr) : Prop :=
  exists parts rest, rs = map Some parts ++ rest /\ Forall (fun p => p <> []) parts /\ concat parts = s /\
    match rest with Some (_ :: _) :: _ => False | _ => True end.

(** The characters of a text, in UTF-8: a character is a byte that is not 10xxxxxx,
    followed by bytes that are. *)
Definition cont (c : ascii) : Prop := (128 <= code c < 192)%Z.
Inductive characters : cstr -> nat -> Prop :=
| chs_end : characters [] 0
| chs_next c t s n : ~ cont c -> Forall cont t -> characters s n -> characters (c :: t ++ s) (S n).

(** The words of a text: [n] words each followed by a separator, and what remains
    behind the last separator that follows a word, without the separators before it. *)
Definition separator (c : ascii) : Prop := In c (s2l " ,.;" ++ ["009"%char; "010"%char; "013"%char]).
Inductive words_of : cstr -> nat -> cstr -> Prop :=
| wo_last a u : Forall separator a -> Forall (fun c => ~ separator c) u -> words_of (a ++ u) 0 u
| wo_word a u d s n l :
    Forall separator a -> u <> [] -> Forall (fun c => ~ separator c) u -> separator d ->
    words_of s n l -> words_of (a ++ u ++ d :: s) (S n) l.

(** [measures s k n]: text [s] has [n] of the things that [k] counts -- except that a
    last word without a separator behind it is not counted. *)
Inductive measures (s : cstr) : wckind -> nat -> Prop :=
| ms_lines : measures s WLines (count_occ ascii_dec s nl)
| ms_bytes : measures s WBytes (length s)
| ms_chars a t n : s = a ++ t -> Forall cont a -> characters t n -> measures s WChars n
| ms_words n l : words_of s n l -> measures s WWords n.

(** The sum over several texts. *)
Definition sums (texts : list cstr) (k : wckind) (n : nat) : Prop :=
  exists ns, Forall2 (fun s n => measures s k n) texts ns /\ n = list_sum ns.

(** A count as it is printed, and the counts that were asked for, in this order. *)
Definition printed (n : nat) : cstr := udec (Z.of_nat n mod 2 ^ 64) ++ [" "%char].
Inductive counts (asked : wckind -> Prop) (m : wckind -> nat -> Prop) : list wckind -> cstr -> Prop :=
| cts_end : counts asked m [] []
| cts_asked k ks n s : asked k -> m k n -> counts asked m ks s -> counts asked m (k :: ks) (printed n ++ s)
| cts_skip k ks s : ~ asked k -> counts asked m ks s -> counts asked m (k :: ks) s.
Definition row (asked : wckind -> Prop) (m : wckind -> nat -> Prop) (name s : cstr) : Prop :=
  exists c, counts asked m [WLines; WWords; WBytes; WChars] c /\ s = c ++ name ++ [nl].

(** Options. *)
Inductive asks : cstr -> wckind -> Prop :=
| ask_lines c : In c (s2l "Ll") -> asks ["/"%char; c] WLines
| ask_bytes c : In c (s2l "Cc") -> asks ["/"%char; c] WBytes
| ask_chars c : In c (s2l "Mm") -> asks ["/"%char; c] WChars
| ask_words c : In c (s2l "Ww") -> asks ["/"%char; c] WWords.
Definition asked (ps : list cstr) (k : wckind) : Prop := exists p, In p ps /\ asks p k.
(** Without options, the bytes of the files are counted. *)
Definition asked_files (ps : list cstr) (k : wckind) : Prop :=
  asked ps k \/ (forall j, ~ asked ps j) /\ k = WBytes.
(** A parameter that is not an option names files. *)
Definition optional (p : cstr) : Prop := exists c, p = ["/"%char; c].
Definition rooted (p : cstr) : Prop := exists r, p = "/"%char :: r /\ forall q, r <> "/"%char :: q.
Definition known (cd p : cstr) (f : wfile) (shown : cstr) : Prop :=
  rooted p /\ wf_name f = shown \/ ~ rooted p /\ wf_name f = cd ++ "/"%char :: shown.
Inductive named (search : cstr -> list wfile) (cd : cstr) : list cstr -> list (cstr * wfile) -> Prop :=
| nm_end : named search cd [] []
| nm_option p k ps l : asks p k -> named search cd ps l -> named search cd (p :: ps) l
| nm_files p here ps l :
    ~ optional p -> here <> [] -> Forall2 (fun f h => snd h = f /\ known cd p f (fst h)) (search p) here ->
    named search cd ps l -> named search cd (p :: ps) (here ++ l).

(** What the files contain, [None] for a file that cannot be opened. *)
Definition gives (h : cstr * wfile) (c : option cstr) : Prop :=
  match c with
  | Some s => exists rs, wf_reads (snd h) = Some rs /\ reads_as rs s
  | None => wf_reads (snd h) = None
  end.
Definition texts (cs : list (option cstr)) : list cstr := flat_map (fun c => match c with Some s => [s] | None => [] end) cs.
(** The counts by name. *)
Definition field (k : wckind) (n : wc_count_t) : Z :=
  match k with WLines => lines n | WWords => words n | WBytes => bytes n | WChars => chars n end.
