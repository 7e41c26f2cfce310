(** Find_Spec.v -- what FIND prints. *)

From Verif Require Import Base Lex Num_Model Expand_Model Glob_Model.

(** A text contains another one, up to case for /I. *)
Definition contains (icase : bool) (text s : cstr) : Prop :=
  exists a m b, text = a ++ m ++ b /\ if icase then same_name m s else m = s.
(** The line without its end. *)
Definition chomped (line l : cstr) : Prop := line = l ++ [nl] \/ line = l /\ forall a, l <> a ++ [nl].

Record query := mkQ { q_number : bool; q_count : bool; q_icase : bool; q_expr : bool; q_not : bool; q_text : cstr }.
(** What the search looks for: lines that contain the text (no line contains the empty
    one), or for /E lines that the expression describes (C11 and C12 say which). *)
Definition found (q : query) (l : cstr) : Prop :=
  q_text q <> [] /\
  if q_expr q then (if q_icase q then pBat_RegExpCaseMatch true (q_text q) l else pBat_RegExpMatch true (q_text q) l) = Ret true
  else contains (q_icase q) l (q_text q).
Definition wanted (q : query) (l : cstr) : Prop := if q_not q then ~ found q l else found q l.
(** [picks q n ls r]: the lines of [ls] that are wanted, with their numbers; the first is [n]. *)
Inductive picks (q : query) : Z -> list cstr -> list (Z * cstr) -> Prop :=
| pk_nil n : picks q n [] []
| pk_take n line l ls r : chomped line l -> wanted q l -> picks q (n + 1) ls r -> picks q n (line :: ls) ((n, l) :: r)
| pk_skip n line l ls r : chomped line l -> ~ wanted q l -> picks q (n + 1) ls r -> picks q n (line :: ls) r.
Definition prints (q : query) (r : list (Z * cstr)) : cstr :=
  if q_count q then dec (Z.of_nat (length r)) ++ [nl]
  else flat_map (fun x => (if q_number q then "["%char :: dec (fst x) ++ s2l "]" else []) ++ snd x ++ [nl]) r.
(** [searches q ls level out]: the error level is 0 when something is found. *)
Definition searches (q : query) (ls : list cstr) (level : Z) (out : cstr) : Prop :=
  exists r, picks q 1 ls r /\ out = prints q r /\ level = match r with [] => 1%Z | _ => 0%Z end.

(** The parameters: options anywhere, the text, names of files.  [asks q ps q' names]:
    [q] is what was said before (no text yet), [ps] are the parameters that follow. *)
Definition opt (p : cstr) (o : cstr) : Prop := nonul p /\ same_name p o.
Definition options : list cstr := [s2l "/c"; s2l "/n"; s2l "/i"; s2l "/e"; s2l "/v"].
Definition plain (p : cstr) : Prop := nonul p /\ p <> s2l "/?" /\ forall o, In o options -> ~ same_name p o.
Definition option_of (q : query) (p : cstr) (q' : query) : Prop :=
  opt p (s2l "/c") /\ q' = mkQ false true (q_icase q) (q_expr q) (q_not q) (q_text q) \/
  opt p (s2l "/n") /\ q' = mkQ true false (q_icase q) (q_expr q) (q_not q) (q_text q) \/
  opt p (s2l "/i") /\ q' = mkQ (q_number q) (q_count q) true (q_expr q) (q_not q) (q_text q) \/
  opt p (s2l "/e") /\ q' = mkQ (q_number q) (q_count q) (q_icase q) true (q_not q) (q_text q) \/
  opt p (s2l "/v") /\ q' = mkQ (q_number q) (q_count q) (q_icase q) (q_expr q) true (q_text q).
Definition with_text (q : query) (t : cstr) : query := mkQ (q_number q) (q_count q) (q_icase q) (q_expr q) (q_not q) t.
Inductive asks_files : query -> list cstr -> query -> list cstr -> Prop :=
| af_nil q : asks_files q [] q []
| af_option q p q1 ps q' names : option_of q p q1 -> asks_files q1 ps q' names -> asks_files q (p :: ps) q' names
| af_name q p ps q' names : plain p -> asks_files q ps q' names -> asks_files q (p :: ps) q' (p :: names).
Inductive asks : query -> list cstr -> query -> list cstr -> Prop :=
| ask_option q p q1 ps q' names : option_of q p q1 -> asks q1 ps q' names -> asks q (p :: ps) q' names
| ask_text q p ps q' names : plain p -> asks_files (with_text q p) ps q' names -> asks q (p :: ps) q' names.
Definition nothing : query := mkQ false false false false false [].
(** Several files: the result for each one is printed under its name; the error level is 0
    when something is found in all of them. *)
Inductive reports (q : query) : list (cstr * list cstr) -> Z -> cstr -> Prop :=
| rp_nil : reports q [] 0 []
| rp_next name ls level out fs level' out' : searches q ls level out -> reports q fs level' out' ->
    reports q ((name, ls) :: fs) (if (level =? 0)%Z then level' else 1) (s2l "---------- " ++ name ++ [nl] ++ out ++ out').
