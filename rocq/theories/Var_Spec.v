(** Var_Spec.v -- what a variable reference stands for. *)

From Verif Require Import Base Env_Model Var_Model.

(** A UTF-8 character: a first byte and the continuation bytes (10xxxxxx) after
    it. *)
Definition continuation (c : ascii) : Prop := (128 <= code c < 192)%Z.
Definition u8char (x : cstr) : Prop :=
  exists c r, x = c :: r /\ ~ continuation c /\ Forall continuation r.

(** [cs] are the characters of [s]. *)
Definition u8chars (s : cstr) (cs : list cstr) : Prop := s = concat cs /\ Forall u8char cs.

(** The documented substring (man/en_US/spec/exp.tea:87-106) of a value of
    characters [cs]: it starts at character [b], from the end if [b] is
    negative, and has [l] characters, or stops [-l] characters before the end if
    [l] is not positive.  [Some] only if both ends lie in the value. *)
Definition sub_start (n b : Z) : Z := if (b <? 0)%Z then (n + b)%Z else b.
Definition sub_stop (n b l : Z) : Z := if (0 <? l)%Z then (sub_start n b + l)%Z else (n + l)%Z.
Definition doc_slice (cs : list cstr) (b l : Z) : option cstr :=
  let n := Z.of_nat (length cs) in
  let i := sub_start n b in
  let j := sub_stop n b l in
  if (0 <=? i)%Z && (i <=? j)%Z && (j <=? n)%Z
  then Some (concat (firstn (Z.to_nat (j - i)) (skipn (Z.to_nat i) cs)))
  else None.

(** The combination the code does not accept: a start counted from the end, a
    length counted from the start, and fewer than [l] characters before the
    start. *)
Definition cut_exception (cs : list cstr) (b l : Z) : bool :=
  (b <? 0)%Z && (0 <? l)%Z && (Z.of_nat (length cs) + b <? l)%Z.

(** What is really given. *)
Definition cut_result (cs : list cstr) (b l : Z) : cstr :=
  if cut_exception cs b l then [] else
  match doc_slice cs b l with Some t => t | None => [] end.

(** Numbers for which no [int] overflows. *)
Definition cut_fits (cs : list cstr) (b l : Z) : Prop :=
  let n := Z.of_nat (length cs) in
  (-2147483648 <= b <= 2147483647)%Z /\ (-2147483648 < l <= 2147483647)%Z /\
  (n <= 2147483647)%Z /\ (sub_start n b + l <= 2147483647)%Z.

(** Names with a meaning of their own. *)
Definition dynamic_names : list cstr :=
  map s2l ["CD"; "ERRORLEVEL"; "=EXITCODEASCII"; "RANDOM"; "DATE"; "TIME"]%string.
Definition dynamic (n : cstr) : Prop := exists d, In d dynamic_names /\ map tolower n = map tolower d.

(** Every value stored is a C string. *)
Definition values_ok (w : vworld) : Prop :=
  nonul (vw_cd w) /\ nonul (vw_date w) /\ nonul (vw_time w) /\ Forall (fun v => nonul (v_content v)) (e_buf (vw_env w)).
