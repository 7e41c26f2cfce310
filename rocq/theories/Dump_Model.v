(** Dump_Model.v -- model of the tool dump (dump/dump.c), on x86-64: chars are signed, ints have
    32 bits, numbers are little-endian; dump.h is what dump_h_gen.c prints there.  The files, what
    read() gives, and printf of floating point numbers are variables.  Messages are left out.  The
    flags that /B sets cannot be had (see [dump_args]), so addresses, title, chars and spaces are always
    there. *)

From Verif Require Import Base.

(** dump.c:47-56 *)
Definition DUMP_CHAR : nat := 0.
Definition DUMP_UCHAR : nat := 1.
Definition DUMP_SHORT : nat := 2.
Definition DUMP_USHORT : nat := 3.
Definition DUMP_INT : nat := 4.
Definition DUMP_UINT : nat := 5.
Definition DUMP_LONGLONG : nat := 5.
Definition DUMP_ULONGLONG : nat := 6.
Definition DUMP_FLOAT : nat := 7.
Definition DUMP_DOUBLE : nat := 8.

(** dump.c:68-90 [GET_CAST]: how an element is read, by the number of the type *)
Inductive elem := EInt (signed : bool) (bytes : nat) | EFloat | EDouble | ENothing.
Definition cast (type : nat) : elem :=
  if type =? DUMP_CHAR then EInt true 1
  else if type =? DUMP_UCHAR then EInt false 1
  else if type =? DUMP_SHORT then EInt true 2
  else if type =? DUMP_USHORT then EInt false 2
  else if type =? DUMP_INT then EInt true 4
  else if type =? DUMP_UINT then EInt false 4
  else if type =? DUMP_LONGLONG then EInt true 8
  else if type =? DUMP_ULONGLONG then EInt false 8
  else if type =? DUMP_FLOAT then EFloat
  else if type =? DUMP_DOUBLE then EDouble
  else ENothing.
Definition elem_size (e : elem) : nat := match e with EInt _ k => k | EFloat => 4 | EDouble => 8 | ENothing => 0 end.

(** dump.c:101-108, 125-137 [types]; dump_h_gen.c:26-56 *)
Inductive conv := D | U | X | LLD | LLU | LLX | G9 | G17.
Record dtype := mkT { d_name : cstr; d_size : nat; d_max : cstr; d_min : cstr; d_hex : conv; d_dec : conv }.
Definition types : list dtype :=
  [ mkT (s2l "c") 1 (s2l "127") (s2l "-128") X D;
    mkT (s2l "uc") 1 (s2l "255") (s2l "0") X U;
    mkT (s2l "s") 2 (s2l "32767") (s2l "-32768") X D;
    mkT (s2l "us") 2 (s2l "65535") (s2l "0") X U;
    mkT (s2l "i") 4 (s2l "2147483647") (s2l "-2147483648") X D;
    mkT (s2l "ui") 4 (s2l "4294967295") (s2l "0") X U;
    mkT (s2l "ll") 8 (s2l "9223372036854775807") (s2l "-9223372036854775808") LLX LLD;
    mkT (s2l "ull") 8 (s2l "9223372036854775807") (s2l "-9223372036854775808") LLX LLU;
    mkT (s2l "f") 4 (s2l "3.40282347e+38") (s2l "1.17549435e-38") X G9;
    mkT (s2l "d") 8 (s2l "1.7976931348623157e+308") (s2l "2.2250738585072014e-308") LLX G17 ].
Definition type_at (i : nat) : dtype := nth i types (mkT [] 0 [] [] D D).

(** dump.c:171-199 [fill_context] *)
Record context := mkC { c_type : nat; c_size : nat; c_n : nat; c_width : nat; c_conv : conv }.
Definition fill_context (type : nat) (hex : bool) : context :=
  let t := type_at type in
  let size := if hex then d_size t * 2 else Nat.max (length (d_min t)) (length (d_max t)) in
  mkC type (d_size t) ((80 - (2 * 8 + 1)) / (size + 1 + d_size t)) size (if hex then d_hex t else d_dec t).

(** dump.c:201-214 [get_type] *)
Fixpoint get_type_from (i : nat) (l : list dtype) (s : cstr) : option nat :=
  match l with
  | [] => None
  | t :: l => if (stricmp s (d_name t) =? 0)%Z then Some i else get_type_from (S i) l s
  end.
Definition get_type : cstr -> option nat := get_type_from 0 types.

(** *** printf *)
Definition xdigit (d : Z) : ascii := ascii_of_N (Z.to_N (if (d <? 10)%Z then 48 + d else 87 + d)).
Fixpoint unum_loop (fuel : nat) (base z : Z) (acc : cstr) : cstr :=
  match fuel with
  | O => acc
  | S f => let acc := xdigit (z mod base) :: acc in if (z <? base)%Z then acc else unum_loop f base (z / base) acc
  end.
Definition unum (base z : Z) : cstr := unum_loop (S (Z.to_nat (Z.log2 z))) base z [].
(** "%0<width>..." of a number *)
Definition zeros (n : nat) : cstr := repeat "0"%char n.
Definition padded (width : nat) (base z : Z) : cstr :=
  if (z <? 0)%Z then let s := unum base (- z) in "-"%char :: zeros (width - 1 - length s) ++ s
  else let s := unum base z in zeros (width - length s) ++ s.
Definition wrap_s (bits z : Z) : Z := let m := (z mod 2 ^ bits)%Z in if (m <? 2 ^ (bits - 1))%Z then m else (m - 2 ^ bits)%Z.
Fixpoint le (l : cstr) : Z := match l with [] => 0%Z | c :: r => (code c + 256 * le r)%Z end.

Section Dump.
(** "%0<width>.9g" (true) or .17g of the number with these bytes *)
Variable show_g : bool -> nat -> cstr -> cstr.
(** An argument of the wrong size or kind is undefined.  [bytes] are those of the element. *)
Definition print (c : conv) (width : nat) (e : elem) (bytes : cstr) : outcome cstr :=
  match e with
  | EInt signed k =>
      let z := if signed then wrap_s (8 * Z.of_nat k) (le bytes) else le bytes in
      match c, k =? 8 with
      | D, false => Ret (padded width 10 (wrap_s 32 z))
      | U, false => Ret (padded width 10 (z mod 2 ^ 32))
      | X, false => Ret (padded width 16 (z mod 2 ^ 32))
      | LLD, true => Ret (padded width 10 (wrap_s 64 z))
      | LLU, true => Ret (padded width 10 (z mod 2 ^ 64))
      | LLX, true => Ret (padded width 16 (z mod 2 ^ 64))
      | _, _ => Undef
      end
  | EFloat | EDouble => match c with G9 => Ret (show_g true width bytes) | G17 => Ret (show_g false width bytes) | _ => Undef end
  | ENothing => Ret []
  end.
(** "%p" (glibc) *)
Definition pointer (a : Z) : cstr := if (a =? 0)%Z then s2l "(nil)" else s2l "0x" ++ unum 16 a.

(** dump.c:253-259: [k] elements, the first at [data] *)
Fixpoint elements (c : context) (k : nat) (data : cstr) : outcome cstr :=
  match k with
  | O => Ret []
  | S k =>
      let e := cast (c_type c) in
      if length data <? elem_size e then Undef                    (* read past the buffer *)
      else do t <- print (c_conv c) (c_width c) e (firstn (elem_size e) data);
           do r <- elements c k (skipn (c_size c) data);
           Ret (t ++ " "%char :: r)
  end.

(** "%s"; [None] is memory that was not written. *)
Fixpoint print_s (l : list (option ascii)) : outcome cstr :=
  match l with
  | Some c :: r => if ceq c "000"%char then Ret [] else do s <- print_s r; Ret (c :: s)
  | _ => Undef
  end.
(** dump.c:284-285, a signed comparison *)
Definition dot (c : ascii) : ascii := if (code c <? 32)%Z || (128 <=? code c)%Z then "."%char else c.

(** dump.c:233-298: one round of the loop for the bytes [b] that were read.  [chars] is the buffer. *)
Definition dump_row (c : context) (addr : Z) (b : cstr) (chars : list (option ascii)) : outcome (cstr * list (option ascii)) :=
  let size := c_n c * c_size c in
  if size <? length b then Undef                                  (* read does not give more *)
  else
    let data := b ++ repeat "000"%char (size - length b) in
    let count :=
      if (length b <? size) && negb (length b mod c_size c =? 0) then length b + (c_size c - length b mod c_size c) else length b in
    let k := count / c_size c in
    do es <- elements c k data;
    let gap := repeat " "%char ((c_n c - k) * (c_width c + 1)) in
    let chars := map Some (firstn count data) ++ Some "000"%char :: skipn (S count) chars in
    let chars := map (option_map dot) (firstn size chars) ++ skipn size chars in
    do cs <- print_s chars;
    Ret (pointer addr ++ " "%char :: es ++ gap ++ cs ++ [nl], chars).

(** dump.c:216-305 [dump_fd].  A list of what read() gives until the end; with an error (-1), memcpy
    is called with a size of -1. *)
Inductive rd := Bytes (b : cstr) | Failure.
Fixpoint dump_rows (c : context) (addr : Z) (l : list rd) (chars : list (option ascii)) : outcome cstr :=
  match l with
  | [] => Ret []
  | Failure :: _ => Undef
  | Bytes b :: l =>
      do (s, chars) <- dump_row c addr b chars;
      do r <- dump_rows c (addr + Z.of_nat (c_n c * c_size c)) l chars;
      Ret (s ++ r)
  end.
Definition dump_fd (c : context) (l : list rd) : outcome cstr := dump_rows c 0 l (repeat None (c_n c * c_size c + 1)).

(** dump.c:307-324 [dump_file] and 326-420 [main].  What is printed and the status.  [file name] is what
    open() and read() give.  The loop for /B (369-393) goes on until the pointer is null: it leaves the
    text. *)
Variable file : cstr -> option (list rd).
Definition dump_file (name : cstr) (c : context) : outcome (cstr * bool) :=
  match file name with
  | None => Ret ([], false)
  | Some l => do s <- dump_fd c l; Ret (name ++ s2l " -----------------" ++ nl :: s, true)
  end.
Definition skip_colon (s : cstr) : cstr := match s with c :: r => if ceq c ":"%char then r else s | [] => [] end.
Fixpoint dump_args (argv : list cstr) (type : nat) (hex : bool) (n : nat) (out : cstr) (stdin : list rd) : outcome (cstr * Z) :=
  match argv with
  | [] => if n =? 0 then do s <- dump_fd (fill_context type hex) stdin; Ret (out ++ s, 0%Z) else Ret (out, 0%Z)
  | a :: argv =>
      if (strnicmp a (s2l "/T") 2 =? 0)%Z then
        match get_type (skip_colon (skipn 2 a)) with
        | None => Ret (out, 1%Z)
        | Some t => dump_args argv t hex n out stdin
        end
      else if (stricmp a (s2l "/H") =? 0)%Z then dump_args argv type true n out stdin
      else if (strnicmp a (s2l "/B") 2 =? 0)%Z then Undef
      else if (stricmp a (s2l "/?") =? 0)%Z then Ret (out, 0%Z)
      else
        do (s, ok) <- dump_file a (fill_context type hex);
        if ok then dump_args argv type hex (S n) (out ++ s) stdin else Ret (out ++ s, 2%Z)
  end.
Definition dump_main (argv : list cstr) (stdin : list rd) : outcome (cstr * Z) := dump_args argv 0 false 0 [] stdin.
End Dump.
