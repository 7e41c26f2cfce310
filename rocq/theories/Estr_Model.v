(** Estr_Model.v -- model of the growable strings of libpbat/estr/pBat_Estr.c,
    down to the bytes of the buffer.

    Memory: the buffer [str] is the list of bytes of the malloc'ed block, NUL
    bytes included.  Reading or writing outside the block is [Undef].  A pointer
    into the block is an offset.  Source strings are separate C strings ([cstr]);
    sources that alias the destination are not modelled (overlapping [strcpy] is
    undefined in C). *)

From Verif Require Import Base.

Definition nul : ascii := "000"%char.

(** libpbat/libpBat.h:188-191 [struct ESTR]. *)
Record estr := mkEstr { es_mem : list ascii; es_len : Z }.

(** Bytes read at [off] up to the NUL; [Undef] when the block ends first. *)
Fixpoint scan_nul (m : list ascii) : outcome cstr :=
  match m with
  | [] => Undef
  | c :: r => if ceq c nul then Ret [] else do t <- scan_nul r; Ret (c :: t)
  end.
Definition cstr_at (m : list ascii) (off : nat) : outcome cstr := scan_nul (skipn off m).

(** Store [data] at [off]. *)
Definition write_at (m : list ascii) (off : nat) (data : list ascii) : outcome (list ascii) :=
  if off + length data <=? length m
  then Ret (firstn off m ++ data ++ skipn (off + length data) m)
  else Undef.

(** [strlen], [strcpy], [strcat], [strncpy], [strncat] on the block. *)
Definition m_strlen (m : list ascii) (off : nat) : outcome nat :=
  do t <- cstr_at m off; Ret (length t).
Definition m_strcpy (m : list ascii) (src : cstr) : outcome (list ascii) :=
  write_at m 0 (src ++ [nul]).
Definition m_strcat (m : list ascii) (src : cstr) : outcome (list ascii) :=
  do n <- m_strlen m 0; write_at m n (src ++ [nul]).
Definition m_strncpy (m : list ascii) (src : cstr) (n : nat) : outcome (list ascii) :=
  write_at m 0 (firstn n src ++ repeat nul (n - length src)).
Definition m_strncat (m : list ascii) (src : cstr) (n : nat) : outcome (list ascii) :=
  do k <- m_strlen m 0; write_at m k (firstn n src ++ [nul]).

(** Result of [malloc]/[realloc]: [None] when it fails, otherwise a function
    giving the (arbitrary) value of each new byte. *)
Definition alloc := option (nat -> ascii).
Definition resize (m : list ascii) (n : nat) (junk : nat -> ascii) : list ascii :=
  firstn n m ++ map junk (seq (length m) (n - length m)).

Definition INT_MAX : Z := 2147483647.

(** pBat_Estr.c:39-45 [__fast_compute_size]; 64 doublings cover [size_t].  A
    result that does not fit the returned [int] is outside the model
    ([Undef]). *)
Fixpoint compute_size_loop (fuel : nat) (r s : Z) : outcome Z :=
  match fuel with
  | O => OutOfFuel
  | S f => if (r <? s)%Z then compute_size_loop f (2 * r)%Z s
           else if (r <=? INT_MAX)%Z then Ret r else Undef
  end.
Definition compute_size (s : Z) : outcome Z := compute_size_loop 64 256%Z s.

(** pBat_Estr.c:71-104 [pBat_EsInit] (allocation failure exits the program and
    is not modelled). *)
Definition pBat_EsInit (junk : nat -> ascii) : estr :=
  mkEstr (nul :: map junk (seq 1 255)) 256.

(** The common "grow if needed" step: pBat_Estr.c:298-305, 316-324, 344-351,
    362-369, 381-388, 400-407.  [None] is the -1 return. *)
Definition grow (es : estr) (iLen : Z) (a : alloc) : option estr :=
  if (es_len es <? iLen)%Z
  then match a with
       | None => None
       | Some junk => Some (mkEstr (resize (es_mem es) (Z.to_nat iLen) junk) iLen)
       end
  else Some es.

(** Every operation returns the status (0 or -1) and the new string. *)
Definition result := (Z * estr)%type.
Definition ret_fail (es : estr) : outcome result := Ret ((-1)%Z, es).
Definition ret_ok (es : estr) (m : list ascii) : outcome result := Ret (0%Z, mkEstr m (es_len es)).

(** pBat_Estr.c:294-310 *)
Definition pBat_EsCpy (a : alloc) (es : estr) (src : cstr) : outcome result :=
  do iLen <- compute_size (Z.of_nat (length src) + 1);
  match grow es iLen a with
  | None => ret_fail es
  | Some es' => do m <- m_strcpy (es_mem es') src; ret_ok es' m
  end.

(** pBat_Estr.c:312-337 *)
Definition pBat_EsCpyN (a : alloc) (es : estr) (src : cstr) (n : nat) : outcome result :=
  do iLen <- compute_size (Z.of_nat n + 1);
  match grow es iLen a with
  | None => ret_fail es
  | Some es' =>
      do m <- (if n =? 0 then Ret (es_mem es') else m_strncpy (es_mem es') src n);
      do m' <- write_at m n [nul];
      ret_ok es' m'
  end.

(** pBat_Estr.c:339-356 *)
Definition pBat_EsCat (a : alloc) (es : estr) (src : cstr) : outcome result :=
  do l <- m_strlen (es_mem es) 0;
  do iLen <- compute_size (Z.of_nat l + Z.of_nat (length src) + 1);
  match grow es iLen a with
  | None => ret_fail es
  | Some es' => do m <- m_strcat (es_mem es') src; ret_ok es' m
  end.

(** pBat_Estr.c:358-374 *)
Definition pBat_EsCatN (a : alloc) (es : estr) (src : cstr) (n : nat) : outcome result :=
  do l <- m_strlen (es_mem es) 0;
  do iLen <- compute_size (Z.of_nat l + Z.of_nat n + 1);
  match grow es iLen a with
  | None => ret_fail es
  | Some es' => do m <- m_strncat (es_mem es') src n; ret_ok es' m
  end.

(** pBat_Estr.c:376-393 *)
Definition pBat_EsCpyE (a : alloc) (es src : estr) : outcome result :=
  do t <- cstr_at (es_mem src) 0;
  do iLen <- compute_size (Z.of_nat (length t) + 1);
  match grow es iLen a with
  | None => ret_fail es
  | Some es' => do m <- m_strcpy (es_mem es') t; ret_ok es' m
  end.

(** pBat_Estr.c:395-412 *)
Definition pBat_EsCatE (a : alloc) (es src : estr) : outcome result :=
  do l <- m_strlen (es_mem es) 0;
  do t <- cstr_at (es_mem src) 0;
  do iLen <- compute_size (Z.of_nat l + Z.of_nat (length t) + 1);
  match grow es iLen a with
  | None => ret_fail es
  | Some es' => do m <- m_strcat (es_mem es') t; ret_ok es' m
  end.

(** pBat_Estr.c:420-429, the loop of [pBat_EsReplace] ([find] is [strstr]) and
    of [pBat_EsReplaceI] (469-478, [find] is [stristr]).  [off] is [lpBuffer],
    [ret] is [lpReturn].  Return values of [pBat_EsCat] are ignored, as in the
    code. *)
Fixpoint replace_loop (find : cstr -> cstr -> option nat) (fuel : nat) (a : alloc)
  (m : list ascii) (off : nat) (ret : estr) (pat rep : cstr) : outcome (list ascii * nat * estr) :=
  match fuel with
  | O => OutOfFuel
  | S fuel' =>
    do t <- cstr_at m off;
    match find t pat with
    | None => Ret (m, off, ret)
    | Some k =>
        do m' <- write_at m (off + k) [nul];
        do t' <- cstr_at m' off;
        do (_, ret1) <- pBat_EsCat a ret t';
        do (_, ret2) <- pBat_EsCat a ret1 rep;
        replace_loop find fuel' a m' (off + k + length pat) ret2 pat rep
    end
  end.

Definition es_replace (find : cstr -> cstr -> option nat) (fuel : nat) (a : alloc)
  (junk : nat -> ascii) (es : estr) (pat rep : cstr) : outcome result :=
  do (mo, ret) <- replace_loop find fuel a (es_mem es) 0 (pBat_EsInit junk) pat rep;
  let (m, off) := mo : list ascii * nat in
  do t <- cstr_at m off;
  do (_, ret') <- pBat_EsCat a ret t;
  do (_, es') <- pBat_EsCpyE a (mkEstr m (es_len es)) ret';
  Ret (0%Z, es').

(** pBat_Estr.c:414-436 *)
Definition pBat_EsReplace := es_replace strstr.

(** pBat_Estr.c:438-461 [stristr].  The inner [while] loop (post-increment
    in its condition) leaves [str] just after the first character equal to [c]
    ignoring case, or at the NUL if there is none. *)
Fixpoint stristr_inner (s : cstr) (c : ascii) : nat :=
  match s with
  | [] => 0
  | x :: r => if ceq c (tolower x) then 1 else S (stristr_inner r c)
  end.
Fixpoint stristr_loop (fuel : nat) (s : cstr) (c : ascii) (pat1 : cstr) : option nat :=
  match fuel with
  | O => None
  | S f =>
    let k := stristr_inner s c in
    match skipn k s with
    | [] => None
    | s' => if (strnicmp s' pat1 (length pat1) =? 0)%Z then Some k
            else match stristr_loop f s' c pat1 with
                 | Some j => Some (k + j) | None => None end
    end
  end.
Definition stristr (s pat : cstr) : option nat :=
  match pat with
  | [] => Some 0
  | c :: pat1 => stristr_loop (S (length s)) s (tolower c) pat1
  end.

(** pBat_Estr.c:463-485 *)
Definition pBat_EsReplaceI := es_replace stristr.

(** *** Reading lines *)

(** The stream is the list of bytes not read yet.  [fgets(p, n, f)]: up to
    [n-1] bytes, stopping after a line feed; [None] at end of file (the buffer is
    then left alone).  Read errors are not modelled. *)
Fixpoint take_line (n : nat) (s : list ascii) : list ascii * list ascii :=
  match n, s with
  | S n', c :: r =>
      if ceq c nl then ([c], r)
      else let (a, b) := take_line n' r in (c :: a, b)
  | _, _ => ([], s)
  end.
Definition fgets (n : nat) (s : list ascii) : option (list ascii * list ascii) :=
  match s with
  | [] => None
  | _ => Some (take_line (n - 1) s)
  end.

(** pBat_Estr.c:213-260, the [while (1)] loop of [pBat_EsGet]: cursor [off],
    [n] bytes available there, [got] tells whether some [fgets] succeeded
    (simplification of [iTotalBytesRead], the sum of the returned pointers). *)
Inductive get_result :=
| GotLoop (es : estr) (got : bool) (rest : list ascii)   (* [break] *)
| GotFail (es : estr) (rest : list ascii).               (* [return -1] *)

Fixpoint get_loop (fuel : nat) (a : alloc) (es : estr) (off n : nat) (got : bool)
  (s : list ascii) : outcome get_result :=
  match fuel with
  | O => OutOfFuel
  | S fuel' =>
    match fgets n s with
    | None => Ret (GotLoop es got s)
    | Some (data, s') =>
        do m <- write_at (es_mem es) off (data ++ [nul]);
        do t <- cstr_at m 0;
        match strchr t nl with
        | Some _ => Ret (GotLoop (mkEstr m (es_len es)) true s')
        | None =>
            let len := es_len es in
            if (INT_MAX <? 2 * len)%Z then Undef else
            match a with
            | None => Ret (GotFail (mkEstr m len) s')
            | Some junk =>
                let l := Z.to_nat len in
                get_loop fuel' a (mkEstr (resize m (2 * l) junk) (2 * len))
                         (l - 1) (S l) true s'
            end
        end
    end
  end.

(** pBat_Estr.c:200-291 [pBat_EsGet] with [_pBat_NewLine == PBAT_NEWLINE_LINUX]
    (pBat_Estr.c:47, the value on Linux).  Returns the status, the string and
    the rest of the stream. *)
Definition pBat_EsGet (fuel : nat) (a : alloc) (junk : nat -> ascii) (es : estr)
  (s : list ascii) : outcome (Z * estr * list ascii) :=
  do g <- get_loop fuel a es 0 (Z.to_nat (es_len es)) false s;
  match g with
  | GotFail es' s' => Ret ((-1)%Z, es', s')
  | GotLoop es' got s' =>
      do (_, e1) <- pBat_EsReplace fuel a junk es' [cr; nl] [nl];
      do (_, e2) <- pBat_EsReplace fuel a junk e1 [cr] [nl];
      Ret (if got then 0%Z else 1%Z, e2, s')
  end.

(** *** Histories (harness, not in the code) *)

(** Calls of the string API. *)
Inductive es_op :=
| OpCpy (src : cstr) | OpCpyN (src : cstr) (n : nat)
| OpCat (src : cstr) | OpCatN (src : cstr) (n : nat)
| OpCpyE (src : estr) | OpCatE (src : estr)
| OpReplace (pat rep : cstr).

Definition run_op (fuel : nat) (junk : nat -> ascii) (a : alloc) (op : es_op) (es : estr)
  : outcome result :=
  match op with
  | OpCpy src => pBat_EsCpy a es src
  | OpCpyN src n => pBat_EsCpyN a es src n
  | OpCat src => pBat_EsCat a es src
  | OpCatN src n => pBat_EsCatN a es src n
  | OpCpyE src => pBat_EsCpyE a es src
  | OpCatE src => pBat_EsCatE a es src
  | OpReplace pat rep => pBat_EsReplace fuel a junk es pat rep
  end.

Fixpoint run_ops (fuel : nat) (junk : nat -> ascii) (h : list (alloc * es_op)) (es : estr)
  : outcome estr :=
  match h with
  | [] => Ret es
  | (a, op) :: h' =>
      do (_, es') <- run_op fuel junk a op es; run_ops fuel junk h' es'
  end.

(** Read lines until the status is not 0, collecting the texts. *)
Fixpoint read_all (n fuel : nat) (a : alloc) (junk : nat -> ascii) (es : estr) (s : list ascii)
  : outcome (list cstr * Z * list ascii) :=
  match n with
  | O => OutOfFuel
  | S n' =>
    do (er, s') <- pBat_EsGet fuel a junk es s;
    let (r, es') := er : Z * estr in
    if (r =? 0)%Z then
      do t <- cstr_at (es_mem es') 0;
      do (tr, s'') <- read_all n' fuel a junk es' s';
      let (ts, r') := tr : list cstr * Z in
      Ret (t :: ts, r', s'')
    else Ret ([], r, s')
  end.
