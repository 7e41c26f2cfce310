(** EsCache_Model.v -- model of pbat/core/pBat_EsCache.c, the pool of string
    buffers of an interpreter instance.

    Pointers returned to the client are handles: the address of a pool slot or of
    a freshly allocated string.  Of a buffer only the recorded capacity and the
    text are modelled (see Estr_Model for the bytes). *)

From Verif Require Import Base.
From Coq Require Import NArith.

Inductive handle := Pool (i : nat) | Fresh (k : nat).

Record slot := mkSlot { sl_len : Z; sl_text : cstr }.

(** [struct ESTRCACHE]: status words and pool. *)
Record cache := mkCache { c_words : list N; c_pool : list slot }.

Definition ESTR_CACHE_SIZE : nat := 128.
Definition DEFAULT_ESTR_SIZE : Z := 256.
Definition all_ones : N := 4294967295%N.

Fixpoint upd {A} (l : list A) (i : nat) (f : A -> A) : list A :=
  match l, i with
  | [], _ => []
  | x :: r, O => f x :: r
  | x :: r, S i' => x :: upd r i' f
  end.

(** pBat_EsCache.c:33-36: BIT, STATUS_ON, STATUS_OFF.  (For x % 32 = 31 the code
    shifts a signed 1 by 31; modelled as the usual unsigned result.) *)
Definition BIT (x : nat) : N := N.shiftl 1 (N.of_nat x).
Definition STATUS_ON (w : list N) (x : nat) : list N :=
  upd w (x / 32) (fun v => N.lor v (BIT (x mod 32))).
Definition STATUS_OFF (w : list N) (x : nat) : list N :=
  upd w (x / 32) (fun v => N.ldiff v (BIT (x mod 32))).

(** pBat_EsCache.c:38-61 [pBat_EsCacheBuild]; [ok i] tells whether the i-th
    malloc succeeds. *)
Fixpoint build_loop (n i : nat) (ok : nat -> bool) (w : list N) : list N * list slot :=
  match n with
  | O => (w, [])
  | S n' =>
      let w' := if ok i then STATUS_OFF w i else w in
      let (w'', p) := build_loop n' (S i) ok w' in
      (w'', mkSlot (if ok i then DEFAULT_ESTR_SIZE else 0) [] :: p)
  end.
Definition pBat_EsCacheBuild (ok : nat -> bool) : cache :=
  let (w, p) := build_loop ESTR_CACHE_SIZE 0 ok (repeat all_ones 4) in mkCache w p.

(** pBat_EsCache.c:83-93: inner loop over the bits of one word. *)
Fixpoint scan_bits (n j : nat) (status : N) : option nat :=
  match n with
  | O => None
  | S n' => if N.testbit status 0 then scan_bits n' (S j) (N.shiftr status 1) else Some j
  end.

(** pBat_EsCache.c:77-95: outer loop over the words. *)
Fixpoint scan_words (w : list N) (i : nat) : option nat :=
  match w with
  | [] => None
  | status :: w' =>
      if N.eqb status all_ones then scan_words w' (S i)
      else match scan_bits 32 0 status with
           | Some j => Some (i * 32 + j)
           | None => scan_words w' (S i)
           end
  end.

(** pBat_EsCache.c:74-99 [pBat_EsCacheInit]: [Some i] is the address of pool
    slot [i], [None] the fallback to [pBat_EsInit]. *)
Definition pBat_EsCacheInit (c : cache) : option nat * cache :=
  match scan_words (c_words c) 0 with
  | Some i => (Some i, mkCache (STATUS_ON (c_words c) i) (c_pool c))
  | None => (None, c)
  end.

(** pBat_EsCache.c:101-134 [pBat_EsCacheFree] on pool slot [i]; [realloc_ok] is
    the answer of [realloc]. *)
Definition pBat_EsCacheFree (c : cache) (i : nat) (realloc_ok : bool) : cache :=
  mkCache (STATUS_OFF (c_words c) i)
    (upd (c_pool c) i (fun s =>
       let len := if Z.eqb (sl_len s) DEFAULT_ESTR_SIZE then sl_len s
                  else if realloc_ok then DEFAULT_ESTR_SIZE else sl_len s in
       mkSlot len (if (0 <? len)%Z then [] else sl_text s))).

(** *** Client histories (harness) *)

Inductive event :=
| EvAcquire
| EvRelease (h : handle) (realloc_ok : bool)
| EvWrite (h : handle) (t : cstr) (len : Z).   (* the holder changes the buffer *)

(** Client view: the cache, the handles held, the number of fresh strings made
    so far. *)
Record world := mkWorld { w_cache : cache; w_held : list handle; w_next : nat }.

Definition handle_eqb (a b : handle) : bool :=
  match a, b with
  | Pool i, Pool j => i =? j
  | Fresh i, Fresh j => i =? j
  | _, _ => false
  end.

Definition acquire (w : world) : handle * world :=
  match pBat_EsCacheInit (w_cache w) with
  | (Some i, c') => (Pool i, mkWorld c' (Pool i :: w_held w) (w_next w))
  | (None, c') => (Fresh (w_next w), mkWorld c' (Fresh (w_next w) :: w_held w) (S (w_next w)))
  end.

(** Text of the buffer a client just acquired. *)
Definition acquired_text (w : world) (h : handle) : cstr :=
  match h with
  | Pool i => sl_text (nth i (c_pool (w_cache w)) (mkSlot 0 []))
  | Fresh _ => []                      (* pBat_EsInit *)
  end.

(** [None]: the client broke the rules (released or wrote a buffer it does not
    hold, or gave it a non positive capacity). *)
Definition step (w : world) (e : event) : option world :=
  match e with
  | EvAcquire => Some (snd (acquire w))
  | EvRelease h ok =>
      if existsb (handle_eqb h) (w_held w) then
        Some (mkWorld (match h with Pool i => pBat_EsCacheFree (w_cache w) i ok | Fresh _ => w_cache w end)
                (filter (fun x => negb (handle_eqb h x)) (w_held w)) (w_next w))
      else None
  | EvWrite h t len =>
      if existsb (handle_eqb h) (w_held w) && (0 <? len)%Z then
        Some (mkWorld (match h with
                       | Pool i => mkCache (c_words (w_cache w))
                                     (upd (c_pool (w_cache w)) i (fun _ => mkSlot len t))
                       | Fresh _ => w_cache w end)
                (w_held w) (w_next w))
      else None
  end.

Fixpoint steps (w : world) (es : list event) : option world :=
  match es with
  | [] => Some w
  | e :: es' => match step w e with Some w' => steps w' es' | None => None end
  end.

Definition start (ok : nat -> bool) : world := mkWorld (pBat_EsCacheBuild ok) [] 0.
