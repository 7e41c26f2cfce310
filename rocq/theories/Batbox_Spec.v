(** Batbox_Spec.v -- what the words of BATBOX do. *)

From Verif Require Import Base Lex Path_Spec StrLib_Model Env_Model Var_Model Expand_Model Args_Model Args_Spec If_Model Num_Model Params_Spec Batbox_Model.

(** [stated I line ps]: the words of the line are [ps] in each of the states [I]. *)
Inductive stated (I : xworld -> Prop) : cstr -> list cstr -> Prop :=
| sd_end s : Forall blank s -> stated I s []
| sd_next a raw rest t v l :
    Forall blank a -> raw <> [] -> (forall c r, raw = c :: r -> ~ blank c) ->
    param_at PBAT_DELIMITERS raw rest -> bare (match rest with [] => true | _ => false end) raw t ->
    t <> s2l "^" -> (forall w, I w -> pBat_DelayedExpand w t = Ret (v, w)) -> nonul v -> stated I rest l ->
    stated I (a ++ raw ++ rest) (v :: l).

(** [opt c u p]: [p] is the option of the letter [c], with ([u]) or without a "_". *)
Definition opt (c : ascii) (u : bool) (p : cstr) : Prop := exists d, tolower d = c /\ p = "/"%char :: d :: if u then ["_"%char] else [].
Definition letters : cstr := s2l "adnoghwcklym".
Definition other (p : cstr) : Prop := forall c u, In c letters -> ~ opt c u p.
Definition name (p : cstr) : Prop := exists c r, p = c :: r /\ c <> "/"%char.
(** A number as a [short] *)
Definition short (z s : Z) : Prop := (-32768 <= s < 32768 /\ exists k, z = s + 65536 * k)%Z.
(** The colour of Windows [n] as one of terminals: red and blue are exchanged, the four bits of the background are like those of
    the foreground. *)
Definition colour (n c : Z) : Prop :=
  (0 <= c < 256)%Z /\ (forall b, b = 0 \/ b = 4 ->
    Z.testbit c b = Z.testbit n (b + 2) /\ Z.testbit c (b + 1) = Z.testbit n (b + 1) /\ Z.testbit c (b + 2) = Z.testbit n b /\ Z.testbit c (b + 3) = Z.testbit n (b + 3))%Z.

Section B.
Variable ka : Z.
Variable kbhit : nat -> bool.
Variable getch : nat -> Z.
Variable mouse : nat -> bool -> Z * Z * Z.
Variable assign : xworld -> cstr -> Z -> xworld.

(** A word is a number (as strtol of the C library reads it), else the number in the variable of that name, else 0. *)
Inductive number (w : xworld) (s : cstr) : Z -> Prop :=
| nu_word n : strtol0 s = (n, []) -> number w s (to_int n)
| nu_var v n r : snd (strtol0 s) <> [] -> pBat_GetEnv (vw_env (x_var w)) s ka = Ret (Some v) -> strtol0 v = (n, r) -> number w s (to_int n)
| nu_none : snd (strtol0 s) <> [] -> pBat_GetEnv (vw_env (x_var w)) s ka = Ret None -> number w s 0.
(** [key n k m]: the key [k] is read, and there were [m] questions behind it instead of [n]. *)
Inductive key (n : nat) : Z -> nat -> Prop :=
| ke_plain : getch n <> 224%Z -> key n (getch n) (S n)
| ke_extended : getch n = 224%Z -> key n (224 + getch (S n)) (S (S n)).
(** The options which wait for the movement of the mouse *)
Inductive moves : cstr -> Prop := mo_y : moves (s2l "/y") | mo_y_ : moves (s2l "/y_") | mo_m : moves (s2l "/m_").

(** [box w ox oy lx ly n ps z l w' st]: the words [ps] are done; the offset is [ox], [oy], the place [lx], [ly]. *)
Inductive box : xworld -> Z -> Z -> Z -> Z -> nat -> list cstr -> Z -> list bev -> xworld -> bstate -> Prop :=
| bx_end w ox oy lx ly n : box w ox oy lx ly n [] 0 [] w (mkB (ox, oy) (lx, ly) n)
| bx_alone w ox oy lx ly n c u p : In c (s2l "adoghwc") -> opt c u p -> box w ox oy lx ly n [p] 0 [] w (mkB (ox, oy) (lx, ly) n)
| bx_char w ox oy lx ly n u p q ps k z l w' st : opt "a" u p -> number w q k -> box w ox oy lx ly n ps z l w' st ->
    box w ox oy lx ly n (p :: q :: ps) z (BText [ascii_of_nat (Z.to_nat (k mod 256))] :: l) w' st
| bx_text w ox oy lx ly n u p q ps z l w' st : opt "d" u p -> box w ox oy lx ly n ps z l w' st ->
    box w ox oy lx ly n (p :: q :: ps) z (BText q :: l) w' st
| bx_line w ox oy lx ly n u p ps y z l w' st : opt "n" u p -> short (ly + 1) y -> box w ox oy lx y n ps z l w' st ->
    box w ox oy lx ly n (p :: ps) z (BGo lx y :: l) w' st
| bx_half w ox oy lx ly n u p q k x : opt "o" u p -> number w q k -> short k x ->
    box w ox oy lx ly n [p; q] 0 [] w (mkB (x, oy) (lx, ly) n)
| bx_offset w ox oy lx ly n u p a b ps j k x y z l w' st : opt "o" u p -> number w a j -> number w b k -> short j x -> short k y ->
    box w x y lx ly n ps z l w' st -> box w ox oy lx ly n (p :: a :: b :: ps) z l w' st
| bx_go1 w ox oy lx ly n u p q : opt "g" u p -> box w ox oy lx ly n [p; q] 0 [] w (mkB (ox, oy) (lx, ly) n)
| bx_go w ox oy lx ly n u p a b ps j k x y z l w' st : opt "g" u p -> number w a j -> number w b k -> short (ox + j) x -> short (oy + k) y ->
    box w ox oy x y n ps z l w' st -> box w ox oy lx ly n (p :: a :: b :: ps) z (BGo x y :: l) w' st
| bx_cursor w ox oy lx ly n u p q ps k z l w' st : opt "h" u p -> number w q k -> box w ox oy lx ly n ps z l w' st ->
    box w ox oy lx ly n (p :: q :: ps) z (BCursor k :: l) w' st
| bx_sleep w ox oy lx ly n u p q ps k z l w' st : opt "w" u p -> number w q k -> box w ox oy lx ly n ps z l w' st ->
    box w ox oy lx ly n (p :: q :: ps) z (BSleep k :: l) w' st
| bx_colour w ox oy lx ly n u p q ps k c z l w' st : opt "c" u p -> number w q k -> colour k c -> box w ox oy lx ly n ps z l w' st ->
    box w ox oy lx ly n (p :: q :: ps) z (BColor c :: l) w' st
(** A key is waited for: it is the status, and the rest of the line is not looked at. *)
| bx_wait w ox oy lx ly n c p ps k m : c = "k"%char \/ c = "l"%char -> opt c false p -> key n k m ->
    box w ox oy lx ly n (p :: ps) k [] w (mkB (ox, oy) (lx, ly) m)
| bx_hit w ox oy lx ly n c p ps k m : c = "k"%char \/ c = "l"%char -> opt c true p -> kbhit n = true -> key (S n) k m ->
    box w ox oy lx ly n (p :: ps) k [] w (mkB (ox, oy) (lx, ly) m)
| bx_nokey w ox oy lx ly n c p ps z l w' st : c = "k"%char \/ c = "l"%char -> opt c true p -> kbhit n = false ->
    box w ox oy lx ly (S n) ps z l w' st -> box w ox oy lx ly n (p :: ps) z l w' st
| bx_names w ox oy lx ly n c u p i j k ps mv x y t z l w' st : c = "y"%char \/ c = "m"%char -> opt c u p -> name i -> name j -> name k ->
    (mv = true <-> moves p) -> mouse n mv = (x, y, t) ->
    box (assign (assign (assign w i x) j y) k t) ox oy lx ly (S n) ps z l w' st ->
    box w ox oy lx ly n (p :: i :: j :: k :: ps) z (BMouse mv :: BSet i x :: BSet j y :: BSet k t :: l) w' st
| bx_mouse w ox oy lx ly n c u p ps mv x y t z l w' st : c = "y"%char \/ c = "m"%char -> opt c u p ->
    (forall i j k ps', ps = i :: j :: k :: ps' -> ~ (name i /\ name j /\ name k)) ->
    (mv = true <-> moves p) -> mouse n mv = (x, y, t) ->
    box w ox oy lx ly (S n) ps z l w' st -> box w ox oy lx ly n (p :: ps) z (BMouse mv :: BShow x y t :: l) w' st
| bx_other w ox oy lx ly n p ps z l w' st : other p -> box w ox oy lx ly n ps z l w' st -> box w ox oy lx ly n (p :: ps) z l w' st.
End B.
