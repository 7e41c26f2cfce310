(** Edit_Spec.v -- what the keys do when a line is typed. *)

From Verif Require Import Base.

(** * UTF-8: the bytes of a code point *)
Inductive encodes : cstr -> Z -> Prop :=
| enc1 a : (code a < 128)%Z -> encodes [a] (code a)
| enc2 a b : (192 <= code a < 224)%Z -> (128 <= code b < 192)%Z -> encodes [a; b] ((code a - 192) * 64 + (code b - 128))
| enc3 a b c : (224 <= code a < 240)%Z -> (128 <= code b < 192)%Z -> (128 <= code c < 192)%Z ->
    encodes [a; b; c] (((code a - 224) * 64 + (code b - 128)) * 64 + (code c - 128))
| enc4 a b c d : (240 <= code a < 248)%Z -> (128 <= code b < 192)%Z -> (128 <= code c < 192)%Z -> (128 <= code d < 192)%Z ->
    encodes [a; b; c; d] ((((code a - 240) * 64 + (code b - 128)) * 64 + (code c - 128)) * 64 + (code d - 128)).

(** The code points that are keys of the editor *)
Definition control (cp : Z) : Prop := In cp [1; 2; 3; 4; 5; 6; 8; 9; 11; 12; 13; 14; 16; 20; 21; 23; 27; 127]%Z.

Section Keys.
(** Which code points combine with the one before *)
Variable comb : Z -> bool.
(** How many bytes fit in the line *)
Variable room : nat.

Definition mark (s : cstr) : Prop := exists cp, encodes s cp /\ comb cp = true.
Definition base (s : cstr) : Prop := exists cp, encodes s cp /\ comb cp = false.
(** A character: a code point that is no mark, and the marks behind it *)
Definition character (s : list cstr) : Prop := exists b ms, s = b :: ms /\ base b /\ Forall mark ms.
(** [s] is made of whole characters *)
Definition text (s : list cstr) : Prop := exists cs, Forall character cs /\ s = concat cs.
Notation bytes := (@concat ascii).

Inductive press :=
| Type_ (c : cstr) | Left | Right | Home | End_ | Backspace | Delete | Up | Down
| KillLine | KillRest | KillWord | Swap | CtrlD | Other.

(** What is sent by the terminal for each *)
Inductive sends : press -> cstr -> Prop :=
| se_type c cp : encodes c cp -> ~ control cp -> sends (Type_ c) c
| se_left : sends Left ["002"%char] | se_left_arrow : sends Left ("027"%char :: s2l "[D")
| se_right : sends Right ["006"%char] | se_right_arrow : sends Right ("027"%char :: s2l "[C")
| se_home : sends Home ["001"%char] | se_home1 : sends Home ("027"%char :: s2l "[H") | se_home2 : sends Home ("027"%char :: s2l "OH")
| se_end : sends End_ ["005"%char] | se_end1 : sends End_ ("027"%char :: s2l "[F") | se_end2 : sends End_ ("027"%char :: s2l "OF")
| se_bs : sends Backspace ["127"%char] | se_bs8 : sends Backspace ["008"%char]
| se_del : sends Delete ("027"%char :: s2l "[3~")
| se_up : sends Up ["016"%char] | se_up_arrow : sends Up ("027"%char :: s2l "[A")
| se_down : sends Down ["014"%char] | se_down_arrow : sends Down ("027"%char :: s2l "[B")
| se_line : sends KillLine ["021"%char] | se_rest : sends KillRest ["011"%char] | se_word : sends KillWord ["023"%char]
| se_swap : sends Swap ["020"%char]
| se_d : sends CtrlD ["004"%char]
| se_clear : sends Other ["012"%char]
| se_other a b : a <> "["%char -> a <> "O"%char -> sends Other ["027"%char; a; b]
| se_other1 b : ~ (48 <= code b <= 57)%Z -> ~ In b (s2l "ABCDHF") -> sends Other ["027"; "["; b]%char
| se_other2 b : ~ In b (s2l "HF") -> sends Other ["027"; "O"; b]%char
| se_other3 b c : (48 <= code b <= 57)%Z -> (b, c) <> ("3", "~")%char -> sends Other ["027"; "["; b; c]%char.

(** The line that is edited: the code points before and behind the cursor.  It is one of a list
    of lines: the older ones (the last one first), and the newer ones; [kept] is what this one
    was when it was shown. *)
Inductive state := At (older : list cstr) (kept : cstr) (l r : list cstr) (newer : list cstr).

Inductive does : press -> state -> state -> Prop :=
| d_type o x l r n c cp : encodes c cp -> cp <> 0%Z -> l <> [] \/ base c -> length (bytes (l ++ c :: r)) <= room ->
    does (Type_ c) (At o x l r n) (At o x (l ++ [c]) r n)
| d_full o x l r n c : room < length (bytes (l ++ c :: r)) -> does (Type_ c) (At o x l r n) (At o x l r n)
| d_left o x l c r n : character c -> does Left (At o x (l ++ c) r n) (At o x l (c ++ r) n)
| d_left0 o x r n : does Left (At o x [] r n) (At o x [] r n)
| d_right o x l c r n : character c -> text r -> does Right (At o x l (c ++ r) n) (At o x (l ++ c) r n)
| d_right0 o x l n : does Right (At o x l [] n) (At o x l [] n)
| d_home o x l r n : does Home (At o x l r n) (At o x [] (l ++ r) n)
| d_end o x l r n : does End_ (At o x l r n) (At o x (l ++ r) [] n)
| d_bs o x l c r n : character c -> does Backspace (At o x (l ++ c) r n) (At o x l r n)
| d_bs0 o x r n : does Backspace (At o x [] r n) (At o x [] r n)
| d_del o x l c r n : character c -> text r -> does Delete (At o x l (c ++ r) n) (At o x l r n)
| d_del0 o x l n : does Delete (At o x l [] n) (At o x l [] n)
| d_up p o x l r n cs : text cs -> bytes cs = p -> nonul p -> length p < room ->
    does Up (At (p :: o) x l r n) (At o p cs [] (bytes (l ++ r) :: n))
| d_up0 x l r n : does Up (At [] x l r n) (At [] (bytes (l ++ r)) l r n)
| d_down p o x l r n cs : text cs -> bytes cs = p -> nonul p -> length p < room ->
    does Down (At o x l r (p :: n)) (At (bytes (l ++ r) :: o) p cs [] n)
| d_down0 o x l r : does Down (At o x l r []) (At o (bytes (l ++ r)) l r [])
| d_line o x l r n : does KillLine (At o x l r n) (At o x [] [] n)
| d_rest o x l r n : does KillRest (At o x l r n) (At o x l [] n)
| d_word o x l w s r n : l = [] \/ (exists l', l = l' ++ [[" "%char]]) -> ~ In [" "%char] w -> Forall (eq [" "%char]) s ->
    (w = [] -> l = []) -> does KillWord (At o x (l ++ w ++ s) r n) (At o x l r n)
| d_swap o x l a b r n : base [a] -> base [b] -> text r -> r <> [] -> does Swap (At o x (l ++ [[a]]) ([b] :: r) n) (At o x (l ++ [[b]; [a]]) r n)
| d_swap_last o x l a b n : base [a] -> base [b] -> does Swap (At o x (l ++ [[a]]) [[b]] n) (At o x (l ++ [[b]]) [[a]] n)
| d_swap0 o x l r n : l = [] \/ r = [] -> does Swap (At o x l r n) (At o x l r n)
| d_ctrl_d o x l r n s : l ++ r <> [] -> does Delete (At o x l r n) s -> does CtrlD (At o x l r n) s
| d_other s : does Other s s.

Inductive types : list press -> cstr -> state -> state -> Prop :=
| ty_nil s : types [] [] s s
| ty_cons k b s s' ks bs s'' : sends k b -> does k s s' -> types ks bs s' s'' -> types (k :: ks) (b ++ bs) s s''.
End Keys.

(** * The lines of before, the last one first; there is room for [max] of them. *)
Definition seen (max : nat) (past : list cstr) : list cstr :=
  match past with [] :: p => p | _ => firstn (max - 1) past end.
Definition opened (max : nat) (past : list cstr) : state := At (seen max past) [] [] [] [].
Definition others (s : state) : list cstr :=
  match s with At o x _ _ n => match n with [] => o | _ => tl (rev n) ++ x :: o end end.
Definition remember (past : list cstr) (line : cstr) : list cstr :=
  match past with p :: _ => if streqb p line then past else line :: past | [] => [line] end.

(** The lines that were entered (the last one first), as they are remembered: not the empty ones,
    and equal ones in a row only once *)
Fixpoint distinct (l : list cstr) : list cstr :=
  match l with
  | [] => []
  | [] :: l => distinct l
  | x :: l => match distinct l with y :: r => if streqb y x then y :: r else x :: y :: r | [] => [x] end
  end.
(** What the key for the line before finds *)
Definition found (past : list cstr) : list cstr := match past with [] :: p => p | p => p end.
