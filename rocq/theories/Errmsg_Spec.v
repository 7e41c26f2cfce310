(** Errmsg_Spec.v -- C106: what a user sees of an error. *)

From Coq Require Import NArith.
From Verif Require Import Base Num_Model Errmsg_Model.

(** A message that has one place for a text, and no other special sign *)
Definition plain (t : cstr) : Prop := ~ In "%"%char t.
Inductive says : cstr -> cmpl -> cstr -> Prop :=
| says_plain t c : plain t -> says t c t
| says_text p q s : plain p -> plain q -> says (p ++ s2l "%s" ++ q) (CText s) (p ++ s ++ q)
| says_number p q z : plain p -> plain q -> says (p ++ s2l "%d" ++ q) (CInt z) (p ++ dec z ++ q).

(** Which errors of the program are about a number or a letter rather than a text *)
Definition about_number (k : nat) : bool := existsb (Nat.eqb k) [19; 28; 55].
Definition about_letter (k : nat) : bool := existsb (Nat.eqb k) [16; 25].

(** The report of an error: the message in red on its line, the reason if one is asked for, then the usual colour again; an error that
    ends the program says so, waits for a key, and ends the program with the number of the error. *)
Definition paint (tty : bool) (c : colour) : list eev := if tty then [EColour c] else [].
Definition report (tty : bool) (t : cstr) (reason : option cstr) (quit : cstr) (fatal : bool) (k : nat) : list eev :=
  paint tty Red ++ [EText t; EText [nl]] ++
  match reason with Some r => [EText ("009"%char :: s2l "Reason: " ++ r ++ [nl])] | None => [] end ++
  paint tty Usual ++ (if fatal then [EText (nl :: quit ++ [nl]); EKey; EExit (N.of_nat k)] else []).
(** The number handed over: that of the error, with 128 added if the reason is asked for *)
Definition asked (why : bool) (k : nat) : N := (N.of_nat k + (if why then 128 else 0))%N.
