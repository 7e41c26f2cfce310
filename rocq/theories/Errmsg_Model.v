(** Errmsg_Model.v -- model of error messages (pbat/errors/pBat_Errors.c).  The C library's strerror is a parameter.  Writing to the
    stream of errors does not fail and leaves errno alone; isatty on a stream that is no terminal sets errno to ENOTTY, as POSIX has it. *)

From Coq Require Import NArith.
From Verif Require Import Base Num_Model.

(** The complement: a text, or a whole number cast to a pointer as in pBat_For.c:173, 999, 1165 and 1378, or NULL.  That printf reads
    such a pointer back as the number is what the machine does, not what C promises. *)
Inductive cmpl := CText (s : cstr) | CInt (z : Z) | CNull.

(** printf with one argument: %s needs a text, %d and %c need a number; more conversions than arguments are undefined *)
Fixpoint printf1 (fmt : cstr) (a : option cmpl) : outcome cstr :=
  match fmt with
  | [] => Ret []
  | c :: r =>
      if Ascii.eqb c "%"%char then
        match r with
        | [] => Undef
        | d :: r =>
            if Ascii.eqb d "%"%char then do t <- printf1 r a; Ret ("%"%char :: t)
            else match a with
                 | Some (CText s) => if Ascii.eqb d "s"%char then do t <- printf1 r None; Ret (s ++ t) else Undef
                 | Some (CInt z) =>
                     if Ascii.eqb d "d"%char then do t <- printf1 r None; Ret (dec z ++ t)
                     else if Ascii.eqb d "c"%char then do t <- printf1 r None; Ret (ascii_of_N (Z.to_N (z mod 256)) :: t)
                     else Undef
                 | _ => Undef
                 end
        end
      else do t <- printf1 r a; Ret (c :: t)
  end.

(** What the user sees: a colour of the terminal, text, a key that is waited for, and the end of the program *)
Inductive colour := Red | Usual.
Inductive eev := EColour (c : colour) | EText (t : cstr) | EKey | EExit (n : N).

(** pBat_Errors.h:106 PBAT_PRINT_C_ERROR; sizeof(lpErrorMsg) = 62 pointers of 8 bytes *)
Definition C_ERROR : N := 128%N.
Definition sizeof_table : N := 496%N.
Definition ENOTTY : Z := 25%Z.

(** libpbat/console/pBat_ConsoleANSI.c:69-107 [pBat_SetConsoleTextColor]: nothing is written when the stream is no terminal, and errno is
    changed by isatty (73).  The sequences themselves are those of Prompt_Model. *)
Definition set_colour (tty : bool) (c : colour) (errno : Z) : list eev * Z := if tty then ([EColour c], errno) else ([], ENOTTY).

(** pBat_Errors.c:244-290 [pBat_ShowErrorMessage]; [msgs] is lpErrorMsg, [quit] is lpQuitMessage, as the translation has them *)
Definition pBat_ShowErrorMessage (strerror : Z -> cstr) (msgs : list cstr) (quit : cstr) (tty : bool) (errno : Z)
    (num : N) (c : cmpl) (exit : Z) : outcome (list eev) :=
  let '(e1, errno) := set_colour tty Red errno in
  let flag := negb (N.eqb (N.land num C_ERROR) 0) in
  let msg := if flag then strerror errno else s2l "Undefined" in
  let n := N.ldiff num C_ERROR in
  do e2 <- (if N.ltb n sizeof_table then
              match nth_error msgs (N.to_nat n) with
              | None => Undef                       (** a read behind the table *)
              | Some f => do t <- printf1 f (Some c); Ret [EText t; EText [nl]]
              end
            else Ret []);
  let e3 := if flag then [EText ("009"%char :: s2l "Reason: " ++ msg ++ [nl])] else [] in
  let e4 := fst (set_colour tty Usual errno) in
  let e5 := if Z.eqb exit 0 then [] else [EText (nl :: quit ++ [nl]); EKey; EExit n] in
  Ret (e1 ++ e2 ++ e3 ++ e4 ++ e5).

(** 38-242 [pBat_LoadErrors] without a translation *)
Definition english : list cstr := [
  s2l "No error: OK."; (** 0 *)
  s2l "Error : Unable to access file ""%s""."; (** 1 *)
  s2l "Error : Unable to find folder ""%s""."; (** 2 *)
  s2l "Error : ""%s"" is not recognized as an internal or external command, an operable program or a batch file."; (** 3 *)
  s2l "Error : ""%s"" was unexpected."; (** 4 *)
  s2l "Error : Invalid command line for %s."; (** 5 *)
  s2l "Error : Unable to find label ""%s""."; (** 6 *)
  s2l "Warning : Using a picobat extension but the CMDLYCORRECT option is set."; (** 7 *)
  s2l "Error : ""%s"" expected more arguments."; (** 8 *)
  s2l "Error : Incompatible arguments %s."; (** 9 *)
  s2l "Error : Unable to rename ""%s""."; (** 10 *)
  s2l "Error : Overflown maximum value."; (** 11 *)
  s2l "Error : Divide by 0."; (** 12 *)
  s2l "Error : Unable to create folder ""%s""."; (** 13 *)
  s2l "Error : Unable to delete folder ""%s""."; (** 14 *)
  s2l "Error : Stream module : ""%s""."; (** 15 *)
  s2l "Error : ""%c"" is an invalid character for special variables. Special variables require their name to be strict ascii characters, excluding controls characters and space (0x00 - 0x30)."; (** 16 *)
  s2l "Error : ""%s"" is not a valid block (should at least be enclosed within parenthesis)."; (** 17 *)
  s2l "Error : ""%s"" is not a valid token specifier."; (** 18 *)
  s2l "Error : Attempted to specify more than TOKEN_NB_MAX (%d) different tokens."; (** 19 *)
  s2l "Error : ""%s"" violates the ``Usebackq'' syntax."; (** 20 *)
  s2l "Error : Unable to allocate memory (in %s)."; (** 21 *)
  s2l "Error : Can't create pipe (in %s)."; (** 22 *)
  s2l "Error : unable to run a subprocess of picobat to process the given input (""%s"")."; (** 23 *)
  s2l "Error : Invalid token specifier. ""%s"" breaks input specifying rules."; (** 24 *)
  s2l "Error : FOR loop is trying to reassign already used %%%%%c variable."; (** 25 *)
  s2l "Error : ""%s"" is not a valid mathematical expression."; (** 26 *)
  s2l "Error : ""%s"" is not a valid top-level block."; (** 27 *)
  s2l "Error : Unable to duplicate file descriptor (%d)."; (** 28 *)
  s2l "Error : Unable to create pipe at function (%s)."; (** 29 *)
  s2l "Error : Unable to set environment string (%s)."; (** 30 *)
  s2l "Error : ""%s"" is an invalid stream redirection."; (** 31 *)
  s2l "Error : Redirection for ""%s"" was already specified."; (** 32 *)
  s2l "Error : Encountered malformed blocks (""%s"")."; (** 33 *)
  s2l "Error : Blocks left unclosed at end-of-file."; (** 34 *)
  s2l "Error : Unable to add command ""%s""."; (** 35 *)
  s2l "Error : Unable to remap commands (in function %s)."; (** 36 *)
  s2l "Error : Trying to redefine already used ""%s"" command."; (** 37 *)
  s2l "Error : Unable to redefine ""%s"" command."; (** 38 *)
  s2l "Error : Unable to set option ""%s"", it is built statically inside your version of pBat."; (** 39 *)
  s2l "Error : The ""%s"" comparison forbids use of strings."; (** 40 *)
  s2l "Error : Unable to fork the current process (in function %s)."; (** 41 *)
  s2l "Error : Pathspec ""%s"" does not match any file."; (** 42 *)
  s2l "Error : %s does not recieved any valid file to process."; (** 43 *)
  s2l "Error : ""%s"" is not a valid number."; (** 44 *)
  s2l "Error : Too many arguments for %s command"; (** 45 *)
  s2l "Error : ""%s"" is not a valid expression for IF command."; (** 46 *)
  s2l "Error : Unable to move file ""%s""."; (** 47 *)
  s2l "Error : Unable to copy file ""%s""."; (** 48 *)
  s2l "Error : Unable to delete file ""%s""."; (** 49 *)
  s2l "Error : Unable to create directory ""%s""."; (** 50 *)
  s2l "Error : Unable to delete directory ""%s""."; (** 51 *)
  s2l "Error : ""%s"" is a relative path, RENAME (or REN) do not handles relative path. If you want to move the file and rename it at the same time, you should use MOVE command."; (** 52 *)
  s2l "Error : ""%s"" is not a valid codepage on your system."; (** 53 *)
  s2l "Error : Unable to access picobat main thread to perform break."; (** 54 *)
  s2l "Error : Invalid label encountered within a block (at line %d)."; (** 55 *)
  s2l "Error : Unable to lock mutex (%s)."; (** 56 *)
  s2l "Error : Unable to release mutex (%s)."; (** 57 *)
  s2l "Error : Unable to catenate file ""%s""."; (** 58 *)
  s2l "Error : Unable to load module ""%s""."; (** 59 *)
  s2l "Error : Incompatible module ""%s""."; (** 60 *)
  s2l "Error : Module ""%s"" is already loaded." (** 61 *)].
(** 239-240 *)
Definition english_quit : cstr := s2l "Aborting current command, press any key to end picobat.".
