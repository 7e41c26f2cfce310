(** Prompt_Model.v -- model of prompt strings (pbat/core/pBat_Prompt.c), of colours
    (pbat/command/pBat_Color.c and libpbat/console/pBat_ConsoleANSI.c), and of ECHO, PECHO
    and PROMPT (pbat/command/pBat_Echo.c, pBat_Pecho.c).  Growable strings are ideal
    strings, and no allocation fails. *)

From Verif Require Import Base Num_Model StrLib_Model Env_Model Var_Model Expand_Model Args_Model Params_Model.

(** ** Colours *)
(** libpBat.h:274-290 *)
Definition PBAT_GET_FOREGROUND (a : Z) : Z := Z.land a 527.    (* 0x20F *)
Definition PBAT_GET_BACKGROUND (a : Z) : Z := Z.land a 496.    (* 0x1F0 *)
Definition PBAT_FOREGROUND_DEFAULT : Z := 512.
Definition PBAT_BACKGROUND_DEFAULT : Z := 256.
Definition PBAT_COLOR_DEFAULT : Z := 768.
(** pBat_Color.c:60-67 *)
Definition bit (x k v : Z) : Z := if (Z.land (x mod 8) k =? 0)%Z then 0 else v.
Definition BACKGROUND_COLOR (x : Z) : Z :=
  Z.lor (if (8 <=? x)%Z then 128 else 0) (Z.lor (bit x 1 64) (Z.lor (bit x 2 32) (bit x 4 16))).
Definition FOREGROUND_COLOR (x : Z) : Z :=
  Z.lor (if (8 <=? x)%Z then 8 else 0) (Z.lor (bit x 1 4) (Z.lor (bit x 2 2) (bit x 4 1))).
(** pBat_Color.c:82-113 and 118-149: one character of a code, [None] is -1. *)
Definition color_char (paint : Z -> Z) (current : Z) (c : ascii) : option Z :=
  if is_digit c then Some (paint (code c - 48)%Z)
  else if inset (s2l "abcdef") (tolower c) then Some (paint (10 + code (tolower c) - 97)%Z)
  else if ceq c "."%char then Some current
  else None.
(** pBat_Color.c:70-153 [pBat_GetColorCode]; [col] is colColor, [None] is -1. *)
Definition pBat_GetColorCode (col : Z) (arg : cstr) : option Z :=
  match arg with
  | [c] =>
      match color_char FOREGROUND_COLOR (PBAT_GET_FOREGROUND col) c with
      | Some fore => Some (Z.lor fore (Z.shiftl (PBAT_GET_BACKGROUND col) 4))
      | None => None
      end
  | [b; c] =>
      match color_char BACKGROUND_COLOR (PBAT_GET_BACKGROUND col) b with
      | Some back =>
          match color_char FOREGROUND_COLOR (PBAT_GET_FOREGROUND col) c with
          | Some fore => Some (Z.lor fore back)
          | None => None
          end
      | None => None
      end
  | _ => None
  end.
(** fprintf(f, "\033[%dm", n) *)
Definition sgr (n : Z) : cstr := "027"%char :: "["%char :: dec n ++ ["m"%char].
(** pBat_ConsoleANSI.c:69-107: what is printed, if the file is a terminal. *)
Definition pBat_SetConsoleTextColor (tty : bool) (c : Z) : cstr :=
  if tty then
    let (c, fore) := if (Z.land c 8 =? 0)%Z then (c, 30%Z) else (Z.lxor c 8, 90%Z) in
    let (c, back) := if (Z.land c 128 =? 0)%Z then (c, 40%Z) else (Z.lxor c 128, 100%Z) in
    let fd := negb (Z.land c PBAT_FOREGROUND_DEFAULT =? 0)%Z in
    let bd := negb (Z.land c PBAT_BACKGROUND_DEFAULT =? 0)%Z in
    (if bd then sgr 49 else []) ++ (if fd then sgr 39 else []) ++
    (if fd && bd then []
     else (if bd then [] else sgr (Z.shiftr (Z.land c 240) 4 + back)) ++
          (if fd then [] else sgr (Z.land c 7 + fore)))
  else [].
(** pBat_ConsoleANSI.c:60-67 *)
Definition pBat_SetConsoleColor (tty : bool) (c : Z) : cstr :=
  if tty then pBat_SetConsoleTextColor tty c ++ "027"%char :: s2l "[H" ++ "027"%char :: s2l "[2J" else [].
(** pBat_Color.c:155-189 [pBat_CmdColor]: the error level, colColor and what is printed;
    [line] is what follows COLOR.  The help is left out. *)
Definition pBat_CmdColor (w : xworld) (tty : bool) (col : Z) (line : cstr) : outcome (Z * Z * cstr * xworld) :=
  do (arg, r, w) <- pBat_GetNextParameter w line 4;
  match r with
  | Some _ =>
      if streqb arg (s2l "/?") then Ret (0%Z, col, [], w)
      else
        match pBat_GetColorCode col arg with
        | None => Ret (PBAT_UNEXPECTED_ELEMENT, col, [], w)
        | Some c =>
            if (Z.shiftr (Z.land 240 c) 4 =? Z.land 15 c)%Z then Ret (PBAT_UNEXPECTED_ELEMENT, col, [], w)
            else Ret (0%Z, c, pBat_SetConsoleColor tty c, w)
        end
  | None => Ret (0%Z, PBAT_COLOR_DEFAULT, pBat_SetConsoleColor tty PBAT_COLOR_DEFAULT, w)
  end.

(** ** Prompt strings *)
(** What a prompt may show: the current directory, the date, the time and the environment
    ([vworld]), how many directories were pushed, the colours and whether the output is a
    terminal; [ka] is the address of the name of a variable. *)
Record pworld := mkP { p_var : vworld; p_ka : Z; p_dirs : nat; p_col : Z; p_tty : bool }.
(** pBat_Prompt.c:108-112 and 120-124 *)
Definition prompt_env (p : pworld) (n : cstr) : outcome cstr :=
  do v <- pBat_GetEnv (vw_env (p_var p)) n (p_ka p);
  Ret (match v with Some v => v | None => [] end).
Definition prompt_color (p : pworld) (c : cstr) : cstr :=
  match pBat_GetColorCode (p_col p) c with
  | Some k => pBat_SetConsoleTextColor (p_tty p) k
  | None => []
  end.
(** if ( *pch) pch ++ *)
Definition advance (s : cstr) : cstr := match s with [] => [] | _ :: r => r end.
(** pBat_Prompt.c:43-170: [s] is what follows a '$'; what is printed and the new value of
    prompt.  The date and the time fit in the buffer (29 characters). *)
Definition prompt_code (p : pworld) (s : cstr) : outcome (cstr * cstr) :=
  match s with
  | [] => Ret ([], [])
  | c :: r =>
      let k := tolower c in
      if ceq k "a"%char then Ret (["&"%char], r)
      else if ceq k "b"%char then Ret (["|"%char], r)
      else if ceq k "c"%char then Ret (["("%char], r)
      else if ceq k "d"%char then Ret (vw_date (p_var p), r)
      else if ceq k "e"%char then Ret (["027"%char], r)
      else if ceq k "f"%char then Ret ([")"%char], r)
      else if ceq k "g"%char then Ret ([">"%char], r)
      else if ceq k "h"%char then Ret (["008"%char], r)
      else if ceq k "l"%char then Ret (["<"%char], r)
      else if ceq k "m"%char then Ret ([], r)
      else if ceq k "n"%char then Ret ([match vw_cd (p_var p) with c :: _ => c | [] => "000"%char end], r)
      else if ceq k "p"%char then Ret (vw_cd (p_var p), r)
      else if ceq k "q"%char then Ret (["="%char], r)
      else if ceq k "s"%char then Ret ([" "%char], r)
      else if ceq k "t"%char then Ret (vw_time (p_var p), r)
      else if ceq k "u"%char then do v <- prompt_env p (s2l "USERNAME"); Ret (v, r)
      else if ceq k "v"%char then Ret ([], r)
      else if ceq k "w"%char then do v <- prompt_env p (s2l "USERDOMAIN"); Ret (v, r)
      else if ceq k "x"%char then
        match r with
        | a :: b :: t =>
            if ceq b ";"%char then Ret (prompt_color p [a], t)
            else match t with
                 | d :: t' => if ceq d ";"%char then Ret (prompt_color p [a; b], t') else Ret ([], advance r)
                 | [] => Ret ([], advance r)
                 end
        | _ => Ret ([], advance r)
        end
      else if ceq k "_"%char then Ret ([nl], r)
      else if ceq k "$"%char then Ret (["$"%char], r)
      else if ceq k "+"%char then Ret (repeat "+"%char (p_dirs p), r)
      else Ret ([], r)
  end.
(** pBat_Prompt.c:29-176 [pBat_OutputPromptString] *)
Fixpoint prompt_loop (fuel : nat) (p : pworld) (s : cstr) : outcome cstr :=
  match fuel with
  | O => OutOfFuel
  | S f =>
      match strchr s "$"%char with
      | None => Ret s
      | Some i =>
          do (o, s') <- prompt_code p (skipn (S i) s);
          do t <- prompt_loop f p s';
          Ret (firstn i s ++ o ++ t)
      end
  end.
Definition pBat_OutputPromptString (p : pworld) (s : cstr) : outcome cstr := prompt_loop (S (length s)) p s.
(** pBat_Prompt.c:179-189 *)
Definition pBat_OutputPrompt (p : pworld) : outcome cstr :=
  do v <- prompt_env p (s2l "PROMPT");
  pBat_OutputPromptString p v.

(** ** ECHO, PECHO, PROMPT *)
(** [ispunct] in the C locale. *)
Definition ispunct (c : ascii) : bool := inset (s2l "!""#$%&'()*+,-./:;<=>?@[\]^_`{|}~") c.
(** pBat_Errors.h:45 *)
Definition PBAT_COMMAND_ERROR : Z := 3.
(** What ECHO writes. *)
Inductive shown := HText (s : cstr) | HState (on : bool) | HNothing.
(** pBat_Echo.c:43-115 [pBat_CmdEcho]: the error level, bEchoOn and what is printed;
    [line] is what follows ECHO.  The help, the error message, the lock and the texts of
    the two messages about bEchoOn are left out. *)
Definition pBat_CmdEcho (w : xworld) (on : bool) (line : cstr) : outcome (Z * bool * shown * xworld) :=
  match line with
  | c :: text =>
      if negb (ceq c " "%char) && negb (ceq c "009"%char) && negb (ispunct c) then Ret (PBAT_COMMAND_ERROR, on, HNothing, w)
      else if ispunct c then
        do (v, w) <- pBat_GetEndOfLine w text;
        Ret (0%Z, on, HText (v ++ [nl]), w)
      else
        do (t, r, w) <- pBat_GetNextParameterEs w [] line;
        match r with
        | None => Ret (0%Z, on, HState on, w)
        | Some r =>
            do (_, r, w) <- pBat_GetNextParameter w r 1;
            let single := match r with None => true | Some _ => false end in
            if (stricmp t (s2l "OFF") =? 0)%Z && single then Ret (0%Z, false, HNothing, w)
            else if (stricmp t (s2l "ON") =? 0)%Z && single then Ret (0%Z, true, HNothing, w)
            else if streqb t (s2l "/?") && single then Ret (0%Z, on, HNothing, w)
            else
              do (v, w) <- pBat_GetEndOfLine w text;
              Ret (0%Z, on, HText (v ++ [nl]), w)
        end
  | [] =>
      do (t, r, w) <- pBat_GetNextParameterEs w [] [];
      match r with
      | None => Ret (0%Z, on, HState on, w)
      | Some _ => Undef        (* lpLine+1; never happens *)
      end
  end.
(** pBat_Pecho.c:42-78 [pBat_CmdPecho]: the error level and what is printed; [line] is
    what follows PECHO.  Without anything behind PECHO the text read is the one after the
    end of the line.  The help is left out. *)
Definition pBat_CmdPecho (w : xworld) (ka : Z) (dirs : nat) (col : Z) (tty : bool) (line : cstr) : outcome (Z * cstr * xworld) :=
  match line with
  | [] => Undef
  | c :: text =>
      if negb (ceq c " "%char) && negb (ceq c "009"%char) && negb (ispunct c) then Ret (PBAT_COMMAND_ERROR, [], w)
      else
        do (v, w) <- pBat_GetEndOfLine w text;
        if negb (ispunct c) && streqb v (s2l "/?") then Ret (0%Z, [], w)
        else
          do o <- pBat_OutputPromptString (mkP (x_var w) ka dirs col tty) v;
          Ret (0%Z, o ++ [nl], w)
  end.
(** pBat_Pecho.c:80-96 [pBat_CmdPrompt]: the value given to the variable PROMPT, [None]
    for the help; [line] is what follows PROMPT. *)
Definition pBat_CmdPrompt (w : xworld) (line : cstr) : outcome (option cstr * xworld) :=
  do (v, w) <- pBat_GetEndOfLine w (pBat_SkipBlanks line);
  Ret (if streqb v (s2l "/?") then None
       else match v with [] => Some (s2l "$P$G") | _ => Some v end, w).
