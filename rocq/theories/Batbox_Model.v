(** Batbox_Model.v -- the command BATBOX of the module of that name, modules/batbox/batbox.c, on systems other than Windows.

    The console, the keyboard, the mouse and the assignment of a number to a variable are unknown functions or events;
    [b_in] counts what was asked of keyboard and mouse. *)

From Verif Require Import Base StrLib_Model Path_Model Env_Model Var_Model Expand_Model Args_Model If_Model Num_Model.

Inductive bev :=
| BText (t : cstr)             (** written to the output *)
| BGo (x y : Z)                (** pBat_SetConsoleCursorPosition *)
| BCursor (z : Z)              (** pBat_SetConsoleCursorState *)
| BSleep (z : Z)               (** pBat_Sleep *)
| BColor (z : Z)               (** pBat_SetConsoleTextColor *)
| BMouse (move : bool)         (** pBat_GetMousePos *)
| BShow (x y t : Z)            (** "%d:%d:%d" and the end of the line *)
| BSet (n : cstr) (z : Z)      (** pBat_SetEnv with "%d" of a number *)
| BSetKey (n : cstr) (c : bool) (z : Z). (** pBat_SetEnv with "%c" ([c]) or "%d" *)

(** batbox.c:138 [orig], [last]: coordinates are [short] (libpBat.h:328-331) *)
Record bstate := mkB { b_orig : Z * Z; b_last : Z * Z; b_in : nat }.
Definition to_short (z : Z) : Z := ((z + 32768) mod 65536 - 32768)%Z.
(** The sum of two [int] *)
Definition add_int (a b : Z) : outcome Z := if ((-2147483648 <=? a + b) && (a + b <=? 2147483647))%Z then Ret (a + b)%Z else Undef.

(** 104-108 [fast_switch_cmp]: [c] is a small letter here. *)
Definition sw (p : cstr) (c : ascii) : bool :=
  match p with
  | s :: d :: r => ceq s "/" && (ceq d c || ceq d (ascii_of_nat (nat_of_ascii c - 32))) && match r with [] => true | [u] => ceq u "_" | _ => false end
  | _ => false
  end.
(** 110-111 [fast_noswitch_check] *)
Definition noswitch (p : cstr) : bool := match p with [] => false | c :: _ => negb (ceq c "/") end.
(** "%c" *)
Definition chr (n : Z) : ascii := ascii_of_nat (Z.to_nat (n mod 256)).
(** 49-57 [PORTABLE_COLOR]; the constants are those of libpBat.h *)
Definition bit (n m c : Z) : Z := if (Z.land n m =? 0)%Z then 0%Z else c.
Definition PORTABLE_COLOR (n : Z) : Z :=
  Z.lor (Z.lor (Z.lor (Z.lor (bit n 8 8) (bit n 1 4)) (bit n 2 2)) (bit n 4 1))
        (Z.lor (Z.lor (Z.lor (bit n 128 128) (bit n 16 64)) (bit n 32 32)) (bit n 64 16)).
(** 213-215: the third character is a "_" *)
Definition under (p : cstr) : bool := match p with _ :: _ :: u :: _ => ceq u "_" | _ => false end.
(** 217, 237: the second character is a small or a big l *)
Definition is_l (p : cstr) : bool := match p with _ :: d :: _ => ceq d "l" || ceq d "L" | _ => false end.
(** 259-261 *)
Definition onmove (p : cstr) : bool := match p with _ :: d :: r => ceq d "y" || (ceq d "m" && match r with u :: _ => ceq u "_" | [] => false end) | _ => false end.
(** What is seen comes before what follows. *)
Definition put (l : list bev) (r : outcome (Z * list bev * xworld * bstate)) : outcome (Z * list bev * xworld * bstate) :=
  do (z, l', w, st) <- r; Ret (z, l ++ l', w, st).

Section Batbox.
Variable ka : Z.
Variable kbhit : nat -> bool.
Variable getch : nat -> Z.
Variable mouse : nat -> bool -> Z * Z * Z.
Variable assign : xworld -> cstr -> Z -> xworld.
Variable assign_key : xworld -> cstr -> bool -> Z -> xworld.

(** 113-132 [args_get_number] *)
Definition args_get_number (w : xworld) (s : cstr) : outcome Z :=
  let (n, r) := strtol0 s in
  match r with
  | [] => Ret (to_int n)
  | _ => do v <- pBat_GetEnv (vw_env (x_var w)) s ka;
         match v with None => Ret 0%Z | Some v => Ret (to_int (fst (strtol0 v))) end
  end.

(** 225-232: the key and what was asked *)
Definition read_key (n : nat) : Z * nat := let k := getch n in if (k =? 224)%Z then ((k + getch (S n))%Z, S (S n)) else (k, S n).

(** 266-290: the three names, and what is behind them *)
Definition mouse_names (w : xworld) (p rest : cstr) : outcome (option (cstr * cstr * cstr * cstr) * xworld) :=
  do (x, next, w) <- pBat_GetNextParameterEs w p rest;
  match next with None => Ret (None, w) | Some rest =>
    if negb (noswitch x) then Ret (None, w) else
    do (y, next, w) <- pBat_GetNextParameterEs w [] rest;
    match next with None => Ret (None, w) | Some rest =>
      if negb (noswitch y) then Ret (None, w) else
      do (t, next, w) <- pBat_GetNextParameterEs w [] rest;
      match next with None => Ret (None, w) | Some rest =>
        if negb (noswitch t) then Ret (None, w) else Ret (Some (x, y, t, rest), w)
      end
    end
  end.

(** 142-312: the loop; [old] is the string of [param]. Where the parameter is replaced by a fresh one (269, 275) the next round
    starts with [[]]: it is only kept where there is no further word, and then nothing is done. *)
Fixpoint batbox_loop (fuel : nat) (w : xworld) (old line : cstr) (st : bstate) : outcome (Z * list bev * xworld * bstate) :=
  match fuel with
  | O => OutOfFuel
  | S f =>
      do (p, next, w) <- pBat_GetNextParameterEs w old line;
      match next with None => Ret (0%Z, [], w, st) | Some rest =>
        if sw p "a" then
          do (q, next, w) <- pBat_GetNextParameterEs w p rest;
          match next with None => Ret (0%Z, [], w, st) | Some rest =>
            do n <- args_get_number w q; put [BText [chr n]] (batbox_loop f w q rest st)
          end
        else if sw p "d" then
          do (q, next, w) <- pBat_GetNextParameterEs w p rest;
          match next with None => Ret (0%Z, [], w, st) | Some rest =>
            put [BText q] (batbox_loop f w q rest st)
          end
        else if sw p "n" then
          let last := (fst (b_last st), to_short (snd (b_last st) + 1)) in
          put [BGo (fst last) (snd last)] (batbox_loop f w p rest (mkB (b_orig st) last (b_in st)))
        else if sw p "o" then
          do (q, next, w) <- pBat_GetNextParameterEs w p rest;
          match next with None => Ret (0%Z, [], w, st) | Some rest =>
            do x <- args_get_number w q;
            let st := mkB (to_short x, snd (b_orig st)) (b_last st) (b_in st) in
            do (q, next, w) <- pBat_GetNextParameterEs w q rest;
            match next with None => Ret (0%Z, [], w, st) | Some rest =>
              do y <- args_get_number w q;
              batbox_loop f w q rest (mkB (fst (b_orig st), to_short y) (b_last st) (b_in st))
            end
          end
        else if sw p "g" then
          do (q, next, w) <- pBat_GetNextParameterEs w p rest;
          match next with None => Ret (0%Z, [], w, st) | Some rest =>
            do n <- args_get_number w q;
            do x <- add_int (fst (b_orig st)) n;
            do (q, next, w) <- pBat_GetNextParameterEs w q rest;
            match next with None => Ret (0%Z, [], w, st) | Some rest =>
              do n <- args_get_number w q;
              do y <- add_int (snd (b_orig st)) n;
              let last := (to_short x, to_short y) in
              put [BGo (fst last) (snd last)] (batbox_loop f w q rest (mkB (b_orig st) last (b_in st)))
            end
          end
        else if sw p "h" then
          do (q, next, w) <- pBat_GetNextParameterEs w p rest;
          match next with None => Ret (0%Z, [], w, st) | Some rest =>
            do n <- args_get_number w q; put [BCursor n] (batbox_loop f w q rest st)
          end
        else if sw p "w" then
          do (q, next, w) <- pBat_GetNextParameterEs w p rest;
          match next with None => Ret (0%Z, [], w, st) | Some rest =>
            do n <- args_get_number w q; put [BSleep n] (batbox_loop f w q rest st)
          end
        else if sw p "c" then
          do (q, next, w) <- pBat_GetNextParameterEs w p rest;
          match next with None => Ret (0%Z, [], w, st) | Some rest =>
            do n <- args_get_number w q; put [BColor (PORTABLE_COLOR n)] (batbox_loop f w q rest st)
          end
        else if sw p "k" || sw p "l" then
          do (q, next, w) <- pBat_GetNextParameterEs w p rest;
          let name := match next with None => noswitch q | Some _ => false end in
          if under p && negb (kbhit (b_in st)) then
            if name then Ret (0%Z, [], w, mkB (b_orig st) (b_last st) (S (b_in st)))
            else batbox_loop f w q rest (mkB (b_orig st) (b_last st) (S (b_in st)))
          else
            let (k, n) := read_key (if under p then S (b_in st) else b_in st) in
            let st := mkB (b_orig st) (b_last st) n in
            if name then let c := is_l p && (k <? 255)%Z in Ret (0%Z, [BSetKey q c k], assign_key w q c k, st)
            else Ret (k, [], w, st)
        else if sw p "y" || sw p "m" then
          do (names, w) <- mouse_names w p rest;
          let '(x, y, t) := mouse (b_in st) (onmove p) in
          let st := mkB (b_orig st) (b_last st) (S (b_in st)) in
          match names with
          | Some (a, b, c, rest) =>
              put [BMouse (onmove p); BSet a x; BSet b y; BSet c t] (batbox_loop f (assign (assign (assign w a x) b y) c t) c rest st)
          | None => put [BMouse (onmove p); BShow x y t] (batbox_loop f w [] rest st)
          end
        else batbox_loop f w p rest st
      end
  end.

(** 134-317 [batbox]; [line] is behind the name of the command (139). *)
Definition batbox (w : xworld) (line : cstr) (st : bstate) : outcome (Z * list bev * xworld * bstate) := batbox_loop (S (length line)) w [] line st.
End Batbox.
