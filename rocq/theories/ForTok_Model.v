(** ForTok_Model.v -- model of the options of FOR /F and of the selection of tokens
    in a line: pbat/command/pBat_For.c:624-1153. *)

From Verif Require Import Base Num_Model StrLib_Model If_Model LocalVar_Model.

Definition PBAT_FOR_BAD_TOKEN_SPECIFIER : Z := 18.
Definition PBAT_FOR_TOKEN_OVERFLOW : Z := 19.

(** pBat_For.h:42-74 FORINFO; buffers are ideal strings of at most FILENAME_MAX-1 characters. *)
Record forinfo := mkFI { fi_delims : cstr; fi_eol : cstr; fi_skip : Z; fi_first : ascii; fi_backq : bool; fi_nb : nat; fi_tokens : list Z }.
Definition TOKENINFO_NB_MAX : nat := 96.
Definition ALL_TOKEN : Z := 65535.

(** pBat_For.h:31-34 HIGHWORD and LOWWORD *)
Definition HIGHWORD (z : Z) : Z := (Z.land z 4294901760 / 65536)%Z.
Definition LOWWORD (z : Z) : Z := Z.land z 65535.

Fixpoint set_nth (l : list Z) (i : nat) (f : Z -> Z) : list Z :=
  match l, i with
  | x :: l', O => f x :: l'
  | x :: l', S j => x :: set_nth l' j f
  | [], _ => []
  end.
(** [lpToken[i] |= TOHIGH(hi)+TOLOW(lo)]; shifting is undefined for numbers that do not fit. *)
Definition put_token (a : list Z) (i : nat) (hi lo : Z) : outcome (list Z) :=
  if (hi <? 0)%Z || (32767 <? hi)%Z then Undef
  else Ret (set_nth a i (fun x => Z.lor x (hi * 65536 + Z.land lo 65535))).

(** pBat_For.c:890-903: the loop on the tokens of a list. *)
Fixpoint put_list (room : nat) (a : list Z) (i : nat) (start stop : Z) : outcome (option (nat * list Z)) :=
  if (start <=? stop)%Z then
    match room with
    | O => Ret None                                     (* overflow of the table *)
    | S r => do a' <- put_token a i start start; put_list r a' (S i) (start + 1) stop
    end
  else Ret (Some (i, a)).

Inductive tokop := OpNone | OpList | OpCat.
Fixpoint skip_st (s : cstr) : cstr :=
  match s with c :: r => if ceq c " "%char || ceq c "009"%char then skip_st r else s | [] => [] end.

Definition bad_token {A} : outcome (Z + A) := Ret (inl PBAT_FOR_BAD_TOKEN_SPECIFIER).
Definition overflow {A} : outcome (Z + A) := Ret (inl PBAT_FOR_TOKEN_OVERFLOW).

(** pBat_For.c:774-1008 [pBat_ForMakeTokens]: one turn of the loop per unit of fuel;
    -1 stands for no number, NUL for no character. *)
Fixpoint make_tokens (fuel : nat) (p : cstr) (start stop : Z) (op : tokop) (prev : ascii) (last : Z) (i : nat) (a : list Z)
  : outcome (Z + nat * list Z) :=
  match fuel with
  | O => OutOfFuel
  | S f =>
      let p := skip_st p in
      let '(nb, next) := strtol0 p in
      let nb := to_int nb in
      let c0 := match p with c :: _ => c | [] => "000"%char end in
      let none := (length next =? length p) in
      (* 790-830 *)
      let step :=
        if none then
          if negb (ceq c0 "000"%char) && negb (ceq c0 "*"%char) && (ceq prev "*"%char && negb (ceq c0 ","%char) && negb (ceq c0 "000"%char))
          then None else Some (start, stop)
        else if ceq prev "*"%char then None
        else match op with
             | OpNone => Some (nb, stop)
             | _ => if (start =? -1)%Z then None else Some (start, nb)
             end in
      match step with
      | None => bad_token
      | Some (start, stop) =>
          let p := skip_st next in
          let c := match p with c :: _ => c | [] => "000"%char end in
          if (start =? -1)%Z && negb (ceq c "*"%char) then bad_token
          else if ceq c ","%char || ceq c "000"%char then
            (* 844-991 *)
            do w <- match op with
                    | OpNone => if TOKENINFO_NB_MAX <=? i then overflow
                                else do a' <- put_token a i start start; Ret (inr (start, S i, a'))
                    | OpCat => if (stop =? -1)%Z then bad_token
                               else if TOKENINFO_NB_MAX <=? i then overflow
                               else do a' <- put_token a i start stop; Ret (inr (stop, S i, a'))
                    | OpList => if (stop =? -1)%Z then bad_token
                                else do r <- put_list (TOKENINFO_NB_MAX - i) a i start stop;
                                     match r with
                                     | None => overflow
                                     | Some (i', a') => Ret (inr (stop, i', a'))
                                     end
                    end;
            match w with
            | inl e => Ret (inl e)
            | inr (last', i', a') =>
                if ceq c "000"%char then Ret (inr (i', a'))
                else make_tokens f (skipn 1 p) (-1) (-1) OpNone c last' i' a'
            end
          else if ceq c "-"%char then
            if negb (stop =? -1)%Z then bad_token else make_tokens f (skipn 1 p) start stop OpList c last i a
          else if ceq c "."%char then
            if negb (stop =? -1)%Z then bad_token else make_tokens f (skipn 1 p) start stop OpCat c last i a
          else if ceq c "*"%char then
            if (start =? -1)%Z then
              if (last =? 2147483647)%Z then Undef else
              make_tokens f (skipn 1 p) (last + 1) ALL_TOKEN OpCat c last i a
            else match op with
                 | OpNone => if TOKENINFO_NB_MAX <=? i then overflow
                             else do a' <- put_token a i start start;
                                  make_tokens f (skipn 1 p) (start + 1) ALL_TOKEN OpCat c last (S i) a'
                 | OpList => bad_token
                 | OpCat => make_tokens f (skipn 1 p) start ALL_TOKEN OpCat c last i a
                 end
          else bad_token
      end
  end.
Definition pBat_ForMakeTokens (p : cstr) (info : forinfo) : outcome (Z + forinfo) :=
  do r <- make_tokens (S (length p)) p (-1) (-1) OpNone "000"%char 0 0 (fi_tokens info);
  match r with
  | inl e => Ret (inl e)
  | inr (n, a) => Ret (inr (mkFI (fi_delims info) (fi_eol info) (fi_skip info) (fi_first info) (fi_backq info) n a))
  end.

(** pBat_For.c:1073-1106: the loop of [pBat_ForGetToken]: the token reached, its
    number, where the selection starts and ends. *)
Fixpoint get_loop (fuel : nat) (delims s : cstr) (pos b e : Z) (from : option cstr) : outcome (cstr * Z * option cstr * option cstr) :=
  match fuel with
  | O => OutOfFuel
  | S f =>
      match strpbrk s delims with
      | None => Ret (s, pos, from, None)
      | Some O => get_loop f delims (skipn 1 s) pos b e from
      | Some (S _ as k) =>
          let from := if (pos =? b)%Z then Some s else from in
          if (pos =? e)%Z then Ret (s, pos, from, Some (skipn k s))
          else get_loop f delims (skipn (S k) s) (pos + 1) b e from
      end
  end.
(** pBat_For.c:1048-1138 [pBat_ForGetToken] *)
Definition get_token (line delims : cstr) (b e : Z) : outcome cstr :=
  do (s, pos, from, til) <- get_loop (S (length line)) delims line 1 b e None;
  let from := match from with None => if (pos =? b)%Z then Some s else None | Some x => Some x end in
  Ret (match from with
       | None => []
       | Some x => match til with Some y => firstn (length x - length y) x | None => x end
       end).
Definition pBat_ForGetToken (line : cstr) (info : forinfo) (i : nat) : outcome cstr :=
  match nth_error (fi_tokens info) i with
  | Some t => get_token line (fi_delims info) (HIGHWORD t) (LOWWORD t)
  | None => Undef
  end.

(** pBat_For.c:1034-1040: the name of the next variable. *)
Definition next_var (c : ascii) : ascii := if (code c <? 127)%Z then ascii_of_N (N_of_ascii c + 1) else "!"%char.
(** pBat_For.c:1015-1046 [pBat_ForSplitTokens]: token [i] and the following [n - i]. *)
Fixpoint split_tokens (n : nat) (line : cstr) (info : forinfo) (i : nat) (c : ascii) (b : block) : outcome block :=
  match n with
  | O => Ret b
  | S m => do t <- pBat_ForGetToken line info i;
           split_tokens m line info (S i) (next_var c) (pBat_SetLocalVar b c (Some t))
  end.
Definition pBat_ForSplitTokens (line : cstr) (info : forinfo) (b : block) : outcome block :=
  split_tokens (fi_nb info) line info 0 (fi_first info) b.

(** pBat_For.c:1140-1153 [pBat_ForVarUnassign] *)
Fixpoint unassign (n : nat) (c : ascii) (i : nat) (b : block) : block :=
  match n with
  | O => b
  | S m => let k := (code c + Z.of_nat i)%Z in
           let b' := pBat_SetLocalVar b (ascii_of_N (Z.to_N (k mod 256))) None in
           if (k mod 256 <? 128)%Z then unassign m c (S i) b' else b'
  end.
Definition pBat_ForVarUnassign (info : forinfo) (b : block) : block := unassign (fi_nb info) (fi_first info) 0 b.

(** pBat_For.c:705-725 [pBat_ForIsSpecifier] *)
Inductive spec := SPEC_INVALID | SPEC_USEBACKQ | SPEC_TOKENS | SPEC_DELIMS | SPEC_SKIP | SPEC_EOL.
Definition pBat_ForIsSpecifier (p : cstr) : spec :=
  if (strnicmp p (s2l "tokens=") 7 =? 0)%Z then SPEC_TOKENS
  else if (strnicmp p (s2l "eol=") 4 =? 0)%Z then SPEC_EOL
  else if (strnicmp p (s2l "delims=") 7 =? 0)%Z then SPEC_DELIMS
  else if (strnicmp p (s2l "skip=") 5 =? 0)%Z then SPEC_SKIP
  else if (strnicmp p (s2l "usebackq") 8 =? 0)%Z && match skipn 8 p with [] => true | c :: _ => ceq c " "%char end then SPEC_USEBACKQ
  else SPEC_INVALID.
Definition is_spec (p : cstr) : bool := match pBat_ForIsSpecifier p with SPEC_INVALID => false | _ => true end.

(** pBat_For.c:737-743 and 753-765: to the last of the spaces met next, or the end; [s]
    is the text at [next]. *)
Fixpoint last_space (s : cstr) : cstr :=
  match s with
  | c :: r => match r with d :: _ => if ceq d " "%char then last_space r else s | [] => s end
  | [] => []
  end.
Definition to_space (s : cstr) : cstr :=
  match strchr s " "%char with Some k => last_space (skipn k s) | None => [] end.
Fixpoint to_spec (fuel : nat) (next : cstr) : outcome cstr :=
  match fuel with
  | O => OutOfFuel
  | S f =>
      match next with
      | [] => Ret []
      | _ :: r => if is_spec r then Ret next else to_spec f (to_space r)
      end
  end.
(** pBat_For.c:727-772 [pBat_ForGetSpecifier]: kind, text and rest. *)
Definition pBat_ForGetSpecifier (s : cstr) : outcome (option (spec * cstr * cstr)) :=
  match s with
  | [] => Ret None
  | _ =>
      let ty := pBat_ForIsSpecifier s in
      do next <- match ty with
                 | SPEC_INVALID | SPEC_USEBACKQ => Ret (to_space s)
                 | _ => to_spec (S (length s)) (to_space s)
                 end;
      Ret (Some (ty, firstn (length s - length next) s, skipn 1 next))
  end.

Definition PBAT_UNEXPECTED_SPEC : Z := 4.              (* PBAT_UNEXPECTED_ELEMENT *)
(** pBat_For.c:624-703 [pBat_ForMakeInfo] *)
Fixpoint make_info (fuel : nat) (s : cstr) (info : forinfo) : outcome (Z + forinfo) :=
  match fuel with
  | O => OutOfFuel
  | S f =>
      do g <- pBat_ForGetSpecifier s;
      match g with
      | None => Ret (inr info)
      | Some (ty, t, rest) =>
          match ty with
          | SPEC_INVALID => Ret (inl PBAT_UNEXPECTED_SPEC)
          | SPEC_USEBACKQ => make_info f rest (mkFI (fi_delims info) (fi_eol info) (fi_skip info) (fi_first info) true (fi_nb info) (fi_tokens info))
          | SPEC_DELIMS =>
              let d := firstn 4095 (skipn 7 t) in
              let e := if inset d ";"%char && streqb (fi_eol info) (s2l ";") then [] else fi_eol info in
              make_info f rest (mkFI d e (fi_skip info) (fi_first info) (fi_backq info) (fi_nb info) (fi_tokens info))
          | SPEC_SKIP =>
              make_info f rest (mkFI (fi_delims info) (fi_eol info) (to_int (fst (strtol0 (skipn 5 t)))) (fi_first info) (fi_backq info) (fi_nb info) (fi_tokens info))
          | SPEC_EOL =>
              make_info f rest (mkFI (fi_delims info) (firstn 4095 (skipn 4 t)) (fi_skip info) (fi_first info) (fi_backq info) (fi_nb info) (fi_tokens info))
          | SPEC_TOKENS =>
              do r <- pBat_ForMakeTokens (skipn 7 t) info;
              match r with inl e => Ret (inl e) | inr i => make_info f rest i end
          end
      end
  end.
Definition pBat_ForMakeInfo (s : cstr) (info : forinfo) : outcome (Z + forinfo) := make_info (S (length s)) s info.
(** pBat_For.c:94-104: the options to start with. *)
Definition forInfo : forinfo := mkFI (" "%char :: ["009"%char]) (s2l ";") 0 "000"%char false 1 (65537%Z :: repeat 0%Z 95).
(** pBat_For.c:164-180 and 94-104: with the first variable. *)
Definition start_info (c : ascii) : forinfo := mkFI (fi_delims forInfo) (fi_eol forInfo) (fi_skip forInfo) c (fi_backq forInfo) (fi_nb forInfo) (fi_tokens forInfo).
