(** Var_Model.v -- model of the expansion of one variable reference,
    pbat/core/pBat_Var.c (build with UTF-8 support, PBAT_USE_LIBCU8).

    The growable string receiving the result is an ideal string here: C05 and
    C06 prove that the operations used on it behave so (below one gigabyte). *)

From Verif Require Import Base Num_Model Estr_Model Env_Model.

(** The globals read by [pBat_GetVar]: the environment [lpeEnv], the current
    directory [lpCurrentDir], [iErrorLevel], and the answers of [rand] and
    [pBat_GetTimeBasedVar] (external: [rand], [strftime]). *)
Record vworld := mkVW {
  vw_env : env; vw_cd : cstr; vw_err : Z; vw_rand : Z; vw_date : cstr; vw_time : cstr }.

(** pBat_Var.c:64-74 [pBat_CountU8Chars] *)
Definition is_cont (c : ascii) : bool := (Z.land (code c) 192 =? 128)%Z.
Fixpoint pBat_CountU8Chars (s : cstr) : nat :=
  match s with
  | [] => 0
  | c :: r => (if is_cont c then 0 else 1) + pBat_CountU8Chars r
  end.

(** pBat_Var.c:76-87 [pBat_SkipU8Chars]: [p] is an offset in the block [buf];
    reading past the end of the block is [Undef]. *)
Fixpoint skip_cont (fuel : nat) (buf : list ascii) (p : nat) : outcome nat :=
  match fuel with
  | O => OutOfFuel
  | S f => match nth_error buf p with
           | None => Undef
           | Some c => if is_cont c then skip_cont f buf (S p) else Ret p
           end
  end.
Fixpoint pBat_SkipU8Chars (buf : list ascii) (p cnt : nat) : outcome nat :=
  match cnt with
  | O => Ret p
  | S n => do q <- skip_cont (S (length buf)) buf (S p); pBat_SkipU8Chars buf q n
  end.

(** The form of a reference: pBat_Var.c:146-178, variable [iVarState]. *)
Inductive form :=
| FPlain                       (* 0: %name% *)
| FReplace (pat rep : cstr)    (* 1: %name:pat=rep% *)
| FCut (iBegin iLen : Z)       (* 2: %name:~b,l% *)
| FDefault (text : cstr).      (* 3: %name:text% *)

Definition parse_ref (name : cstr) : outcome (cstr * form) :=
  match strchr name ":"%char with
  | None => Ret (name, FPlain)
  | Some k =>
      let n := firstn k name in
      let tok := skipn k name in
      match strchr tok "="%char with
      | Some j => Ret (n, FReplace (skipn 1 (firstn j tok)) (skipn (S j) tok))
      | None =>
          match skipn 1 tok with
          | c :: t =>
              if ceq c "~"%char then
                match strchr t ","%char with
                | Some j =>
                    do l <- atol (skipn (S j) t);
                    do b <- atol (firstn j t);
                    Ret (n, FCut (to_int b) (to_int l))
                | None => do b <- atol t; Ret (n, FCut (to_int b) 0)
                end
              else Ret (n, FDefault (c :: t))
          | [] => Ret (n, FDefault [])
          end
      end
  end.

(** Where the content lies, so that the writes of the substring form can be
    followed: in an entry of the environment, in [lpCurrentDir] or in the
    automatic buffer [lpBuf]. *)
Inductive place := InEnv (i : nat) | InCd | InBuf.

(** pBat_Var.c:194: the bytes of the [int] (little endian) read as a string. *)
Definition err_bytes (z : Z) : list ascii :=
  map (fun k => ascii_of_N (Z.to_N ((z / 2 ^ k) mod 256))) [0; 8; 16; 24]%Z.

(** pBat_Var.c:180-223; [ka] is the address of the copy of the name. *)
Definition content (w : vworld) (ka : Z) (n : cstr) : outcome (option (place * cstr)) :=
  if (stricmp n (s2l "CD") =? 0)%Z then Ret (Some (InCd, vw_cd w))
  else if (stricmp n (s2l "ERRORLEVEL") =? 0)%Z then Ret (Some (InBuf, dec (vw_err w)))
  else if (stricmp n (s2l "=EXITCODEASCII") =? 0)%Z
       then do s <- scan_nul (err_bytes (vw_err w)); Ret (Some (InBuf, s))
  else if (stricmp n (s2l "RANDOM") =? 0)%Z then Ret (Some (InBuf, dec (vw_rand w)))
  else if (stricmp n (s2l "DATE") =? 0)%Z || (stricmp n (s2l "TIME") =? 0)%Z
       then Ret (Some (InBuf, match n with
                              | c :: _ => if ceq c "T"%char || ceq c "t"%char then vw_time w else vw_date w
                              | [] => vw_date w
                              end))
  else
    do r <- find_name (vw_env w) n ka;
    match r with
    | None => Ret None
    | Some i => match nth_error (e_buf (vw_env w)) i with
                | Some v => match v_name v with
                            | Some _ => Ret (Some (InEnv i, v_content v))
                            | None => Ret None
                            end
                | None => Undef
                end
    end.

(** The string at the place has become [s]. *)
Definition store (w : vworld) (p : place) (s : cstr) : vworld :=
  match p with
  | InBuf => w
  | InCd => mkVW (vw_env w) s (vw_err w) (vw_rand w) (vw_date w) (vw_time w)
  | InEnv i =>
      match nth_error (e_buf (vw_env w)) i with
      | Some v => mkVW (mkEnv (update (e_buf (vw_env w)) i
                                 (mkVar (v_name v) s (v_inherit v) (v_prev v)))
                          (e_nb (vw_env w)))
                    (vw_cd w) (vw_err w) (vw_rand w) (vw_date w) (vw_time w)
      | None => w
      end
  end.

(** pBat_Var.c:263-271, 287-295, 304, 313-315: put a NUL at character [e], copy
    from character [b], restore; gives the copy and the string afterwards. *)
Definition slice (s : cstr) (b e : Z) : outcome (cstr * cstr) :=
  let buf := s ++ [nul] in
  do z <- pBat_SkipU8Chars buf 0 (Z.to_nat e);
  do p <- pBat_SkipU8Chars buf 0 (Z.to_nat b);
  do save <- match nth_error buf z with Some c => Ret c | None => Undef end;
  do buf1 <- write_at buf z [nul];
  do t <- cstr_at buf1 p;
  do buf2 <- write_at buf1 z [save];
  do s' <- cstr_at buf2 0;
  Ret (t, s').

(** pBat_Var.c:233-301 *)
Definition cut (s : cstr) (b l : Z) : outcome (cstr * cstr) :=
  let n := to_int (Z.of_nat (pBat_CountU8Chars s)) in
  do b1 <- (if (b <? 0)%Z then
              if (0 <? l)%Z then
                do t <- int_op (n + b); if (l <=? t)%Z then int_op (n + b) else Ret b
              else if (b <=? l)%Z then int_op (n + b) else Ret b
            else Ret b);
  if (b1 <? 0)%Z || (n <? b1)%Z then Ret ([], s)
  else if (0 <? l)%Z then
    do e <- int_op (b1 + l); if (e <=? n)%Z then slice s b1 e else Ret ([], s)
  else
    do a <- int_op (- l);
    do r <- int_op (n - b1);
    if (a <=? r)%Z then do e <- int_op (n + l); slice s b1 e else Ret ([], s).

(** pBat_Estr.c:414-436 [pBat_EsReplace] on ideal strings. *)
Fixpoint replace_text (fuel : nat) (s pat rep : cstr) : outcome cstr :=
  match fuel with
  | O => OutOfFuel
  | S f => match strstr s pat with
           | None => Ret s
           | Some k => do t <- replace_text f (skipn (k + length pat) s) pat rep;
                       Ret (firstn k s ++ rep ++ t)
           end
  end.

(** pBat_Var.c:124-320 [pBat_GetVar]: [None] when it returns FALSE, else the
    text put in [lpRecieve]; and the globals afterwards. *)
Definition pBat_GetVar (w : vworld) (ka : Z) (name : cstr) : outcome (option cstr * vworld) :=
  do (n, f) <- parse_ref name;
  do c <- content w ka n;
  match c with
  | None => Ret (match f with FDefault t => Some t | _ => None end, w)
  | Some (p, s) =>
      match f with
      | FPlain | FDefault _ => Ret (Some s, w)
      | FCut b l => do (t, s') <- cut s b l; Ret (Some t, store w p s')
      | FReplace pat rep => do t <- replace_text (S (length s)) s pat rep; Ret (Some t, w)
      end
  end.
