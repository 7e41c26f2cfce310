(** Glob_Model.v -- model of the wildcard matching functions of
    libpbat/dir/pBat_Dir.c and of the character stepping of libpbat/enc.

    The "case" variants differ from the plain ones only in the comparison; both
    are written once, with [cs] telling whether case matters.  [utf8] is the
    text mode (true by default, pBat_Enc.c:23). *)

From Verif Require Import Base.

(** pBat_Enc.c:29-40 [_pBat_IsFollowingByte]. *)
Definition _pBat_IsFollowingByte (c : ascii) : bool := (128 <=? code c)%Z && (code c <? 192)%Z.

Fixpoint skip_following (s : cstr) : cstr :=
  match s with
  | [] => []
  | c :: r => if _pBat_IsFollowingByte c then skip_following r else s
  end.

(** pBat_Enc.c:42-71 [pBat_GetNextChar], called on a non empty string: the rest
    of the string. *)
Definition pBat_GetNextChar (utf8 : bool) (s : cstr) : cstr :=
  match s with
  | [] => []
  | c :: r => if utf8 && (128 <=? code c)%Z then skip_following r else r
  end.

(** [*regexp != *match], resp. [toupper(...) != toupper(...)]. *)
Definition rx_eq (cs : bool) (a b : ascii) : bool :=
  if cs then ceq a b else ceq (toupper a) (toupper b).

(** The inner loop of [pBat_SeekPattern]: [len] characters agree.  A terminator
    in [match] stops it, as the pattern characters are not NUL. *)
Fixpoint agree (cs : bool) (pattern s : cstr) : bool :=
  match pattern, s with
  | [], _ => true
  | a :: p', b :: s' => rx_eq cs b a && agree cs p' s'
  | _ :: _, [] => false
  end.

(** pBat_Dir.c:589-614 [pBat_SeekPattern] and 709-733 [pBat_SeekCasePattern]:
    offset of the first occurrence. *)
Fixpoint pBat_SeekPattern (cs : bool) (s pattern : cstr) (len : nat) : option nat :=
  match s with
  | [] => None
  | _ :: s' => if agree cs (firstn len pattern) s then Some 0
               else match pBat_SeekPattern cs s' pattern len with
                    | Some k => Some (S k)
                    | None => None
                    end
  end.

(** pBat_Dir.c:616-631 [pBat_EndWithPattern] and 734-749 (case). *)
Definition pBat_EndWithPattern (cs : bool) (s pattern : cstr) (len : nat) : bool :=
  if length s <? len then false
  else let m := skipn (length s - len) s in
       if cs then streqb m pattern else (stricmp m pattern =? 0)%Z.

Definition is_joker (c : ascii) : bool := ceq c "*"%char || ceq c "?"%char.

Fixpoint skip_jokers (p : cstr) : cstr :=
  match p with
  | [] => []
  | c :: r => if is_joker c then skip_jokers r else p
  end.

(** pBat_Dir.c:633-707 [pBat_RegExpMatch] and 752-826 [pBat_RegExpCaseMatch]. *)
Fixpoint rx_match (fuel : nat) (cs utf8 : bool) (regexp s : cstr) : outcome bool :=
  match fuel with
  | O => OutOfFuel
  | S f =>
      match regexp, s with
      | x :: _, y :: _ =>
          if ceq x "?"%char then
            rx_match f cs utf8 (pBat_GetNextChar utf8 regexp) (pBat_GetNextChar utf8 s)
          else if ceq x "*"%char then
            let p1 := skip_jokers regexp in
            match p1 with
            | [] => Ret true
            | _ :: _ =>
                match strpbrk p1 (s2l "*?") with
                | Some size =>
                    match pBat_SeekPattern cs s p1 size with
                    | Some off => rx_match f cs utf8 (skipn size p1) (skipn (off + size) s)
                    | None => Ret false
                    end
                | None => Ret (pBat_EndWithPattern cs s p1 (length p1))
                end
            end
          else if negb (rx_eq cs x y) then Ret false
          else rx_match f cs utf8 (pBat_GetNextChar utf8 regexp) (pBat_GetNextChar utf8 s)
      | [], [] => Ret true
      | _, _ => Ret false
      end
  end.

Definition pBat_RegExpMatch (utf8 : bool) (regexp s : cstr) : outcome bool :=
  rx_match (S (length regexp)) true utf8 regexp s.
Definition pBat_RegExpCaseMatch (utf8 : bool) (regexp s : cstr) : outcome bool :=
  rx_match (S (length regexp)) false utf8 regexp s.
