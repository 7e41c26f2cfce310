(** Fs_Model.v -- the file system as the commands that change files see it, and the
    questions they ask (pbat/command/pBat_Ask.c).

    Simplifications: there are no links, so that a place is a list of names, and ".." is the
    place above; files are read and written by one process; permissions are not looked at,
    but any system call may fail (see [fails]). *)

From Verif Require Import Base.

(** A place: the names on the way from the root, the last one first. *)
Definition place := list cstr.
(** The names in a path. *)
Fixpoint names (p cur : cstr) : list cstr :=
  match p with
  | [] => [cur]
  | c :: p => if ceq c "/"%char then cur :: names p [] else names p (cur ++ [c])
  end.
Definition step (pl : place) (n : cstr) : place :=
  match n with
  | [] => pl
  | _ => if streqb n (s2l ".") then pl else if streqb n (s2l "..") then tl pl else n :: pl
  end.
Definition place_of (p : cstr) : place := fold_left step (names p []) [].

Inductive node := File (text : cstr) | Dir.
Definition fsys := list (place * node).
Fixpoint place_eqb (a b : place) : bool :=
  match a, b with
  | [], [] => true
  | x :: a, y :: b => streqb x y && place_eqb a b
  | _, _ => false
  end.
Fixpoint get (f : fsys) (p : place) : option node :=
  match f with
  | [] => None
  | (q, n) :: f => if place_eqb q p then Some n else get f p
  end.
Definition del (f : fsys) (p : place) : fsys := filter (fun x => negb (place_eqb (fst x) p)) f.
Definition put (f : fsys) (p : place) (n : node) : fsys := (p, n) :: del f p.
(** Something can be made at [p]: the directory above is there. *)
Definition room (f : fsys) (p : place) : bool :=
  match p with
  | [] => false
  | _ :: up => match get f up with Some Dir => true | _ => false end
  end.

(** The state: the files, the number of system calls made so far, and the lines of the
    standard input that were not read yet. *)
Record sys := mkS { s_fs : fsys; s_tick : nat; s_in : list cstr }.
Definition with_fs (s : sys) (f : fsys) : sys := mkS f (S (s_tick s)) (s_in s).

Section Calls.
(** Whether the n-th system call fails, and how many bytes (but one) it reads or writes
    at most. *)
Variables (fails : nat -> bool) (chunk : nat -> nat).

(** open(path, O_RDONLY) *)
Definition sys_open (s : sys) (p : cstr) : option place * sys :=
  (match get (s_fs s) (place_of p) with
   | Some _ => if fails (s_tick s) then None else Some (place_of p)
   | None => None
   end, with_fs s (s_fs s)).
(** open(path, O_WRONLY | O_CREAT, ...), with O_TRUNC if [trunc] *)
Definition sys_create (s : sys) (p : cstr) (trunc : bool) : option place * sys :=
  let q := place_of p in
  if fails (s_tick s) then (None, with_fs s (s_fs s))
  else match get (s_fs s) q with
       | Some Dir => (None, with_fs s (s_fs s))
       | Some (File t) => (Some q, with_fs s (if trunc then put (s_fs s) q (File []) else s_fs s))
       | None => if room (s_fs s) q then (Some q, with_fs s (put (s_fs s) q (File []))) else (None, with_fs s (s_fs s))
       end.
(** read(fd, buf, size) at [pos]; a directory cannot be read. *)
Definition sys_read (s : sys) (q : place) (pos size : nat) : option cstr * sys :=
  (match get (s_fs s) q with
   | Some (File t) => if fails (s_tick s) then None else Some (firstn (Nat.min size (S (chunk (s_tick s)))) (skipn pos t))
   | _ => None
   end, with_fs s (s_fs s)).
(** write(fd, data, size) at [pos], or at the end for O_APPEND *)
Definition sys_write (s : sys) (q : place) (append : bool) (pos : nat) (data : cstr) : option nat * sys :=
  match get (s_fs s) q with
  | Some (File t) =>
      if fails (s_tick s) then (None, with_fs s (s_fs s))
      else
        let d := firstn (S (chunk (s_tick s))) data in
        let at_ := if append then length t else pos in
        (Some (length d), with_fs s (put (s_fs s) q (File (firstn at_ t ++ d ++ skipn (at_ + length d) t))))
  | _ => (None, with_fs s (s_fs s))
  end.
(** remove(path): a file, or a directory with nothing in it *)
Definition empty_dir (f : fsys) (q : place) : bool :=
  forallb (fun x => match fst x with [] => true | _ :: up => negb (place_eqb up q) end) f.
Definition sys_rmdir (s : sys) (p : cstr) : bool * sys :=
  let q := place_of p in
  match get (s_fs s) q with
  | Some Dir => if empty_dir (s_fs s) q && negb (fails (s_tick s)) then (true, with_fs s (del (s_fs s) q)) else (false, with_fs s (s_fs s))
  | _ => (false, with_fs s (s_fs s))
  end.
Definition sys_remove (s : sys) (p : cstr) : bool * sys :=
  let q := place_of p in
  match get (s_fs s) q with
  | Some (File _) => if fails (s_tick s) then (false, with_fs s (s_fs s)) else (true, with_fs s (del (s_fs s) q))
  | _ => sys_rmdir s p
  end.
(** mkdir(path, 0777) *)
Definition sys_mkdir (s : sys) (p : cstr) : bool * sys :=
  let q := place_of p in
  match get (s_fs s) q with
  | None => if room (s_fs s) q && negb (fails (s_tick s)) then (true, with_fs s (put (s_fs s) q Dir)) else (false, with_fs s (s_fs s))
  | _ => (false, with_fs s (s_fs s))
  end.
(** rename(old, new): what is at [a], and below it, is at [b] then. *)
Fixpoint below (a p : place) : option place :=
  if place_eqb a p then Some []
  else match p with [] => None | x :: p => option_map (cons x) (below a p) end.
Definition moved (a b : place) (f : fsys) : fsys :=
  map (fun x => match below a (fst x) with Some r => (r ++ b, snd x) | None => x end) f.
Definition sys_rename (s : sys) (old new : cstr) : bool * sys :=
  let a := place_of old in
  let b := place_of new in
  let no := (false, with_fs s (s_fs s)) in
  match get (s_fs s) a with
  | None => no
  | Some n =>
      if fails (s_tick s) then no
      else if place_eqb a b then (true, with_fs s (s_fs s))
      else if negb (room (s_fs s) b) then no
      else match below a b with
           | Some _ => no
           | None =>
               match n, get (s_fs s) b with
               | File t, None => (true, with_fs s (put (del (s_fs s) a) b (File t)))
               | File t, Some (File _) => (true, with_fs s (put (del (s_fs s) a) b (File t)))
               | Dir, None => (true, with_fs s (moved a b (s_fs s)))
               | Dir, Some Dir => if empty_dir (s_fs s) b then (true, with_fs s (moved a b (del (s_fs s) b))) else no
               | _, _ => no
               end
           end
  end.
End Calls.

(** pBat_StdFile.c:83-92 [pBat_DirExists], [pBat_FileExists] *)
Definition pBat_FileExists (f : fsys) (p : cstr) : bool := match get f (place_of p) with Some (File _) => true | _ => false end.
Definition pBat_DirExists (f : fsys) (p : cstr) : bool := match get f (place_of p) with Some Dir => true | _ => false end.

(** pBat_Ask.h:46-49 *)
Definition PBAT_ASK_YES : Z := 1.
Definition PBAT_ASK_NO : Z := 2.
Definition PBAT_ASK_ALL : Z := 4.
(** pBat_Ask.c:58-85 [pBat_AskConfirmationRead] with a line; 30 bytes *)
Definition ask_read (l : cstr) : cstr := firstn 29 (filter (fun c => negb (ceq c "013"%char)) l).
(** pBat_Ask.c:87-205 [pBat_AskConfirmation] with PBAT_ASK_INVALID_REASK, in English;
    [yna] for PBAT_ASK_YNA, [default] (0 for none) for PBAT_ASK_DEFAULT_*; gives the answer
    and the input that is left.  After an invalid line 200 reads a variable that was not
    set; at the end of the input 67 reads nothing into [c]. *)
Definition pBat_AskConfirmation (yna : bool) (default : Z) (input : list cstr) : outcome (Z * list cstr) :=
  match input with
  | [] => Undef
  | l :: input =>
      let t := ask_read l in
      if ((stricmp t (s2l "YES") =? 0)%Z || (stricmp t (s2l "Y") =? 0)%Z)%bool then Ret (PBAT_ASK_YES, input)
      else if ((stricmp t (s2l "NO") =? 0)%Z || (stricmp t (s2l "N") =? 0)%Z)%bool then Ret (PBAT_ASK_NO, input)
      else if (yna && ((stricmp t (s2l "ALL") =? 0)%Z || (stricmp t (s2l "A") =? 0)%Z))%bool then Ret (PBAT_ASK_ALL, input)
      else if (negb (default =? 0)%Z && match t with [] => true | _ => false end)%bool then Ret (default, input)
      else Undef
  end.
