(** Search_Model.v -- model of the search of files (libpbat/dir/pBat_Dir.c:62-564), without a
    callback and without PBAT_SEARCH_GET_FIRST_MATCH.  No allocation fails, and a directory that
    exists can be opened. *)

From Verif Require Import Base StrLib_Model Path_Model Glob_Model Attr_Model Fs_Model.

(** pBat_Dir.c:62-102 [pBat_GetNextLevel]: where the level ends, if it does, and [*jok].
    [i] is the position, [prev] that of the last slash; once [joker] is set there is none. *)
Fixpoint next_level (i : nat) (up : cstr) (joker : bool) (prev : option nat) : option nat * bool :=
  match up with
  | [] => (None, joker)
  | c :: r =>
      if is_joker c then
        match prev with
        | Some p => (Some p, false)
        | None => next_level (S i) r true None
        end
      else if ceq c "/"%char then
        if joker then (Some i, true) else next_level (S i) r false (Some i)
      else next_level (S i) r joker prev
  end.
Definition pBat_GetNextLevel (up : cstr) : option nat * bool := next_level 0 up false None.

(** 161-169 [pBat_EndWithDirectoryMark], and the path of a name in a directory (315-318) *)
Definition ends_slash (p : cstr) : bool := match rev p with c :: _ => ceq c "/"%char | [] => false end.
Definition inside (base n : cstr) : cstr := base ++ (if ends_slash base then [] else ["/"%char]) ++ n.

(** opendir, readdir: "." and "..", then the names in a directory, in any order (that of the
    list [f]) *)
Definition entries (f : fsys) (q : place) : list cstr :=
  flat_map (fun x => match fst x with n :: up => if place_eqb up q then [n] else [] | [] => [] end) f.
Definition readdir (f : fsys) (q : place) : list cstr := s2l "." :: s2l ".." :: entries f q.
Definition pseudo (n : cstr) : bool := streqb n (s2l ".") || streqb n (s2l "..").

(** 104-159 [pBat_AddMatch]: the name is cut by snprintf. *)
Definition add (p : cstr) : cstr := firstn (FILENAME_MAX - 1) p.
(** A loop that appends to the list of files *)
Fixpoint each (g : cstr -> outcome (list cstr)) (l : list cstr) : outcome (list cstr) :=
  match l with
  | [] => Ret []
  | n :: l => do a <- g n; do b <- each g l; Ret (a ++ b)
  end.

Section Search.
Variable f : fsys.
(** PBAT_SEARCH_RECURSIVE, PBAT_SEARCH_NO_PSEUDO_DIR, PBAT_SEARCH_DIR_MODE *)
Variables (rec nopseudo dirmode : bool).

(** 174-537 [pBat_GetMatch], from 291 on: the files that are added.  A pattern without a
    directory (with no base) is not looked at: the callers give full paths. *)
Fixpoint pBat_GetMatch (fuel : nat) (base up : option cstr) : outcome (list cstr) :=
  match fuel with
  | O => OutOfFuel
  | S k =>
      let '(item, next, joker) :=
        match up with
        | None => (s2l "*", None, false)
        | Some u => match pBat_GetNextLevel u with
                    | (Some i, j) => (firstn i u, Some (skipn (S i) u), j)
                    | (None, j) => (u, None, j)
                    end
        end in
      if negb joker then
        let path := match base with Some b => inside b item | None => item end in
        if pBat_FileExists f path then Ret (match next with None => [add path] | Some _ => [] end)
        else if pBat_DirExists f path then
          match next with
          | None => do l <- (if rec then pBat_GetMatch k (Some path) None else Ret []); Ret (l ++ [add path])
          | Some _ => pBat_GetMatch k (Some path) next
          end
        else Ret []
      else
        match base with
        | None => Undef
        | Some b =>
            if pBat_DirExists f b then
              each (fun n =>
                if nopseudo && pseudo n then Ret []
                else
                  do m <- pBat_RegExpCaseMatch true item n;
                  let path := inside b n in
                  if m then
                    if pBat_FileExists f path then Ret (match next with None => [add path] | Some _ => [] end)
                    else match next with
                         | None => do l <- (if rec && negb (pseudo n) then pBat_GetMatch k (Some path) (Some item) else Ret []); Ret (l ++ [add path])
                         | Some _ => pBat_GetMatch k (Some path) next
                         end
                  else if rec && (match next with None => true | Some _ => false end) && negb (pseudo n) && pBat_DirExists f path
                       then pBat_GetMatch k (Some path) (Some item)
                       else Ret []) (readdir f (place_of b))
            else Ret []
        end
  end.
(** How deep the directories are *)
Definition depth : nat := list_max (map (fun x => length (fst x)) f).
(** 191-289, and 540-564 [pBat_GetMatchFileList]; libpBat.h:392 PBAT_TEST_ROOT_PATH *)
Definition pBat_GetMatchFileList (p : cstr) : outcome (list cstr) :=
  let fuel := length p + depth + 3 in
  if (dirmode || rec) && pBat_DirExists f p then
    do l <- pBat_GetMatch fuel (Some p) (Some (s2l "*"));
    Ret (if dirmode then l else l ++ [add p])
  else if pBat_DirExists f p || pBat_FileExists f p then Ret [add p]
  else if forallb (fun c => negb (is_joker c)) p then Ret []
  else match p with
       | a :: b :: _ => if ceq a "/"%char && negb (ceq b "/"%char) then pBat_GetMatch fuel (Some (s2l "/")) (Some (tl p))
                        else pBat_GetMatch fuel None (Some p)
       | _ => pBat_GetMatch fuel None (Some p)
       end.
End Search.

(** What stat says of a file that was found (pBat_Dir.c:139-149): [perm] are the permissions to read and
    to write, [dsize] the sizes of directories. *)
Definition info (perm : place -> bool * bool) (dsize : place -> N) (f : fsys) (p : cstr) : fileinfo :=
  let q := place_of p in
  match get f q with
  | Some (File t) => mkFile false (fst (perm q)) (snd (perm q)) (N.of_nat (length t))
  | _ => mkFile true (fst (perm q)) (snd (perm q)) (dsize q)
  end.
