(** Path_Spec.v -- components of paths, walking them, search paths, devices. *)

From Verif Require Import Base Num_Model StrLib_Spec Path_Model.

(** Pieces of [s] between the characters [d]: always at least one. *)
Fixpoint split_at (d : ascii) (s : cstr) : list cstr :=
  match s with
  | [] => [[]]
  | c :: r => if ceq c d then [] :: split_at d r
              else match split_at d r with
                   | x :: l => (c :: x) :: l
                   | [] => [[c]]
                   end
  end.

(** *** Directories *)

(** The components of a path that matter: neither empty nor ".". *)
Definition matters (x : cstr) : bool := negb (streqb x []) && negb (streqb x (s2l ".")).
Definition comps (s : cstr) : list cstr := filter matters (split_at "/"%char s).

(** Walking the components from a directory (nearest first): ".." goes up.
    [walk] is what the code does: at the root, ".." ends the walk.  [posix_walk] is
    the usual meaning: at the root, ".." stays there. *)
Fixpoint walk (up : list cstr) (l : list cstr) : list cstr :=
  match l with
  | [] => up
  | x :: r => if streqb x (s2l "..")
              then match up with [] => [] | _ :: u => walk u r end
              else walk (x :: up) r
  end.
Fixpoint posix_walk (up : list cstr) (l : list cstr) : list cstr :=
  match l with
  | [] => up
  | x :: r => if streqb x (s2l "..")
              then posix_walk (tl up) r
              else posix_walk (x :: up) r
  end.
(** ".." is met at the root. *)
Fixpoint above_root (up : list cstr) (l : list cstr) : bool :=
  match l with
  | [] => false
  | x :: r => if streqb x (s2l "..")
              then match up with [] => true | _ :: u => above_root u r end
              else above_root (x :: up) r
  end.

(** The normal form of the directory with these components. *)
Definition render (l : list cstr) : cstr := concat (map (cons "/"%char) l).

Definition normal_comp (x : cstr) : Prop :=
  x <> [] /\ x <> s2l "." /\ x <> s2l ".." /\ ~ In "/"%char x.

(** A directory in normal form: "/", or components each after one separator. *)
Definition normal_dir (t : cstr) : Prop :=
  t = s2l "/" \/ exists l, l <> [] /\ Forall normal_comp l /\ t = render l.

(** Commands that change the directory: CD, and "PUSHD d && ( ... & POPD )". *)
Inductive dact :=
| DCd (dir : cstr)
| DBlock (dir : cstr) (body : list dact).

Section Run.
Variable exists_dir : cstr -> bool.
Fixpoint dact_run (a : dact) (w : dworld) : outcome dworld :=
  match a with
  | DCd d => do (_, c) <- pBat_SetCurrentDir exists_dir (d_cur w) d; Ret (mkDW c (d_stack w))
  | DBlock d body =>
      do (ok, w1) <- pBat_CmdPushd exists_dir [d] w;
      if (ok : bool) then
        do w2 <- (fix run (l : list dact) (w : dworld) : outcome dworld :=
                    match l with
                    | [] => Ret w
                    | a :: r => do w' <- dact_run a w; run r w'
                    end) body w1;
        do (_, w3) <- pBat_CmdPopd exists_dir w2;
        Ret w3
      else Ret w1
  end.
Fixpoint dacts_run (l : list dact) (w : dworld) : outcome dworld :=
  match l with
  | [] => Ret w
  | a :: r => do w' <- dact_run a w; dacts_run r w'
  end.
End Run.

(** *** Search paths *)

(** The entries of a list separated by ':'; a last empty entry does not count. *)
Definition entries (s : cstr) : list cstr :=
  let l := split_at ":"%char s in
  match rev l with
  | [] :: l' => rev l'
  | _ => l
  end.

(** [d] and [n] with exactly one separator between them (none after an empty
    [d]). *)
Definition joins (d n t : cstr) : Prop :=
  (d = [] /\ t = n) \/
  (exists d', d = d' ++ ["/"%char] /\ t = d ++ n) \/
  (d <> [] /\ (forall d', d <> d' ++ ["/"%char]) /\ t = d ++ "/"%char :: n).

(** The files tried for a base name: with each extension, then without. *)
Definition tried (exts : list cstr) (base : cstr) : list cstr := map (app base) exts ++ [base].

(** First existing candidate. *)
Definition first_existing (ex : cstr -> bool) (cands : list cstr) (r : option cstr) : Prop :=
  match r with
  | Some x => exists a b, cands = a ++ x :: b /\ ex x = true /\ Forall (fun y => ex y = false) a
  | None => Forall (fun y => ex y = false) cands
  end.

(** *** Splitting a path *)
Definition seps (c : ascii) : bool := ceq c "/"%char || ceq c "\"%char.
Definition dot (c : ascii) : bool := ceq c "."%char.
Definition no_live (p : ascii -> bool) (s : cstr) : Prop := forall i, ~ live p s i.

(** [dir], [name] and [ext] are the parts of [s]: directory up to the last
    separator not protected by '^', extension from the last such dot. *)
Definition parts_of (s dir name ext : cstr) : Prop :=
  s = dir ++ name ++ ext /\
  (dir = [] \/ exists i, live seps s i /\ length dir = S i) /\
  no_live seps (name ++ ext) /\
  ((ext = [] /\ no_live dot name) \/
   (exists e, ext = "."%char :: e /\ live dot (name ++ ext) (length name) /\ no_live dot e)).

Definition has_drive (s : cstr) : Prop :=
  exists c d r, s = c :: ":"%char :: d :: r /\ (d = "/"%char \/ d = "\"%char).

(** *** Devices *)
Definition device_of (name dev : cstr) : Prop :=
  (map tolower name = map tolower (s2l "NUL") /\ dev = s2l "/dev/null") \/
  (map tolower name = map tolower (s2l "CON") /\ dev = s2l "/dev/tty") \/
  (map tolower name = map tolower (s2l "PRN") /\ dev = s2l "/dev/lpt0").

(** Printers and serial ports: the prefix in any case, then the number. *)
Definition port_name (prefix : string) (n : Z) (name : cstr) : Prop :=
  exists p, map tolower p = map tolower (s2l prefix) /\ name = p ++ dec n.

(** Names that are certainly no device. *)
Definition ordinary (name : cstr) : Prop :=
  (forall w, In w ["NUL"; "CON"; "PRN"]%string -> map tolower name <> map tolower (s2l w)) /\
  (forall w, In w ["LPT"; "COM"]%string -> map tolower (firstn 3 name) <> map tolower (s2l w)).

(** An absolute path starts with exactly one separator. *)
Definition absolute (p : cstr) : Prop := exists r, p = "/"%char :: r /\ forall r', r <> "/"%char :: r'.

(** [p] seen from the directory [cur]. *)
Definition from_dir (cur p full : cstr) : Prop :=
  (absolute p /\ full = p) \/ (~ absolute p /\ full = cur ++ "/"%char :: p).
