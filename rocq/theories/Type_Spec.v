(** Type_Spec.v -- what TYPE prints. *)

From Verif Require Import Base Fs_Model.

(** The files that TYPE looks at, [ms] being the paths that each of its names stands for: those
    of the name, if there is one; if there are several, the first path of the first name and
    those of the last one. *)
Definition chosen (ms : list (list cstr)) : list cstr :=
  match ms with
  | [] => []
  | [m] => m
  | m :: ms => firstn 1 m ++ last ms []
  end.
Definition is_file (f : fsys) (x : cstr) : bool := match get f (place_of x) with Some (File _) => true | _ => false end.

(** What comes of a file: [None], it could not be opened; or this beginning of it, all of it if
    [whole]. *)
Definition comes (f : fsys) (whole : bool) (x : cstr) (r : option cstr) : Prop :=
  match r with
  | None => whole = false
  | Some p => exists rest, get f (place_of x) = Some (File (p ++ rest)) /\ (whole = true -> rest = [])
  end.
Definition part (r : option cstr) : cstr := match r with Some p => p | None => [] end.
Definition level (rs : list (option cstr)) : Z := if existsb (fun r => match r with None => true | _ => false end) rs then 1 else 0.
(** One file is printed as it is; several, each below a line with its path. *)
Definition printed (l : list cstr) (rs : list (option cstr)) : cstr :=
  match rs with
  | [r] => part r
  | _ => flat_map (fun x => s2l "---------- " ++ fst x ++ [nl] ++ part (snd x)) (combine l rs)
  end.
