(** Search_Spec.v -- which files a path with wildcards stands for. *)

From Verif Require Import Base StrLib_Spec Path_Model Path_Spec Glob_Model Glob_Spec Fs_Model Fs_Spec.

(** A path, by its names: "/" between them. *)
Fixpoint slashed (l : list cstr) : cstr :=
  match l with
  | [] => []
  | [c] => c
  | c :: l => c ++ "/"%char :: slashed l
  end.
(** The path that leads from [base] by the names [ns] *)
Definition along (base : cstr) (ns : list cstr) : cstr := fold_left (fun b n => b ++ (match rev b with "/"%char :: _ => [] | _ => ["/"%char] end) ++ n) ns base.

(** A component of a pattern: with a wildcard, or without *)
Definition wild (c : cstr) : Prop := In "*"%char c \/ In "?"%char c.
Definition component (c : cstr) : Prop := c <> [] /\ ~ In "/"%char c.
(** The wildcards that are understood (C12) *)
Definition understood (c : cstr) : Prop := nonul c /\ Forall (fun x => (code x < 128)%Z) c /\ no_question_after_star c.
(** The name [n] is meant by the component [c], in any case; a star at the end does not stand
    for nothing. *)
Definition meant (c n : cstr) : Prop :=
  (ends_with_star c -> glob false (c ++ s2l "?") (chars true n)) /\ (~ ends_with_star c -> glob false c (chars true n)).

(** From the place [pl], the components [cs] lead to [q] by the names [ns].  With [rec], the
    last name can be deeper.  With [ps], "." and ".." are names too. *)
Inductive reach (f : fsys) (rec ps : bool) : place -> list cstr -> list cstr -> place -> Prop :=
| r_end pl : get f pl <> None -> reach f rec ps pl [] [] pl
| r_plain pl c cs ns q : ~ wild c -> reach f rec ps (step pl c) cs ns q -> reach f rec ps pl (c :: cs) (c :: ns) q
| r_wild pl c n cs ns q : wild c -> get f pl = Some Dir -> meant c n ->
    (get f (n :: pl) <> None /\ normal_comp n \/ ps = true /\ (n = s2l "." \/ n = s2l "..")) ->
    (cs = [] \/ get f (step pl n) = Some Dir) ->
    reach f rec ps (step pl n) cs ns q -> reach f rec ps pl (c :: cs) (n :: ns) q
| r_deep pl c n ns q : rec = true -> wild c -> get f pl = Some Dir -> get f (n :: pl) = Some Dir -> normal_comp n ->
    reach f rec ps (n :: pl) [c] ns q -> reach f rec ps pl [c] (n :: ns) q.

(** A file system where every name can be one, and each is there once *)
Definition proper (f : fsys) : Prop := forall p x, get f p <> None -> In x p -> normal_comp x /\ nonul x.
Definition once (f : fsys) : Prop := NoDup (map fst f).
(** [b] is below [a]. *)
Definition under (a b : place) : Prop := exists x r, b = x :: r ++ a.
(** What is below a place comes before it, and nothing comes twice. *)
Definition inner_first (l : list place) : Prop := ForallOrdPairs (fun a b => a <> b /\ ~ under a b) l.
