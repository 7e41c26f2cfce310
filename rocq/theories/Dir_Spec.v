(** Dir_Spec.v -- what DIR is asked, and what it shows. *)

From Verif Require Import Base Lex Num_Model Path_Model Path_Spec Attr_Model Copy_Spec.

(** What the parameters ask for: names only, subdirectories, files with given attributes, and
    the name or the pattern, if there is one. *)
Record lrequest := mkL { l_bare : bool; l_rec : bool; l_attr : cstr; l_name : option cstr }.
Definition no_lrequest : lrequest := mkL false false [] None.
Definition dir_name (p : cstr) : Prop :=
  nonul p /\ p <> s2l "/?" /\ (forall o, In o [s2l "/b"; s2l "/s"] -> ~ same_name p o) /\ forall a r, same_name a (s2l "/a") -> p <> a ++ r.
Inductive dir_asked : lrequest -> list cstr -> lrequest -> Prop :=
| la_nil q : dir_asked q [] q
| la_bare q p ps q' : option_is p (s2l "/b") -> dir_asked (mkL true (l_rec q) (l_attr q) (l_name q)) ps q' -> dir_asked q (p :: ps) q'
| la_rec q p ps q' : option_is p (s2l "/s") -> dir_asked (mkL (l_bare q) true (l_attr q) (l_name q)) ps q' -> dir_asked q (p :: ps) q'
| la_attr q p t ps q' : attr_option p t -> dir_asked (mkL (l_bare q) (l_rec q) t (l_name q)) ps q' -> dir_asked q (p :: ps) q'
| la_name q p ps q' : dir_name p -> l_name q = None -> dir_asked (mkL (l_bare q) (l_rec q) (l_attr q) (Some p)) ps q' -> dir_asked q (p :: ps) q'.

(** [meant_by cur name p top]: from the directory [cur], the name stands for the path or the
    pattern [p], and what is found is shown without [top]. *)
Inductive meant_by (cur : cstr) : option cstr -> cstr -> cstr -> Prop :=
| mb_none : meant_by cur None (cur ++ s2l "/*") (cur ++ s2l "/")
| mb_absolute n : absolute n -> meant_by cur (Some n) n []
| mb_relative n : ~ absolute n -> meant_by cur (Some n) (cur ++ "/"%char :: n) (cur ++ s2l "/").

(** A directory other than the root, with no wildcard in its path *)
Definition plain_dir (cur : cstr) : Prop :=
  absolute cur /\ (forall r, cur <> r ++ s2l "/") /\ ~ In "*"%char cur /\ ~ In "?"%char cur.

(** A size of [n] bytes, in thousands of bytes, and so on: three digits or two, or one with two
    after the comma; what does not fit is dropped. *)
Definition digit_ (z : Z) : ascii := ascii_of_nat (48 + Z.to_nat z).
Definition units : list cstr := [s2l "o"; s2l "ko"; s2l "mo"; s2l "go"].
Inductive size_shown (n : Z) : cstr -> Prop :=
| ss_three i u a : nth_error units i = Some u -> let k := (1000 ^ Z.of_nat i)%Z in
    (100 <= a < 1000 -> a * k <= n < (a + 1) * k ->
     size_shown n (" "%char :: digit_ (a / 100) :: digit_ (a / 10 mod 10) :: digit_ (a mod 10) :: " "%char :: u))%Z
| ss_two i u a : nth_error units i = Some u -> let k := (1000 ^ Z.of_nat i)%Z in
    (10 <= a < 100 -> a * k <= n < (a + 1) * k ->
     size_shown n (" "%char :: " "%char :: digit_ (a / 10) :: digit_ (a mod 10) :: " "%char :: u))%Z
| ss_one i u a : nth_error units i = Some u -> let k := (1000 ^ Z.of_nat i)%Z in
    (0 <= a < 1000 -> (i = 0%nat \/ 100 <= a) -> a * k <= 100 * n < (a + 1) * k ->
     size_shown n (digit_ (a / 100) :: ","%char :: digit_ (a / 10 mod 10) :: digit_ (a mod 10) :: " "%char :: u))%Z.

(** A line for a file or a directory, of which [i] is known, and which is called [y]. *)
Definition tab : ascii := "009"%char.
Inductive shown (when : cstr) (i : fileinfo) (y : cstr) : cstr -> Prop :=
| sh_dir : f_dir i = true -> shown when i y (when ++ s2l " <REP>" ++ tab :: tab :: s2l "D      " ++ tab :: y ++ [nl])
| sh_file z : f_dir i = false -> size_shown (Z.of_N (f_size i)) z ->
    shown when i y (when ++ s2l "        " ++ z ++ tab :: s2l "       " ++ tab :: y ++ [nl]).
