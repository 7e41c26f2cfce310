(** Copy_Spec.v -- what COPY and MOVE are asked, and where files go. *)

From Verif Require Import Base Lex Path_Model Path_Spec Attr_Model Var_Model Expand_Model Fs_Model Fs_Spec.

(** What the parameters ask for: not to ask questions, subdirectories, concatenation, files
    with given attributes, and the names (the last one is the destination). *)
Record request := mkR { r_silent : bool; r_rec : bool; r_cat : bool; r_attr : cstr; r_names : list cstr }.
Definition no_request : request := mkR false false false [] [].
Definition option_is (p o : cstr) : Prop := nonul p /\ same_name p o.
(** /A, and what follows it or the colon after it *)
Definition attr_option (p t : cstr) : Prop :=
  nonul p /\ exists a, same_name a (s2l "/a") /\ (p = a ++ ":"%char :: t \/ p = a ++ t /\ forall r, t <> ":"%char :: r).
Definition plain_name (p : cstr) : Prop :=
  nonul p /\ p <> s2l "/?" /\ p <> s2l "+" /\
  (forall o, In o [s2l "/y"; s2l "/-y"; s2l "/r"] -> ~ same_name p o) /\
  forall a r, same_name a (s2l "/a") -> p <> a ++ r.
Inductive asked : request -> list cstr -> request -> Prop :=
| ca_nil q : asked q [] q
| ca_yes q p ps q' : option_is p (s2l "/y") -> asked q ps q' -> asked q (p :: ps) q'
| ca_silent q p ps q' : option_is p (s2l "/-y") -> asked (mkR true (r_rec q) (r_cat q) (r_attr q) (r_names q)) ps q' -> asked q (p :: ps) q'
| ca_attr q p t ps q' : attr_option p t -> asked (mkR (r_silent q) (r_rec q) (r_cat q) t (r_names q)) ps q' -> asked q (p :: ps) q'
| ca_rec q p ps q' : option_is p (s2l "/r") -> asked (mkR (r_silent q) true (r_cat q) (r_attr q) (r_names q)) ps q' -> asked q (p :: ps) q'
| ca_cat q ps q' : asked (mkR (r_silent q) (r_rec q) true (r_attr q) (r_names q)) ps q' -> asked q (s2l "+" :: ps) q'
| ca_name q p ps q' : plain_name p -> asked (mkR (r_silent q) (r_rec q) (r_cat q) (r_attr q) (r_names q ++ [p])) ps q' -> asked q (p :: ps) q'.

(** A file that is looked at: one with the attributes asked for (C45), not a directory. *)
Definition eligible (attr : cstr) (i : fileinfo) : bool := pBat_CheckFileAttributes (pBat_MakeFileAttributes (attr ++ s2l "-d")) i.

(** A path of a file whose own name is [base], in the directory [up]. *)
Definition path_of (file up base : cstr) : Prop :=
  file = up ++ "/"%char :: base /\ length file < FILENAME_MAX /\ ~ has_drive file /\ ~ In "^"%char file /\
  normal_comp base /\ ~ In "\"%char base.
(** Files to be copied or moved: the place of each, its text and the place it goes to. *)
Record trip := mkT { t_from : place; t_text : cstr; t_to : place }.
(** [trips f l dest ts]: the files of [l] go into the directory [dest], under their names. *)
Inductive trips (f : fsys) (dest : cstr) : list cstr -> list trip -> Prop :=
| tr_nil : trips f dest [] []
| tr_next file up base text l ts : path_of file up base -> holds_text f (place_of file) text -> trips f dest l ts ->
    trips f dest (file :: l) (mkT (place_of file) text (base :: place_of dest) :: ts).
(** Nothing gets in the way: the files go to different places, where no file of the list is,
    and a file can be written there. *)
Definition free_way (f : fsys) (ts : list trip) : Prop :=
  NoDup (map t_to ts) /\ (forall t u, In t ts -> In u ts -> t_from t <> t_to u) /\ forall t, In t ts -> writable f (t_to t).
(** No question is asked. *)
Definition unasked (silent : bool) (f : fsys) (ts : list trip) : Prop := silent = true \/ forall t, In t ts -> get f (t_to t) = None.

(** The path a name stands for (C49). *)
Definition full (w : xworld) (n : cstr) : cstr := pBat_FullPathDup (vw_cd (x_var w)) n.
(** A file with the text [text] was copied, or moved, from [a] to [b]. *)
Definition done (move : bool) (a b : place) (text : cstr) (f f' : fsys) : Prop :=
  get f' b = Some (File text) /\ (move = true -> get f' a = None) /\ same_but (if move then [a; b] else [b]) f f'.
(** The texts of files. *)
Inductive texts (f : fsys) : list cstr -> list cstr -> Prop :=
| tx_nil : texts f [] []
| tx_next file t l ts : get f (place_of file) = Some (File t) -> texts f l ts -> texts f (file :: l) (t :: ts).
