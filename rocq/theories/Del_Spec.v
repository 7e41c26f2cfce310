(** Del_Spec.v -- what DEL and RD are asked, and what the user agrees to. *)

From Verif Require Import Base Lex Attr_Model Attr_Spec Fs_Model Fs_Spec Search_Model Copy_Spec.

(** What the parameters of DEL ask for: read-only files too, subdirectories, no question, files
    with given attributes, and the names. *)
Record drequest := mkD { d_force : bool; d_rec : bool; d_quiet : bool; d_attr : cstr; d_names : list cstr }.
Definition no_drequest : drequest := mkD false false false [] [].
Definition del_name (p : cstr) : Prop :=
  nonul p /\ p <> s2l "/?" /\ (forall o, In o [s2l "/p"; s2l "/f"; s2l "/s"; s2l "/q"] -> ~ same_name p o) /\ forall a r, same_name a (s2l "/a") -> p <> a ++ r.
Inductive del_asked : drequest -> list cstr -> drequest -> Prop :=
| da_nil q : del_asked q [] q
| da_ask q p ps q' : option_is p (s2l "/p") -> del_asked q ps q' -> del_asked q (p :: ps) q'
| da_force q p ps q' : option_is p (s2l "/f") -> del_asked (mkD true (d_rec q) (d_quiet q) (d_attr q) (d_names q)) ps q' -> del_asked q (p :: ps) q'
| da_rec q p ps q' : option_is p (s2l "/s") -> del_asked (mkD (d_force q) true (d_quiet q) (d_attr q) (d_names q)) ps q' -> del_asked q (p :: ps) q'
| da_quiet q p ps q' : option_is p (s2l "/q") -> del_asked (mkD (d_force q) (d_rec q) true (d_attr q) (d_names q)) ps q' -> del_asked q (p :: ps) q'
| da_attr q p t ps q' : attr_option p t -> del_asked (mkD (d_force q) (d_rec q) (d_quiet q) t (d_names q)) ps q' -> del_asked q (p :: ps) q'
| da_name q p ps q' : del_name p -> del_asked (mkD (d_force q) (d_rec q) (d_quiet q) (d_attr q) (d_names q ++ [p])) ps q' -> del_asked q (p :: ps) q'.

(** The parameters of RD: with what is in the directories, no question, and the names. *)
Record rrequest := mkRR { rd_rec : bool; rd_quiet : bool; rd_names : list cstr }.
Definition no_rrequest : rrequest := mkRR false false [].
Inductive rd_asked : rrequest -> list cstr -> rrequest -> Prop :=
| ra_nil q : rd_asked q [] q
| ra_rec q p ps q' : option_is p (s2l "/s") -> rd_asked (mkRR true (rd_quiet q) (rd_names q)) ps q' -> rd_asked q (p :: ps) q'
| ra_quiet q p ps q' : option_is p (s2l "/q") -> rd_asked (mkRR (rd_rec q) true (rd_names q)) ps q' -> rd_asked q (p :: ps) q'
| ra_name q p ps q' : nonul p -> p <> s2l "/?" -> ~ same_name p (s2l "/s") -> ~ same_name p (s2l "/q") ->
    rd_asked (mkRR (rd_rec q) (rd_quiet q) (rd_names q ++ [p])) ps q' -> rd_asked q (p :: ps) q'.

(** A file that DEL is to delete: not a directory; with the attributes asked for if some are
    (C45), and otherwise not read-only unless that is asked for.  [i] is what is known of it. *)
Definition wanted (q : drequest) (i : fileinfo) : bool :=
  negb (f_dir i) &&
  match requests (d_attr q) false with
  | [] => d_force q || negb (f_read i && negb (f_write i))
  | _ => pBat_CheckFileAttributes (pBat_MakeFileAttributes (d_attr q)) i
  end.

(** [decided ask l input agreed ask' input']: the user is asked, if [ask], whether each of the
    files [l] is to go, answers with the lines of [input], and agrees for the files [agreed];
    [ask'] and [input'] are what is left. *)
Inductive decided : bool -> list cstr -> list cstr -> list cstr -> bool -> list cstr -> Prop :=
| de_nil a input : decided a [] input [] a input
| de_quiet x l input ag a' input' : decided false l input ag a' input' -> decided false (x :: l) input (x :: ag) a' input'
| de_no x l line input ag a' input' : nonul line -> answers true PBAT_ASK_NO line PBAT_ASK_NO ->
    decided true l input ag a' input' -> decided true (x :: l) (line :: input) ag a' input'
| de_yes x l line input ag a' input' : nonul line -> answers true PBAT_ASK_NO line PBAT_ASK_YES ->
    decided true l input ag a' input' -> decided true (x :: l) (line :: input) (x :: ag) a' input'
| de_all x l line input ag a' input' : nonul line -> answers true PBAT_ASK_NO line PBAT_ASK_ALL ->
    decided false l input ag a' input' -> decided true (x :: l) (line :: input) (x :: ag) a' input'.

(** [erased ps f f']: what is at the places [ps] may be gone, and everything else is as before. *)
Definition erased (ps : list place) (f f' : fsys) : Prop :=
  same_but ps f f' /\ forall p, get f' p = get f p \/ get f' p = None.
