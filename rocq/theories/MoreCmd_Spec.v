(** MoreCmd_Spec.v -- what the parameters of MORE mean. *)

From Verif Require Import Base Lex Num_Model Path_Model Var_Model Expand_Model If_Spec For_Spec Fs_Model Search_Model Copy_Spec Type_Spec More_Model.

(** What the parameters ask for: how to print, how many rows to leave out, and the names. *)
Record wish := mkWi { w_fl : mflags; w_skip : Z; w_names : list cstr }.
Definition no_wish : wish := mkWi (mkMF false true true 8) 0 [].
Definition an_int (z : Z) : Prop := (-2147483648 <= z <= 2147483647)%Z.
Definition more_name (p : cstr) : Prop :=
  nonul p /\ p <> s2l "/?" /\ (forall r, p <> "+"%char :: r) /\
  (forall o, In o (map s2l ["/e"; "/c"; "/p"; "/s"; "/u"; "/a"]%string) -> ~ same_name p o) /\
  forall a r, same_name a (s2l "/t") -> p <> a ++ r.
Inductive wishes : wish -> list cstr -> wish -> Prop :=
| ws_nil q : wishes q [] q
| ws_none q p o ps q' : option_is p o -> In o (map s2l ["/e"; "/c"; "/p"]%string) -> wishes q ps q' -> wishes q (p :: ps) q'
| ws_squeeze q p ps q' : option_is p (s2l "/s") -> wishes (mkWi (mkMF true (f_u8 (w_fl q)) (f_ansi (w_fl q)) (f_tab (w_fl q))) (w_skip q) (w_names q)) ps q' -> wishes q (p :: ps) q'
| ws_bytes q p ps q' : option_is p (s2l "/u") -> wishes (mkWi (mkMF (f_squeeze (w_fl q)) false (f_ansi (w_fl q)) (f_tab (w_fl q))) (w_skip q) (w_names q)) ps q' -> wishes q (p :: ps) q'
| ws_ansi q p ps q' : option_is p (s2l "/a") -> wishes (mkWi (mkMF (f_squeeze (w_fl q)) (f_u8 (w_fl q)) false (f_tab (w_fl q))) (w_skip q) (w_names q)) ps q' -> wishes q (p :: ps) q'
| ws_tab q p a num z ps q' : nonul p -> same_name a (s2l "/t") -> p = a ++ num \/ p = a ++ ":"%char :: num -> int_word num z -> an_int z ->
    wishes (mkWi (mkMF (f_squeeze (w_fl q)) (f_u8 (w_fl q)) (f_ansi (w_fl q)) z) (w_skip q) (w_names q)) ps q' -> wishes q (p :: ps) q'
| ws_skip q num n ps q' : nonul num -> numeral num n -> an_int n -> wishes (mkWi (w_fl q) n (w_names q)) ps q' -> wishes q (("+"%char :: num) :: ps) q'
| ws_name q p ps q' : more_name p -> wishes (mkWi (w_fl q) (w_skip q) (w_names q ++ [p])) ps q' -> wishes q (p :: ps) q'.

(** The paths that a name stands for (C75). *)
Definition paths_of (w : xworld) (f : fsys) (n : cstr) (m : list cstr) : Prop := pBat_GetMatchFileList f false false false (full w n) = Ret m.
(** The texts are printed one after the other, as in C82; the first rows of each are left out. *)
Inductive in_turn (fl : mflags) (begin : Z) : mstate -> list cstr -> cstr -> mstate -> Prop :=
| it_end st : in_turn fl begin st [] [] st
| it_next st t o st1 ts out st' : more_text fl begin st t = Ret (o, st1) -> in_turn fl begin st1 ts out st' -> in_turn fl begin st (t :: ts) (o ++ out) st'.
Definition text_at (f : fsys) (x t : cstr) : Prop := get f (place_of x) = Some (File t).
