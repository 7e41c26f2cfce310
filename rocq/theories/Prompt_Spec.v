(** Prompt_Spec.v -- what prompt strings, colour codes and ECHO mean. *)

From Verif Require Import Base Lex Num_Model StrLib_Spec Env_Model Env_Spec Var_Model Expand_Model Args_Spec Params_Spec Prompt_Model.

(** ** Colours *)
(** Colours are numbered as in the documentation: 1 is blue, 2 green, 4 red, and 8 more
    is brighter.  [Default] is the colour of the terminal. *)
Inductive hue := Default | Hue (n : Z).
(** The colours that the state of the interpreter stands for. *)
Definition bits (col : Z) (bright red green blue : Z) : Z :=
  8 * Z.b2z (Z.testbit col bright) + 4 * Z.b2z (Z.testbit col red) + 2 * Z.b2z (Z.testbit col green) + Z.b2z (Z.testbit col blue).
Definition back_of (col : Z) : hue := if Z.testbit col 8 then Default else Hue (bits col 7 4 5 6).
Definition fore_of (col : Z) : hue := if Z.testbit col 9 then Default else Hue (bits col 3 0 1 2).
(** A character of a colour code: a hexadecimal digit, or '.' for the current colour. *)
Inductive picks (current : hue) : ascii -> hue -> Prop :=
| pk_hex c n : nth_error (s2l "0123456789abcdef") n = Some (tolower c) -> picks current c (Hue (Z.of_nat n))
| pk_dot : picks current "."%char current.
(** The background and the text colour that a code chooses.  With a single character the
    background should stay, but it becomes black, or the default if it has red in it; and
    the text gets the default colour if the background has green in it. *)
Inductive chooses (col : Z) : cstr -> hue -> hue -> Prop :=
| ch_two a b B F : picks (back_of col) a B -> picks (fore_of col) b F -> chooses col [a; b] B F
| ch_one b F : picks (fore_of col) b F ->
    chooses col [b] (if Z.testbit col 4 then Default else Hue 0) (if Z.testbit col 5 then Default else F).
(** The sequences that make a terminal change its colours (ECMA-48). *)
Definition rgb (n : Z) : Z := 4 * Z.b2z (Z.testbit n 0) + 2 * Z.b2z (Z.testbit n 1) + Z.b2z (Z.testbit n 2).
Definition sgr_of (base : Z) (h : hue) : cstr :=
  sgr (match h with Default => base + 9 | Hue n => base + (if (8 <=? n)%Z then 60 else 0) + rgb n end).
Definition paint (B F : hue) : cstr :=
  match B, F with
  | Hue _, Default => sgr_of 30 F ++ sgr_of 40 B
  | _, _ => sgr_of 40 B ++ sgr_of 30 F
  end.

(** ** Prompt strings *)
Definition prompt_chars : list (ascii * ascii) :=
  [("a", "&"); ("b", "|"); ("c", "("); ("e", "027"); ("f", ")"); ("g", ">"); ("h", "008"); ("l", "<");
   ("q", "="); ("s", " "); ("_", nl); ("$", "$")]%char.
(** What '$' followed by a character stands for. *)
Inductive stands (p : pworld) : ascii -> cstr -> Prop :=
| st_char k v : In (k, v) prompt_chars -> stands p k [v]
| st_date : stands p "d"%char (vw_date (p_var p))
| st_time : stands p "t"%char (vw_time (p_var p))
| st_cd : stands p "p"%char (vw_cd (p_var p))
| st_root c r : vw_cd (p_var p) = c :: r -> stands p "n"%char [c]
| st_user v : pBat_GetEnv (vw_env (p_var p)) (s2l "USERNAME") (p_ka p) = Ret v ->
    stands p "u"%char (match v with Some v => v | None => [] end)
| st_domain v : pBat_GetEnv (vw_env (p_var p)) (s2l "USERDOMAIN") (p_ka p) = Ret v ->
    stands p "w"%char (match v with Some v => v | None => [] end)
| st_pushed : stands p "+"%char (repeat "+"%char (p_dirs p)).
Definition codes : cstr := s2l "abcdefghlnpqstuw_$+x".
(** A colour code: one or two characters and ';'. *)
Inductive color_at : cstr -> cstr -> cstr -> Prop :=
| ca_one a s : color_at (a :: ";"%char :: s) [a] s
| ca_two a b s : b <> ";"%char -> color_at (a :: b :: ";"%char :: s) [a; b] s.
Inductive color_text (p : pworld) (c : cstr) : cstr -> Prop :=
| ct_color B F : p_tty p = true -> chooses (p_col p) c B F -> color_text p c (paint B F)
| ct_file : p_tty p = false -> color_text p c []
| ct_wrong : (forall B F, ~ chooses (p_col p) c B F) -> color_text p c [].
(** [prompts p s o]: the prompt string [s] shows as [o]. *)
Inductive prompts (p : pworld) : cstr -> cstr -> Prop :=
| pr_end : prompts p [] []
| pr_text c s o : c <> "$"%char -> prompts p s o -> prompts p (c :: s) (c :: o)
| pr_lone : prompts p ["$"%char] []
| pr_code c v s o : stands p (tolower c) v -> prompts p s o -> prompts p ("$"%char :: c :: s) (v ++ o)
| pr_unknown c s o : ~ In (tolower c) codes -> prompts p s o -> prompts p ("$"%char :: c :: s) o
| pr_color c t k s v o : tolower c = "x"%char -> color_at t k s -> color_text p k v -> prompts p s o ->
    prompts p ("$"%char :: c :: t) (v ++ o)
| pr_broken c t o : tolower c = "x"%char -> (forall k s, ~ color_at t k s) -> prompts p (tl t) o ->
    prompts p ("$"%char :: c :: t) o.

(** The environment is in order, and there is a current directory. *)
Definition ready (p : pworld) : Prop :=
  vw_cd (p_var p) <> [] /\ exists sg, table_ok sg (vw_env (p_var p)) /\ addr_ok sg (p_ka p).

(** ** ECHO *)
(** The expansion of a text that changes nothing else. *)
Definition expands (w : xworld) (s v : cstr) : Prop := pBat_DelayedExpand w s = Ret (v, w).
Definition punctuation : cstr := s2l "!""#$%&'()*+,-./:;<=>?@[\]^_`{|}~".
(** What ECHO takes for orders when it is its only parameter. *)
Definition order (v : cstr) : Prop := same_name v (s2l "on") \/ same_name v (s2l "off") \/ v = s2l "/?".
