(** For_Spec.v -- what FOR runs. *)

From Verif Require Import Base Lex StrLib_Model Var_Model Expand_Model CmdList_Model Parse_Model StrLib_Spec Args_Spec Args_Model Block_Spec Stream_Model
  Stream_Spec LocalVar_Model Path_Model If_Model If_Spec ForTok_Model ForTok_Spec Body_Model For_Model Run_Model RunBlock_Spec.
Open Scope nat_scope.

(** ** The text of FOR *)

Definition gaps (b : cstr) : Prop := Forall blank b /\ b <> [].
Inductive kind := Words | Steps | Lines (l : list opt).
(** What comes between FOR and its variable. *)
Inductive kind_text (w : xworld) : kind -> cstr -> Prop :=
| kt_words : kind_text w Words []
| kt_steps b o : gaps b -> same_name o (s2l "/L") -> kind_text w Steps (b ++ o)
| kt_lines b o : gaps b -> same_name o (s2l "/F") -> kind_text w (Lines []) (b ++ o)
| kt_options b o b' raw t u l : gaps b -> same_name o (s2l "/F") -> gaps b' -> whole raw -> (forall last, bare last raw t) ->
    t <> s2l "^" -> pBat_DelayedExpand w t = Ret (u, w) -> opts_text u l -> tokens_once l ->
    kind_text w (Lines l) (b ++ o ++ b' ++ raw).
(** Names of variables. *)
Definition var_char (c : ascii) : Prop := (33 <= code c <= 127)%Z /\ ~ In c (s2l "%^!~"",;").
(** [for ... %c in (input) do body], where the variable is not in use; the body
    is a block [i], or a command [i]. *)
Definition for_text (w : xworld) (k : kind) (c : ascii) (input i t : cstr) : Prop :=
  exists b0 f o b1 b2 n b3 b4 d rest,
    t = b0 ++ f ++ o ++ b1 ++ "%"%char :: c :: b2 ++ n ++ b3 ++ parens input ++ b4 ++ d ++ rest /\
    lead_nl b0 /\ same_name f (s2l "for") /\ kind_text w k o /\ gaps b1 /\ gaps b2 /\ same_name n (s2l "in") /\
    pad b3 /\ b3 <> [] /\ Forall blank b4 /\ same_name d (s2l "do") /\
    var_char c /\ x_locals w c = None /\ inner input /\
    (exists b r, rest = b :: r /\ blank b) /\ (if_block i rest \/ if_command i rest).

(** ** Turns *)

(** The value of a variable; the variable is forgotten. *)
Definition assign (c : ascii) (v : option cstr) (w : xworld) : xworld :=
  mkX (x_var w) (x_ka w) (x_args w) (fun x => if ceq x c then v else x_locals w x) (x_script w) (x_stat w) (x_cap w) (x_delayed w).

(** The turns for given values, one after the other; a turn that abandons its line is the last. *)
Inductive for_each (turn : cstr -> rst -> rst -> Prop) : list cstr -> rst -> rst -> Prop :=
| fe_nil r : for_each turn [] r r
| fe_stop v vs r r1 : turn v r r1 -> r_abort r1 <> 0%Z -> for_each turn (v :: vs) r r1
| fe_next v vs r r1 r' : turn v r r1 -> r_abort r1 = 0%Z -> for_each turn vs r1 r' -> for_each turn (v :: vs) r r'.
(** The turns for [i], [i + s], ... up to [e], in numbers of 32 bits. *)
Inductive counts (turn : cstr -> rst -> rst -> Prop) (s e : Z) : Z -> rst -> rst -> Prop :=
| ct_end i r : (e < i)%Z -> counts turn s e i r r
| ct_stop i r r1 : (i <= e)%Z -> turn (Num_Model.dec i) r r1 -> r_abort r1 <> 0%Z -> counts turn s e i r r1
| ct_next i r r1 r' : (i <= e)%Z -> turn (Num_Model.dec i) r r1 -> r_abort r1 = 0%Z ->
    (-2147483648 <= i + s <= 2147483647)%Z -> counts turn s e (i + s) r1 r' -> counts turn s e i r r'.

(** Up to three numbers; those that are missing are 0. *)
Inductive int_word : cstr -> Z -> Prop :=
| iw_plain b n : numeral b n -> int_word b n
| iw_plus b n : numeral b n -> int_word ("+"%char :: b) n
| iw_minus b n : numeral b n -> int_word ("-"%char :: b) (- n).
Inductive ints_text : bool -> cstr -> list Z -> Prop :=
| it_nil first b : Forall blank b -> ints_text first b []
| it_cons first b t z r zs : Forall blank b -> (first = false -> b <> []) -> int_word t z -> (-2147483648 <= z <= 2147483647)%Z ->
    ints_text false r zs -> ints_text first (b ++ t ++ r) (z :: zs).

(** The words of a list: quotes are paired, and neither blanks nor ':' are out of quotes. *)
Definition for_word (raw : cstr) : Prop :=
  raw <> [] /\ (exists u, escaping u raw) /\ Nat.Even (quotes_before raw (length raw)) /\
  forall i, ~ live_unquoted (inset (":"%char :: blanks)) raw i.
Inductive words_text : bool -> cstr -> list cstr -> Prop :=
| wt_nil first b : Forall blank b -> words_text first b []
| wt_cons first b raw r ws : Forall blank b -> (first = false -> b <> []) -> for_word raw -> words_text false r ws ->
    words_text first (b ++ raw ++ r) (raw :: ws).
Definition mask (t : cstr) : bool := existsb (fun c => inset (s2l "*?") c) t.
(** Without the quotes around it. *)
Definition stripped (t m : cstr) : Prop :=
  match t with
  | """"%char :: r => (exists u, r = u ++ [""""%char] /\ m = u) \/ (~ (exists u, r = u ++ [""""%char]) /\ m = r)
  | _ => m = t
  end.

Section S.
Variable fio : forio.
(** A word stands for itself, or for the files that match it. *)
Inductive word_values (t : cstr) (r : rst) : list cstr -> Prop :=
| wv_plain : mask t = false -> word_values t r [t]
| wv_mask m : mask t = true -> stripped t m -> word_values t r (fio_glob fio (r_log r) (r_x r) m).
Inductive for_words (turn : cstr -> rst -> rst -> Prop) : list cstr -> rst -> rst -> Prop :=
| fw_nil r : for_words turn [] r r
| fw_stop t ts vs r r1 : word_values t r vs -> for_each turn vs r r1 -> r_abort r1 <> 0%Z -> for_words turn (t :: ts) r r1
| fw_next t ts vs r r1 r' : word_values t r vs -> for_each turn vs r r1 -> r_abort r1 = 0%Z -> for_words turn ts r1 r' ->
    for_words turn (t :: ts) r r'.

(** Where lines come from: line [k], given what happened; whether it can be opened. *)
Record feed := mkFeed { line_at : list event -> nat -> option cstr; can_read : list event -> bool }.
(** Lines that start with a character of [eol] are comments; so are empty ones. *)
Definition comment (eol l : cstr) : Prop := eol <> [] /\ match l with c :: _ => In c eol | [] => True end.
(** FOR /F from line [k] of the first of the feeds on, when [skip] lines are to be skipped. *)
Inductive for_lines (turn : cstr -> rst -> rst -> Prop) (eol : cstr) : feed -> list feed -> nat -> Z -> rst -> rst -> Prop :=
| fl_end f k s r : line_at f (r_log r) k = None -> for_lines turn eol f [] k s r r
| fl_file f g fs k s r r' : line_at f (r_log r) k = None -> can_read g (r_log r) = true ->
    for_lines turn eol g fs 0 s r r' -> for_lines turn eol f (g :: fs) k s r r'
| fl_blank f fs k s l r r' : line_at f (r_log r) k = Some l -> fio_cmdly fio (r_log r) = true -> Forall blank l ->
    for_lines turn eol f fs (S k) s r r' -> for_lines turn eol f fs k s r r'
| fl_skip f fs k s l r r' : line_at f (r_log r) k = Some l -> (fio_cmdly fio (r_log r) = true -> ~ Forall blank l) -> (0 < s)%Z ->
    for_lines turn eol f fs (S k) (s - 1) r r' -> for_lines turn eol f fs k s r r'
| fl_comment f fs k s l r r' : line_at f (r_log r) k = Some l -> (fio_cmdly fio (r_log r) = true -> ~ Forall blank l) -> (s <= 0)%Z ->
    comment eol l -> for_lines turn eol f fs (S k) s r r' -> for_lines turn eol f fs k s r r'
| fl_stop f fs k s l r r1 : line_at f (r_log r) k = Some l -> (fio_cmdly fio (r_log r) = true -> ~ Forall blank l) -> (s <= 0)%Z ->
    ~ comment eol l -> turn l r r1 -> r_abort r1 <> 0%Z -> for_lines turn eol f fs k s r r1
| fl_next f fs k s l r r1 r' : line_at f (r_log r) k = Some l -> (fio_cmdly fio (r_log r) = true -> ~ Forall blank l) -> (s <= 0)%Z ->
    ~ comment eol l -> turn l r r1 -> r_abort r1 = 0%Z -> for_lines turn eol f fs (S k) s r1 r' -> for_lines turn eol f fs k s r r'.

(** The lines of a text; files; pipes. *)
Inductive text_lines : cstr -> list cstr -> Prop :=
| tl_nil : text_lines [] []
| tl_last l : l <> [] -> ~ In nl l -> text_lines l [l]
| tl_cons l r ls : ~ In nl l -> text_lines r ls -> text_lines (l ++ nl :: r) (l :: ls).
Definition text_feed (ls : list cstr) : feed := mkFeed (fun _ k => nth_error ls k) (fun _ => true).
Definition file_feed (p : cstr) : feed := mkFeed (fun log k => fio_file fio log p k) (fun log => fio_open fio log p).
Definition pipe_feed (n : nat) : feed := mkFeed (fun log k => fio_pipe fio log n k) (fun _ => true).

(** Names of files, as parameters. *)
Inductive names_text (w : xworld) : bool -> cstr -> list cstr -> Prop :=
| nt_nil first b : Forall blank b -> names_text w first b []
| nt_cons first b raw t v r vs : Forall blank b -> (first = false -> b <> []) -> whole raw -> (forall last, bare last raw t) -> t <> s2l "^" ->
    pBat_DelayedExpand w t = Ret (v, w) -> names_text w false r vs -> names_text w first (b ++ raw ++ r) (v :: vs).
(** What FOR /F reads from: a text, the output of a command, files. *)
Inductive feeds (w : xworld) (log : list event) (backq : bool) : cstr -> feed -> list feed -> option cstr -> Prop :=
| fd_text q s x ls : q = (if backq then "'" else """")%char -> ~ In q s -> text_lines s ls ->
    feeds w log backq (q :: s ++ q :: x) (text_feed ls) [] None
| fd_command q s x : q = (if backq then "`" else "'")%char -> ~ In q s ->
    feeds w log backq (q :: s ++ q :: x) (pipe_feed (length log)) [] (Some s)
| fd_files u v vs f fs : names_text w true u (v :: vs) -> length vs < 128 ->
    match u with c :: _ => ~ In c (s2l "'`") /\ (c = """"%char -> backq = true) | [] => True end ->
    map (fun v => file_feed (pBat_MakeFullPathEs (vw_cd (x_var w)) v)) (v :: vs) = f :: fs -> can_read f log = true ->
    feeds w log backq u f fs None.
(** What the variables become: [k] tells the words wanted. *)
Definition gives (k : asked) (c : ascii) (line : cstr) (b b' : block) : Prop :=
  forall ws tail, splits (k_delims k) line ws tail ->
    (forall j n m, nth_error (code_ranges (asked_ranges k)) j = Some (n, m) -> (j = 0 -> length (asked_ranges k) <= 95) ->
       b' (var_name c j) = Some (pick ws tail (Z.to_nat n) (Z.to_nat m))) /\
    (forall x, (forall j, j < length (asked_ranges k) -> x <> var_name c j) -> b' x = b x).
End S.

(** ** Running FOR *)

Section T.
Variable leaf : list event -> xworld -> cstr -> leafres.
Variable can_open : list event -> cstr -> std -> bool -> bool.
Variable fio : forio.
Variable table : tree.
Variable strtod : cstr -> dbl * nat.
Variable exists_file : list event -> cstr -> bool.
Variable ka : Z.
(** A turn with a value: the body runs as a block. *)
Definition value_turn (it : Run_Model.item) (c : ascii) (v : cstr) (r r' : rst) : Prop :=
  chain_goes leaf can_open fio table strtod exists_file ka [it] (set_x r (assign c (Some v) (r_x r))) r'.
(** A turn with a line. *)
Definition line_turn (it : Run_Model.item) (k : asked) (info : forinfo) (c : ascii) (l : cstr) (r r' : rst) : Prop :=
  exists b, pBat_ForSplitTokens l info (x_locals (r_x r)) = Ret b /\ gives k c l (x_locals (r_x r)) b /\
    chain_goes leaf can_open fio table strtod exists_file ka [it] (set_x r (set_locals (r_x r) b)) r'.
End T.

(** After the loop: the streams of [r0], the exit code 0, and the variable is forgotten. *)
Definition ends_for (c : ascii) (r0 r1 r' : rst) : Prop :=
  same_io (r_io r') (r_io r0) /\ r_x r' = x_set_err (assign c None (r_x r1)) 0 /\ r_abort r' = r_abort r1 /\ r_log r' = r_log r1.
(** The same for [nb] variables from [c] on. *)
Definition ends_lines (c : ascii) (nb : nat) (r0 r1 r' : rst) : Prop :=
  same_io (r_io r') (r_io r0) /\ r_abort r' = r_abort r1 /\ r_log r' = r_log r1 /\
  exists b, r_x r' = x_set_err (set_locals (r_x r1) b) 0 /\
    forall x, b x = if (code c <=? code x)%Z && (code x <? code c + Z.of_nat nb)%Z && (code x <? 128)%Z then None else x_locals (r_x r1) x.
(** The command that FOR /F reads from is started first. *)
Definition started (cmd : option cstr) (r : rst) : rst :=
  match cmd with Some t => mkR (r_io r) (r_x r) (r_abort r) (Started (length (r_log r)) t no_redir (reads (r_io r)) :: r_log r) | None => r end.
