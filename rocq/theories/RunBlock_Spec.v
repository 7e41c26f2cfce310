(** RunBlock_Spec.v -- blocks of lines and what running them means. *)

From Verif Require Import Base Lex StrLib_Model Var_Model Expand_Model CmdList_Model Parse_Model Args_Spec Block_Spec Stream_Model Stream_Spec If_Model Body_Model For_Model Run_Model.

(** Something but blanks. *)
Definition visible (s : cstr) : Prop := Exists (fun c => ~ blank c) s.
(** How the next command of a line may start: not like an operator, an end of line or
    an end of block. *)
Definition starts_ok (s : cstr) : Prop := exists c r, s = c :: r /\ ~ In c (nl :: s2l "&|)").

(** A line of a block: commands, blocks among them, joined by operators. *)
Inductive bline : cstr -> Prop :=
| bl_end l : line false l -> bline l
| bl_op l op r : line false l -> Forall (fun c => In c (s2l "&|")) op -> length op = 1 \/ length op = 2 ->
    r = [] \/ (starts_ok r /\ visible r /\ bline r) -> bline (l ++ op ++ r)
| bl_block b i r : lead b -> inner i -> starts_ok r -> visible r -> bline r ->
    bline (b ++ "("%char :: i ++ ")"%char :: r).

(** Blank lines may come before each line. *)
Inductive blines : list cstr -> cstr -> Prop :=
| bs_nil b : Forall blank b -> blines [] b
| bs_last g l : Forall blank g -> bline l -> pBat_SkipAllBlanks l <> [] -> blines [g ++ l] (g ++ l)
| bs_cons g l ls r : Forall blank g -> bline l -> pBat_SkipAllBlanks l <> [] -> blines ls r -> blines ((g ++ l) :: ls) (g ++ l ++ nl :: r).

Section S.
Variable leaf : list event -> xworld -> cstr -> leafres.
Variable can_open : list event -> cstr -> std -> bool -> bool.
Variable fio : forio.
Variable table : tree.
Variable strtod : cstr -> dbl * nat.
Variable exists_file : list event -> cstr -> bool.
Variable ka : Z.

(** A line, a block of lines, a parsed line: run in [r], it ends in [r']. *)
Definition line_goes (l : cstr) (r r' : rst) : Prop :=
  exists f, run_line leaf can_open fio table strtod exists_file ka f l r = Ret r'.
Definition lines_go (b : cstr) (r r' : rst) : Prop :=
  exists f, run_lines leaf can_open fio table strtod exists_file ka f b r = Ret r'.
Definition chain_goes (c : chain) (r r' : rst) : Prop :=
  exists f c' b, run leaf can_open fio table strtod exists_file ka f (JLine c) r = Ret (c', b, r').

Definition go_on (r : rst) : rst := mkR (r_io r) (r_x r) 0 (r_log r).
(** The lines one after the other, up to one that leaves the block or the script. *)
Inductive lines_seq : list cstr -> rst -> rst -> Prop :=
| sq_nil r : lines_seq [] r r
| sq_stop l ls r r1 : line_goes l r r1 -> r_abort r1 = (-1)%Z \/ r_abort r1 = 2%Z -> lines_seq (l :: ls) r r1
| sq_next l ls r r1 r2 : line_goes l r r1 -> r_abort r1 <> (-1)%Z -> r_abort r1 <> 2%Z ->
    lines_seq ls (go_on r1) r2 -> lines_seq (l :: ls) r r2.
End S.

(** The command is handled by [proc] of the interpreter. *)
Definition handled (table : tree) (p : cstr) (proc : String.string) : Prop :=
  exists e, pBat_GetCommandProc p table = Ret (Some e) /\ e_proc e = s2l proc.
(** The text of the block [i]. *)
Definition block_text (i t : cstr) : Prop :=
  exists b r, lead_nl b /\ inner i /\ Forall blank r /\ t = b ++ "("%char :: i ++ ")"%char :: r.

(** Two ways of running that end for the same states, with related results. *)
Definition same_runs (A B : rst -> Prop) (rel : rst -> rst -> Prop) : Prop :=
  (forall r', A r' -> exists r1, B r1 /\ rel r1 r') /\ (forall r1, B r1 -> exists r', A r' /\ rel r1 r').
(** The outcome of [r1], on the streams of [r0]. *)
Definition ends_like (r0 r1 r' : rst) : Prop :=
  same_io (r_io r') (r_io r0) /\ r_x r' = r_x r1 /\ r_abort r' = r_abort r1 /\ r_log r' = r_log r1.
(** The same with success for exit code. *)
Definition ends_well (r0 r1 r' : rst) : Prop :=
  same_io (r_io r') (r_io r0) /\ r_x r' = x_set_err (r_x r1) 0 /\ r_abort r' = r_abort r1 /\ r_log r' = r_log r1.

(** What IF may be followed by: a block, a block and the block of ELSE, a command. *)
Definition parens (i : cstr) : cstr := "("%char :: i ++ [")"%char].
Definition if_block (i rest : cstr) : Prop :=
  inner i /\ exists a b, Forall blank a /\ Forall blank b /\ rest = a ++ parens i ++ b.
Definition if_else (i j rest : cstr) : Prop :=
  inner i /\ inner j /\ exists a b e c d, Forall blank a /\ Forall blank b /\ same_name e (s2l "else") /\
    Forall blank c /\ c <> [] /\ Forall blank d /\ rest = a ++ parens i ++ b ++ e ++ c ++ parens j ++ d.
Definition if_command (l rest : cstr) : Prop :=
  line true l /\ line false l /\ (forall c r, l = c :: r -> ~ blank c /\ c <> "("%char) /\ exists a, Forall blank a /\ rest = a ++ l.

(** The command is IF, its condition is [b], [rest] comes behind it; [w] is the state
    after the expansions of the condition. *)
Definition if_says (table : tree) (strtod : cstr -> dbl * nat) (exists_file : list event -> cstr -> bool) (ka : Z)
    (t : cstr) (r : rst) (b : bool) (rest : cstr) (w : xworld) : Prop :=
  handled table (pBat_SkipAllBlanks t) "CmdIf" /\ if_cond strtod (exists_file (r_log r)) ka (r_x r) (pBat_SkipAllBlanks t) = Ret (IfGo b rest, w).
