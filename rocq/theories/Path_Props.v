(** Path_Props.v -- properties C34 to C37, C40 and C49: paths, the current
    directory, program lookup and devices. *)

From Verif Require Import Base Lex Num_Model Num_Proofs StrLib_Model StrLib_Spec
  Path_Model Path_Spec Path_Proofs.

(** ** C34 *)

(** Splitting a path without drive gives its directory (up to the last
    separator), name and extension, whose concatenation is the path. *)
Theorem C34_split :
  forall path, ~ has_drive path -> length path < FILENAME_MAX ->
    exists dir name ext, pBat_SplitPath path = Ret ([], dir, name, ext) /\ parts_of path dir name ext.
Proof.
  intros path Hd Hl. unfold pBat_SplitPath.
  assert (X : match path with
    | c :: r => if prefixb (s2l ":\") r || prefixb (s2l ":/") r
                then ([c; ":"%char], skipn 3 path) else ([], path)
    | [] => ([], path) end = ([] : cstr, path)).
  { destruct path as [|c r]; auto. destruct (_ || _) eqn:Y; auto. exfalso. apply Hd.
    destruct r as [|a [|b r]]; try (vm_compute in Y; destruct a as [[] [] [] [] [] [] [] []]; discriminate).
    - discriminate.
    - exists c, b, r. cbn [prefixb s2l list_ascii_of_string] in Y.
      apply Bool.orb_true_iff in Y. destruct Y as [Y|Y]; apply Bool.andb_true_iff in Y; destruct Y as [Y1 Y2];
        apply Bool.andb_true_iff in Y2; destruct Y2 as [Y2 _]; apply ceq_true in Y1; apply ceq_true in Y2; subst; auto. }
  rewrite X. apply (split_ok [] path Hl).
Qed.
Print Assumptions C34_split.

(** With a drive: the drive, and the parts of what follows the separator after
    it; that separator is lost. *)
Theorem C34_drive :
  forall c d r, d = "/"%char \/ d = "\"%char -> length r < FILENAME_MAX ->
    exists dir name ext, pBat_SplitPath (c :: ":"%char :: d :: r) = Ret ([c; ":"%char], dir, name, ext) /\
                         parts_of r dir name ext.
Proof.
  intros c d r Hd Hl. unfold pBat_SplitPath.
  assert (X : prefixb (s2l ":\") (":"%char :: d :: r) || prefixb (s2l ":/") (":"%char :: d :: r) = true)
    by (destruct Hd; subst; reflexivity).
  rewrite X. cbn [skipn]. apply (split_ok [c; ":"%char] r Hl).
Qed.
Print Assumptions C34_drive.

Example C34_ex :
  pBat_SplitPath (s2l "/usr/lib.d/libm.so.6") = Ret ([], s2l "/usr/lib.d/", s2l "libm.so", s2l ".6") /\
  pBat_SplitPath (s2l "c:\dir\prog.bat") = Ret (s2l "c:", s2l "dir\", s2l "prog", s2l ".bat") /\
  pBat_SplitPath (s2l "a^.b") = Ret ([], [], s2l "a^.b", []) /\
  ~ has_drive (s2l "/usr/lib.d/libm.so.6").
Proof.
  repeat split; try (vm_compute; reflexivity). intros (c & d & r & H & _). discriminate.
Qed.

(** The parts do not always give the path back, and a name of 4096 characters
    is copied without the final NUL. *)
Theorem C34_roundtrip_refuted :
  (exists disk dir name ext, pBat_SplitPath (s2l "c:/x") = Ret (disk, dir, name, ext) /\
     disk ++ dir ++ name ++ ext <> s2l "c:/x") /\
  pBat_SplitPath (repeat "a"%char FILENAME_MAX) = Undef.
Proof.
  split; [|vm_compute; reflexivity]. exists (s2l "c:"), [], (s2l "x"), []. split; [vm_compute; reflexivity|discriminate].
Qed.
Print Assumptions C34_roundtrip_refuted.

(** ** C35 *)

(** CD to an existing absolute directory: the new current directory is in normal
    form (or empty, for the root) and has the components got by walking. *)
Theorem C35_absolute :
  forall ex cur line,
    absolute line -> ex line = true -> length line < FILENAME_MAX ->
    exists t, pBat_SetCurrentDir ex cur line = Ret (0%Z, t) /\
      ((t = [] /\ walk [] (comps line) = []) \/ normal_dir t) /\
      comps t = rev (walk [] (comps line)).
Proof.
  intros ex cur line A He Hl. unfold pBat_SetCurrentDir. pose proof (proj2 (absolute_iff line) A) as At.
  rewrite At, He. cbn [andb]. rewrite firstn_all2 by lia. destruct A as (r & -> & _).
  destruct (canonical r) as (t & E & H). rewrite E. cbn [bind]. exists t. rewrite comps_sep. auto.
Qed.
Print Assumptions C35_absolute.

(** CD to a directory relative to a current directory in normal form. *)
Theorem C35_relative :
  forall ex cur line,
    normal_dir cur -> ~ absolute line -> ex (cur ++ "/"%char :: line) = true ->
    length cur + 1 + length line < FILENAME_MAX ->
    exists t, pBat_SetCurrentDir ex cur line = Ret (0%Z, t) /\
      ((t = [] /\ walk (rev (comps cur)) (comps line) = []) \/ normal_dir t) /\
      comps t = rev (walk (rev (comps cur)) (comps line)).
Proof.
  intros ex cur line N A He Hl. unfold pBat_SetCurrentDir.
  destruct (PBAT_TEST_ABSOLUTE_PATH line) eqn:X; [apply absolute_iff in X; tauto|]. cbn [andb]. cbv zeta.
  assert (L : length (cur ++ "/"%char :: line) = length cur + 1 + length line).
  { rewrite app_length. simpl. lia. }
  rewrite firstn_all2 by (rewrite L; lia). rewrite He.
  destruct (Nat.ltb_spec 0 (FILENAME_MAX - (length cur + 1))); [|lia]. cbn [andb].
  pose proof (normal_comps _ N) as NC. destruct (normal_head _ N) as (r & ->).
  destruct (canonical (r ++ "/"%char :: line)) as (t & E & H1 & H2).
  change (("/"%char :: r) ++ "/"%char :: line) with ("/"%char :: r ++ "/"%char :: line). rewrite E. cbn [bind].
  exists t. split; auto. rewrite comps_sep in NC |- *.
  assert (W : walk [] (comps (r ++ "/"%char :: line)) = walk (rev (comps r)) (comps line)).
  { rewrite comps_app, walk_app by (apply above_normal; exact NC). rewrite (walk_normal_id (comps r)), app_nil_r by exact NC. auto. }
  rewrite W in H1, H2. auto.
Qed.
Print Assumptions C35_relative.

(** Unless the path climbs above the root, walking has its usual meaning. *)
Theorem C35_usual_meaning :
  forall up l, above_root up l = false -> walk up l = posix_walk up l.
Proof. intros up l. apply walk_posix. Qed.
Print Assumptions C35_usual_meaning.

(** CD answers 0 or -1; in the second case the current directory is unchanged,
    and the directory did not exist. *)
Theorem C35_failure :
  forall ex cur line, exists st c,
    pBat_SetCurrentDir ex cur line = Ret (st, c) /\
    (st = 0%Z \/ (st = (-1)%Z /\ c = cur /\
       (absolute line -> ex line = false) /\
       (length cur + 1 + length line < FILENAME_MAX -> ex (cur ++ "/"%char :: line) = false))).
Proof.
  intros ex cur line. destruct (SetCurrentDir_total ex cur line) as (st & c & E). exists st, c. split; auto.
  unfold pBat_SetCurrentDir in E. destruct (PBAT_TEST_ABSOLUTE_PATH line && ex line) eqn:X.
  - destruct (pBat_Canonicalize _); cbn [bind] in E; try discriminate E. injection E as E1 _. auto.
  - cbv zeta in E. match type of E with context [if ?b then _ else _] => destruct b eqn:Y end.
    + destruct (pBat_Canonicalize _); cbn [bind] in E; try discriminate E. injection E as E1 _. auto.
    + injection E as <- <-. right. split; [auto|]. split; [auto|]. split.
      * intros A. apply absolute_iff in A. rewrite A in X. auto.
      * intros L. assert (L2 : length (cur ++ "/"%char :: line) = length cur + 1 + length line)
          by (rewrite app_length; simpl; lia).
        rewrite firstn_all2 in Y by (rewrite L2; lia).
        destruct (Nat.ltb_spec 0 (FILENAME_MAX - (length cur + 1))); [exact Y|lia].
Qed.
Print Assumptions C35_failure.

(** Such a change gives back a directory in normal form, and changing to a
    directory in normal form changes nothing in it. *)
Theorem C35_stable :
  forall ex cur t, normal_dir t -> ex t = true -> length t < FILENAME_MAX ->
    pBat_SetCurrentDir ex cur t = Ret (0%Z, t).
Proof. intros. apply SetCurrentDir_normal; auto. Qed.
Print Assumptions C35_stable.

Definition anydir : cstr -> bool := fun _ => true.
Example C35_ex :
  pBat_SetCurrentDir anydir (s2l "/") (s2l "/usr/./lib//x/../y/") = Ret (0%Z, s2l "/usr/lib/y") /\
  pBat_SetCurrentDir anydir (s2l "/usr/lib") (s2l "../bin") = Ret (0%Z, s2l "/usr/bin") /\
  walk [] (comps (s2l "/usr/./lib//x/../y/")) = rev [s2l "usr"; s2l "lib"; s2l "y"] /\
  absolute (s2l "/usr/./lib//x/../y/") /\ normal_dir (s2l "/usr/lib").
Proof.
  do 3 (split; [vm_compute; reflexivity|]). split.
  - exists (s2l "usr/./lib//x/../y/"). split; auto. discriminate.
  - right. exists [s2l "usr"; s2l "lib"]. split; [discriminate|]. split; [|reflexivity].
    repeat constructor; try discriminate; cbv; intuition discriminate.
Qed.

(** "/a/.." leaves an empty current directory, ".." at the root drops the rest,
    and CD to a missing absolute directory can enter a relative one. *)
Theorem C35_refuted :
  pBat_SetCurrentDir anydir (s2l "/") (s2l "/a/..") = Ret (0%Z, []) /\
  pBat_SetCurrentDir anydir (s2l "/") (s2l "/../x") = Ret (0%Z, s2l "/") /\
  posix_walk [] (comps (s2l "/../x")) = [s2l "x"] /\
  pBat_SetCurrentDir (fun d => streqb d (s2l "/home//x")) (s2l "/home") (s2l "/x") = Ret (0%Z, s2l "/home/x").
Proof. repeat split; vm_compute; reflexivity. Qed.
Print Assumptions C35_refuted.

(** ** C36 *)

(** PUSHD d, anything made of CDs and such blocks, POPD: if the directory at the
    start is in normal form and exists, it is the current directory at the end,
    with the same stack; if PUSHD fails nothing changes. *)
Theorem C36_restored :
  forall ex d body w,
    normal_dir (d_cur w) -> ex (d_cur w) = true -> length (d_cur w) < FILENAME_MAX ->
    dact_run ex (DBlock d body) w = Ret w.
Proof.
  intros ex d body w H1 H2 H3. destruct (block_restores ex d body w H1 H2 H3) as [E|(st & c & E1 & E2 & E3)]; auto.
  apply SetCurrentDir_fail in E1. destruct E1 as [E1|[_ ->]]; [congruence|]. destruct w; auto.
Qed.
Print Assumptions C36_restored.

(** Whatever the directories, such sequences leave the stack as it was. *)
Theorem C36_stack :
  forall ex body w, exists c, dacts_run ex body w = Ret (mkDW c (d_stack w)).
Proof. intros ex body. apply dacts_stack. apply Forall_forall. intros a _. apply dact_stack. Qed.
Print Assumptions C36_stack.

(** PUSHD keeps the directory it leaves on the top of the stack, and POPD takes
    the top; POPD with an empty stack fails and changes nothing. *)
Theorem C36_lifo :
  forall ex w,
    (forall d c, pBat_SetCurrentDir ex (d_cur w) d = Ret (0%Z, c) ->
       pBat_CmdPushd ex [d] w = Ret (true, mkDW c (d_cur w :: d_stack w))) /\
    (forall p s st c, d_stack w = p :: s -> pBat_SetCurrentDir ex (d_cur w) p = Ret (st, c) ->
       pBat_CmdPopd ex w = Ret ((st =? 0)%Z, mkDW c s)) /\
    (d_stack w = [] -> pBat_CmdPopd ex w = Ret (false, w)).
Proof.
  intros ex w. unfold pBat_CmdPushd, pBat_CmdPopd, pBat_PopDir. cbn [pushd_loop]. repeat split.
  - intros d c ->. reflexivity.
  - intros p s st c -> E. cbn [d_cur]. rewrite E. reflexivity.
  - intros ->. reflexivity.
Qed.
Print Assumptions C36_lifo.

Example C36_ex :
  dact_run anydir (DBlock (s2l "a") [DCd (s2l "../b"); DBlock (s2l "/tmp") [DCd (s2l "x")]; DCd (s2l "c")])
    (mkDW (s2l "/home") [s2l "/"]) = Ret (mkDW (s2l "/home") [s2l "/"]) /\
  dacts_run anydir [DCd (s2l "../b"); DBlock (s2l "/tmp") [DCd (s2l "x")]; DCd (s2l "c")]
    (mkDW (s2l "/home/a") [s2l "/home"; s2l "/"]) = Ret (mkDW (s2l "/home/b/c") [s2l "/home"; s2l "/"]).
Proof. split; vm_compute; reflexivity. Qed.

(** From the empty current directory left by CD .., the directory is not
    restored. *)
Theorem C36_empty_refuted :
  dact_run anydir (DCd (s2l "..")) (mkDW (s2l "/a") []) = Ret (mkDW [] []) /\
  dact_run anydir (DBlock (s2l "/tmp") []) (mkDW [] []) = Ret (mkDW (s2l "/tmp") []).
Proof. split; vm_compute; reflexivity. Qed.
Print Assumptions C36_empty_refuted.

(** ** C37 *)

(** The candidates, in order: the name seen from the current directory, then for
    names without separator its join to each PATH entry, each tried with every
    PATHEXT extension and then bare.  The first existing one is given. *)
Theorem C37_order :
  forall ex cur PATH PATHEXT name size,
    nonul name -> ordinary name ->
    exists full bases r,
      pBat_GetFilePath ex cur (Some PATH) (Some PATHEXT) name size = Ret (option_map (firstn (size - 1)) r) /\
      from_dir cur name full /\
      (In "/"%char name -> bases = []) /\
      (~ In "/"%char name -> Forall2 (fun d b => joins d name b) (entries PATH) bases) /\
      first_existing ex (flat_map (tried (entries PATHEXT)) (full :: bases)) r.
Proof.
  intros ex cur PATH PATHEXT name size Hn Ho. pose proof (TRANS_ordinary _ Hn Ho) as T. unfold pBat_GetFilePath.
  exists (pBat_MakeFullPathEs cur name).
  destruct (try_exts_ok ex (S (length PATHEXT)) (pBat_MakeFullPathEs cur name) PATHEXT) as (r1 & -> & H1); [lia|].
  cbn [bind]. set (b := negb (PBAT_TEST_ABSOLUTE_PATH name) && _).
  assert (B : b = true <-> ~ In "/"%char name).
  { unfold b, strpbrk. destruct (find_idx (inset (s2l "/")) name) as [k|] eqn:F.
    - rewrite Bool.andb_false_r. split; [discriminate|]. intros N. exfalso. apply find_idx_Some in F.
      destruct F as (c & F1 & F2 & _). unfold inset in F2. simpl in F2. rewrite Bool.orb_false_r in F2.
      apply ceq_true in F2. apply N. apply nth_error_In in F1. congruence.
    - rewrite Bool.andb_true_r. split.
      + intros _ I. rewrite find_idx_None in F. apply F in I. discriminate.
      + intros N. destruct (PBAT_TEST_ABSOLUTE_PATH name) eqn:X; auto. apply absolute_iff in X.
        destruct X as (r & -> & _). exfalso. apply N. left. auto. }
  clearbody b.
  destruct b.
  - exists (map (fun d => pBat_MakePath d name) (entries PATH)).
    assert (J : Forall2 (fun d b => joins d name b) (entries PATH) (map (fun d => pBat_MakePath d name) (entries PATH))).
    { induction (entries PATH); simpl; constructor; auto. apply MakePath_joins. }
    destruct r1 as [x|].
    + exists (Some x). split; [reflexivity|]. split; [apply from_dir_ok; auto|]. split; [tauto|]. split; [auto|].
      cbn [flat_map]. apply first_existing_app1. auto.
    + destruct (try_path_ok ex PATHEXT (S (length PATH)) name PATH) as (r2 & -> & H2); [lia|]. cbn [bind].
      exists r2. split; [destruct r2; reflexivity|]. split; [apply from_dir_ok; auto|]. split; [tauto|]. split; [auto|].
      cbn [flat_map]. apply first_existing_app; auto.
  - exists []. assert (I : In "/"%char name).
    { destruct (in_dec ascii_dec "/"%char name) as [I|I]; auto. apply B in I. discriminate. }
    assert (X : (match r1 with Some x => Ret (Some x)
                 | None => try_path ex (S (length PATH)) name (Some PATH) PATHEXT false end) = Ret r1).
    { destruct r1; auto. cbn [try_path]. destruct (pBat_GetPathNextPart (Some PATH)) as [[z s]|]; auto. }
    rewrite X. cbn [bind]. exists r1. split; [destruct r1; reflexivity|]. split; [apply from_dir_ok; auto|].
    split; [auto|]. split; [tauto|]. cbn [flat_map]. rewrite app_nil_r. auto.
Qed.
Print Assumptions C37_order.

Example C37_ex :
  pBat_GetFilePath (fun f => existsb (streqb f) [s2l "/bin/ls.exe"; s2l "/usr/bin/ls"; s2l "/bin/ls"]) (s2l "/home")
    (Some (s2l "/usr/bin/:/bin:")) (Some (s2l ".bat:.exe")) (s2l "ls") 100 = Ret (Some (s2l "/usr/bin/ls")) /\
  entries (s2l "/usr/bin/:/bin:") = [s2l "/usr/bin/"; s2l "/bin"] /\
  ordinary (s2l "ls").
Proof.
  split; [vm_compute; reflexivity|]. split; [vm_compute; reflexivity|].
  split; intros w Hw; simpl in Hw; intuition subst; discriminate.
Qed.

(** ** C40 *)

Theorem C40_named :
  forall name dev, nonul name -> device_of name dev -> TRANS name = dev.
Proof. intros. apply TRANS_named; auto. Qed.
Print Assumptions C40_named.

Theorem C40_ports :
  forall name n, nonul name -> (1 <= n <= 11)%Z ->
    (port_name "LPT" n name -> TRANS name = s2l "/dev/lpt" ++ dec (n - 1)) /\
    (port_name "COM" n name -> TRANS name = s2l "/dev/ttyS" ++ dec (n - 1)).
Proof.
  intros name n Hn H. assert (C : forall b, choose_stream b (n - 1) = Some (b ++ dec (n - 1))).
  { intros b. unfold choose_stream. destruct (Z.leb_spec 0 (n - 1)); [|lia]. destruct (Z.leb_spec (n - 1) 10); [|lia]. auto. }
  split; intros P; [rewrite (TRANS_lpt _ n)|rewrite (TRANS_com _ n)]; auto; try (rewrite C; auto); unfold INT_MAX; lia.
Qed.
Print Assumptions C40_ports.

(** No number behind the three letters *)
Lemma strtol_bare s : (forall c, In c s -> is_digit c = false) -> strtol s = (0%Z, s).
Proof.
  intros H. assert (K : forall c, In c (skip_space s) -> is_digit c = false).
  { intros c I. apply H. revert I. clear. induction s as [|x s IH]; simpl; [tauto|]. destruct (is_space x); simpl; intuition. }
  unfold strtol. destruct (skip_space s) as [|x t]; [reflexivity|].
  destruct (ceq x "-"%char || ceq x "+"%char).
  - destruct t as [|y t]; [reflexivity|]. cbn [starts_digit]. rewrite K; [reflexivity|]. right. left. reflexivity.
  - cbn [starts_digit]. rewrite K; [reflexivity|]. left. reflexivity.
Qed.
Lemma TRANS_bare name : nonul name -> (forall c, In c (skipn 3 name) -> is_digit c = false) ->
  (forall w, In w ["NUL"; "CON"; "PRN"]%string -> map tolower name <> map tolower (s2l w)) -> TRANS name = name.
Proof.
  intros Hn D H. unfold TRANS. rewrite !stricmp_not by (auto; first [apply nonul_s2l; reflexivity|apply H; cbn; tauto]).
  assert (Y : forall w b, numbered name w b = None).
  { intros w b. unfold numbered. destruct (_ =? 0)%Z; auto. rewrite (strtol_bare _ D). destruct (skipn 3 name); reflexivity. }
  rewrite !Y. reflexivity.
Qed.

(** Every other name is left untouched: names that do not start like a device,
    port numbers out of range, names without a number (LPT and COM themselves), and names
    whose rest is no number. *)
Theorem C40_untouched :
  forall name, nonul name ->
    (ordinary name -> TRANS name = name) /\
    (forall n, (0 <= n <= INT_MAX)%Z -> ~ (1 <= n <= 11)%Z ->
       port_name "LPT" n name \/ port_name "COM" n name -> TRANS name = name) /\
    ((forall c, In c (skipn 3 name) -> is_digit c = false) ->
       (forall w, In w ["NUL"; "CON"; "PRN"]%string -> map tolower name <> map tolower (s2l w)) -> TRANS name = name) /\
    (forall c, 3 < length name -> In c (skipn 3 name) ->
       is_digit c = false -> is_space c = false -> c <> "-"%char -> c <> "+"%char -> TRANS name = name).
Proof.
  intros name Hn. split; [apply TRANS_ordinary; auto|]. split.
  - intros n H H2 P. assert (C : forall b, choose_stream b (n - 1) = None).
    { intros b. unfold choose_stream. destruct (Z.leb_spec 0 (n - 1)); auto. destruct (Z.leb_spec (n - 1) 10); auto. lia. }
    destruct P as [P|P]; [rewrite (TRANS_lpt _ n)|rewrite (TRANS_com _ n)]; auto; rewrite C; auto.
  - split; [intros H1 H2; apply TRANS_bare; auto|]. intros c. intros. eapply TRANS_junk; eauto.
Qed.
Print Assumptions C40_untouched.

Example C40_ex :
  TRANS (s2l "Nul") = s2l "/dev/null" /\ TRANS (s2l "lPt3") = s2l "/dev/lpt2" /\ TRANS (s2l "COM11") = s2l "/dev/ttyS10" /\
  TRANS (s2l "COM12") = s2l "COM12" /\ TRANS (s2l "Com") = s2l "Com" /\ TRANS (s2l "command.bat") = s2l "command.bat" /\
  port_name "LPT" 3 (s2l "lPt3") /\ device_of (s2l "Nul") (s2l "/dev/null").
Proof.
  do 6 (split; [vm_compute; reflexivity|]). split; [|left; vm_compute; auto].
  exists (s2l "lPt"). split; vm_compute; reflexivity.
Qed.

(** The number is read as a [long] and cut to an [int], blanks and signs are
    accepted: these are taken for COM1 and COM3. *)
Theorem C40_exact_refuted :
  TRANS (s2l "COM4294967297") = s2l "/dev/ttyS0" /\ TRANS (s2l "COM +3") = s2l "/dev/ttyS2".
Proof. split; vm_compute; reflexivity. Qed.
Print Assumptions C40_exact_refuted.

(** ** C49 *)

(** A full path is the path if absolute, else it is in the current directory;
    the three ways of computing it agree. *)
Theorem C49_full_path :
  forall cur p, nonul p -> ordinary p ->
    from_dir cur p (pBat_MakeFullPathEs cur p) /\
    pBat_FullPathDup cur p = pBat_MakeFullPathEs cur p /\
    (forall size, length (pBat_MakeFullPathEs cur p) < size -> pBat_MakeFullPath cur p size = pBat_MakeFullPathEs cur p) /\
    (forall cap, length (pBat_MakeFullPathEs cur p) < cap -> pBat_EsToFullPath cur p cap = Ret (pBat_MakeFullPathEs cur p)).
Proof.
  intros cur p Hn Ho. pose proof (TRANS_ordinary _ Hn Ho) as T.
  split; [apply from_dir_ok; auto|]. split; [reflexivity|]. split.
  - intros size H. unfold pBat_MakeFullPath. apply firstn_all2. lia.
  - intros cap H. unfold pBat_EsToFullPath, pBat_MakeFullPathEs in *. rewrite T in *.
    destruct (PBAT_TEST_ABSOLUTE_PATH p); auto. rewrite app_length in H. simpl length in H.
    destruct (Nat.ltb_spec cap (length p + 1 + length cur + 1)); [lia|]. auto.
Qed.
Print Assumptions C49_full_path.

(** The path made, read again, is the same. *)
Theorem C49_idempotent :
  forall cur cur' p, absolute cur -> nonul p -> ordinary p ->
    nonul cur -> ordinary (cur ++ "/"%char :: p) ->
    pBat_MakeFullPathEs cur' (pBat_MakeFullPathEs cur p) = pBat_MakeFullPathEs cur p \/ cur = s2l "/".
Proof.
  intros cur cur' p A Hn Ho Hc Ho2. pose proof (TRANS_ordinary _ Hn Ho) as T.
  unfold pBat_MakeFullPathEs at 2 3. rewrite T. destruct (PBAT_TEST_ABSOLUTE_PATH p) eqn:X.
  - left. unfold pBat_MakeFullPathEs. rewrite T, X. auto.
  - destruct A as (r & -> & Hr). destruct r as [|d r]; [right; reflexivity|]. left.
    unfold pBat_MakeFullPathEs.
    assert (N : nonul (("/"%char :: d :: r) ++ "/"%char :: p)).
    { intros I. apply in_app_or in I. destruct I as [I|[I|I]]; [apply Hc; auto|discriminate|apply Hn; auto]. }
    rewrite (TRANS_ordinary _ N Ho2). unfold PBAT_TEST_ABSOLUTE_PATH. cbn [app test_sep skipn].
    destruct (is_sep d) eqn:Y; auto. apply is_sep_iff in Y. subst. exfalso. eapply Hr. eauto.
Qed.
Print Assumptions C49_idempotent.

Example C49_ex :
  pBat_MakeFullPathEs (s2l "/home/u") (s2l "x/y.txt") = s2l "/home/u/x/y.txt" /\
  pBat_MakeFullPathEs (s2l "/home/u") (s2l "/etc") = s2l "/etc" /\
  pBat_EsToFullPath (s2l "/home/u") (s2l "x") 64 = Ret (s2l "/home/u/x") /\
  pBat_MakeFullPathEs (s2l "/home/u") (s2l "//net") = s2l "/home/u///net".
Proof. repeat split; vm_compute; reflexivity. Qed.

(** Completing a path in place when it has to grow reads freed memory, and a path
    made in the root directory and completed again becomes another path. *)
Theorem C49_in_place_refuted :
  pBat_EsToFullPath (s2l "/home/u") (s2l "x") 8 = Undef /\
  pBat_MakeFullPathEs (s2l "/w") (pBat_MakeFullPathEs (s2l "/") (s2l "x")) = s2l "/w///x".
Proof. split; vm_compute; reflexivity. Qed.
Print Assumptions C49_in_place_refuted.
