(** Dir_Props.v -- C89: what DIR lists. *)

From Verif Require Import Base Lex Num_Model StrLib_Model StrLib_Spec Path_Model Path_Spec Path_Proofs Var_Model Expand_Model Expand_Props Args_Model Args_Props Params_Model Params_Spec Find_Proofs Find_Props Prompt_Proofs Glob_Model Glob_Spec Attr_Model Attr_Spec Fs_Model Fs_Spec Fs_Proofs Search_Model Search_Spec Search_Proofs Search_Props Copy_Model Copy_Spec Del_Props Dir_Model Dir_Spec Dir_Proofs.

(** With the attributes that are asked for (C45) *)
Definition listed (q : lrequest) (i : fileinfo) : bool := pBat_CheckFileAttributes (pBat_MakeFileAttributes (l_attr q)) i.

Lemma found_names f rec bare w q p top l (g : cstr -> bool) :
  meant_by (vw_cd (x_var w)) (l_name q) p top -> (top <> [] -> plain_dir (vw_cd (x_var w))) -> length p < FILENAME_MAX -> pBat_GetMatchFileList f rec bare true p = Ret l ->
  exists ys, filter g l = map (app top) ys.
Proof. intros M P L E. apply strip. intros x I. apply filter_In in I. eapply meant_below; eauto. apply I. Qed.

(** DIR /B: the files that are found (C75) and have the attributes that are asked for, one on each
    line, in the order in which they are found; by their names from the current directory, and
    by their whole paths when the name that is given is absolute, or with /S in the mode where
    batch files are run as CMD.EXE does. *)
Theorem C89_bare : forall perm dsize time title nofile files_ dirs_ correct w f line ps q p top l,
  written w line ps -> dir_asked no_lrequest ps q -> l_bare q = true ->
  (forall n, l_name q = Some n -> TRANS n = n) -> meant_by (vw_cd (x_var w)) (l_name q) p top -> (top <> [] -> plain_dir (vw_cd (x_var w))) -> length p < FILENAME_MAX ->
  pBat_GetMatchFileList f (l_rec q) true true p = Ret l ->
  exists ys, filter (fun x => listed q (info perm dsize f x)) l = map (app top) ys /\
    pBat_CmdDir perm dsize time title nofile files_ dirs_ correct w f line =
    Ret (0%Z, concat (map (fun y => y ++ [nl]) (if correct && l_rec q then map (app top) ys else ys)), w).
Proof.
  intros perm dsize time title nofile files_ dirs_ correct w f line ps q p top l W A B T M P L E.
  destruct (found_names f _ _ w q p top l (fun x => listed q (info perm dsize f x)) M P L E) as (ys & Y). exists ys. split; [exact Y|].
  unfold pBat_CmdDir. rewrite (dir_params_ok w line ps q W A). cbn [bind]. unfold dir_list. rewrite (search_for w q p top M T L). rewrite B, E. cbn [bind].
  unfold listed in Y. rewrite Y, prints_bare. reflexivity.
Qed.
Print Assumptions C89_bare.

(** DIR: a title, a line for each of the files that are found and have the attributes that are
    asked for, with its date, its size (or that it is a directory) and its name, and how many
    files and directories there were. *)
Theorem C89_long : forall perm dsize time title nofile files_ dirs_ correct w f line ps q p top l,
  written w line ps -> dir_asked no_lrequest ps q -> l_bare q = false ->
  (forall n, l_name q = Some n -> TRANS n = n) -> meant_by (vw_cd (x_var w)) (l_name q) p top -> (top <> [] -> plain_dir (vw_cd (x_var w))) -> length p < FILENAME_MAX ->
  pBat_GetMatchFileList f (l_rec q) false true p = Ret l -> l <> [] -> (forall x, In x l -> (f_size (info perm dsize f x) < 4294967296)%N) ->
  exists ys lines nf nd, filter (fun x => listed q (info perm dsize f x)) l = map (app top) ys /\
    Forall2 (fun y s => shown (time (place_of (top ++ y))) (info perm dsize f (top ++ y)) y s) ys lines /\
    nf + nd = length ys /\ nd = length (filter (fun y => f_dir (info perm dsize f (top ++ y))) ys) /\
    let tabs := [tab; tab; tab; tab] in
    pBat_CmdDir perm dsize time title nofile files_ dirs_ correct w f line =
    Ret (0%Z, nl :: title ++ nl :: concat lines ++ tabs ++ dec (Z.of_nat nf) ++ " "%char :: files_ ++ nl :: tabs ++ dec (Z.of_nat nd) ++ " "%char :: dirs_ ++ [nl], w).
Proof.
  intros perm dsize time title nofile files_ dirs_ correct w f line ps q p top l W A B T M P L E Ne Sz.
  destruct (found_names f _ _ w q p top l (fun x => listed q (info perm dsize f x)) M P L E) as (ys & Y).
  destruct (prints_long perm dsize time f top ys) as (ls & El & F).
  { intros y I. apply Sz. assert (X : In (top ++ y) (map (app top) ys)) by (apply in_map; auto). rewrite <- Y in X. apply filter_In in X. apply X. }
  set (isdir := fun y => f_dir (info perm dsize f (top ++ y))).
  exists ys, ls, (length (filter (fun y => negb (isdir y)) ys)), (length (filter isdir ys)). split; [exact Y|]. split; [exact F|].
  split; [clear; induction ys as [|y ys IH]; cbn [filter length]; [auto|]; destruct (isdir y); cbn [negb length]; lia|]. split; [reflexivity|]. cbn zeta.
  unfold pBat_CmdDir. rewrite (dir_params_ok w line ps q W A). cbn [bind]. unfold dir_list. rewrite (search_for w q p top M T L). rewrite B, E. cbn [bind].
  unfold listed in Y. rewrite Y, El. destruct l as [|x l]; [congruence|]. cbn [bind]. unfold totals.
  assert (Len : forall g, length (filter g (map (app top) ys)) = length (filter (fun y => g (top ++ y)) ys)) by (clear; intros g; induction ys as [|y ys IH]; cbn [map filter]; [auto|]; destruct (g (top ++ y)); cbn [length]; auto).
  rewrite !Len. unfold TAB, tab. cbn [app]. repeat (rewrite <- ?app_assoc; cbn [app]). reflexivity.
Qed.
Print Assumptions C89_long.

(** Nothing is found: DIR says so, and DIR /B is silent; that is not an error.  /? lists nothing,
    and a second name is an error. *)
Theorem C89_none : forall perm dsize time title nofile files_ dirs_ correct w f line ps q,
  dir_asked no_lrequest ps q ->
  (forall p top, written w line ps -> (forall n, l_name q = Some n -> TRANS n = n) -> meant_by (vw_cd (x_var w)) (l_name q) p top -> length p < FILENAME_MAX ->
     pBat_GetMatchFileList f (l_rec q) (l_bare q) true p = Ret [] ->
     pBat_CmdDir perm dsize time title nofile files_ dirs_ correct w f line = Ret (0%Z, if l_bare q then [] else nl :: title ++ nl :: nofile ++ [nl], w)) /\
  (forall rest, written w line (ps ++ s2l "/?" :: rest) -> pBat_CmdDir perm dsize time title nofile files_ dirs_ correct w f line = Ret (0%Z, [], w)) /\
  (forall n rest, written w line (ps ++ n :: rest) -> dir_name n -> l_name q <> None ->
     pBat_CmdDir perm dsize time title nofile files_ dirs_ correct w f line = Ret (PBAT_UNEXPECTED_ELEMENT, [], w)).
Proof.
  intros perm dsize time title nofile files_ dirs_ correct w f line ps q A. unfold pBat_CmdDir. split; [|split].
  - intros p top W T M L E. rewrite (dir_params_ok w line ps q W A). cbn [bind]. unfold dir_list. rewrite (search_for w q p top M T L). rewrite E. cbn [bind filter prints]. destruct (l_bare q); reflexivity.
  - intros rest W. rewrite (dir_help w line ps q rest W A). reflexivity.
  - intros n rest W N Q. rewrite (dir_more w line ps q n rest W A N Q). reflexivity.
Qed.
Print Assumptions C89_none.

(** DIR /B in a directory: each of the names that are in it, once, and no other; with /S, what is
    in the directories below too. *)
Theorem C89_here : forall perm dsize time title nofile files_ dirs_ w f line ps q cs,
  written w line ps -> dir_asked no_lrequest ps q -> l_bare q = true -> l_name q = None ->
  proper f -> tree f -> once f -> cs <> [] -> Forall normal_comp cs -> Forall (fun c => ~ wild c) cs -> vw_cd (x_var w) = "/"%char :: slashed cs ->
  get f (rev cs) = Some Dir -> get f (s2l "*" :: rev cs) = None ->
  (forall ns, get f (rev ns ++ rev cs) <> None -> length ("/"%char :: slashed (cs ++ ns)) < FILENAME_MAX - 2) ->
  exists ys, pBat_CmdDir perm dsize time title nofile files_ dirs_ false w f line = Ret (0%Z, concat (map (fun y => y ++ [nl]) ys), w) /\ NoDup ys /\
    forall y, In y ys <-> exists ns, y = slashed ns /\ ns <> [] /\ (l_rec q = false -> length ns = 1) /\ get f (rev ns ++ rev cs) <> None /\
      listed q (info perm dsize f ("/"%char :: slashed (cs ++ ns))) = true.
Proof.
  intros perm dsize time title nofile files_ dirs_ w f line ps q cs W A B Nm Pr Tr On Nc Fn Fw Ec G Gs Sh.
  assert (Fc : Forall component cs) by (eapply Forall_impl; [|exact Fn]; apply normal_component).
  assert (Fold : fold_left step cs [] = rev cs).
  { rewrite <- (app_nil_r (rev cs)). clear - Fn. generalize (@nil cstr). induction Fn as [|x l H F IH]; intros pl; cbn [fold_left rev]; [auto|]. rewrite step_normal by auto. rewrite IH, <- app_assoc. reflexivity. }
  assert (Es : "/"%char :: slashed (cs ++ [s2l "*"]) = vw_cd (x_var w) ++ s2l "/*") by (rewrite slashed_split by (auto; discriminate); rewrite Ec; reflexivity).
  assert (Fc' : Forall component (cs ++ [s2l "*"])) by (apply Forall_app; split; [auto|constructor; [apply component_star|constructor]]).
  assert (Fn' : Forall normal_comp (cs ++ [s2l "*"])) by (apply Forall_app; split; [auto|constructor; [|constructor]]; repeat split; try discriminate; intros [X|[]]; discriminate).
  assert (Rch : forall ns p, reach f (l_rec q) false [] (cs ++ [s2l "*"]) ns p <-> exists ms, ns = cs ++ ms /\ get f p <> None /\ p = rev ms ++ rev cs /\ ms <> [] /\ (l_rec q = false -> length ms = 1)).
  { intros ns p. rewrite reach_pre by auto. rewrite Fold. split; intros (ms & X & Y); exists ms; (split; [exact X|]); apply reach_star; auto. }
  assert (Lc : length (vw_cd (x_var w)) < FILENAME_MAX - 2) by (rewrite Ec; specialize (Sh []); rewrite app_nil_r in Sh; apply Sh; cbn; congruence).
  destruct (C75_pattern f (l_rec q) true true (cs ++ [s2l "*"])) as (l & El & Il & Ol); auto.
  - apply Forall_app. split; [eapply Forall_impl; [|exact Fw]; intros; contradiction|constructor; [intros _; apply understood_star|constructor]].
  - exists (s2l "*"). split; [apply in_or_app; right; left; auto|apply wild_star].
  - intros _. rewrite last_last. apply wild_star.
  - rewrite <- root_along; [|destruct cs; discriminate|auto]. rewrite place_along by auto. change (place_of (s2l "/")) with (@nil cstr). rewrite fold_left_app, Fold. cbn [fold_left].
    rewrite step_normal by (apply Forall_app in Fn'; destruct Fn' as [_ X]; inversion X; auto). exact Gs.
  - intros ns p R. apply Rch in R. destruct R as (ms & -> & X & -> & _). specialize (Sh _ X). lia.
  - specialize (Ol eq_refl On Fn'). rewrite Es in El. cbn [negb] in Il.
    assert (Mb : meant_by (vw_cd (x_var w)) (l_name q) (vw_cd (x_var w) ++ s2l "/*") (vw_cd (x_var w) ++ s2l "/")) by (rewrite Nm; constructor).
    assert (Lp : length (vw_cd (x_var w) ++ s2l "/*") < FILENAME_MAX) by (rewrite app_length; cbn [length s2l list_ascii_of_string]; lia).
    assert (Hd : exists d c', slashed cs = d :: c' /\ d <> "/"%char).
    { destruct cs as [|c cs]; [congruence|]. inversion Fc as [|? ? [D1 D2] _]; subst. destruct c as [|d c]; [congruence|]. assert (d <> "/"%char) by (intros ->; apply D2; left; auto).
      destruct cs; [exists d, c; auto|]. rewrite slashed_app by discriminate. cbn [app]. eauto. }
    assert (Nw : forall x, In x (slashed cs) -> x = "/"%char \/ exists c, In c cs /\ In x c).
    { clear. induction cs as [|c cs IH]; cbn [slashed]; [intros x []|]. destruct cs as [|d cs]; [intros x I; right; exists c; split; [left; auto|auto]|].
      intros x I. apply in_app_or in I. destruct I as [I|[<-|I]]; [right; exists c; split; [left; auto|auto]|left; auto|]. destruct (IH x I) as [->|(e & Ie & Ix)]; [left; auto|right; exists e; split; [right; auto|auto]]. }
    assert (Pd : vw_cd (x_var w) ++ s2l "/" <> [] -> plain_dir (vw_cd (x_var w))).
    { intros _. rewrite Ec. split; [|split; [|split]].
      - destruct Hd as (d & c' & E1 & E2). exists (slashed cs). split; [auto|]. intros r X. rewrite E1 in X. injection X as X _. auto.
      - intros r X. destruct (exists_last Nc) as (cs' & c & ->). apply Forall_app in Fc. destruct Fc as [_ Fl]. inversion Fl as [|? ? [D1 D2] _]; subst.
        assert (Y : exists u, "/"%char :: slashed (cs' ++ [c]) = u ++ c) by (destruct cs' as [|e cs']; [exists (s2l "/"); reflexivity|rewrite slashed_split by discriminate; exists ("/"%char :: slashed (e :: cs') ++ s2l "/"); cbn [slashed app]; rewrite <- app_assoc; reflexivity]).
        destruct Y as (u & Y). rewrite Y in X. destruct (exists_last D1) as (c0 & z & ->). rewrite app_assoc in X. apply app_inj_tail in X. destruct X as [_ ->]. apply D2. apply in_or_app. right. left. auto.
      - intros [X|X]; [discriminate|]. destruct (Nw _ X) as [Y|(c & Ic & Ix)]; [discriminate|]. rewrite Forall_forall in Fw. apply (Fw c Ic). left. auto.
      - intros [X|X]; [discriminate|]. destruct (Nw _ X) as [Y|(c & Ic & Ix)]; [discriminate|]. rewrite Forall_forall in Fw. apply (Fw c Ic). right. auto. }
    destruct (C89_bare perm dsize time title nofile files_ dirs_ false w f line ps q _ _ l W A B ltac:(rewrite Nm; discriminate) Mb Pd Lp El) as (ys & Y & E).
    exists ys. split; [exact E|]. split.
    + assert (N : NoDup (map (app (vw_cd (x_var w) ++ s2l "/")) ys)) by (rewrite <- Y; eapply NoDup_map_inv; apply filter_places; apply firsts_nodup; exact Ol).
      eapply NoDup_map_inv. exact N.
    + assert (Sl : forall ns, ns <> [] -> (vw_cd (x_var w) ++ s2l "/") ++ slashed ns = "/"%char :: slashed (cs ++ ns)) by (intros ns N; rewrite slashed_split by auto; rewrite Ec, <- app_assoc; reflexivity).
      intros y. split.
      * intros I. apply (in_map (app (vw_cd (x_var w) ++ s2l "/"))) in I. rewrite <- Y in I. apply filter_In in I. destruct I as [I Hl]. apply Il in I. destruct I as (ns & p & R & X). apply Rch in R. destruct R as (ms & -> & R1 & -> & R2 & R3).
        exists ms. rewrite <- Sl in X by auto. assert (X' := X). apply app_inv_head in X. split; [exact X|]. rewrite <- Sl, <- X' by auto. auto 6.
      * intros (ns & -> & N & L1 & Gn & Hl). assert (X : In ((vw_cd (x_var w) ++ s2l "/") ++ slashed ns) (map (app (vw_cd (x_var w) ++ s2l "/")) ys)).
        { rewrite <- Y. apply filter_In. rewrite Sl by auto. split; [|exact Hl]. apply Il. exists (cs ++ ns), (rev ns ++ rev cs). split; [|auto]. apply Rch. exists ns. auto. }
        apply in_map_iff in X. destruct X as (z & X & Iz). apply app_inv_head in X. subst z. exact Iz.
Qed.
Print Assumptions C89_here.

(** The size of a file below 4 GiB is shown with its first digits. *)
Theorem C89_size : forall n, (n < 4294967296)%N -> exists z, pBat_FormatFileSize 8 n = Ret z /\ size_shown (Z.of_N n) z.
Proof. exact size_ok. Qed.
Print Assumptions C89_size.
(** Larger sizes are not: 4 GiB are shown as nothing. *)
Theorem C89_size_refuted : pBat_FormatFileSize 8 4294967296 = Ret (s2l "0,00 o") /\ ~ size_shown 4294967296 (s2l "0,00 o").
Proof.
  split; [vm_compute; reflexivity|]. intros H. inversion H as [i u a Hu k Ha Hk X|i u a Hu k Ha Hk X|i u a Hu k Ha Hi Hk X].
  assert (Hu' : u = s2l "o") by (cbn; congruence).
  assert (Ai : i = 0) by (subst u; do 4 (destruct i as [|i]; [cbn in Hu; (reflexivity || discriminate)|]); destruct i; discriminate). subst i. unfold k in Hk. cbn in Hk. lia.
Qed.
Print Assumptions C89_size_refuted.

Definition ex_at (cd : string) : xworld := set_var ex_w (mkVW (vw_env (x_var ex_w)) (s2l cd) 0 0 [] []).
Definition ex_dir (f : fsys) (cd line : string) : option (Z * string) :=
  match pBat_CmdDir (fun _ => (true, true)) (fun _ => 0%N) (fun _ => s2l "now") (s2l "T") (s2l "none") (s2l "files") (s2l "dirs") false (ex_at cd) f (s2l line) with
  | Ret (z, t, _) => Some (z, string_of_list_ascii t) | _ => None end.
Definition lines_ (l : list string) : string := String.concat "" (map (fun s => s ++ String nl EmptyString)%string l).
(** In the root directory the first letter of each name is lost. *)
Theorem C89_root_refuted : ex_dir zoo "/" " /b" = Some (0%Z, lines_ [""; ""; ""]%string) /\ ex_dir (at_ "/bin" Dir :: zoo) "/" " /b b*" = Some (0%Z, lines_ ["in"]%string).
Proof. split; vm_compute; reflexivity. Qed.
Print Assumptions C89_root_refuted.
(** The name of a device is read beyond its end. *)
Theorem C89_device_refuted : pBat_CmdDir (fun _ => (true, true)) (fun _ => 0%N) (fun _ => []) [] [] [] [] false (ex_at "/home/someone") (at_ "/dev" Dir :: at_ "/dev/null" (File []) :: zoo) (s2l " nul") = Undef.
Proof. vm_compute. reflexivity. Qed.
Print Assumptions C89_device_refuted.
(** In a directory with a wildcard in its name, what is in other directories is listed too. *)
Theorem C89_wild_refuted : ex_dir (at_ "/x*" Dir :: at_ "/x*/one" (File []) :: at_ "/xyz" Dir :: at_ "/xyz/two" (File []) :: zoo) "/x*" " /b" = Some (0%Z, lines_ ["one"; "/two"]%string).
Proof. vm_compute. reflexivity. Qed.
Print Assumptions C89_wild_refuted.

Example C89_ex :
  ex_dir zoo "/a" " /b" = Some (0%Z, lines_ ["x1"; "X2.c"; "y"]%string) /\
  ex_dir zoo "/a" " /b /s" = Some (0%Z, lines_ ["x1"; "X2.c"; "y/x3"; "y"]%string) /\
  ex_dir zoo "/a" " /b /a:d" = Some (0%Z, lines_ ["y"]%string) /\ ex_dir zoo "/a" " /b /b/y" = Some (0%Z, lines_ ["/b/y/z"]%string) /\
  ex_dir zoo "/a" " /b y" = Some (0%Z, lines_ ["y/x3"]%string) /\ ex_dir zoo "/a" " x q" = Some (PBAT_UNEXPECTED_ELEMENT, ""%string) /\
  ex_dir zoo "/a" " q*" = Some (0%Z, lines_ [""; "T"; "none"]%string) /\
  ex_dir zoo "/a" " x*" = Some (0%Z, lines_ [""; "T"; "now        1,00 o	       	x1"; "now        0,00 o	       	X2.c"; "				2 files"; "				0 dirs"]%string) /\
  ex_dir zoo "/a" "" = Some (0%Z, lines_ [""; "T"; "now <REP>		D      	."; "now <REP>		D      	.."; "now        1,00 o	       	x1"; "now        0,00 o	       	X2.c"; "now <REP>		D      	y"; "				2 files"; "				3 dirs"]%string) /\
  map (fun n => match pBat_FormatFileSize 8 n with Ret z => string_of_list_ascii z | _ => ""%string end) [7; 42; 999; 1999; 12345; 999999; 1000000; 4294967295]%N =
    ["7,00 o"; "  42 o"; " 999 o"; "1,99 ko"; "  12 ko"; " 999 ko"; "1,00 mo"; "4,29 go"]%string.
Proof. repeat split; vm_compute; reflexivity. Qed.
(** The hypotheses of C89_here hold of "DIR /B" in a directory. *)
Example C89_ex_here : exists ys, pBat_CmdDir (fun _ => (true, true)) (fun _ => 0%N) (fun _ => []) [] [] [] [] false (ex_at "/a") zoo (s2l " /b /s") = Ret (0%Z, concat (map (fun y => y ++ [nl]) ys), ex_at "/a") /\ In (s2l "y/x3") ys.
Proof.
  destruct zoo_ok as (Pr & Tr & On).
  destruct (C89_here (fun _ => (true, true)) (fun _ => 0%N) (fun _ => []) [] [] [] [] (ex_at "/a") zoo (s2l " /b /s") [s2l "/b"; s2l "/s"] (mkL true true [] None) [s2l "a"]) as (ys & E & _ & H); auto; try discriminate.
  - do 2 lw; constructor; constructor.
  - eapply la_bare; [op|]. eapply la_rec; [op|]. constructor.
  - repeat constructor; try discriminate. intros [X|[]]; discriminate.
  - repeat constructor. intros [X|X]; cbn in X; intuition discriminate.
  - intros ns G. apply get_in in G. vm_compute in G.
    repeat (destruct G as [G|G]; [apply (f_equal (@rev _)) in G; rewrite rev_app_distr, !rev_involutive in G; cbn [rev app] in G; (discriminate || (injection G as G || idtac; rewrite <- ?G; apply Nat.ltb_lt; vm_compute; reflexivity))|]). destruct G.
  - exists ys. split; [exact E|]. apply H. exists [s2l "y"; s2l "x3"]. split; [reflexivity|]. split; [discriminate|]. split; [discriminate|]. split; vm_compute; [discriminate|reflexivity].
Qed.
(** Those of C89_long, of "DIR x*". *)
Example C89_ex_long : exists ys lines nf nd, map (app (s2l "/a/")) ys = [s2l "/a/x1"; s2l "/a/X2.c"] /\ nf + nd = length ys /\ nd = 0 /\
  Forall2 (fun y s => shown (s2l "now") (info (fun _ => (true, true)) (fun _ => 0%N) zoo (s2l "/a/" ++ y)) y s) ys lines.
Proof.
  destruct (C89_long (fun _ => (true, true)) (fun _ => 0%N) (fun _ => s2l "now") [] [] [] [] false (ex_at "/a") zoo (s2l " x*") [s2l "x*"] (mkL false false [] (Some (s2l "x*"))) (s2l "/a/x*") (s2l "/a/") [s2l "/a/x1"; s2l "/a/X2.c"])
    as (ys & ls & nf & nd & E & F & N & D & _); auto; try discriminate.
  - lw; constructor; constructor.
  - eapply la_name; [dn|reflexivity|]. constructor.
  - intros n X. injection X as <-. reflexivity.
  - apply (mb_relative (s2l "/a") (s2l "x*")). intros (r & X & _). discriminate.
  - intros _. split; [exists (s2l "a"); split; [reflexivity|intros r X; discriminate]|]. split; [intros r X; destruct r as [|? [|? [|? r]]]; discriminate|]. split; intros X; cbn in X; intuition discriminate.
  - apply Nat.ltb_lt. vm_compute. reflexivity.
  - intros x [<-|[<-|[]]]; vm_compute; reflexivity.
  - exists ys, ls, nf, nd. split; [symmetry; exact E|]. split; [exact N|]. split; [|exact F].
    change (filter _ _) with [s2l "/a/x1"; s2l "/a/X2.c"] in E. destruct ys as [|y1 [|y2 [|y3 ys]]]; try discriminate. cbn [map] in E. injection E as E1 E2.
    rewrite D. cbn [filter]. change (s2l "/a/" ++ y1) with ("/"%char :: "a"%char :: "/"%char :: y1). change (s2l "/a/" ++ y2) with ("/"%char :: "a"%char :: "/"%char :: y2). rewrite <- E1, <- E2. reflexivity.
Qed.
