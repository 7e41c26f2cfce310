(** Small_Proofs.v -- lemmas about Small_Model. *)

From Verif Require Import Base StrLib_Model Path_Model Expand_Model Args_Model CmdList_Model Args_Spec Params_Spec Params_Proofs Small_Model.
Require Import Lia.

Lemma skipn_name : forall (name rest : cstr) n, length name = n -> skipn n (name ++ rest) = rest.
Proof. induction name; intros rest n <-; [reflexivity|]. cbn. auto. Qed.

Lemma next_of : forall w old line ps, written w line ps ->
  match ps with
  | [] => pBat_GetNextParameterEs w old line = Ret (old, None, w)
  | p :: qs => exists rest, pBat_GetNextParameterEs w old line = Ret (p, Some rest, w) /\ written w rest qs /\ length rest < length line
  end.
Proof.
  intros w old line ps W. destruct W as [s B|a raw rest t v l A N F P Bt C D W].
  - apply next_end. exact B.
  - exists rest. split; [apply (next_written w old a raw rest t v); auto|]. split; [exact W|].
    rewrite !app_length. destruct raw; [congruence|]. cbn. lia.
Qed.
Lemma next_buf : forall w line ps n, written w line ps ->
  pBat_GetNextParameter w line (S n) = match ps with
    | [] => Ret ([], None, w)
    | p :: _ => match pBat_GetNextParameterEs w [] line with Ret (_, r, _) => Ret (firstn n p, r, w) | _ => Undef end
    end /\ match ps with [] => True | p :: _ => exists r, pBat_GetNextParameterEs w [] line = Ret (p, Some r, w) end.
Proof.
  intros w line ps n W. pose proof (next_of w [] line ps W) as H. unfold pBat_GetNextParameter. destruct ps as [|p qs].
  - rewrite H. cbn [bind]. split; [destruct n; reflexivity|exact I].
  - destruct H as (r & -> & _). cbn [bind]. split; [reflexivity|eauto].
Qed.

Lemma help_params_ok : forall w line ps, written w line ps -> forall f old n, length line < f ->
  help_params f w old line n = Ret (n + length ps, last ps old, w).
Proof.
  intros w line ps W. assert (H : forall k line ps, length line < k -> written w line ps -> forall f old n, length line < f ->
    help_params f w old line n = Ret (n + length ps, last ps old, w)).
  { clear line ps W. induction k as [|k IH]; intros line ps L W f old n Lf; [lia|]. destruct f as [|f]; [lia|]. cbn [help_params].
    pose proof (next_of w old line ps W) as H. destruct ps as [|p qs].
    - rewrite H. cbn [bind length last]. rewrite Nat.add_0_r. reflexivity.
    - destruct H as (r & -> & W' & L'). cbn [bind]. rewrite (IH r qs) by (auto; lia). cbn [length]. f_equal. f_equal. f_equal; [lia|].
      destruct qs as [|q qs]; [reflexivity|]. cbn [last]. clear. revert q. induction qs as [|x qs IH]; intro q; [reflexivity|]. cbn. apply IH. }
  intros. apply (H (S (length line))); auto.
Qed.
