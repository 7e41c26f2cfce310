(** SearchStar_Props.v -- more about C75. *)

From Verif Require Import Base Fs_Model Search_Model Search_Props.

(** In a recursive search whose last component is a plain name below a pattern, a star is looked
    for in the directories that it finds, as a name: a file "*" is found, before the directory,
    and nothing else in there. *)
Theorem C75_star_refuted : look (at_ "/a/y/*" (File []) :: zoo) true true false "/*/y" = Some ["/a/y/*"; "/a/y"; "/b/y"]%string.
Proof. vm_compute. reflexivity. Qed.
Print Assumptions C75_star_refuted.
