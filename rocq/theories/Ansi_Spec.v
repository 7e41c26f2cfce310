(** Ansi_Spec.v -- the colours of a paragraph. *)

From Verif Require Import Base Tea_Model Tea_Spec Layout_Spec Ansi_Model.

(** The text that is written, without the sequences *)
Fixpoint txt (l : list aev) : cstr := match l with [] => [] | AText t :: l => t ++ txt l | ACode _ :: l => txt l end.
(** The colours: cyan, blue, and back to normal *)
Definition seq (a : string) : aev := ACode ("027"%char :: "["%char :: s2l a ++ ["m"%char; "027"%char; "["%char; "1"%char; "m"%char]).
Definition normal : aev := ACode ("027"%char :: s2l "[39m" ++ "027"%char :: s2l "[0m").
(** [painted xs l]: the nodes are shown one after the other: emphasis in cyan, links in blue, other text in no colour; all that can be
    seen of each text is there. *)
Inductive painted : list node -> list aev -> Prop :=
| pt_nil : painted [] []
| pt_plain t ts xs l : visible (concat ts) = visible t -> painted xs l -> painted (Plain t :: xs) (map AText ts ++ l)
| pt_strong t ts xs l : visible (concat ts) = visible t -> painted xs l -> painted (Emphasis t :: xs) (seq "36" :: map AText ts ++ normal :: l)
| pt_link a t ts xs l : visible (concat ts) = visible t -> painted xs l -> painted (Link a t :: xs) (seq "34" :: map AText ts ++ normal :: l).
