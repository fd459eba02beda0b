(** Specification for C126: tasks made of sequences only. *)
From Verif Require Import PyBase QBase HtmModel.
Local Open Scope list_scope.

(** The task is made of sequences, and these are its actions in the order in which it is written. *)
Inductive in_order {P} : comb P -> list (action P) -> Prop :=
| io_leaf a i p h : in_order (Leaf a i p h) [a]
| io_seq ch i p n h pr ls : Forall2 in_order ch ls -> in_order (Node Sequential ch i p n h pr) (concat ls).

(** The steps of the stool, and those of the chair. *)
Definition stool_steps : list string :=
  ["Get central frame"; "Hold central frame"; "Bring left leg"; "Snap left leg"; "Bring right leg"; "Snap right leg"; "Release central frame"; "Bring top"; "Snap top"]%string.
Definition chair_steps : list string :=
  ["Get central frame"; "Start Hold central frame"; "Get left leg"; "Snap left leg"; "Get right leg"; "Snap right leg"; "Release central frame"; "Get top"; "Snap top"]%string.
