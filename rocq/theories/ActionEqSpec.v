(** Specification for C110: which conditions and actions are the same. *)
From Coq Require Import String Ascii.
From Verif Require Import PyBase ActionModel.
Local Open Scope list_scope.
Local Open Scope nat_scope.

(** The same numbers; zero has two signs. *)
Inductive same_number : cell -> cell -> Prop :=
| sn_num q q' : (q == q')%Q -> same_number (Num q) (Num q')
| sn_neg : same_number NegZero NegZero
| sn_left q : (q == 0)%Q -> same_number NegZero (Num q)
| sn_right q : (q == 0)%Q -> same_number (Num q) NegZero.
Definition same_array (a b : arr) : Prop := Forall2 same_number (a_cells a) (a_cells b).
(** The same mask with the same values, or no condition at all. *)
Inductive same_cond : cond -> cond -> Prop :=
| sc_mask cls cls' m m' v v' : same_array m m' -> same_array v v' -> same_cond (CMask cls m v) (CMask cls' m' v')
| sc_all : same_cond CAll CAll.
(** The condition is about the presence of a part. *)
Definition presence_condition (c : cond) : Prop := exists m v, c = CMask Presence m v.
(** The same actions: the same conditions, the same name, or the same actions in the same order. *)
Inductive same_act : act -> act -> Prop :=
| sa_prepost pl pl' p p' q q' n n' : same_cond p p' -> same_cond q q' -> same_act (PrePost pl p q n) (PrePost pl' p' q' n')
| sa_name sub sub' n : same_act (Abs sub n) (Abs sub' n)
| sa_meta kind set l l' n n' : Forall2 same_act l l' -> same_act (Meta kind set l n) (Meta kind set l' n').

(** Abstract actions whose names do not begin like those of meta-actions, and meta-actions built from lists of such
    actions, with [depth] levels at most. *)
Inductive tidy : nat -> act -> Prop :=
| t_leaf depth sub n : (forall s, n <> String "("%char s) -> tidy (S depth) (Abs sub n)
| t_meta depth kind l m : Forall (tidy depth) l -> new_meta kind false l = Ok m -> tidy (S depth) m.
