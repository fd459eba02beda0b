(** Specification for C75: parts of towers. *)
From Coq Require Import DecimalString.
From Verif Require Import PyBase HtmModel NodeModel NodeSpec BringSpec.
Local Open Scope list_scope.
Local Open Scope Z_scope.

(** The numbers of the parts: tower after tower, from the ground up. *)
Definition is_part (h n k : Z) : Prop := exists tower level, 0 <= tower < n /\ 0 <= level < h /\ k = tower * h + level.
Definition placed (h n k tower level : Z) : Prop := 0 <= tower < n /\ 0 <= level < h /\ k = tower * h + level.
(** j stands directly on i. *)
Definition on_top (h n i j : Z) : Prop := exists tower level, placed h n i tower level /\ placed h n j tower (level + 1).
(** i comes before j in an order. *)
Definition precedes (l : list Z) (i j : Z) : Prop := exists l1 l2, l = l1 ++ i :: l2 /\ In j l2.
(** All parts, once each. *)
Definition complete (h n : Z) (l : list Z) : Prop := NoDup l /\ forall k, In k l <-> is_part h n k.
(** Nothing is placed before what is below. *)
Definition buildable (h n : Z) (l : list Z) : Prop := forall i j, on_top h n i j -> precedes l i j.

(** The task t is done by bringing these objects, in this order. *)
Definition done_by (t : n2p string) (objects : list string) : Prop := exists r, run t r /\ Forall2 (wants t) r objects.
(** The name of a part. *)
Definition numeral (k : Z) : string := NilZero.string_of_int (Z.to_int k).
