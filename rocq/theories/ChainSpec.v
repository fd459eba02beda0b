(** Specification of maximal chains, for C13 to C15. *)
From Verif Require Import PyBase.
From Coq Require Import Relations.

Section ChainSpec.
  Context {N : Type}.
  Variable edge : N -> N -> Prop.

  (** [v] is the only successor of [u]; [u] is the only predecessor of [v]. *)
  Definition only_succ (u v : N) : Prop := edge u v /\ forall w, edge u w -> w = v.
  Definition only_pred (u v : N) : Prop := edge u v /\ forall w, edge w v -> w = u.
  Definition link (u v : N) : Prop := only_succ u v /\ only_pred u v.

  (** Consecutive nodes are linked. *)
  Definition is_chain (c : list N) : Prop :=
    forall i u v, nth_error c i = Some u -> nth_error c (S i) = Some v -> link u v.

  Definition maximal_chain (c : list N) : Prop :=
    2 <= length c /\ is_chain c /\
    (forall u v, nth_error c (length c - 1) = Some u -> ~ link u v) /\
    (forall u v, nth_error c 0 = Some v -> ~ link u v).

  Definition reach (u v : N) : Prop := clos_refl_trans N edge u v.

  (** A cycle along which one has no choice. *)
  Definition forced_cycle_at (u : N) : Prop := clos_trans N only_succ u u.
End ChainSpec.
