(** Specification for C122: the values held by the nodes of the search with nodes shared by belief. *)
From Verif Require Import PyBase QBase PomcpModel SharedModel.
Local Open Scope list_scope.
Local Open Scope nat_scope.

(** The mean of the values a node or an action was updated with: its total over its number of simulations, 0 for none. *)
Definition held (v : vavg) : Q := match n_simulations v with 0 => 0%Q | S n => (total_value v / inject_Z (Z.of_nat (S n)))%Q end.
(** The value of a node, and those of the actions tried in it, are in an interval. *)
Definition s_valued {B} (lo hi : Q) (n : snode B) : Prop :=
  (lo <= held (sn_avg n) <= hi)%Q /\ forall a k, nth_error (sn_kids n) a = Some (Some k) -> (lo <= held (k_avg k) <= hi)%Q.

(** 1 + 1/2 + ... + 1/n *)
Fixpoint harmonic (n : nat) : Q := match n with 0 => 0%Q | S m => (harmonic m + 1 / inject_Z (Z.of_nat n))%Q end.
