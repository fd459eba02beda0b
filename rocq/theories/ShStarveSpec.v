(** Specification for C125: exploration that leaves out no action, with nodes shared by belief. *)
From Verif Require Import PyBase QBase PomcpModel SharedModel SharedSpec.
Local Open Scope list_scope.
Local Open Scope nat_scope.

(** The horizon is reached after at most d transitions, whatever these are. *)
Fixpoint ends_within {X St B H} (P : search X St B H) (d : nat) (h : H) : Prop :=
  match d with
  | 0 => s_reached P h = true
  | S d => s_reached P h = true \/ forall a s s' o, ends_within P d (s_decrement P h a s s' o)
  end.

(** Every action of the node has been tried at least k times. *)
Definition s_tried {B Name} (k : nat) (actions : list Name) (n : snode B) : Prop := forall a, a < length actions -> k <= s_visits n a.
