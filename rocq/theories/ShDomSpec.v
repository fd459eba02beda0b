(** Specification for C134: what the search with nodes shared by belief may know of an action at a node. *)
From Verif Require Import PyBase QBase PomdpModel PomcpModel PomcpSpec.
Local Open Scope list_scope.
Local Open Scope nat_scope.

Section ShDom.
  Context {X St B H : Type}.
  Variable P : search X St B H.
  Variable same : B -> B -> bool.
  (** The belief b0 at the start. Beliefs of nodes are obtained from it by filtering. *)
  Variable b0 : B.
  (** States in which a simulation may be at a node with this belief: drawn from it, or reached by a transition from such a state, with an
      observation after which the belief at the previous node is updated to one that is found the same as this one. *)
  Inductive may_be_at : B -> St -> Prop :=
  | ma_drawn h b s x x' : filters P b0 h b -> s_sample P b x = (Ok s, x') -> may_be_at b s
  | ma_moved b s a x s' o r x' y c y' h d : may_be_at b s -> s_transition P a s x = (Ok (s', o, r), x') -> s_succ P b a o y = (Ok c, y') ->
      filters P b0 h d -> same d c = true -> may_be_at d s'.
  (** The rewards of an action there are in an interval. *)
  Definition pays_at (b : B) (a : nat) (lo hi : Q) : Prop :=
    forall s x s' o r x', may_be_at b s -> s_transition P a s x = (Ok (s', o, r), x') -> (lo <= r <= hi)%Q.
End ShDom.
