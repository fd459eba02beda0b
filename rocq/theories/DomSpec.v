(** Specification for C131: what the search may know of an action at a history. *)
From Verif Require Import PyBase QBase PomdpModel PomdpSpec PomcpModel PomcpSpec.
Local Open Scope list_scope.
Local Open Scope nat_scope.

Section Dom.
  Context {X St B H : Type}.
  Variable P : search X St B H.
  (** States in which a simulation may be after a history of actions and observations, from the belief b at the start: drawn from
      the belief there, or reached by a transition with the last action and observation. *)
  Inductive may_be (b : B) : list (nat * nat) -> St -> Prop :=
  | mb_drawn h b' s x x' : filters P b h b' -> s_sample P b' x = (Ok s, x') -> may_be b h s
  | mb_moved h s a x s' o r x' : may_be b h s -> s_transition P a s x = (Ok (s', o, r), x') -> may_be b (h ++ [(a, o)]) s'.
  (** The rewards of an action there are in an interval. *)
  Definition pays (b : B) (h : list (nat * nat)) (a : nat) (lo hi : Q) : Prop :=
    forall s x s' o r x', may_be b h s -> s_transition P a s x = (Ok (s', o, r), x') -> (lo <= r <= hi)%Q.
End Dom.

(** For a POMDP: states that have a positive probability given a history. *)
Inductive possible (p : pomdp) (b : list Q) : list (nat * nat) -> nat -> Prop :=
| po_start s : s < nS p -> (0 < nth s b 0)%Q -> possible p b [] s
| po_next h s a s' o : possible p b h s -> a < nA p -> s' < nS p -> o < nO p -> (0 < Tr p a s s')%Q -> (0 < Ob p a s' o)%Q -> possible p b (h ++ [(a, o)]) s'.
