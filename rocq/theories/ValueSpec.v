(** Specification for C111: the values a search may give to nodes and actions. *)
From Verif Require Import PyBase QBase PomcpModel PomcpSpec.
Local Open Scope list_scope.
Local Open Scope nat_scope.

(** 1 + g + ... + g^(n-1) *)
Fixpoint geometric (g : Q) (n : nat) : Q := match n with 0 => 0%Q | S n => (1 + g * geometric g n)%Q end.

Section Values.
  Context {X St B H : Type}.
  Variable P : search X St B H.
  (** All rewards of the model are in an interval. *)
  Definition rewards_in (lo hi : Q) : Prop := forall a s x s' o r x', s_transition P a s x = (Ok (s', o, r), x') -> (lo <= r <= hi)%Q.
  (** A horizon that is reached after a number of transitions that does not depend on them. *)
  Definition counts_down (left : H -> nat) : Prop :=
    (forall h, s_reached P h = true <-> left h = 0) /\ (forall h a s s' o, left (s_decrement P h a s s' o) = left h - 1) /\ (forall h, left (s_copy P h) = left h).
  (** The value of a node and those of its actions are in an interval. *)
  Definition valued (lo hi : Q) (n : onode B) : Prop := (lo <= avg_value (o_avg n) <= hi)%Q /\ forall a, (lo <= action_value n a <= hi)%Q.
  (** The longest history of the runner during some events: steps make it longer, a reset empties it. *)
  Definition dive (g : nat * nat) (ev : event) : nat * nat :=
    match ev with
    | EvStep (Some _) => (S (fst g), Nat.max (snd g) (S (fst g)))
    | EvReset => (0, snd g)
    | _ => g
    end.
  Definition deepest (l : list event) : nat := snd (fold_left dive l (0, 0)).
End Values.
