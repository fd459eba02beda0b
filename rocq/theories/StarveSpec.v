(** Specification for C119: exploration that leaves out no action. *)
From Verif Require Import PyBase QBase PomdpModel PomcpModel PomcpSpec ValueSpec.
Local Open Scope list_scope.
Local Open Scope nat_scope.

(** In the long run the exploration term of an action that was tried at most k times exceeds that of an action
    that was tried many times, by any amount W.  C119_uct shows that sqrt(log(n) / m) does. *)
Definition explores (bonus : nat -> nat -> Q) : Prop :=
  forall (k : nat) (W : Q), exists many long, forall N j n, long <= N -> 0 < j -> j <= k -> many <= n -> (bonus N n + W <= bonus N j)%Q.

(** Every action of the node has been tried at least k times. *)
Definition tried {B Name} (k : nat) (actions : list Name) (n : onode B) : Prop := forall a, a < length actions -> k <= visits n a.
