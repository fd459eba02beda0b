(** Specification for C128: the average cost of doing any task. *)
From Verif Require Import PyBase QBase HtmModel PomdpModel PomdpSpec DagSpec ConvModel NodeModel NodeSpec NameSpec ConvSpec EpiSpec AverageSpec.
Local Open Scope list_scope.
Local Open Scope nat_scope.

Fixpoint total_of (l : list Q) : Q := match l with [] => 0%Q | x :: l => (x + total_of l)%Q end.
(** The average cost of a task when those of its actions are known: parts in sequence or in parallel all cost, of alternatives
    one is done, all with the same chance. *)
Fixpoint mean_cost (cost : action collab -> Q) (c : comb collab) : Q :=
  match c with
  | Leaf a _ _ _ => cost a
  | Node Alternative ch _ _ _ _ _ => (total_of (map (mean_cost cost) ch) / inject_Z (Z.of_nat (length ch)))%Q
  | Node _ ch _ _ _ _ _ => total_of (map (mean_cost cost) ch)
  end.

(** The robot and the human share the actions as told by who, from their names: the name of an action does not tell in which
    order it is done. *)
Definition does (who : string -> bool) (a : action collab) : bool := who (fst (known_as a)).
Definition shares_named (who : string -> bool) (t : n2p collab) : nat -> nat :=
  shares (fun k => match nth_error (leaves t) k with Some a => does who a | None => true end).
Definition named_cost (exp : Q -> Q) (t_ask t_tell intr : Q) (fl : flags) (who : string -> bool) (a : action collab) : Q :=
  match snd (known_as a) with Some q => action_cost exp t_ask t_tell intr fl (does who a) q | None => 0%Q end.
(** The average of the rewards of the first n steps. *)
Definition collected_from_start (p : pomdp) (act : nat -> nat) (fin n : nat) : Q := sum_n (nS p) (fun s => Start p s * collected p act fin n s)%Q.
(** The robot can succeed; what the human does gets finished, and humans are not asked in deterministic models. *)
Definition feasible (exp : Q -> Q) (t_ask : Q) (fl : flags) (who : string -> bool) (a : action collab) : Prop :=
  forall q, snd (known_as a) = Some q -> (0 <= fail_proba q < 1)%Q /\ (does who a = false -> deterministic fl = false /\ (0 < finish exp t_ask fl q <= 1)%Q).
