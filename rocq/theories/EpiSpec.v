(** Specification for C117 and C118: episodes in the POMDP of a task, and the chances of its runs. *)
From Verif Require Import PyBase QBase HtmModel PomdpModel PomdpSpec DagSpec ConvModel NodeModel NodeSpec ConvSpec.
Local Open Scope list_scope.
Local Open Scope nat_scope.

Section Chance.
  Context {P : Type}.
  (** The chance of a run: each of n alternatives has chance 1/n. *)
  Inductive chance : n2p P -> list nat -> Q -> Prop :=
  | ch_leaf a : chance (NLeaf a) [0] 1
  | ch_seq l r q : chance_seq l r q -> chance (NSeq l) r q
  | ch_alt l1 t l2 r q : chance t r q -> chance (NAlt (l1 ++ t :: l2)) (map (Nat.add (count l1)) r) (q / inject_Z (Z.of_nat (length (l1 ++ t :: l2))))
  with chance_seq : list (n2p P) -> list nat -> Q -> Prop :=
  | ch_none : chance_seq [] [] 1
  | ch_some t l r r' q q' : chance t r q -> chance_seq l r' q' -> chance_seq (t :: l) (r ++ map (Nat.add (count [t])) r') (q * q').

  (** What one sees of the leaves of a run. *)
  Definition seen {L} (lab : action P -> L) (t : n2p P) (r : list nat) : list (option L) :=
    map (fun k => option_map lab (nth_error (leaves t) k)) r.
End Chance.

(** A sequence of states that can happen, from a possible start. *)
Inductive episode (p : pomdp) : list nat -> Prop :=
| ep_start s : s < nS p -> ~ (Start p s == 0)%Q -> episode p [s]
| ep_move l s a s' : episode p (l ++ [s]) -> a < nA p -> s' < nS p -> ~ (Tr p a s s' == 0)%Q -> episode p (l ++ [s; s']).
(** A sequence of states that can follow state s; it ends in state s'. *)
Inductive continues (p : pomdp) : nat -> list nat -> nat -> Prop :=
| co_stop s : continues p s [] s
| co_move s a s1 l s' : a < nA p -> s1 < nS p -> ~ (Tr p a s s1 == 0)%Q -> continues p s1 l s' -> continues p s (s1 :: l) s'.

(** Without immediate repetitions. *)
Fixpoint merged (l : list nat) : list nat :=
  match l with
  | k :: ((k' :: _) as l') => if k =? k' then merged l' else k :: merged l'
  | _ => l
  end.
(** The leaves gone through, when the states below [last] are those of leaves. *)
Definition gone_through (leaf_of : nat -> nat) (last : nat) (l : list nat) : list nat := merged (map leaf_of (filter (fun s => s <? last) l)).

(** What a collaborative action is, whatever the order in which it is done: its name without the suffixes that
    tell the order, and its parameters. *)
Definition known_as (a : action collab) : string * option collab := (base_name (a_name a), match a_class a with KCollab => a_params a | _ => None end).

(** In the POMDPs of collaborative tasks there are three states for each leaf. *)
Definition leaf_of_state (s : nat) : nat := s / 3.
(** The states when leaf k is done by the robot or the human, as told by [who]. *)
Definition done_by (who : nat -> bool) (k : nat) : list nat := [before_leaf k; if who k then robot k else human k].
(** The probability that the robot, doing leaf after leaf, succeeds at once each time and the leaves are those of r. *)
Fixpoint straight (p : pomdp) (fin : nat) (r : list nat) : Q :=
  match r with
  | [] => 1%Q
  | i :: r' => (Tr p (physical i) (robot i) (match r' with j :: _ => before_leaf j | [] => fin end) * straight p fin r')%Q
  end.
(** The probability that the robot succeeds at once for every leaf of r. *)
Fixpoint succeeds (p : pomdp) (r : list nat) : Q :=
  match r with [] => 1%Q | i :: r' => ((1 - Tr p (physical i) (robot i) (robot i)) * succeeds p r')%Q end.

(** In the POMDPs of tasks that bring objects: the probability of going from leaf to leaf along r, with actions l. *)
Fixpoint along (p : pomdp) (fin : nat) (r l : list nat) : Q :=
  match r, l with
  | i :: r', a :: l' => (Tr p a i (match r' with j :: _ => j | [] => fin end) * along p fin r' l')%Q
  | _, _ => 1%Q
  end.
