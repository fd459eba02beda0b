(** Specification vocabulary for C65 to C69: task trees without parallel combinations, their runs and the
    probabilities of going from leaf to leaf. *)
From Verif Require Import PyBase QBase HtmModel NodeModel.
Local Open Scope list_scope.
Local Open Scope nat_scope.

Section Spec.
  Context {P : Type}.

  (** Every combination has a child. *)
  Inductive inhabited : comb P -> Prop :=
  | inh_leaf a i p h : inhabited (Leaf a i p h)
  | inh_node k ch i p n h pr : ch <> [] -> Forall inhabited ch -> inhabited (Node k ch i p n h pr).
  Inductive proper : n2p P -> Prop :=
  | pr_leaf a : proper (NLeaf a)
  | pr_seq l : l <> [] -> Forall proper l -> proper (NSeq l)
  | pr_alt l : l <> [] -> Forall proper l -> proper (NAlt l).

  (** The tree t without parallel combinations that a task stands for: a parallel combination is the choice
      between all orders of renamed copies of its children. *)
  Inductive unfolds : comb P -> n2p P -> Prop :=
  | un_leaf a i p h : unfolds (Leaf a i p h) (NLeaf a)
  | un_seq ch i p n h pr l : Forall2 unfolds ch l -> unfolds (Node Sequential ch i p n h pr) (NSeq l)
  | un_alt ch i p n h pr l : Forall2 unfolds ch l -> unfolds (Node Alternative ch i p n h pr) (NAlt l)
  | un_par ch i p n h pr l : Forall2 order (combine (seq 0 (length (permutations ch))) (permutations ch)) l -> unfolds (Node Parallel ch i p n h pr) (NAlt l)
  with order : nat * list (comb P) -> n2p P -> Prop :=
  | un_order k ch copies l : mapM (deep_copy (fun s => s ++ " order-" ++ str_nat k)%string) ch = Ok copies -> Forall2 unfolds copies l -> order (k, ch) (NSeq l).

  (** The leaves, in order; leaf number k is at position k of this list. *)
  Fixpoint leaves (t : n2p P) : list (action P) :=
    match t with NLeaf a => [a] | NSeq l | NAlt l => flat_map leaves l end.
  Definition count (l : list (n2p P)) : nat := length (flat_map leaves l).

  (** The runs of a task: sequences of leaves, by number. *)
  Inductive run : n2p P -> list nat -> Prop :=
  | ru_leaf a : run (NLeaf a) [0]
  | ru_seq l r : run_seq l r -> run (NSeq l) r
  | ru_alt l1 t l2 r : run t r -> run (NAlt (l1 ++ t :: l2)) (map (Nat.add (count l1)) r)
  with run_seq : list (n2p P) -> list nat -> Prop :=
  | ru_none : run_seq [] []
  | ru_some t l r r' : run t r -> run_seq l r' -> run_seq (t :: l) (r ++ map (Nat.add (count [t])) r').

  (** i comes first, last, directly before j, or before j in a run. *)
  Definition starts_with (r : list nat) (i : nat) : Prop := exists r', r = i :: r'.
  Definition ends_with (r : list nat) (i : nat) : Prop := exists r', r = r' ++ [i].
  Definition directly (r : list nat) (i j : nat) : Prop := exists r1 r2, r = r1 ++ i :: j :: r2.
  Definition before (r : list nat) (i j : nat) : Prop := exists r1 r2, r = r1 ++ i :: r2 /\ In j r2.

  (** The task starts with leaf j with probability q: alternatives are equally likely. *)
  Inductive enters : n2p P -> nat -> Q -> Prop :=
  | en_leaf a : enters (NLeaf a) 0 1
  | en_seq t l j q : enters t j q -> enters (NSeq (t :: l)) j q
  | en_alt l1 t l2 j q : enters t j q -> enters (NAlt (l1 ++ t :: l2)) (count l1 + j) (q * (1 / inject_Z (Z.of_nat (length (l1 ++ t :: l2))))).
  (** After leaf i the task goes on with leaf j with probability q, or is over (None). *)
  Inductive leads : n2p P -> nat -> option nat -> Q -> Prop :=
  | le_leaf a : leads (NLeaf a) 0 None 1
  | le_alt l1 t l2 i o q : leads t i o q -> leads (NAlt (l1 ++ t :: l2)) (count l1 + i) (option_map (Nat.add (count l1)) o) q
  | le_inside l1 t l2 i j q : leads t i (Some j) q -> leads (NSeq (l1 ++ t :: l2)) (count l1 + i) (Some (count l1 + j)) q
  | le_next l1 t t' l2 i j q q' : leads t i None q -> enters t' j q' -> leads (NSeq (l1 ++ t :: t' :: l2)) (count l1 + i) (Some (count (l1 ++ [t]) + j)) (q * q')
  | le_last l1 t i q : leads t i None q -> leads (NSeq (l1 ++ [t])) (count l1 + i) None q.
End Spec.
