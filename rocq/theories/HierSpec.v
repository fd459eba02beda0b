(** Specification of compaction and of hierarchies of actions, for C93 and C94. *)
From Verif Require Import PyBase HierModel.

Section WalkSpec.
  Context {N : Type}.
  Variable edge : N -> N -> Prop.
  (** A walk is a list of nodes in which each is followed by a successor. *)
  Definition is_walk (w : list N) : Prop :=
    forall i u v, nth_error w i = Some u -> nth_error w (S i) = Some v -> edge u v.

  (** A walk from one node to another. *)
  Definition walk_between (a b : N) (w : list N) : Prop :=
    is_walk w /\ nth_error w 0 = Some a /\ w <> [] /\ nth_error w (length w - 1) = Some b.
End WalkSpec.

(** [merges nodes new w w']: w' is w where each stay in [nodes], however long, is replaced by [new] once. *)
Inductive merges {N} (nodes : list N) (new : N) : list N -> list N -> Prop :=
| MNil : merges nodes new [] []
| MOut n w w' : ~ In n nodes -> merges nodes new w w' -> merges nodes new (n :: w) (n :: w')
| MStay n stay w w' : incl (n :: stay) nodes -> (forall x, nth_error w 0 = Some x -> ~ In x nodes) ->
    merges nodes new w w' -> merges nodes new (n :: stay ++ w) (new :: w').

Section HierSpec.
  Context {B : Type}.

  (** The actions of a node, in order. *)
  Fixpoint leaves (n : hnode B) : list B :=
    match n with
    | Plain b => [b]
    | Meta _ l => flat_map leaves l
    end.

  (** [next a b]: action [b] can follow action [a] in the task. *)
  Variable next : B -> B -> Prop.

  (** Some action of [y] can follow some action of [x]. *)
  Definition joined (x y : hnode B) : Prop := exists a b, In a (leaves x) /\ In b (leaves y) /\ next a b.

  (** The groups are right: in a sequence, what follows an action of a member is in that member or the next one, and
      what precedes an action of a member is in that member or the previous one; the members of a parallel group can
      follow each other both ways. *)
  Inductive grouped : hnode B -> Prop :=
  | GAction b : grouped (Plain b)
  | GSequence l : 2 <= length l -> (forall x, In x l -> grouped x) ->
      (forall i x y, nth_error l i = Some x -> nth_error l (S i) = Some y ->
         joined x y /\
         (forall a b, In a (leaves x) -> next a b -> In b (leaves x) \/ In b (leaves y)) /\
         (forall a b, In b (leaves y) -> next a b -> In a (leaves x) \/ In a (leaves y))) ->
      grouped (Meta KSequence l)
  | GParallel l : 2 <= length l -> (forall x, In x l -> grouped x) ->
      (forall x y, In x l -> In y l -> x <> y -> joined x y /\ joined y x) ->
      grouped (Meta KParallel l).
End HierSpec.
