(** Specifications for paths and graphs, independent of the model's helpers. *)
From Verif Require Import PyBase GraphModel.

Section PathSpec.
  Context {S A : Type}.
  Variable check : A -> S -> S -> res bool.
  Notation path := (list (item S A)).

  (** "state, action, state, ..., state", every action accepting the states
      around it; positions are counted from 0. *)
  Definition path_ok (p : path) : Prop :=
    p = [] \/
    exists n, length p = 2 * n + 1 /\
      (forall i, i <= n -> exists s, nth_error p (2 * i) = Some (IState s)) /\
      (forall i, i < n -> exists s a s',
          nth_error p (2 * i) = Some (IState s) /\
          nth_error p (2 * i + 1) = Some (IAction a) /\
          nth_error p (2 * i + 2) = Some (IState s') /\
          check a s s' = Ok true).

  Definition path_first (p : path) (s : S) : Prop := nth_error p 0 = Some (IState s).
  Definition path_last (p : path) (s : S) : Prop :=
    p <> [] /\ nth_error p (length p - 1) = Some (IState s).
  Definition path_step (p : path) (s : S) (a : A) (s' : S) : Prop :=
    exists i, nth_error p (2 * i) = Some (IState s) /\
              nth_error p (2 * i + 1) = Some (IAction a) /\
              nth_error p (2 * i + 2) = Some (IState s').

  (** What a history of added paths should make of a queried path: the history
      counts only through its valid members. *)
  Definition starts_some (h : list path) (s : S) := exists p, In p h /\ path_ok p /\ path_first p s.
  Definition ends_some (h : list path) (s : S) := exists p, In p h /\ path_ok p /\ path_last p s.
  Definition step_of_some (h : list path) s a s' := exists p, In p h /\ path_ok p /\ path_step p s a s'.

  Definition accepted (h : list path) (q : path) : Prop :=
    q = [] \/
    ((exists s, path_first q s /\ starts_some h s) /\
     (exists s, path_last q s /\ ends_some h s) /\
     (forall s a s', path_step q s a s' -> step_of_some h s a s')).
End PathSpec.

(** The object as its user drives it: a history of add_path calls on a new
    TaskGraph; exceptions are caught by the user, who carries on with the same
    object. *)
Definition add_paths {S A} `{EqDec S} `{EqDec A} (check : A -> S -> S -> res bool)
           (h : list (list (item S A))) : task_graph S A :=
  fold_left (fun g p => fst (add_path check g p)) h empty_task_graph.

(** Determinism as documented (task.py 207-208): for each (s, a) there is at most
    one s' such that (s, a, s') is a transition. *)
Definition deterministic {S A} `{EqDec S} `{EqDec A} (g : graph S A) : Prop :=
  forall s a d1 d2, has_transition g s a d1 = true -> has_transition g s a d2 = true -> d1 = d2.

(** Plain sets of triples, for C04. *)
Section TripleSet.
  Context {N L : Type} `{EqDec N} `{EqDec L}.
  Inductive gop := OAdd (s : N) (l : L) (d : N) | ORemove (s : N) (l : L) (d : N) | OHas (s : N) (l : L) (d : N).
  Inductive gout := RNone | RBool (b : bool) | RKeyError.

  Definition tset := N * L * N -> bool.
  Definition tset_empty : tset := fun _ => false.
  Definition tset_put (m : tset) (t : N * L * N) (b : bool) : tset :=
    fun t' => if eq_dec t t' then b else m t'.

  Definition spec_step (m : tset) (o : gop) : tset * gout :=
    match o with
    | OAdd s l d => (tset_put m (s, l, d) true, RNone)
    | ORemove s l d => if m (s, l, d) then (tset_put m (s, l, d) false, RNone) else (m, RKeyError)
    | OHas s l d => (m, RBool (m (s, l, d)))
    end.

  (** The real graph driven by the same operations. *)
  Definition graph_step (g : graph N L) (o : gop) : graph N L * gout :=
    match o with
    | OAdd s l d => (add_transition g s l d, RNone)
    | ORemove s l d => match remove_transition g s l d with Ok g' => (g', RNone) | Err _ => (g, RKeyError) end
    | OHas s l d => (g, RBool (has_transition g s l d))
    end.

  Fixpoint spec_run (m : tset) (l : list gop) : tset * list gout :=
    match l with
    | [] => (m, [])
    | o :: t => let '(m1, r) := spec_step m o in let '(m2, rs) := spec_run m1 t in (m2, r :: rs)
    end.

  Fixpoint graph_run (g : graph N L) (l : list gop) : graph N L * list gout :=
    match l with
    | [] => (g, [])
    | o :: t => let '(g1, r) := graph_step g o in let '(g2, rs) := graph_run g1 t in (g2, r :: rs)
    end.

  (** A graph reachable by some history of additions and removals. *)
  Definition reachable_graph (g : graph N L) : Prop := exists ops, g = fst (graph_run [] ops).
End TripleSet.
Arguments gop N L : clear implicits.

(** Compaction, for C06: the quotient of a set of triples. *)
Section CompactSpec.
  Context {N L : Type}.
  Variables (before : N -> L -> N -> Prop) (nodes : list N) (new_node : N) (empty_label : L).
  Definition compacted (s : N) (l : L) (d : N) : Prop :=
    (before s l d /\ ~ In s nodes /\ ~ In d nodes) \/
    (l = empty_label /\ s = new_node /\ ~ In d nodes /\ exists s0 l0, In s0 nodes /\ before s0 l0 d) \/
    (l = empty_label /\ d = new_node /\ ~ In s nodes /\ exists d0 l0, In d0 nodes /\ before s l0 d0).
End CompactSpec.

(** Conjugate graph, for C08: which (node, label, node) it should contain, given
    the transitions, initial and terminal states of the task graph. *)
Section ConjSpec.
  Context {S A : Type}.
  Variables (trans : S -> A -> S -> Prop) (init term : S -> Prop) (initial terminal : A).
  Inductive conj_edge_spec : A -> S -> A -> Prop :=
  | CInit s a d : init s -> trans s a d -> conj_edge_spec initial s a
  | CTerm s0 a s : trans s0 a s -> term s -> conj_edge_spec a s terminal
  | CNext s0 a s a2 d : trans s0 a s -> ~ term s -> trans s a2 d -> conj_edge_spec a s a2.

  (** A path s0 a1 s1 ... an sn seen in a conjugate graph. [conj_walk from a path]: the walk
      starts at node [from] with the first state of the path. *)
  Inductive conj_walk (edge : A -> S -> A -> Prop) : A -> list (item S A) -> Prop :=
  | WEnd from s : edge from s terminal -> conj_walk edge from [IState s]
  | WStep from s a rest : edge from s a -> conj_walk edge a rest -> conj_walk edge from (IState s :: IAction a :: rest).
End ConjSpec.
