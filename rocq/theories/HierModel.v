(** Model of ConjugateTaskGraph.compact (task_models/task.py 258-264) and of the extraction of a hierarchy from a
    conjugate graph by repeated compaction (samples/test_hierarchies.py 44-57). *)
From Verif Require Export PyBase GraphModel ChainModel CliqueModel.

(** Kinds of MetaAction used by the extraction, task.py 331-334. *)
Inductive mkind := KSequence | KParallel.

(** Nodes of the graph: actions, and MetaActions over nodes (task.py 329-347).  An action is never equal to a
    MetaAction: MetaAction.__eq__ is tried first in both comparisons.  Simplification: the set of actions of a
    MetaAction made from a clique is the list of its members, and two such lists are equal when they have the same
    members in the same order. *)
Inductive hnode (B : Type) :=
| Plain (b : B)
| Meta (k : mkind) (actions : list (hnode B)).
Arguments Plain {B} b.
Arguments Meta {B} k actions.

#[global] Instance EqDec_mkind : EqDec mkind.
Proof. intros [|] [|]; solve [left; reflexivity|right; discriminate]. Defined.

#[global] Instance EqDec_hnode {B} `{EqDec B} : EqDec (hnode B).
Proof.
  refine (fix go (x y : hnode B) {struct x} : {x = y} + {x <> y} :=
    match x, y with
    | Plain a, Plain b => match eq_dec a b with left e => left _ | right n => right _ end
    | Meta k l, Meta k' l' =>
        match eq_dec k k' with
        | left e =>
            match (fix gol (l l' : list (hnode B)) {struct l} : {l = l'} + {l <> l'} :=
               match l, l' with
               | [], [] => left eq_refl
               | a :: t, b :: t' => match go a b with
                                    | left e1 => match gol t t' with left e2 => left _ | right n => right _ end
                                    | right n => right _
                                    end
               | _, _ => right _
               end) l l' with
            | left e2 => left _
            | right n => right _
            end
        | right n => right _
        end
    | _, _ => right _
    end); congruence.
Defined.

Section Hier.
  Context {B L : Type} `{EqDec B} `{EqDec L}.
  Notation node := (hnode B).

  (** A conjugate graph: its transitions and its attributes initial and terminal, which are those of the class until
      compact changes them (task.py 233-236). *)
  Record conj := { cj_graph : graph node L; cj_initial : node; cj_terminal : node }.

  Variable empty_label : L.

  (** compact, task.py 258-264 *)
  Definition cj_compact (ordt : list (L * node) -> list (L * node)) (c : conj) (nodes : list node) (new_node : node) : res conj :=
    do g <- compact ordt empty_label (cj_graph c) nodes new_node;                          (* 260 *)
    Ok {| cj_graph := g;
          cj_initial := if mem (cj_initial c) nodes then new_node else cj_initial c;       (* 261-262 *)
          cj_terminal := if mem (cj_terminal c) nodes then new_node else cj_terminal c |}. (* 263-264 *)

  (** next(cg.get_max_chains()), test_hierarchies.py 50: the first chain of the generator, [None] for StopIteration.
      Chains are only ever added to those already yielded, so that the first one is the first yielded by a run of any
      length; what happens after it does not count. *)
  Definition next_chain (ordt : list (L * node) -> list (L * node)) (sched : nat -> nat) (c : conj) (fuel : nat)
    : res (option (list node)) :=
    match get_max_chains ordt sched (cj_initial c) (cj_graph c) fuel with
    | (chain :: _, _) => Ok (Some chain)
    | ([], SDone) => Ok None
    | ([], SRaised e) => Err e
    | ([], SRunning) => Err EFuel
    end.

  (** Iteration orders and choices of the k-th turn of the loop. *)
  Record orders := { o_trans : list (L * node) -> list (L * node); o_unique : list (node * node) -> list (node * node);
                     o_pivot : list node -> list node -> list node; o_rest : list node -> list node -> list node;
                     o_pop : nat -> nat }.
  Variable ords : nat -> orders.
  Variable fuel : nat.

  (** The loop of test_hierarchies.py 44-57, from its k-th turn. *)
  Fixpoint extract (turns k : nat) (c : conj) : res conj :=
    match turns with
    | 0 => Err EFuel
    | S turns =>
        let o := ords k in
        if Nat.leb (length (all_nodes (o_trans o) (cj_graph c))) 1 then Ok c               (* 44 *)
        else
          do ch <- next_chain (o_trans o) (o_pop o) c fuel;                                (* 50 *)
          match ch with
          | Some chain =>
              do c' <- cj_compact (o_trans o) c chain (Meta KSequence chain);              (* 51 *)
              extract turns (S k) c'
          | None =>
              do cs <- get_max_cliques (o_trans o) (o_unique o) (o_pivot o) (o_rest o) (cj_graph c);
              match cs with
              | [] => Ok c                                                                 (* 56-57 *)
              | clique :: _ =>                                                             (* 54 *)
                  do c' <- cj_compact (o_trans o) c clique (Meta KParallel clique);        (* 55 *)
                  extract turns (S k) c'
              end
          end
    end.

End Hier.
Arguments conj B L : clear implicits.
Arguments orders B L : clear implicits.
