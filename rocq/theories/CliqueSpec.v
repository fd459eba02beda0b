(** Specification of maximal cliques, for C11 and C12. *)
From Verif Require Import PyBase.

Section CliqueSpec.
  Context {N : Type}.
  Variables (node : N -> Prop) (adj : N -> N -> Prop).

  (** A clique, as a duplicate-free list: distinct members are adjacent. *)
  Definition clique (c : list N) : Prop :=
    NoDup c /\ (forall u, In u c -> node u) /\ (forall u v, In u c -> In v c -> u <> v -> adj u v).

  (** No node outside can be added. *)
  Definition maximal_clique (c : list N) : Prop :=
    clique c /\ forall v, node v -> ~ In v c -> ~ (forall u, In u c -> adj u v).

  Definition same_set (c1 c2 : list N) : Prop := forall x, In x c1 <-> In x c2.

  (** [cs] enumerates exactly the maximal cliques of two nodes or more, each once. *)
  Definition enumerates_max_cliques (cs : list (list N)) : Prop :=
    (forall c, In c cs -> maximal_clique c /\ 2 <= length c) /\
    (forall c, maximal_clique c -> 2 <= length c -> exists c', In c' cs /\ same_set c c') /\
    ForallOrdPairs (fun c1 c2 => ~ same_set c1 c2) cs.

  (** No member of the clique is its own neighbour. *)
  Definition loop_free (c : list N) : Prop := forall u, In u c -> ~ adj u u.
  (** [cs] enumerates exactly the maximal cliques of two nodes or more without such members, each once. *)
  Definition enumerates_loop_free (cs : list (list N)) : Prop :=
    (forall c, In c cs -> maximal_clique c /\ loop_free c /\ 2 <= length c) /\
    (forall c, maximal_clique c -> loop_free c -> 2 <= length c -> exists c', In c' cs /\ same_set c c') /\
    ForallOrdPairs (fun c1 c2 => ~ same_set c1 c2) cs.
End CliqueSpec.
