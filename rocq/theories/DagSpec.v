(** Specification for C26 and C27: executions of a task, and walks in a graph of leaves. *)
From Verif Require Import PyBase HtmModel HtmSpec.
From Coq Require Import Factorial.

Section DagSpec.
  Context {P L : Type}.

  (** What one observes of an action. *)
  Variable lab : action P -> L.

  (** Executions of a task: sequences run their children in order, alternatives run one child,
      parallel combinations run all their children one after the other in any order. *)
  Inductive executes : comb P -> list L -> Prop :=
  | exec_leaf a i p h : executes (Leaf a i p h) [lab a]
  | exec_seq ch i p n h pr ws :
      Forall2 executes ch ws -> executes (Node Sequential ch i p n h pr) (concat ws)
  | exec_alt ch i p n h pr c w :
      In c ch -> executes c w -> executes (Node Alternative ch i p n h pr) w
  | exec_par ch i p n h pr ch' ws :
      Permutation ch ch' -> Forall2 executes ch' ws -> executes (Node Parallel ch i p n h pr) (concat ws).

  (** A walk that starts in a node, follows successors, and stops only at a node that has none. *)
  Inductive full_walk (succs : list (list nat)) : nat -> list nat -> Prop :=
  | walk_end i : nth_error succs i = Some [] -> full_walk succs i [i]
  | walk_step i j w l : nth_error succs i = Some l -> In j l -> full_walk succs j w -> full_walk succs i (i :: w).

  (** What one observes of a leaf node of the graph. *)
  Definition node_label (nodes : list (comb P)) (i : nat) : option L :=
    match nth_error nodes i with Some (Leaf a _ _ _) => Some (lab a) | _ => None end.
End DagSpec.

(** Number of leaves when each parallel combination of n children is replaced by its n! orders. *)
Fixpoint expanded_leaves {P} (c : comb P) : nat :=
  match c with
  | Leaf _ _ _ _ => 1
  | Node k ch _ _ _ _ _ =>
      (match k with Parallel => fact (length ch) | _ => 1 end) * fold_right (fun x m => expanded_leaves x + m) 0 ch
  end.

(** Every combination has children, and the leaves under parallel combinations can be copied. *)
Definition expandable {P} (c : comb P) : Prop :=
  (forall x, In x (preorder c) -> is_leaf x \/ children_of x <> []) /\
  (forall ch i p n h pr a i' p' h', In (Node Parallel ch i p n h pr) (preorder c) ->
     In (Leaf a i' p' h') (flat_map preorder ch) -> has_copy a).

(** The name of an action without the suffixes " order-i" that expansion appends. *)
Fixpoint base_name (s : string) : string :=
  if String.prefix " order-" s then ""%string
  else match s with EmptyString => ""%string | String c t => String c (base_name t) end.
