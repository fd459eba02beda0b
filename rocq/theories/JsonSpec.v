(** Specification for C130: what one sees in the files of trees. *)
From Verif Require Import PyBase QBase PomdpModel PolicyModel PomcpModel ExportModel SaveModel.
Local Open Scope list_scope.

Definition field (o : pobj) (k : string) (v : pobj) : Prop := exists l, o = PDict l /\ In (KStr k, v) l.
Definition absent (o : pobj) (k : string) : Prop := exists l, o = PDict l /\ ~ In (KStr k) (map fst l).
Definition shows_name (n : name) (o : pobj) : Prop := match n with NInt z => o = PInt z | NStr s => o = PStr s end.
Definition shows_count (n : nat) (o : pobj) : Prop := o = PInt (Z.of_nat n).
Definition shows_float (q : Q) (o : pobj) : Prop := o = PFloat q.
Definition shows_option {A} (f : A -> pobj -> Prop) (x : option A) (o : pobj) : Prop := match x with Some x => f x o | None => o = PNone end.
Definition shows_list {A} (f : A -> pobj -> Prop) (l : list A) (o : pobj) : Prop := exists os, o = PList os /\ Forall2 f l os.

(** A tree of trajectories *)
Inductive shows_tree : ttree -> pobj -> Prop :=
| shows_node b a n names ch o ob oa ons ochs :
    field o "belief" ob -> shows_list shows_float b ob -> field o "action" oa -> shows_name a oa -> field o "node" (PInt n) ->
    field o "observations" ons -> shows_list shows_name names ons -> field o "children" (PList ochs) -> Forall2 shows_tree ch ochs ->
    shows_tree (TNode b a n names ch) o.
(** A node of a policy that was searched for: observations and children are there when it is expanded. *)
Inductive shows_graph : pdict -> pobj -> Prop :=
| shows_pdict i e names ch o ob oa oo ovs ots ocs :
    field o "value" (PFloat (p_value i)) -> field o "visits" (PInt (Z.of_nat (p_visits i))) ->
    field o "belief" ob -> shows_list shows_float (p_belief i) ob -> field o "action" oa -> shows_name (p_action i) oa ->
    field o "observed" oo -> shows_option shows_count (p_observed i) oo ->
    field o "values" ovs -> shows_list (shows_option shows_float) (p_values i) ovs ->
    field o "exploration_terms" ots -> shows_list (shows_option shows_float) (p_terms i) ots ->
    field o "child_visits" ocs -> shows_list shows_count (p_child_visits i) ocs ->
    (e = true -> exists ons ochs, field o "observations" ons /\ shows_list shows_name names ons /\ field o "children" (PList ochs) /\ Forall2 shows_graph ch ochs) ->
    (e = false -> absent o "observations" /\ absent o "children") ->
    shows_graph (PD i e names ch) o.
