(** Specification of node_search, for C116. *)
From Coq Require Import Ascii String.
From Verif Require Import PyBase QBase PomdpModel PomcpModel PomcpSpec SharedModel SharedSpec.
Local Open Scope list_scope.
Local Open Scope nat_scope.

(** *** Orders of Python *)
(** Lists compare at the first place where they differ, and a list comes after its beginnings. *)
Inductive lex {T} (lt : T -> T -> Prop) : list T -> list T -> Prop :=
| lex_nil y m : lex lt [] (y :: m)
| lex_head x y l m : lt x y -> lex lt (x :: l) (y :: m)
| lex_tail x l m : lex lt l m -> lex lt (x :: l) (x :: m).
Definition name_before (a b : name) : Prop :=
  match a, b with
  | NInt x, NInt y => (x < y)%Z
  | NStr x, NStr y => lex (fun c d => nat_of_ascii c < nat_of_ascii d) (list_ascii_of_string x) (list_ascii_of_string y)
  | _, _ => False
  end.

(** *** Histories as the list of their actions and observations *)
Definition flat (nh : list (name * name)) : list name := flat_map (fun ao => [fst ao; snd ao]) nh.

Section VisitSpec.
  Context {N : Type}.
  (** The nodes that follow a node, in order, each with its history *)
  Variable next : list name * N -> list (list name * N).

  (** Level by level: the nodes at depth k, each after those that follow nodes before its own. *)
  Fixpoint level (k : nat) (root : list name * N) : list (list name * N) :=
    match k with 0 => [root] | S k => flat_map next (level k root) end.
  (** Depth first, to depth d: a node, then all that follow it, the last ones first. *)
  Fixpoint descent (d : nat) (x : list name * N) : list (list name * N) :=
    x :: match d with 0 => [] | S d => flat_map (descent d) (rev (next x)) end.

  (** Best first: every node of the list is one of greatest value among the root and those that follow a node before it and
      are not before it themselves; none of these with the same value has an earlier history. *)
  Definition best_first (value : N -> Q) (root : list name * N) (l : list (list name * N)) : Prop :=
    forall l1 x l2, l = l1 ++ x :: l2 ->
    forall y, (y = root \/ exists z, In z l1 /\ In y (next z)) -> ~ In y l1 ->
      (value (snd y) <= value (snd x))%Q /\ ((value (snd y) == value (snd x))%Q -> ~ lex name_before (fst y) (fst x)).
End VisitSpec.

(** *** The nodes that follow a node of a tree, or of a store: by action, in the order of the model, then by observation, in
    the order they were first made *)
Section Next.
  Context {X St B H : Type}.
  Variable P : search X St B H.
  Definition step_name (h : list name) (a o : nat) : list name := h ++ [nth a (s_actions P) (NInt 0); nth o (s_observations P) (NInt 0)].
  Definition tree_next (x : list name * onode B) : list (list name * onode B) :=
    flat_map (fun a => match nth_error (o_kids (snd x)) a with
                       | Some (Some c) => map (fun om => (step_name (fst x) a (fst om), snd om)) (a_kids c)
                       | _ => []
                       end) (seq 0 (length (s_actions P))).
  Definition store_next (st : store B) (x : list name * nat) : list (list name * nat) :=
    match nth_error st (snd x) with
    | None => []
    | Some n => flat_map (fun a => match nth_error (sn_kids n) a with
                                   | Some (Some k) => map (fun oj => (step_name (fst x) a (fst oj), snd oj)) (k_obs k)
                                   | _ => []
                                   end) (seq 0 (length (s_actions P)))
    end.
  Definition tree_value (n : onode B) : Q := avg_value (o_avg n).
  Definition store_value (st : store B) (i : nat) : Q := match nth_error st i with Some n => avg_value (sn_avg n) | None => 0%Q end.

  (** A list of histories and nodes: each node once for each history that leads to it, after the node it follows. *)
  Definition in_order {N} (next : list name * N -> list (list name * N)) (root : N) (l : list (list name * N)) : Prop :=
    NoDup (map fst l) /\
    forall l1 x l2, l = l1 ++ x :: l2 -> (l1 = [] /\ x = ([], root)) \/ exists z, In z l1 /\ In x (next z).
End Next.
