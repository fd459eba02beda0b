(** Model of the visit of search trees: samples/pomcp.py 14-60, node_search, with children_dict of
    task_models/lib/pomcp.py 286-288.  The message of line 59 is left out. *)
From Verif Require Export PyBase QBase PomcpModel SharedModel.
From Verif Require Import PomdpModel ExportModel.
Local Open Scope list_scope.
Local Open Scope nat_scope.

Global Instance EqDec_name : EqDec name.
Proof. intros a b. decide equality; [apply Z.eq_dec|apply string_dec]. Defined.

(** The functions push and pop chosen by order, 36-44 *)
Inductive order := Breadth | Depth | Best.
Definition read_order (s : string) : res order :=
  if String.eqb s "breadth" then Ok Breadth else if String.eqb s "depth" then Ok Depth else if String.eqb s "q" then Ok Best else Err EValue.

(** Comparison of lists of names by Python.  It raises a TypeError for an integer and a string; this is not modelled: names
    at the same place of two histories are both actions or both observations, which are either numbers or names. *)
Definition name_ltb (a b : name) : bool :=
  match a, b with NInt x, NInt y => Z.ltb x y | NStr x, NStr y => String.ltb x y | _, _ => false end.
Fixpoint hist_ltb (h k : list name) : bool :=
  match h, k with
  | _, [] => false
  | [], _ :: _ => true
  | a :: h, b :: k => if name_eqb a b then hist_ltb h k else name_ltb a b
  end.

Section Visit.
  (** Observation nodes, action nodes; the attributes of the model, of observation nodes and of action nodes. *)
  Context {N A : Type}.
  Variables actions observations : list name.
  Variable value : N -> Q.
  Variable children : N -> list (option A).
  Variable observed : A -> list (nat * N).

  (** An element of the queue: the value given to push, history and node.  Without the order q the value is not kept (15). *)
  Notation item := (Q * (list name * N))%type.

  (** children_dict, lib/pomcp.py 286-288 *)
  Fixpoint children_dict_from (i : nat) (kids : list (option A)) (d : list (name * A)) : res (list (name * A)) :=
    match kids with
    | [] => Ok d
    | None :: kids => children_dict_from (S i) kids d
    | Some c :: kids => do a <- name_at actions i; children_dict_from (S i) kids (upd a c d)
    end.
  Definition children_dict (n : N) : res (list (name * A)) := children_dict_from 0 (children n) [].

  (** What the loops of lines 54-58 push, in order *)
  Definition push_observed (h : list name) (a : name) (om : nat * N) : res item :=
    do obs <- name_at observations (fst om);
    Ok (value (snd om), (h ++ [a; obs], snd om)).
  Definition pushed (h : list name) (n : N) : res (list item) :=
    do d <- children_dict n;
    do l <- mapM (fun ac => mapM (push_observed h (fst ac)) (observed (snd ac))) d;
    Ok (concat l).

  (** Pairs (-value, (history, node)) are compared by heappop (19, 31); nodes themselves cannot be compared, but histories
      of two elements differ. *)
  Definition ahead (x y : item) : bool :=
    if Qeq_bool (fst x) (fst y) then hist_ltb (fst (snd x)) (fst (snd y)) else negb (Qle_bool (fst x) (fst y)).
  (** heappop: the least element, and the others.  The layout of the heap is not modelled. *)
  Fixpoint least (x : item) (l : list item) : item * list item :=
    match l with
    | [] => (x, [])
    | y :: l => if ahead y x then let (b, r) := least y l in (b, x :: r) else let (b, r) := least x l in (b, y :: r)
    end.
  (** pop_first, pop_last and pop_heap, 22-32 *)
  Definition pop (ord : order) (x : item) (l : list item) : item * list item :=
    match ord with
    | Breadth => (x, l)
    | Depth => (last (x :: l) x, removelast (x :: l))
    | Best => least x l
    end.

  (** len(nodes) < max_nodes, 49 *)
  Definition more (max_nodes : option Z) (k : nat) : bool :=
    match max_nodes with None => true | Some m => Z.ltb (Z.of_nat k) m end.
  (** The loop, 49-58 *)
  Fixpoint visit (fuel : nat) (ord : order) (max_nodes : option Z) (queue : list item) (found : list (list name * N)) : res (list (list name * N)) :=
    match queue with
    | [] => Ok found
    | x :: queue =>
        if more max_nodes (length found) then
          match fuel with
          | 0 => Err EFuel
          | S fuel =>
              let (y, queue) := pop ord x queue in
              do new <- pushed (fst (snd y)) (snd (snd y));
              visit fuel ord max_nodes (queue ++ new) (found ++ [snd y])
          end
        else Ok found
    end.

  (** node_search, 34-60 *)
  Definition node_search (fuel : nat) (ord : string) (max_nodes : option Z) (root : N) : res (list (list name) * list N) :=
    do ord <- read_order ord;
    do found <- visit fuel ord max_nodes [(value root, ([], root))] [];
    Ok (map fst found, map snd found).
End Visit.

Section Searches.
  Context {X St B H : Type}.
  Variable P : search X St B H.
  (** pol.tree.root, with the nodes of _SearchTree *)
  Definition tree_search (fuel : nat) (ord : string) (max_nodes : option Z) (root : onode B) : res (list (list name) * list (onode B)) :=
    node_search (s_actions P) (s_observations P) (fun n => avg_value (o_avg n)) (@o_kids B) (@a_kids B) fuel ord max_nodes root.
  (** ... and with those of _ObservationLookupSearchTree: references *)
  Definition store_search (fuel : nat) (ord : string) (max_nodes : option Z) (st : store B) : res (list (list name) * list nat) :=
    node_search (s_actions P) (s_observations P)
      (fun i => match nth_error st i with Some n => avg_value (sn_avg n) | None => 0%Q end)
      (fun i => match nth_error st i with Some n => sn_kids n | None => [] end) k_obs fuel ord max_nodes 0.
End Searches.
