(** Model of the policies of task_models/lib/pomdp.py 366-579: loading, GraphPolicy, the two runners,
    trajectory trees and the conversion to a graph over beliefs. *)
From Verif Require Export PyBase QBase PomdpModel.
From Verif Require Import SuppModel.
Local Open Scope list_scope.
Local Open Scope nat_scope.

(** *** GraphPolicy, pomdp.py 382-439 *)

(** transitions is an array of integers or None; values a list of rows *)
Record graph_policy := {
  g_actions : list name; g_observations : list name; g_trans : list (list (option Z)); g_values : list (list Q); g_init : Z }.

(** dot product of a row and a belief, and [argmax] of numbers (the first greatest) *)
Definition dot (u v : list Q) : Q := sumQ (map (fun xy => fst xy * snd xy)%Q (combine u v)).
Fixpoint argmaxQ_from (i best : nat) (v : Q) (l : list Q) : nat :=
  match l with
  | [] => best
  | x :: t => if Qle_bool x v then argmaxQ_from (S i) best v t else argmaxQ_from (S i) i x t
  end.
Definition argmaxQ (l : list Q) : res nat := match l with [] => Err EValue | x :: t => Ok (argmaxQ_from 1 0 x t) end.

(** get_node_from_belief, 407-408: ValueError when a row and the belief have different lengths *)
Definition node_from_belief (values : list (list Q)) (b : list Q) : res nat :=
  if forallb (fun r => Nat.eqb (length r) (length b)) values then argmaxQ (map (fun r => dot r b) values) else Err EValue.

(** __init__, 384-402; the assertion on the shape of the array of transitions also fails for lists of
    different lengths (numpy makes a one-dimensional array out of them) and without nodes (shape (0,)). *)
Definition mk_policy (acts obs : list name) (trans : list (list (option Z))) (values : list (list Q)) (start : option (list Q)) (init : option Z)
  : res graph_policy :=
  if negb (negb (Nat.eqb (length trans) 0) && Nat.eqb (length trans) (length acts) && forallb (fun r => Nat.eqb (length r) (length obs)) trans) then Err EAssert
  else
    do i <- (match init, start with
             | Some i, _ => if (i <? Z.of_nat (length acts))%Z then Ok i else Err EAssert
             | None, Some b => do n <- node_from_belief values b; Ok (Z.of_nat n)
             | None, None => Err EValue
             end);
    Ok {| g_actions := acts; g_observations := obs; g_trans := trans; g_values := values; g_init := i |}.

(** [list.index] *)
Definition list_index (l : list name) (x : name) : res nat := match index_of name_eqb x l with Some i => Ok i | None => Err EValue end.

(** get_action, 410-411: negative numbers index from the end *)
Definition gp_action (g : graph_policy) (current : Z) : res name :=
  do i <- axis (length (g_actions g)) current;
  match nth_error (g_actions g) i with Some a => Ok a | None => Err EIndex end.
(** next, 413-414 *)
Definition gp_next (g : graph_policy) (current : Z) (observation : name) : res (option Z) :=
  do j <- list_index (g_observations g) observation;
  do i <- axis (length (g_trans g)) current;
  match nth_error (g_trans g) i with
  | Some row => match nth_error row j with Some t => Ok t | None => Err EIndex end
  | None => Err EIndex
  end.

(** to_dict and from_dict, 416-435.  The initial node is written with str and read with int. *)
Record policy_dict := { pd_actions : list name; pd_observations : list name; pd_trans : list (list (option Z)); pd_values : list (list Q); pd_initial : string }.
Definition policy_to_dict (show : Z -> string) (g : graph_policy) : policy_dict :=
  {| pd_actions := g_actions g; pd_observations := g_observations g; pd_trans := g_trans g; pd_values := g_values g; pd_initial := show (g_init g) |}.
Definition policy_from_dict (parse_int : string -> res Z) (d : policy_dict) : res graph_policy :=
  do i <- parse_int (pd_initial d);
  mk_policy (pd_actions d) (pd_observations d) (pd_trans d) (pd_values d) None (Some i).

(** *** load_policy_from, pomdp.py 366-379, from the results of the two parsers *)
Definition zmax (l : list Z) : res Z := match l with [] => Err EValue | x :: t => Ok (fold_left Z.max t x) end.
Definition somes (l : list (list (option Z))) : list Z := flat_map (fun ts => flat_map (fun t => match t with Some z => [z] | None => [] end) ts) l.
Definition start_list (p : pomdp) : list Q := row (p_start p) [].
Definition load_policy (p : pomdp) (vf : list Z * list (list Q)) (pg : list Z * list (list (option Z))) : res graph_policy :=
  let (acts, values) := vf in
  let (acts2, trans) := pg in
  if negb (if list_eq_dec Z.eq_dec acts acts2 then true else false) then Err EAssert else
  do ma <- zmax acts;
  if negb (ma <? Z.of_nat (length (p_actions p)))%Z then Err EAssert else
  do mt <- zmax (somes trans);
  if negb (mt <=? Z.of_nat (length trans))%Z then Err EAssert else
  do names <- mapM (fun a => do i <- axis (length (p_actions p)) a; match nth_error (p_actions p) i with Some x => Ok x | None => Err EIndex end) acts;
  mk_policy names (p_observations p) trans values (Some (start_list p)) None.

(** *** GraphPolicyRunner, pomdp.py 442-460: the current node, None after a failed step *)
Definition gr_reset (g : graph_policy) (belief : option (list Q)) (current : option Z) : option Z * res unit :=
  match belief with
  | Some b => match node_from_belief (g_values g) b with Ok n => (Some (Z.of_nat n), Ok tt) | Err e => (current, Err e) end
  | None => (Some (g_init g), Ok tt)
  end.
(** 454-455; None is not a valid index of a list *)
Definition gr_action (g : graph_policy) (current : option Z) : res name := match current with Some c => gp_action g c | None => Err EType end.
(** 457-460.  Simplification: a step from None is TypeError here (numpy takes None for a new axis). *)
Definition gr_step (g : graph_policy) (observation : name) (current : option Z) : option Z * res unit :=
  match current with
  | None => (None, Err EType)
  | Some c => match gp_next g c observation with
              | Err e => (current, Err e)
              | Ok (Some n) => (Some n, Ok tt)
              | Ok None => (None, Err EImpossible)
              end
  end.

(** *** GraphPolicyBeliefRunner, pomdp.py 463-520 *)
Record brunner := { b_belief : list Q; b_node : option Z }.

(** reset, 470-474: the belief is set first *)
Definition br_reset (g : graph_policy) (b : list Q) (r : brunner) : brunner * res unit :=
  let (n, e) := gr_reset g (Some b) (b_node r) in ({| b_belief := b; b_node := n |}, e).
(** __init__, 465-468, raises what reset raises *)
Definition br_init (g : graph_policy) (p : pomdp) : res brunner :=
  let (r, e) := br_reset g (start_list p) {| b_belief := []; b_node := None |} in do _ <- e; Ok r.
(** step, 476-480 *)
Definition br_step (g : graph_policy) (p : pomdp) (observation : name) (r : brunner) : brunner * res unit :=
  match (do nm <- gr_action g (b_node r);
         do a <- list_index (p_actions p) nm;
         do o <- list_index (p_observations p) observation;
         belief_update p (Z.of_nat a) (Z.of_nat o) (b_belief r)) with
  | Err e => (r, Err e)
  | Ok b => br_reset g b r
  end.

(** Trees built by trajectory_tree *)
Inductive ttree := TNode (belief : list Q) (action : name) (node : Z) (obs : list name) (children : list ttree).

(** The list of children, 496, threading the state of the runner *)
Fixpoint collect (child : name -> brunner -> brunner * res (option ttree)) (obs : list name) (r : brunner) : brunner * res (list (option ttree)) :=
  match obs with
  | [] => (r, Ok [])
  | o :: rest =>
      let (r, c) := child o r in
      match c with
      | Err e => (r, Err e)
      | Ok c => let (r, cs) := collect child rest r in match cs with Err e => (r, Err e) | Ok cs => (r, Ok (c :: cs)) end
      end
  end.

(** _rec_trajectory_tree and trajectory_tree, 482-503, for a horizon of h >= 0 (negative horizons give the
    same as 0).  [Impossible] in a child, in [step] or below, is caught. *)
Fixpoint trajectory (g : graph_policy) (p : pomdp) (h : nat) (r : brunner) : brunner * res ttree :=
  let child (o : name) (r : brunner) : brunner * res (option ttree) :=
    match h with
    | 0 => (r, Ok None)
    | S h =>
        let b := b_belief r in
        let (r1, e) := br_step g p o r in
        match e with
        | Err EImpossible => (r1, Ok None)
        | Err e => (r1, Err e)
        | Ok _ =>
            let (r2, t) := trajectory g p h r1 in
            match t with
            | Err EImpossible => (r2, Ok None)
            | Err e => (r2, Err e)
            | Ok t => let (r3, e) := br_reset g b r2 in
                      match e with Err EImpossible => (r3, Ok None) | Err e => (r3, Err e) | Ok _ => (r3, Ok (Some t)) end
            end
        end
    end in
  let obs := p_observations p in
  let (r, cs) := collect child obs r in
  match cs with
  | Err e => (r, Err e)
  | Ok cs =>
      match gr_action g (b_node r), b_node r with
      | Ok a, Some n => (r, Ok (TNode (b_belief r) a n (flat_map (fun oc => match snd oc with Some _ => [fst oc] | None => [] end) (combine obs cs))
                                      (flat_map (fun c => match c with Some t => [t] | None => [] end) cs)))
      | Err e, _ => (r, Err e)
      | Ok _, None => (r, Err EType)
      end
  end.
Definition trajectory_tree (g : graph_policy) (p : pomdp) (horizon : Z) (r : brunner) : brunner * res ttree := trajectory g p (Z.to_nat horizon) r.

(** trajectory_trees_from_starts, 505-513: [for s in start.nonzero()] iterates over a tuple with a single
    array, the array of the indices of all nonzero entries, and [b[s] = 1.] sets all of them. *)
Definition trajectory_trees_from_starts (g : graph_policy) (p : pomdp) (horizon : Z) (r : brunner) : brunner * res (list ttree) :=
  let nonzero := [filter (fun s => negb (Qeq_bool (nth s (start_list p) 0%Q) 0)) (seq 0 (length (start_list p)))] in
  (fix go (l : list (list nat)) (r : brunner) : brunner * res (list ttree) :=
     match l with
     | [] => (r, Ok [])
     | s :: rest =>
         let b := map (fun i => if existsb (Nat.eqb i) s then 1%Q else 0%Q) (seq 0 (length (start_list p))) in
         let (r, e) := br_reset g b r in
         match e with
         | Err e => (r, Err e)
         | Ok _ => let (r, t) := trajectory_tree g p horizon r in
                   match t with
                   | Err e => (r, Err e)
                   | Ok t => let (r, ts) := go rest r in match ts with Err e => (r, Err e) | Ok ts => (r, Ok (t :: ts)) end
                   end
         end
     end) nonzero r.

(** *** _Aux, pomdp.py 527-579 *)
Record aux := { x_runner : brunner; x_nodes : list (list Q); x_queue : list nat; x_trans : list (list (option Z)); x_actions : list name }.

(** closest, 549-555, without the square root: squared distances *)
Definition sq_dist (u v : list Q) : Q := sumQ (map (fun xy => (fst xy - snd xy) * (fst xy - snd xy))%Q (combine u v)).
Fixpoint argminQ_from (i best : nat) (v : Q) (l : list Q) : nat :=
  match l with
  | [] => best
  | x :: t => if Qle_bool v x then argminQ_from (S i) best v t else argminQ_from (S i) i x t
  end.
Definition tol2 : Q := 1 # 10000.      (* tol = 1.e-2, squared *)
Definition closest (nodes : list (list Q)) (b : list Q) : option (nat * Q) :=
  match map (fun n => sq_dist n b) nodes with
  | [] => None
  | x :: t => let i := argminQ_from 1 0 x t in Some (i, nth i (x :: t) 0%Q)
  end.
(** index, 557-567 *)
Definition aux_index (g : graph_policy) (nobs : nat) (b : list Q) (x : aux) : aux * res nat :=
  let old := match closest (x_nodes x) b with Some (i, d) => if negb (Qle_bool tol2 d) then Some i else None | None => None end in
  match old with
  | Some i => (x, Ok i)
  | None =>
      let i := length (x_nodes x) in
      let nodes := x_nodes x ++ [b] in
      let trans := x_trans x ++ [repeat None nobs] in
      let (r, e) := br_reset g b (x_runner x) in
      match e with
      | Err e => ({| x_runner := r; x_nodes := nodes; x_queue := x_queue x; x_trans := trans; x_actions := x_actions x |}, Err e)
      | Ok _ =>
          match gr_action g (b_node r) with
          | Err e => ({| x_runner := r; x_nodes := nodes; x_queue := x_queue x; x_trans := trans; x_actions := x_actions x |}, Err e)
          | Ok a => ({| x_runner := r; x_nodes := nodes; x_queue := x_queue x ++ [i]; x_trans := trans; x_actions := x_actions x ++ [a] |}, Ok i)
          end
      end
  end.
Definition set_entry (trans : list (list (option Z))) (i j : nat) (v : Z) : list (list (option Z)) :=
  map (fun ir => if Nat.eqb (fst ir) i then map (fun jt => if Nat.eqb (fst jt) j then Some v else snd jt) (combine (seq 0 (length (snd ir))) (snd ir)) else snd ir)
      (combine (seq 0 (length trans)) trans).

(** The for loop of visit, 572-579 *)
Fixpoint visit_obs (g : graph_policy) (p : pomdp) (ib : nat) (io : nat) (obs : list name) (x : aux) : aux * res unit :=
  match obs with
  | [] => (x, Ok tt)
  | o :: rest =>
      let with_runner r x := {| x_runner := r; x_nodes := x_nodes x; x_queue := x_queue x; x_trans := x_trans x; x_actions := x_actions x |} in
      let (r1, e1) := br_reset g (nth ib (x_nodes x) []) (x_runner x) in
      let (r2, e2) := match e1 with Ok _ => br_step g p o r1 | Err e => (r1, Err e) end in
      let (x, e) := match e2 with
                    | Err e => (with_runner r2 x, Err e)
                    | Ok _ => let (x, i) := aux_index g (length (p_observations p)) (b_belief r2) (with_runner r2 x) in
                              match i with
                              | Err e => (x, Err e)
                              | Ok i => ({| x_runner := x_runner x; x_nodes := x_nodes x; x_queue := x_queue x;
                                            x_trans := set_entry (x_trans x) ib io (Z.of_nat i); x_actions := x_actions x |}, Ok tt)
                              end
                    end in
      match e with
      | Ok _ | Err EImpossible => visit_obs g p ib (S io) rest x
      | Err e => (x, Err e)
      end
  end.
(** The while loop of visit, 570-579 *)
Fixpoint visit_loop (fuel : nat) (g : graph_policy) (p : pomdp) (max_nodes : Z) (x : aux) : aux * res unit :=
  match x_queue x with
  | [] => (x, Ok tt)
  | ib :: q =>
      if (max_nodes <? Z.of_nat (length (x_nodes x)))%Z then (x, Ok tt)
      else match fuel with
           | 0 => (x, Err EFuel)
           | S fuel =>
               let x := {| x_runner := x_runner x; x_nodes := x_nodes x; x_queue := q; x_trans := x_trans x; x_actions := x_actions x |} in
               let (x, e) := visit_obs g p ib 0 (p_observations p) x in
               match e with Err e => (x, Err e) | Ok _ => visit_loop fuel g p max_nodes x end
           end
  end.
(** GraphPolicyBeliefRunner.visit, 516-520; the fuel is enough, as the theorem shows *)
Definition visit (g : graph_policy) (p : pomdp) (max_states : Z) (r : brunner) : brunner * res graph_policy :=
  let x := {| x_runner := r; x_nodes := []; x_queue := []; x_trans := []; x_actions := [] |} in
  let (x, i) := aux_index g (length (p_observations p)) (start_list p) x in
  match i with
  | Err e => (x_runner x, Err e)
  | Ok _ =>
      let (x, e) := visit_loop (S (Z.to_nat max_states + length (p_observations p))) g p max_states x in
      match e with
      | Err e => (x_runner x, Err e)
      | Ok _ => (x_runner x, mk_policy (x_actions x) (p_observations p) (x_trans x) (x_nodes x) None (Some 0%Z))
      end
  end.
