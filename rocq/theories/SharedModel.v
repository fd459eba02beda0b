(** Model of the search with nodes shared by belief: task_models/lib/pomcp.py, _ObservationLookupSearchTree
    (186-212), with the methods it inherits from _SearchTree (69-173) and POMCPPolicyRunner with belief_values
    (414-487).  to_dict (208-212) is in ExportModel. *)
From Verif Require Export PyBase QBase PomcpModel.
From Verif Require Import PomdpModel BeliefModel PolicyModel EvalModel.
Local Open Scope list_scope.
Local Open Scope nat_scope.

Section Shared.
  Context {X St B H : Type}.
  Variable P : search X St B H.
  (** Two beliefs find the same entry of a dictionary: equal hashes and __eq__ (lib/belief.py 24-29). *)
  Variable same : B -> B -> bool.

  (** *** Nodes.  Observation nodes are objects that can be shared: a reference to one is its position in the store
      of all of them, which is also the dictionary _obs_nodes (189, 202-204), in order of creation.  Action nodes
      belong to their observation node. *)
  Record akid := { k_avg : vavg; k_obs : list (nat * nat) }.          (* children by observation: references *)
  Record snode := { sn_avg : vavg; sn_belief : B; sn_kids : list (option akid) }.
  Definition store := list snode.

  (** _SearchObservationNode(b, n_actions), 280-284 *)
  Definition sn_new (b : B) : snode := {| sn_avg := avg_new; sn_belief := b; sn_kids := repeat None (n_actions P) |}.
  (** _SearchActionNode(), 236-238 *)
  Definition k_new : akid := {| k_avg := avg_new; k_obs := [] |}.

  (** Changing an object of the store *)
  Fixpoint modify (st : store) (i : nat) (f : snode -> snode) : store :=
    match st, i with
    | [], _ => []
    | n :: t, 0 => f n :: t
    | n :: t, S i => n :: modify t i f
    end.
  (** update of a node, 255-256 *)
  Definition sn_update (v : Q) (n : snode) : snode :=
    {| sn_avg := avg_update (s_alpha P) (sn_avg n) v; sn_belief := sn_belief n; sn_kids := sn_kids n |}.
  (** an assignment in an action node [a] of a node, if it is there *)
  Definition sn_kid (a : nat) (f : akid -> akid) (n : snode) : snode :=
    {| sn_avg := sn_avg n; sn_belief := sn_belief n;
       sn_kids := match nth_error (sn_kids n) a with Some (Some k) => set_nth (sn_kids n) a (Some (f k)) | _ => sn_kids n end |}.
  Definition k_update (v : Q) (k : akid) : akid := {| k_avg := avg_update (s_alpha P) (k_avg k) v; k_obs := k_obs k |}.
  Definition k_put (o j : nat) (k : akid) : akid := {| k_avg := k_avg k; k_obs := upd o j (k_obs k) |}.
  (** safe_get_child, 320-323: the assignment *)
  Definition sn_safe (a : nat) (n : snode) : snode :=
    {| sn_avg := sn_avg n; sn_belief := sn_belief n;
       sn_kids := match nth_error (sn_kids n) a with Some None => set_nth (sn_kids n) a (Some k_new) | _ => sn_kids n end |}.
  Definition sn_child (n : snode) (a : nat) : res akid :=
    match nth_error (sn_kids n) a with
    | None => Err EIndex
    | Some None => Ok k_new
    | Some (Some k) => Ok k
    end.

  (** _observation_node_for_belief, 200-205 *)
  Fixpoint index_of (st : store) (b : B) : option nat :=
    match st with
    | [] => None
    | n :: t => if same (sn_belief n) b then Some 0 else option_map S (index_of t b)
    end.
  Definition node_for_belief (st : store) (b : B) : store * nat :=
    match index_of st b with
    | Some i => (st, i)
    | None => (st ++ [sn_new b], length st)
    end.

  (** get_best_action, 308-318, only looks at the averages of the node and of its actions: the model of PomcpModel is
      used on a tree of depth one. *)
  Definition as_tree (n : snode) : onode B :=
    ON (sn_avg n) (sn_belief n) (map (option_map (fun k => AN (k_avg k) [])) (sn_kids n)).

  (** rollout_from_node, 110-120 *)
  Definition s_rollout (fuel : nat) (st : store) (j : nat) (h : H) (x : X) : store * X * res Q :=
    if s_reached P h then (st, x, Ok 0%Q) else
    match nth_error st j with
    | None => (st, x, Err EKey)
    | Some n =>
        let (r, x) := rollouts P (s_rollouts P) fuel (sn_belief n) h 0 x in
        match r with
        | Err e => (st, x, Err e)
        | Ok r => if Nat.eqb (s_rollouts P) 0 then (st, x, Err EZeroDiv)
                  else let r := (r / inject_Z (Z.of_nat (s_rollouts P)))%Q in (modify st j (sn_update r), x, Ok r)
        end
    end.

  (** _simulate_from_node, 141-173, from the node at reference i.  The store is returned also when an exception is
      raised.  KeyError for a reference to nothing, which does not happen (C95). *)
  Fixpoint s_simulate (fuel : nat) (st : store) (i : nat) (s : St) (h : H) (action : option nat) (x : X) : store * X * res Q :=
    match nth_error st i with
    | None => (st, x, Err EKey)
    | Some n =>
        if s_reached P h then (st, x, Ok (avg_value (sn_avg n))) else
        match fuel with
        | 0 => (st, x, Err EFuel)
        | S fuel =>
            let (a, x) := match action with
                          | Some a => (Ok a, x)
                          | None => best_action P (as_tree n) (s_exploration P) (s_relative P) x
                          end in
            match (do a <- a; do k <- sn_child n a; Ok (a, k)) with
            | Err e => (st, x, Err e)
            | Ok (a, k) =>
                let st := modify st i (sn_safe a) in
                let (t, x) := s_transition P a s x in
                match t with
                | Err e => (st, x, Err e)
                | Ok (s', o, r) =>
                    let h := s_decrement P h a s s' o in
                    let '(st, x, v) :=
                      match lookup o (k_obs k) with
                      | None =>
                          let (b, x) := s_succ P (sn_belief n) a o x in
                          match b with
                          | Err EMaxSamples => (st, x, Ok 0%Q)
                          | Err e => (st, x, Err e)
                          | Ok b =>
                              let (st, j) := node_for_belief st b in
                              let st := modify st i (sn_kid a (k_put o j)) in
                              let '(st, x, v) := s_rollout fuel st j h x in
                              (st, x, match v with Err EMaxSamples => Ok 0%Q | v => v end)
                          end
                      | Some j => s_simulate fuel st j s' h None x
                      end in
                    match v with
                    | Err e => (st, x, Err e)
                    | Ok v =>
                        let full := (r + s_discount P * v)%Q in
                        (modify (modify st i (sn_kid a (k_update full))) i (sn_update full), x, Ok full)
                    end
                end
            end
        end
    end.
  (** simulate_from_node, 134-136 *)
  Definition s_simulate_from (fuel : nat) (action : option nat) (st : store) (i : nat) (x : X) : store * X * res Q :=
    match nth_error st i with
    | None => (st, x, Err EKey)
    | Some n =>
        let (s, x) := s_sample P (sn_belief n) x in
        match s with
        | Err e => (st, x, Err e)
        | Ok s => s_simulate fuel st i s (s_horizon P) action x
        end
    end.

  (** get_node, 92-105, from the node at reference i: the reference found *)
  Fixpoint s_get_node (st : store) (i : nat) (history : list (nat * nat)) (x : X) : store * X * res nat :=
    match history with
    | [] => (st, x, Ok i)
    | (a, o) :: rest =>
        match nth_error st i with
        | None => (st, x, Err EKey)
        | Some n =>
            match sn_child n a with
            | Err e => (st, x, Err e)
            | Ok k =>
                let st := modify st i (sn_safe a) in
                match lookup o (k_obs k) with
                | Some j => s_get_node st j rest x
                | None =>
                    let (b, x) := s_succ P (sn_belief n) a o x in
                    match b with
                    | Err e => (st, x, Err e)
                    | Ok b =>
                        let (st, j) := node_for_belief st b in
                        s_get_node (modify st i (sn_kid a (k_put o j))) j rest x
                    end
                end
            end
        end
    end.

  (** *** POMCPPolicyRunner, 405-487; the root is the first node (73) *)
  Record srunner := { sr_store : store; sr_history : list (nat * nat); sr_node : nat; sr_last : option nat }.

  (** __init__, 188-198 and 69-81, 414-439: ValueError for belief='particle'; belief_params are ignored (196) *)
  Inductive belief_kind := BArray | BParticle | BOther.
  Definition sr_reset (st : store) : srunner := {| sr_store := st; sr_history := []; sr_node := 0; sr_last := None |}.
  Definition sr_init (kind : belief_kind) (x : X) : res srunner * X :=
    match kind with
    | BArray => let (b, x) := s_start P x in (do b <- b; Ok (sr_reset (fst (node_for_belief [] b))), x)
    | _ => (Err EValue, x)
    end.

  (** The loop of get_action, 471-472 *)
  Fixpoint s_simulations (k fuel : nat) (r : srunner) (x : X) : srunner * X * res unit :=
    match k with
    | 0 => (r, x, Ok tt)
    | S k =>
        let '(st, x, v) := s_simulate_from fuel None (sr_store r) (sr_node r) x in
        let r := {| sr_store := st; sr_history := sr_history r; sr_node := sr_node r; sr_last := sr_last r |} in
        match v with
        | Err e => (r, x, Err e)
        | Ok _ => s_simulations k fuel r x
        end
    end.
  (** get_action, 466-476 *)
  Definition s_get_action (iterations fuel : nat) (r : srunner) (x : X) : srunner * X * res name :=
    let '(r, x, e) := s_simulations iterations fuel r x in
    match e with
    | Err e => (r, x, Err e)
    | Ok _ =>
        match nth_error (sr_store r) (sr_node r) with
        | None => (r, x, Err EKey)
        | Some n =>
            let (a, x) := best_action P (as_tree n) 0 false x in
            match a with
            | Err e => (r, x, Err e)
            | Ok a => ({| sr_store := sr_store r; sr_history := sr_history r; sr_node := sr_node r; sr_last := Some a |}, x,
                       match nth_error (s_actions P) a with Some nm => Ok nm | None => Err EIndex end)
            end
        end
    end.
  (** step, 478-487 *)
  Definition s_step (observation : name) (r : srunner) (x : X) : srunner * X * res unit :=
    match sr_last r with
    | None => (r, x, Err EValue)
    | Some a =>
        match list_index (s_observations P) observation with
        | Err e => (r, x, Err e)
        | Ok o =>
            let new_history := sr_history r ++ [(a, o)] in
            let '(st, x, e) := s_get_node (sr_store r) 0 new_history x in
            match e with
            | Err e => ({| sr_store := st; sr_history := sr_history r; sr_node := sr_node r; sr_last := sr_last r |}, x, Err e)
            | Ok i => ({| sr_store := st; sr_history := new_history; sr_node := i; sr_last := sr_last r |}, x, Ok tt)
            end
        end
    end.
End Shared.
Arguments snode : clear implicits. Arguments store : clear implicits. Arguments srunner : clear implicits.

(** __eq__ of two ArrayBeliefs (lib/belief.py 27-29), which then have the same hash (24-25; C79) *)
Fixpoint same_array (a b : list Q) : bool :=
  match a, b with
  | [], [] => true
  | x :: a, y :: b => Qeq_bool x y && same_array a b
  | _, _ => false
  end.
