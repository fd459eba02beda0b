(** Model of task_models/lib/pomcp.py: the search tree (67-184), its nodes (215-326) and POMCPPolicyRunner
    (405-487).  Trees shared by belief (_ObservationLookupSearchTree, 186-205) are in SharedModel, conversion to
    dictionaries (208-212, 258-272, 325-402, 596-639) in ExportModel.  Not modelled: run_trajectory (492-517) and logging. *)
From Verif Require Export PyBase QBase.
From Verif Require Import PomdpModel BeliefModel PolicyModel EvalModel.
Local Open Scope list_scope.
Local Open Scope nat_scope.

(** *** _ValueAverage, pomcp.py 215-231 *)
Record vavg := { n_simulations : nat; total_value : Q }.
Definition avg_new : vavg := {| n_simulations := 0; total_value := 0 |}.
(** __init__, 217-221 *)
Definition mk_avg (alpha : Q) : res vavg := if Qle_bool 0 alpha && Qle_bool alpha 1 then Ok avg_new else Err EAssert.
(** value, 223-226 *)
Definition avg_value (v : vavg) : Q := if Nat.eqb (n_simulations v) 0 then 0%Q else (total_value v / inject_Z (Z.of_nat (n_simulations v)))%Q.
(** update, 228-231 *)
Definition avg_update (alpha : Q) (v : vavg) (value : Q) : vavg :=
  {| n_simulations := S (n_simulations v);
     total_value := ((total_value v + value) * (1 - alpha) + alpha * inject_Z (Z.of_nat (n_simulations v + 1)) * value)%Q |}.

Section Search.
  (** World, states, beliefs and horizons are arbitrary types. *)
  Context {X St B H : Type}.

  (** *** Nodes, 234-326: an observation node has one optional child per action, an action node a dictionary
      of children by observation. *)
  Inductive onode := ON (avg : vavg) (belief : B) (kids : list (option anode))
  with anode := AN (avg : vavg) (kids : list (nat * onode)).
  Definition o_avg (n : onode) := match n with ON v _ _ => v end.
  Definition o_belief (n : onode) := match n with ON _ b _ => b end.
  Definition o_kids (n : onode) := match n with ON _ _ k => k end.
  Definition a_avg (n : anode) := match n with AN v _ => v end.
  Definition a_kids (n : anode) := match n with AN _ k => k end.
  Definition o_count (n : onode) : nat := n_simulations (o_avg n).
  Definition a_count (n : anode) : nat := n_simulations (a_avg n).

  (** The parameters of a search: the model, its beliefs, horizons and the exploration.
      [rand] is the source of np.random (see BeliefModel.choice).  The exploration term sqrt(log(n) / m) of
      304 is irrational; it is an arbitrary function [s_bonus n m] here. *)
  Record search := {
    s_actions : list name;                                        (* model.actions; n_actions is its length *)
    s_observations : list name;                                   (* model.observations *)
    s_discount : Q;
    s_transition : nat -> St -> X -> res (St * nat * Q) * X;      (* model.sample_transition(a, s) *)
    s_start : X -> res B * X;                                     (* _belief_start, 83-90 *)
    s_sample : B -> X -> res St * X;                              (* belief.sample() *)
    s_succ : B -> nat -> nat -> X -> res B * X;                   (* belief.successor(model, a, o) *)
    s_rand : X -> nat * X;
    s_horizon : H;                                                (* horizon_gen() *)
    s_reached : H -> bool; s_decrement : H -> nat -> St -> St -> nat -> H; s_copy : H -> H;
    s_exploration : Q; s_relative : bool; s_bonus : nat -> nat -> Q;
    s_rollouts : nat;                                             (* rollout_it *)
    s_alpha : Q }.
  Variable P : search.
  Definition n_actions : nat := length (s_actions P).

  (** _observation_node_for_belief, 138-139 and 280-284 *)
  Definition o_new (b : B) : onode := ON avg_new b (repeat None n_actions).
  (** _SearchActionNode(), 236-238 *)
  Definition a_new : anode := AN avg_new [].
  (** update, 255-256 *)
  Definition o_update (n : onode) (v : Q) : onode := ON (avg_update (s_alpha P) (o_avg n) v) (o_belief n) (o_kids n).
  Definition a_update (n : anode) (v : Q) : anode := AN (avg_update (s_alpha P) (a_avg n) v) (a_kids n).

  (** [node.children[a] = child] and [child.children[o] = node] *)
  Fixpoint set_nth {A} (l : list A) (i : nat) (v : A) : list A :=
    match l, i with
    | [], _ => []
    | _ :: t, 0 => v :: t
    | y :: t, S i => y :: set_nth t i v
    end.
  Definition set_kid (n : onode) (a : nat) (c : anode) : onode := ON (o_avg n) (o_belief n) (set_nth (o_kids n) a (Some c)).
  Definition put (c : anode) (o : nat) (m : onode) : anode := AN (a_avg c) (upd o m (a_kids c)).
  (** safe_get_child, 320-323, without the assignment; IndexError out of range *)
  Definition safe_child (n : onode) (a : nat) : res anode :=
    match nth_error (o_kids n) a with
    | None => Err EIndex
    | Some None => Ok a_new
    | Some (Some c) => Ok c
    end.

  (** _not_init_children, 293-295 *)
  Definition not_init (n : onode) : list nat :=
    filter (fun i => match nth i (o_kids n) None with None => true | Some c => Nat.eqb (a_count c) 0 end) (seq 0 (length (o_kids n))).
  (** augmented_values, 297-306, when every child exists *)
  Definition values (n : onode) : list Q := map (fun c => match c with Some c => avg_value (a_avg c) | None => 0%Q end) (o_kids n).
  Definition qmax (l : list Q) : Q := fold_right (fun x m => if Qle_bool x m then m else x) (hd 0%Q l) l.
  Definition qmin (l : list Q) : Q := fold_right (fun x m => if Qle_bool m x then m else x) (hd 0%Q l) l.
  Definition augmented (n : onode) (exploration : Q) (relative : bool) : list Q :=
    let e := if negb (Qle_bool exploration 0) && relative then (exploration * (qmax (values n) - qmin (values n)))%Q else exploration in
    map (fun c => match c with Some c => (avg_value (a_avg c) + e * s_bonus P (o_count n) (a_count c))%Q | None => 0%Q end) (o_kids n).
  (** get_best_action, 308-318 *)
  Definition best_action (n : onode) (exploration : Q) (relative : bool) (x : X) : res nat * X :=
    match not_init n with
    | [] => if Nat.eqb (o_count n) 0 then (Err EAssert, x) else (argmaxQ (augmented n exploration relative), x)
    | l => let (i, x) := choice (s_rand P) (length l) x in
           match i with
           | Err e => (Err e, x)
           | Ok i => (match nth_error l i with Some a => Ok a | None => Err EIndex end, x)
           end
    end.

  (** _one_rollout_from_node, 122-132 *)
  Fixpoint one_rollout (fuel : nat) (s : St) (h : H) (gamma full : Q) (x : X) : res Q * X :=
    if s_reached P h then (Ok full, x) else
    match fuel with
    | 0 => (Err EFuel, x)
    | S fuel =>
        let (a, x) := choice (s_rand P) n_actions x in
        match a with
        | Err e => (Err e, x)
        | Ok a =>
            let (t, x) := s_transition P a s x in
            match t with
            | Err e => (Err e, x)
            | Ok (s', o, r) => one_rollout fuel s' (s_decrement P h a s s' o) (gamma * s_discount P) (full + gamma * r) x
            end
        end
    end.
  (** The loop of rollout_from_node, 115-117 *)
  Fixpoint rollouts (k fuel : nat) (b : B) (h : H) (returns : Q) (x : X) : res Q * X :=
    match k with
    | 0 => (Ok returns, x)
    | S k =>
        let (s, x) := s_sample P b x in
        match s with
        | Err e => (Err e, x)
        | Ok s =>
            let (v, x) := one_rollout fuel s (s_copy P h) 1 0 x in
            match v with
            | Err e => (Err e, x)
            | Ok v => rollouts k fuel b h (returns + v) x
            end
        end
    end.
  (** rollout_from_node, 110-120 *)
  Definition rollout_from_node (fuel : nat) (m : onode) (h : H) (x : X) : onode * X * res Q :=
    if s_reached P h then (m, x, Ok 0%Q) else
    let (r, x) := rollouts (s_rollouts P) fuel (o_belief m) h 0 x in
    match r with
    | Err e => (m, x, Err e)
    | Ok r => if Nat.eqb (s_rollouts P) 0 then (m, x, Err EZeroDiv)
              else let r := (r / inject_Z (Z.of_nat (s_rollouts P)))%Q in (o_update m r, x, Ok r)
    end.

  (** _simulate_from_node, 141-173.  The node is returned also when an exception is raised. *)
  Fixpoint simulate (fuel : nat) (n : onode) (s : St) (h : H) (action : option nat) (x : X) : onode * X * res Q :=
    if s_reached P h then (n, x, Ok (avg_value (o_avg n))) else
    match fuel with
    | 0 => (n, x, Err EFuel)
    | S fuel =>
        let (a, x) := match action with Some a => (Ok a, x) | None => best_action n (s_exploration P) (s_relative P) x end in
        match (do a <- a; do c <- safe_child n a; Ok (a, c)) with
        | Err e => (n, x, Err e)
        | Ok (a, c) =>
            let n := set_kid n a c in
            let (t, x) := s_transition P a s x in
            match t with
            | Err e => (n, x, Err e)
            | Ok (s', o, r) =>
                let h := s_decrement P h a s s' o in
                (* the child node, the world and the partial return *)
                let '(c, x, v) :=
                  match lookup o (a_kids c) with
                  | None =>
                      let (b, x) := s_succ P (o_belief n) a o x in
                      match b with
                      | Err EMaxSamples => (c, x, Ok 0%Q)
                      | Err e => (c, x, Err e)
                      | Ok b => let '(m, x, v) := rollout_from_node fuel (o_new b) h x in
                                (put c o m, x, match v with Err EMaxSamples => Ok 0%Q | v => v end)
                      end
                  | Some m => let '(m, x, v) := simulate fuel m s' h None x in (put c o m, x, v)
                  end in
                match v with
                | Err e => (set_kid n a c, x, Err e)
                | Ok v => let full := (r + s_discount P * v)%Q in
                          (o_update (set_kid n a (a_update c full)) full, x, Ok full)
                end
            end
        end
    end.
  (** simulate_from_node, 134-136 *)
  Definition simulate_from_node (fuel : nat) (action : option nat) (n : onode) (x : X) : onode * X * res Q :=
    let (s, x) := s_sample P (o_belief n) x in
    match s with
    | Err e => (n, x, Err e)
    | Ok s => simulate fuel n s (s_horizon P) action x
    end.

  (** get_node, 92-105, for histories of pairs of an action and an observation (those of the runner); the
      node is then the one at the end of the history. *)
  Fixpoint get_node (n : onode) (history : list (nat * nat)) (x : X) : onode * X * res unit :=
    match history with
    | [] => (n, x, Ok tt)
    | (a, o) :: rest =>
        match safe_child n a with
        | Err e => (n, x, Err e)
        | Ok c =>
            match lookup o (a_kids c) with
            | Some m => let '(m, x, e) := get_node m rest x in (set_kid n a (put c o m), x, e)
            | None =>
                let (b, x) := s_succ P (o_belief n) a o x in
                match b with
                | Err e => (set_kid n a c, x, Err e)
                | Ok b => let '(m, x, e) := get_node (o_new b) rest x in (set_kid n a (put c o m), x, e)
                end
            end
        end
    end.

  (** Apply an operation to the node at the end of a history: the runner keeps a reference to this node.
      KeyError when there is no such node, which does not happen (see C63). *)
  Fixpoint at_node {A} (f : onode -> X -> onode * X * res A) (n : onode) (history : list (nat * nat)) (x : X) : onode * X * res A :=
    match history with
    | [] => f n x
    | (a, o) :: rest =>
        match nth_error (o_kids n) a with
        | Some (Some c) => match lookup o (a_kids c) with
                           | Some m => let '(m, x, r) := at_node f m rest x in (set_kid n a (put c o m), x, r)
                           | None => (n, x, Err EKey)
                           end
        | _ => (n, x, Err EKey)
        end
    end.

  (** *** POMCPPolicyRunner, 405-487 *)
  Record runner := { r_root : onode; r_history : list (nat * nat); r_node : list (nat * nat); r_last : option nat }.

  (** __init__, 414-439 (with _SearchTree.__init__, 69-81), and reset, 449-460, without belief *)
  Definition r_reset (root : onode) : runner := {| r_root := root; r_history := []; r_node := []; r_last := None |}.
  Definition r_init (x : X) : res runner * X :=
    let (b, x) := s_start P x in (do b <- b; Ok (r_reset (o_new b)), x).

  (** The loop of get_action, 471-472 *)
  Fixpoint simulations (k fuel : nat) (r : runner) (x : X) : runner * X * res unit :=
    match k with
    | 0 => (r, x, Ok tt)
    | S k =>
        let '(root, x, v) := at_node (simulate_from_node fuel None) (r_root r) (r_node r) x in
        let r := {| r_root := root; r_history := r_history r; r_node := r_node r; r_last := r_last r |} in
        match v with
        | Err e => (r, x, Err e)
        | Ok _ => simulations k fuel r x
        end
    end.
  (** get_action, 466-476: iterations must be given *)
  Definition get_action (iterations fuel : nat) (r : runner) (x : X) : runner * X * res name :=
    let '(r, x, e) := simulations iterations fuel r x in
    match e with
    | Err e => (r, x, Err e)
    | Ok _ =>
        let '(root, x, a) := at_node (fun n x => let (a, x) := best_action n 0 false x in (n, x, a)) (r_root r) (r_node r) x in
        match a with
        | Err e => (r, x, Err e)
        | Ok a => ({| r_root := root; r_history := r_history r; r_node := r_node r; r_last := Some a |}, x,
                   match nth_error (s_actions P) a with Some nm => Ok nm | None => Err EIndex end)
        end
    end.
  (** step, 478-487 *)
  Definition r_step (observation : name) (r : runner) (x : X) : runner * X * res unit :=
    match r_last r with
    | None => (r, x, Err EValue)
    | Some a =>
        match list_index (s_observations P) observation with
        | Err e => (r, x, Err e)
        | Ok o =>
            let new_history := r_history r ++ [(a, o)] in
            let '(root, x, e) := get_node (r_root r) new_history x in
            match e with
            | Err e => ({| r_root := root; r_history := r_history r; r_node := r_node r; r_last := r_last r |}, x, Err e)
            | Ok _ => ({| r_root := root; r_history := new_history; r_node := new_history; r_last := r_last r |}, x, Ok tt)
            end
        end
    end.
End Search.
Arguments onode : clear implicits. Arguments anode : clear implicits. Arguments search : clear implicits. Arguments runner : clear implicits.

(** *** The searches of POMCPPolicyRunner over a POMDP with a horizon of n transitions (416-436, 83-90).
    The world counts the random draws made so far; [u] gives the uniform draws in [0, 1) and [r] those of
    np.random.randint and of choices without probabilities. *)
Section Instances.
  Variable p : pomdp.
  Variable u : nat -> Q.
  Variable r : nat -> nat.
  Variables (horizon : Z) (exploration : Q) (relative : bool) (bonus : nat -> nat -> Q) (rollout_it : nat) (alpha : Q).
  (** model.sample_transition draws a state then an observation *)
  Definition draw_transition (a s x : nat) : res (nat * nat * Q) * nat :=
    (pomdp_sample_transition p (u x) (u (S x)) (Z.of_nat a) (Z.of_nat s), S (S x)).
  Definition draw_rand (x : nat) : nat * nat := (r x, S x).
  (** belief='array' *)
  Definition exact_search : search nat nat (list Q) nt_horizon := {|
    s_actions := p_actions p; s_observations := p_observations p; s_discount := p_discount p; s_transition := draw_transition;
    s_start := fun x => (array_belief (row (p_start p) []), x);
    s_sample := fun b x => (array_sample b (u x), S x);
    s_succ := fun b a o x => (array_successor p (Z.of_nat a) (Z.of_nat o) b, x);
    s_rand := draw_rand; s_horizon := nt_init horizon; s_reached := nt_reached; s_decrement := fun h _ _ _ _ => nt_decrement h; s_copy := nt_copy;
    s_exploration := exploration; s_relative := relative; s_bonus := bonus; s_rollouts := rollout_it; s_alpha := alpha |}.
  (** belief='particle' with n_particles; here the world counts the draws for transitions (from u and v) apart
      from the others. *)
  Variables v : nat -> Q.
  Variable n_particles : nat.
  Definition particle_rand (x : nat * nat) : nat * (nat * nat) := (r (fst x), (S (fst x), snd x)).
  Definition particle_transition (a s : nat) (x : nat * nat) : res (nat * nat * Q) * (nat * nat) :=
    (pomdp_sample_transition p (u (snd x)) (v (snd x)) (Z.of_nat a) (Z.of_nat s), (fst x, S (snd x))).
  Definition particle_step (a : Z) (s : nat) (x : nat * nat) : res (nat * Z * Q) * (nat * nat) :=
    (do (s', o, q) <- pomdp_sample_transition p (u (snd x)) (v (snd x)) a (Z.of_nat s); Ok (s', Z.of_nat o, q), (fst x, S (snd x))).
  Definition particle_search : search (nat * nat) nat (list nat) nt_horizon := {|
    s_actions := p_actions p; s_observations := p_observations p; s_discount := p_discount p; s_transition := particle_transition;
    s_start := fun x => particle_belief particle_rand n_particles (fun x => (pomdp_sample_start p (u (snd x)), (fst x, S (snd x)))) x;
    s_sample := fun b x => particle_sample particle_rand b n_particles x;
    s_succ := fun b a o x => successor particle_rand particle_step n_particles b (Z.of_nat a) (Z.of_nat o) x;
    s_rand := particle_rand; s_horizon := nt_init horizon; s_reached := nt_reached; s_decrement := fun h _ _ _ _ => nt_decrement h; s_copy := nt_copy;
    s_exploration := exploration; s_relative := relative; s_bonus := bonus; s_rollouts := rollout_it; s_alpha := alpha |}.
End Instances.
