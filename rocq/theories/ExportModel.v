(** Model of the exports of search trees: task_models/lib/pomcp.py, to_dict and _map of the nodes (258-272, 325-402),
    of the trees (174-183, 208-212), trajectory_trees_from_starts (489-490) and export_pomcp (596-639).
    Dictionaries are records of their entries; the constant entry "node": None (262) is left out, and so is the
    writing of the file (638-639).  Python's limit on the depth of calls is not modelled. *)
From Verif Require Export PyBase QBase PomcpModel SharedModel.
From Verif Require Import PomdpModel BeliefModel PolicyModel EvalModel.
Local Open Scope list_scope.
Local Open Scope nat_scope.

(** The dictionaries of observation nodes and of action nodes, 258-263, 367-378 and 384-402 *)
Inductive odict := OD (value : Q) (visits : nat) (belief : list Q) (actions : list name) (children : list adict)
with adict := AD (value : Q) (visits : nat) (observations : list name) (children : list odict).
(** Those of observation nodes as a policy, 336-366: entries of the node ... *)
Record pinfo := {
  p_value : Q; p_visits : nat; p_belief : list Q; p_action : name; p_observed : option nat;
  p_values : list (option Q); p_terms : list (option Q); p_child_visits : list nat }.
(** ... and its observations and children, absent when it is not expanded (357). *)
Inductive pdict := PD (info : pinfo) (expanded : bool) (observations : list name) (children : list pdict).

(** model.actions[i] and model.observations[o] *)
Definition name_at (l : list name) (i : nat) : res name := match nth_error l i with Some nm => Ok nm | None => Err EIndex end.

(** A loop over a list that can change its elements and a state, and collects results until an exception *)
Section Through.
  Context {A W C : Type}.
  Variable f : nat -> A -> W -> A * W * res C.
  Fixpoint through (i : nat) (l : list A) (w : W) : list A * W * res (list C) :=
    match l with
    | [] => ([], w, Ok [])
    | x :: t =>
        let '(x', w, r) := f i x w in
        match r with
        | Err e => (x' :: t, w, Err e)
        | Ok c => let '(t', w, r) := through (S i) t w in (x' :: t', w, do cs <- r; Ok (c :: cs))
        end
    end.
End Through.

Section Export.
  Context {X St B H : Type}.
  Variable P : search X St B H.
  (** belief.to_list() *)
  Variable to_list : B -> list Q.

  (** Actions of a node with a child, 290-291 and 370-372 *)
  Definition tried {K} (kids : list (option K)) : list nat :=
    filter (fun i => match nth i kids None with Some _ => true | None => false end) (seq 0 (length kids)).

  (** *** The whole tree: to_dict with as_policy=False, 325-333, 367-378 and 384-402.  Nothing is changed. *)
  Fixpoint o_dict (n : onode B) : res odict :=
    match n with
    | ON v b kids =>
        do names <- mapM (name_at (s_actions P)) (tried kids);
        do ds <- (fix go (l : list (option (anode B))) : res (list adict) :=
                    match l with
                    | [] => Ok []
                    | None :: t => go t
                    | Some c :: t => do d <- a_dict c; do ds <- go t; Ok (d :: ds)
                    end) kids;
        Ok (OD (avg_value v) (n_simulations v) (to_list b) names ds)
    end
  with a_dict (c : anode B) : res adict :=
    match c with
    | AN v kids =>
        do names <- mapM (fun om => name_at (s_observations P) (fst om)) kids;
        do ds <- mapM (fun om => o_dict (snd om)) kids;
        Ok (AD (avg_value v) (n_simulations v) names ds)
    end.
  (** with recursive=False, 327 and 377-378 *)
  Definition o_dict_flat (n : onode B) : odict := OD (avg_value (o_avg n)) (o_count n) (to_list (o_belief n)) [] [].
  (** to_dict of an action node, 386-402: [raise NotImplemented] is a TypeError *)
  Definition a_to_dict (as_policy : bool) (c : anode B) : res adict := if as_policy then Err EType else a_dict c.

  (** *** As a policy *)
  (** augmented_values() with nan as None, 297-306 and 342-343.  The term for exploration is 0 times a number unless the
      node or its child was never simulated, when it is nan. *)
  Definition o_values (n : onode B) : list (option Q) :=
    map (fun c => match c with
                  | Some c => if Nat.ltb 0 (a_count c) && Nat.ltb 0 (o_count n) then Some (avg_value (a_avg c)) else None
                  | None => None
                  end) (o_kids n).
  (** 344-349; the square root is the arbitrary function of PomcpModel *)
  Definition o_terms (n : onode B) : list (option Q) :=
    map (fun c => match c with
                  | Some c => if Nat.ltb 0 (a_count c) then Some (s_bonus P (o_count n) (a_count c)) else None
                  | None => None
                  end) (o_kids n).
  (** 350-352 *)
  Definition o_child_visits (n : onode B) : list nat := map (fun c => match c with Some c => a_count c | None => 0 end) (o_kids n).
  (** The entries of a node for an action, 334-353 *)
  Definition o_info (n : onode B) (a : nat) (observed : option nat) : res pinfo :=
    do nm <- name_at (s_actions P) a;
    Ok {| p_value := avg_value (o_avg n); p_visits := o_count n; p_belief := to_list (o_belief n); p_action := nm; p_observed := observed;
          p_values := o_values n; p_terms := o_terms n; p_child_visits := o_child_visits n |}.

  (** to_dict with as_policy=True, 325-366: the tree is changed by safe_get_child (338) *)
  Fixpoint o_policy (n : onode B) (observed : option nat) (x : X) {struct n} : onode B * X * res pdict :=
    match n with
    | ON v b kids =>
        let (a, x) := best_action P n 0 false x in
        match (do a <- a; do c <- safe_child n a; Ok (a, c)) with
        | Err e => (n, x, Err e)
        | Ok (a, c) =>
            let n := set_kid n a c in
            match o_info n a observed with
            | Err e => (n, x, Err e)
            | Ok info =>
                match nth_error (map (option_map a_policy) kids) a with
                | Some (Some children) =>
                    let '(c, x, r) := children x in
                    (set_kid n a c, x, do (names, ds) <- r; Ok (PD info true names ds))
                | _ => (n, x, Ok (PD info true [] []))             (* the child just made has no children *)
                end
            end
        end
    end
  with a_policy (c : anode B) (x : X) {struct c} : anode B * X * res (list name * list pdict) :=
    match c with
    | AN v kids =>
        match mapM (fun om => name_at (s_observations P) (fst om)) kids with
        | Err e => (c, x, Err e)
        | Ok names =>
            let '(kids, x, r) := through (fun i om x => let '(m, x, r) := o_policy (snd om) (Some i) x in ((fst om, m), x, r)) 0 kids x in
            (AN v kids, x, do ds <- r; Ok (names, ds))
        end
    end.

  (** *** export_pomcp with belief_as_quotient, 598-630: _map (265-269) of to_dict (602-614) and join_children (616-627).
      [quotient] is the method belief_quotient of the states of the model. *)
  Variable quotient : list Q -> res (list Q).
  (** the entries of to_dict, 603-609, and ACTION_IDX *)
  Definition q_info (n : onode B) (a : nat) : res (pinfo * nat) :=
    do i <- o_info n a None;
    do q <- quotient (p_belief i);
    do a_i <- list_index (s_actions P) (p_action i);
    Ok ({| p_value := p_value i; p_visits := p_visits i; p_belief := q; p_action := p_action i; p_observed := p_observed i;
           p_values := p_values i; p_terms := p_terms i; p_child_visits := p_child_visits i |},
        length (tried (firstn a_i (o_kids n)))).
  (** c['observed'] = i *)
  Definition set_observed (d : pdict) (i : nat) : pdict :=
    match d with
    | PD f e os ds => PD {| p_value := p_value f; p_visits := p_visits f; p_belief := p_belief f; p_action := p_action f; p_observed := Some i;
                            p_values := p_values f; p_terms := p_terms f; p_child_visits := p_child_visits f |} e os ds
    end.
  (** join_children for an observation node, 620-626 *)
  Definition q_join (info : pinfo) (idx : nat) (children : list (list name * list pdict)) : res pdict :=
    match nth_error children idx with
    | None => Err EIndex
    | Some (names, ds) =>
        do ds <- mapM (fun don => do i <- list_index (s_observations P) (snd don); Ok (set_observed (fst don) i)) (combine ds names);
        Ok (PD info true names ds)
    end.
  (** results of the children that are there *)
  Definition present {C} (l : list (option C)) : list C := flat_map (fun c => match c with Some c => [c] | None => [] end) l.

  Fixpoint o_quotient (n : onode B) (x : X) {struct n} : onode B * X * res pdict :=
    match n with
    | ON v b kids =>
        let (a, x) := best_action P n 0 false x in
        match (do a <- a; do c <- safe_child n a; Ok (a, c)) with
        | Err e => (n, x, Err e)
        | Ok (a, c) =>
            let n := set_kid n a c in
            match q_info n a with
            | Err e => (n, x, Err e)
            | Ok (info, idx) =>
                (* the children after the change: the one just made, if any, has no children *)
                let '(kids, x, r) :=
                  through (fun i k x => match k with
                                        | Some c => let '(c, x, r) := a_quotient c x in (Some c, x, do y <- r; Ok (Some y))
                                        | None => if Nat.eqb i a then (Some a_new, x, Ok (Some ([], []))) else (None, x, Ok None)
                                        end) 0 kids x in
                (ON v b kids, x, do cs <- r; q_join info idx (present cs))
            end
        end
    end
  with a_quotient (c : anode B) (x : X) {struct c} : anode B * X * res (list name * list pdict) :=
    match c with
    | AN v kids =>
        match mapM (fun om => name_at (s_observations P) (fst om)) kids with
        | Err e => (c, x, Err e)
        | Ok names =>
            let '(kids, x, r) := through (fun _ om x => let '(m, x, r) := o_quotient (snd om) x in ((fst om, m), x, r)) 0 kids x in
            (AN v kids, x, do ds <- r; Ok (names, ds))
        end
    end.

  (** *** Nodes shared by belief *)
  Variable same : B -> B -> bool.
  (** self.belief in exclude_visited, 329 *)
  Definition seen (visited : list B) (b : B) : bool := existsb (fun c => same c b) visited.

  (** A loop over references: store, set of visited beliefs, ... *)
  Section Along.
    Context {A W C : Type}.
    Variable f : nat -> A -> W -> W * res C.
    Fixpoint along (i : nat) (l : list A) (w : W) : W * res (list C) :=
      match l with
      | [] => (w, Ok [])
      | x :: t =>
          let (w, r) := f i x w in
          match r with
          | Err e => (w, Err e)
          | Ok c => let (w, r) := along (S i) t w in (w, do cs <- r; Ok (c :: cs))
          end
      end.
  End Along.

  (** to_dict with as_policy=False from the node at reference i, 325-333, 367-378 and 384-402.  The fuel is spent on the
      nodes that are expanded. *)
  Fixpoint s_dict (fuel : nat) (st : store B) (i : nat) (visited : list B) : list B * res odict :=
    match nth_error st i with
    | None => (visited, Err EKey)
    | Some n =>
        let base := OD (avg_value (sn_avg n)) (n_simulations (sn_avg n)) (to_list (sn_belief n)) in
        if seen visited (sn_belief n) then (visited, Ok (base [] [])) else
        match fuel with
        | 0 => (visited, Err EFuel)
        | S fuel =>
            let visited := visited ++ [sn_belief n] in
            match mapM (name_at (s_actions P)) (tried (sn_kids n)) with
            | Err e => (visited, Err e)
            | Ok names =>
                let (visited, r) :=
                  along (fun _ k visited =>
                           match mapM (fun oj => name_at (s_observations P) (fst oj)) (k_obs k) with
                           | Err e => (visited, Err e)
                           | Ok obs => let (visited, r) := along (fun _ oj visited => s_dict fuel st (snd oj) visited) 0 (k_obs k) visited in
                                       (visited, do ds <- r; Ok (AD (avg_value (k_avg k)) (n_simulations (k_avg k)) obs ds))
                           end) 0 (present (sn_kids n)) visited in
                (visited, do ds <- r; Ok (base names ds))
            end
        end
    end.

  (** to_dict with as_policy=True, 325-366 *)
  Fixpoint s_policy (fuel : nat) (i : nat) (observed : option nat) (w : store B * list B * X) : (store B * list B * X) * res pdict :=
    let '(st, visited, x) := w in
    match nth_error st i with
    | None => (w, Err EKey)
    | Some n =>
        let old := seen visited (sn_belief n) in
        let visited := if old then visited else visited ++ [sn_belief n] in
        let (a, x) := best_action P (as_tree n) 0 false x in
        match (do a <- a; do k <- sn_child n a; Ok (a, k)) with
        | Err e => (st, visited, x, Err e)
        | Ok (a, k) =>
            let st := modify st i (sn_safe a) in
            match o_info (as_tree (sn_safe a n)) a observed with
            | Err e => (st, visited, x, Err e)
            | Ok info =>
                if old then (st, visited, x, Ok (PD info false [] [])) else
                match mapM (fun oj => name_at (s_observations P) (fst oj)) (k_obs k) with
                | Err e => (st, visited, x, Err e)
                | Ok names =>
                    match fuel with
                    | 0 => (st, visited, x, Err EFuel)
                    | S fuel =>
                        let (w, r) := along (fun p oj w => s_policy fuel (snd oj) (Some p) w) 0 (k_obs k) (st, visited, x) in
                        (w, do ds <- r; Ok (PD info true names ds))
                    end
                end
            end
        end
    end.

  (** _map of a shared tree for export_pomcp, 265-272 and 598-630.  There is no set of visited beliefs.  The children of a
      node are read one by one, after the results for those before (filter, 326, is lazy). *)
  Fixpoint s_quotient (fuel : nat) (i : nat) (w : store B * X) : (store B * X) * res pdict :=
    match fuel with
    | 0 => (w, Err EFuel)
    | S fuel =>
        let (st, x) := w in
        match nth_error st i with
        | None => (w, Err EKey)
        | Some n =>
            let (a, x) := best_action P (as_tree n) 0 false x in
            match (do a <- a; do k <- sn_child n a; Ok (a, k)) with
            | Err e => (st, x, Err e)
            | Ok (a, k) =>
                let st := modify st i (sn_safe a) in
                match q_info (as_tree (sn_safe a n)) a with
                | Err e => (st, x, Err e)
                | Ok (info, idx) =>
                    let (w, r) :=
                      along (fun p _ w =>
                               match nth_error (fst w) i with
                               | Some m =>
                                   match nth_error (sn_kids m) p with
                                   | Some (Some k) =>
                                       match mapM (fun oj => name_at (s_observations P) (fst oj)) (k_obs k) with
                                       | Err e => (w, Err e)
                                       | Ok names => let (w, r) := along (fun _ oj w => s_quotient fuel (snd oj) w) 0 (k_obs k) w in
                                                     (w, do ds <- r; Ok (Some (names, ds)))
                                       end
                                   | _ => (w, Ok None)
                                   end
                               | None => (w, Err EKey)
                               end) 0 (sn_kids n) (st, x) in
                    (w, do cs <- r; q_join info idx (present cs))
                end
            end
        end
    end.
End Export.

(** *** The file of export_pomcp, 596-639 *)
Record export := { e_graphs : list pdict; e_states : list name; e_actions : list name; e_exploration : Q; e_relative : bool }.
Section ExportPomcp.
  Context {X St B H : Type}.
  Variable P : search X St B H.
  Variable to_list : B -> list Q.
  Variable quotient : list Q -> res (list Q).
  (** model.states and model.htm_names *)
  Variables states htm_names : list name.
  Definition e_file (graph : pdict) (states : list name) : export :=
    {| e_graphs := [graph]; e_states := states; e_actions := s_actions P; e_exploration := s_exploration P; e_relative := s_relative P |}.
  (** for a tree; the runner keeps its history and its node *)
  Definition export_pomcp (belief_as_quotient : bool) (r : runner B) (x : X) : runner B * X * res export :=
    let '(root, x, d) := if belief_as_quotient then o_quotient P to_list quotient (r_root r) x else o_policy P to_list (r_root r) None x in
    ({| r_root := root; r_history := r_history r; r_node := r_node r; r_last := r_last r |}, x,
     do d <- d; Ok (e_file d (if belief_as_quotient then htm_names else states))).
  (** for nodes shared by belief, 208-212; the fuel bounds the depth of the calls *)
  Variable same : B -> B -> bool.
  Definition s_export_pomcp (fuel : nat) (belief_as_quotient : bool) (r : srunner B) (x : X) : srunner B * X * res export :=
    let '(st, x, d) :=
      if belief_as_quotient then s_quotient P to_list quotient fuel 0 (sr_store r, x)
      else let '(st, _, x, d) := s_policy P to_list same fuel 0 None (sr_store r, [], x) in (st, x, d) in
    ({| sr_store := st; sr_history := sr_history r; sr_node := sr_node r; sr_last := sr_last r |}, x,
     do d <- d; Ok (e_file d (if belief_as_quotient then htm_names else states))).
End ExportPomcp.
