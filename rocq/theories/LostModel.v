(** Model of GraphPolicyRunner (task_models/lib/pomdp.py 442-460) with all the values its attribute current can take. *)
From Verif Require Export PyBase PomdpModel PolicyModel.
Local Open Scope list_scope.
Local Open Scope nat_scope.

(** The attribute current: a node, None, or what numpy returns for [transitions[None, j]]: None adds a dimension, and j is
    then the number of a row of the table, so the value is that row (as an array of two dimensions). *)
Inductive current := At (node : Z) | Lost | Stray (row : list (option Z)).

(** get_action, 454-455 and 410-411: a list has no item None, nor an item for an array: TypeError *)
Definition runner_action (g : graph_policy) (c : current) : res name :=
  match c with At z => gp_action g z | Lost | Stray _ => Err EType end.
(** step, 457-460 and 413-414.  The number of the observation is computed first.  A row is not a valid index: it has None
    among the table's entries, and numpy refuses arrays of objects as indices: IndexError. *)
Definition runner_step (g : graph_policy) (observation : name) (c : current) : current * res unit :=
  match c with
  | At z => match gp_next g z observation with
            | Err e => (c, Err e)
            | Ok (Some n) => (At n, Ok tt)
            | Ok None => (Lost, Err EImpossible)
            end
  | Lost => match list_index (g_observations g) observation with
            | Err e => (c, Err e)
            | Ok j => match nth_error (g_trans g) j with Some row => (Stray row, Ok tt) | None => (c, Err EIndex) end
            end
  | Stray _ => match list_index (g_observations g) observation with Err e => (c, Err e) | Ok _ => (c, Err EIndex) end
  end.
(** reset, 448-452 *)
Definition runner_reset (g : graph_policy) (belief : option (list Q)) (c : current) : current * res unit :=
  match belief with
  | Some b => match node_from_belief (g_values g) b with Ok n => (At (Z.of_nat n), Ok tt) | Err e => (c, Err e) end
  | None => (At (g_init g), Ok tt)
  end.
(** Steps along observations by a user who catches the exceptions: the outcome of each, and where the runner is. *)
Fixpoint runner_steps (g : graph_policy) (obs : list name) (c : current) : current * list (res unit) :=
  match obs with
  | [] => (c, [])
  | o :: obs => let (c, e) := runner_step g o c in let (c, es) := runner_steps g obs c in (c, e :: es)
  end.
