(** Model of the files of models, policies and trees: lib/pomdp.py 296-330 (POMDP), 416-439 (GraphPolicy), 495-518 (trajectories),
    lib/pomcp.py 636-639 (export_pomcp).  Simplifications: as in SaveModel.v; arrays hold floats; names are integers or texts. *)
From Coq Require Import DecimalString.
From Verif Require Import PyBase QBase TowerModel PomdpModel PolicyModel PomcpModel ExportModel SaveModel.
Local Open Scope list_scope.

(** json.dump or json.dumps without an encoder: 308, 312, 421, 425 and 517; pomcp.py 639.  As [write_parameters] *)
Definition dump (float_text : Q -> string) (o : pobj) : res jval := encode plain_default float_text (weight o) o.

(** Lists of names and of numbers, and what tolist returns *)
Definition name_object (n : name) : pobj := match n with NInt z => PInt z | NStr s => PStr s end.
Definition names_object (l : list name) : pobj := PList (map name_object l).
Fixpoint nested_object (x : nested) : pobj := match x with Num q => PFloat q | Lst l => PList (map nested_object l) end.
Definition floats_object (l : list Q) : pobj := PList (map PFloat l).
Definition entry (k : string) (v : pobj) : patom * pobj := (KStr k, v).

(** The dictionary of POMDP.to_dict, pomdp.py 296-305 *)
Definition pomdp_object (d : pomdp_dict) : pobj :=
  PDict [entry "T" (nested_object (d_T d)); entry "O" (nested_object (d_O d)); entry "R" (nested_object (d_R d)); entry "start" (nested_object (d_start d));
         entry "discount" (PFloat (d_discount d)); entry "states" (names_object (d_states d)); entry "actions" (names_object (d_actions d));
         entry "observations" (names_object (d_observations d))].
(** as_json and save_as_json, 307-312 *)
Definition as_json (float_text : Q -> string) (p : pomdp) : res jval := dump float_text (pomdp_object (to_dict p)).

(** d[k] *)
Definition get (o : pobj) (k : string) : res pobj :=
  match o with
  | PDict l => match find (fun kv => match fst kv with KStr k' => String.eqb k' k | _ => false end) l with Some kv => Ok (snd kv) | None => Err EKey end
  | _ => Err EType
  end.
(** np.asarray of lists: numbers in lists.  Simplification: other objects are an error (numpy makes arrays of objects). *)
Fixpoint object_nested (o : pobj) : res nested :=
  match o with
  | PFloat q => Ok (Num q)
  | PInt z => Ok (Num (inject_Z z))
  | PList l => do l <- (fix go l := match l with [] => Ok [] | x :: t => do y <- object_nested x; do r <- go t; Ok (y :: r) end) l; Ok (Lst l)
  | _ => Err EValue
  end.
(** Simplification: other names are an error. *)
Definition object_name (o : pobj) : res name := match o with PInt z => Ok (NInt z) | PStr s => Ok (NStr s) | _ => Err EType end.
Definition object_names (o : pobj) : res (list name) := match o with PList l => mapM object_name l | _ => Err EType end.
Definition object_number (o : pobj) : res Q := match o with PFloat q => Ok q | PInt z => Ok (inject_Z z) | _ => Err EType end.
(** from_json and load_from_json, 314-330.  Simplification: with several defects in a file, the first exception may differ. *)
Definition from_json (solver : bool) (j : jval) : res pomdp :=
  let d := load j in
  do T <- get d "T"; do T <- object_nested T;
  do Ob <- get d "O"; do Ob <- object_nested Ob;
  do R <- get d "R"; do R <- object_nested R;
  do start <- get d "start"; do start <- object_nested start;
  do discount <- get d "discount"; do discount <- object_number discount;
  do states <- get d "states"; do states <- object_names states;
  do actions <- get d "actions"; do actions <- object_names actions;
  do observations <- get d "observations"; do observations <- object_names observations;
  from_dict {| d_T := T; d_O := Ob; d_R := R; d_start := start; d_discount := discount; d_states := states; d_actions := actions; d_observations := observations |} solver.

(** The dictionary of GraphPolicy.to_dict, 416-422; transitions are integers or None *)
Definition target_object (t : option Z) : pobj := match t with Some z => PInt z | None => PNone end.
Definition policy_object (d : policy_dict) : pobj :=
  PDict [entry "actions" (names_object (pd_actions d)); entry "observations" (names_object (pd_observations d));
         entry "transitions" (PList (map (fun r => PList (map target_object r)) (pd_trans d))); entry "values" (PList (map floats_object (pd_values d)));
         entry "initial" (PStr (pd_initial d))].
(** to_json and save_as_json, 420-425 *)
Definition to_json (float_text : Q -> string) (g : graph_policy) : res jval := dump float_text (policy_object (policy_to_dict str_int g)).
(** int of a text.  Simplification: spaces and underscores, which int accepts, are refused. *)
Definition py_int (s : string) : res Z := match NilZero.int_of_string s with Some d => Ok (Z.of_int d) | None => Err EValue end.
Definition object_target (o : pobj) : res (option Z) := match o with PInt z => Ok (Some z) | PNone => Ok None | _ => Err EType end.
Definition object_list {A} (f : pobj -> res A) (o : pobj) : res (list A) := match o with PList l => mapM f l | _ => Err EType end.
Definition object_text (o : pobj) : res string := match o with PStr s => Ok s | _ => Err EType end.
(** from_json and load_from_json, 427-439 *)
Definition policy_from_json (j : jval) : res graph_policy :=
  let d := load j in
  do acts <- get d "actions"; do acts <- object_names acts;
  do obs <- get d "observations"; do obs <- object_names obs;
  do tr <- get d "transitions"; do tr <- object_list (object_list object_target) tr;
  do vs <- get d "values"; do vs <- object_list (object_list object_number) vs;
  do i <- get d "initial"; do i <- object_text i;
  policy_from_dict py_int {| pd_actions := acts; pd_observations := obs; pd_trans := tr; pd_values := vs; pd_initial := i |}.

(** The dictionaries of trajectory_tree, 497-503, and trajectory_trees_from_starts, 513 *)
Fixpoint tree_object (t : ttree) : pobj :=
  match t with
  | TNode b a n os ch => PDict [entry "belief" (floats_object b); entry "action" (name_object a); entry "node" (PInt n); entry "observations" (names_object os);
                                entry "children" (PList (map tree_object ch))]
  end.
(** save_trajectories_from_starts, 515-518: nothing is written when the trees cannot be built *)
Definition save_trajectories (float_text : Q -> string) (g : graph_policy) (p : pomdp) (horizon : Z) (r : brunner) : brunner * res jval :=
  let (r, ts) := trajectory_trees_from_starts g p horizon r in
  (r, do ts <- ts; dump float_text (PDict [entry "graphs" (PList (map tree_object ts))])).

(** The dictionaries of nodes as a policy, pomcp.py 258-263 and 334-366, and of export_pomcp, 628-637 *)
Definition option_object {A} (f : A -> pobj) (x : option A) : pobj := match x with Some x => f x | None => PNone end.
Definition nat_object (n : nat) : pobj := PInt (Z.of_nat n).
Fixpoint graph_object (d : pdict) : pobj :=
  match d with
  | PD i e os ch =>
      PDict ([entry "value" (PFloat (p_value i)); entry "visits" (nat_object (p_visits i)); entry "node" PNone; entry "belief" (floats_object (p_belief i));
              entry "action" (name_object (p_action i)); entry "observed" (option_object nat_object (p_observed i));
              entry "values" (PList (map (option_object PFloat) (p_values i))); entry "exploration_terms" (PList (map (option_object PFloat) (p_terms i)));
              entry "child_visits" (PList (map nat_object (p_child_visits i)))] ++
             (if e then [entry "observations" (names_object os); entry "children" (PList (map graph_object ch))] else []))
  end.
Definition export_object (e : export) : pobj :=
  PDict [entry "graphs" (PList (map graph_object (e_graphs e))); entry "states" (names_object (e_states e)); entry "actions" (names_object (e_actions e));
         entry "exploration" (PFloat (e_exploration e)); entry "relative_exploration" (PBool (e_relative e))].
