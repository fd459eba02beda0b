(** Model of task_models/tower_problem.py: orders of construction of towers, and tasks that bring their parts. *)
From Coq Require Import DecimalString.
From Verif Require Export HtmModel.
Local Open Scope list_scope.
Local Open Scope nat_scope.

(** [range(z)] and [str(z)] *)
Definition range (z : Z) : list Z := map Z.of_nat (seq 0 (Z.to_nat z)).
Definition str_int (z : Z) : string := NilZero.string_of_int (Z.to_int z).

Section Tower.
  (** TowerProblem.__init__, 8-10 *)
  Variables h n : Z.
  (** n_parts, 12-14; parts, 16-18 *)
  Definition n_parts : Z := (h * n)%Z.
  Definition parts : list string := map str_int (range n_parts).
  (** v_first, 20-21; h_first, 23-24 *)
  Definition v_first : list Z := range n_parts.
  Definition h_first : list Z := flat_map (fun l => map (fun i => (i * h + l)%Z) (range n)) (range h).
End Tower.

(** sequential_combination_from_order, 26-30.  Simplification: a combination without name is given the name "None". *)
Definition bring_part (name : option string) (i : Z) : comb string :=
  Leaf {| a_class := KBring; a_name := (str_int i ++ match name with Some n => "-" ++ n | None => "" end)%string; a_agent := "None"; a_params := Some (str_int i) |} None None false.
Definition sequential_from_order (order : list Z) (name : option string) : res (comb string) :=
  mk_comb Sequential (map (bring_part name) order) None None (match name with Some n => n | None => "None" end) false None.
(** alternative_combination_from_orders, 32-37, which is the root of task_from_orders, 39-42 *)
Definition task_from_orders (orders : list (list Z)) (names : option (list string)) : res (comb string) :=
  let names := match names with Some l => l | None => map (fun i => str_int (Z.of_nat i)) (seq 0 (length orders)) end in
  do children <- mapM (fun on => sequential_from_order (fst on) (Some (snd on))) (combine orders names);
  mk_comb Alternative children None None "Alt" false None.
(** vertical_horizontal_task, 44-46 *)
Definition vertical_horizontal_task (h n : Z) : res (comb string) :=
  task_from_orders [v_first h n; h_first h n] (Some ["vertical"; "horizontal"]%string).
