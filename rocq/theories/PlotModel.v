(** Model of the plots: plot_values of samples/htm2pomdp.py (93-99) and samples/icra_scenario2pomdp.py (38-44), plot_beliefs of
    task_models/plot.py (5-27), get_n_colors, _cmap_from_data and remove_chartjunk of task_models/utils/plot.py.
    An axis is what these functions set in it; the library that draws is not modelled. *)
From Verif Require Export PyBase QBase.
From Verif Require Import TowerModel.
From Coq Require Export String Ascii.
Local Open Scope list_scope.
Local Open Scope nat_scope.

(** *** plot_values *)
(** Numbers of numpy after a division: infinite with the sign of the numerator, or not a number. *)
Inductive number := Fin (q : Q) | Inf (negative : bool) | NaN.
Definition divide (x y : Q) : number :=
  if Qeq_bool y 0 then (if Qeq_bool x 0 then NaN else Inf (negb (Qle_bool 0 x))) else Fin (x / y)%Q.
(** min and max of the elements; ValueError if there are none *)
Fixpoint least_of (x : Q) (l : list Q) : Q := match l with [] => x | y :: l => least_of (if Qle_bool x y then x else y) l end.
Fixpoint greatest_of (x : Q) (l : list Q) : Q := match l with [] => x | y :: l => greatest_of (if Qle_bool x y then y else x) l end.
Definition np_min (l : list Q) : res Q := match l with [] => Err EValue | x :: l => Ok (least_of x l) end.
Definition np_max (l : list Q) : res Q := match l with [] => Err EValue | x :: l => Ok (greatest_of x l) end.
(** The array b that is drawn, from the rows of values *)
Definition normalised (values : list (list Q)) : res (list (list number)) :=
  do m <- np_min (List.concat values);
  let b := map (map (fun v => v - m)%Q) values in
  do top <- mapM np_max b;
  Ok (map (fun rt => map (fun v => divide v (snd rt)) (fst rt)) (combine b top)).

(** *** plot_beliefs, plot.py 5-27: ticks, labels and limits *)
Record axes := { x_ticks : list Q; x_labels : list string; y_ticks : list Q; y_labels : list string; x_lim : Q * Q; y_lim : Q * Q }.
(** np.arange(0.5, n + 0.5) *)
Definition middles (n : nat) : list Q := map (fun i => (1 # 2) + inject_Z (Z.of_nat i))%Q (seq 0 n).
Definition numbered (n : nat) : list string := map (fun i => str_int (Z.of_nat i)) (seq 0 n).
Definition plot_beliefs (n_beliefs n_states : nat) (states ylabels : option (list string)) : res axes :=
  let states := match states with None => numbered n_states | Some l => l end in
  if negb (List.length states =? n_states) then Err EAssert else
  let ylabels := match ylabels with None => numbered n_beliefs | Some l => l end in
  if negb (List.length ylabels =? n_beliefs) then Err EAssert else
  Ok {| x_ticks := middles n_states; x_labels := states; y_ticks := middles n_beliefs; y_labels := ylabels;
        x_lim := (0, inject_Z (Z.of_nat n_states))%Q; y_lim := (0, inject_Z (Z.of_nat n_beliefs))%Q |}.
(** plot_values: the labels of the rows are "i: action" *)
Definition row_labels (actions : list string) : list string := map (fun ia => str_int (Z.of_nat (fst ia)) ++ ": " ++ snd ia)%string (combine (seq 0 (List.length actions)) actions).
Definition plot_values (values : list (list Q)) (n_states : nat) (states actions : list string) : res (list (list number) * axes) :=
  do b <- normalised values;
  do a <- plot_beliefs (List.length values) n_states (Some states) (Some (row_labels actions));
  Ok (b, a).

(** *** utils/plot.py *)
(** get_n_colors, 52-53: the places in the map *)
Definition n_colors (n : nat) : list Q := map (fun i => (inject_Z (Z.of_nat i) / inject_Z (Z.of_nat n))%Q) (seq 0 n).
(** _cmap_from_data, 39-49 *)
Inductive cmap := Reds | Blues | Blues_r.
Definition cmap_from_data (x : list Q) : cmap :=
  if forallb (Qle_bool 0) x then Reds else if forallb (fun v => Qle_bool v 0) x then Blues else Blues_r.

(** remove_chartjunk, 173-215.  Of an axis: which spines are visible and which were made thin; whether the ticks of x and y
    are removed; the grid; whether the labels are removed. *)
Record junk := { visible : string -> bool; thin : string -> bool; no_x_ticks : bool; no_y_ticks : bool; grid_of : option (list string); no_x_labels : bool; no_y_labels : bool }.
Definition all_spines : list string := ["top"; "bottom"; "right"; "left"]%string.
Definition mem_str (x : string) (l : list string) : bool := existsb (String.eqb x) l.
(** The loop of lines 186-187: KeyError for a spine that does not exist *)
Fixpoint hide (j : junk) (spines : list string) : junk * res unit :=
  match spines with
  | [] => (j, Ok tt)
  | s :: spines =>
      if mem_str s all_spines then
        hide {| visible := fun t => if String.eqb t s then false else visible j t; thin := thin j; no_x_ticks := no_x_ticks j; no_y_ticks := no_y_ticks j;
                grid_of := grid_of j; no_x_labels := no_x_labels j; no_y_labels := no_y_labels j |} spines
      else (j, Err EKey)
  end.
(** ticks, grid and ticklabels are None or a list of strings (a string is the list of its characters, but for ticklabels, 209).
    Line 211: the set is compared with 0, a TypeError. *)
Definition remove_chartjunk (j : junk) (spines : list string) (grid ticks ticklabels : option (list string)) : junk * res unit :=
  let (j, r) := hide j spines in
  match r with
  | Err e => (j, Err e)
  | Ok _ =>
      let has x := match ticks with None => false | Some l => mem_str x l end in
      let j := {| visible := visible j; thin := fun s => if mem_str s all_spines && negb (mem_str s spines) then true else thin j s;
                  no_x_ticks := no_x_ticks j || has "x"%string; no_y_ticks := no_y_ticks j || has "y"%string;
                  grid_of := grid_of j; no_x_labels := no_x_labels j; no_y_labels := no_y_labels j |} in
      match grid with
      | Some g =>
          if forallb (fun x => mem_str x ["x"; "y"]%string) g then
            let j := {| visible := visible j; thin := thin j; no_x_ticks := no_x_ticks j; no_y_ticks := no_y_ticks j;
                        grid_of := Some g; no_x_labels := no_x_labels j; no_y_labels := no_y_labels j |} in
            match ticklabels with None => (j, Ok tt) | Some _ => (j, Err EType) end
          else (j, Err EAssert)
      | None => match ticklabels with None => (j, Ok tt) | Some _ => (j, Err EType) end
      end
  end.
