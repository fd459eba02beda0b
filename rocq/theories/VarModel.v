(** Model of plot_var, task_models/utils/plot.py 81-111: what is drawn.  The library that draws is not modelled; the other
    options (kwargs) only change how the curve looks. *)
From Verif Require Export PyBase QBase.
From Verif Require Import PlotModel.
From Coq Require Import String Reals Qreals.
Local Open Scope list_scope.
Local Open Scope nat_scope.

(** np.mean and np.var of the samples of a row, which has samples (numpy gives NaN without samples) *)
Definition size_of (row : list Q) : Q := inject_Z (Z.of_nat (List.length row)).
Definition mean (row : list Q) : Q := (sumQ row / size_of row)%Q.
Definition variance (row : list Q) : Q := mean (map (fun v => (v - mean row) * (v - mean row))%Q row).
(** np.std *)
Definition std (row : list Q) : R := sqrt (Q2R (variance row)).

(** What is drawn: the points of the curve and its color; the bars of a call of errorbar (half of their height at each point);
    the area of fill_between (at each abscissa, from where to where) and its color; and what is left of the axis. *)
Record drawing := {
  curve : list (Q * Q); line_color : string;
  bars : option (list R);
  area : option (list (Q * R * R) * string);
  axis : junk }.

(** plot_var.  [cycle] is the color the library chooses when none is given, [j] the axis before.  x and y of different lengths
    are a ValueError of plot and errorbar; nothing is drawn then. *)
Definition plot_var (cycle : string) (j : junk) (y : list (list Q)) (x : option (list Q)) (color : option string) (var : bool) (var_style : string)
  : res drawing :=
  let m := map mean y in                                                                       (* 93 *)
  let s := map std y in                                                                        (* 94 *)
  let x := match x with None => map (fun i => inject_Z (Z.of_nat i)) (seq 0 (List.length y)) | Some x => x end in  (* 95-96 *)
  let yerr := if var && mem_str var_style ["bar"; "both"]%string then Some s else None in      (* 97-100 *)
  if negb (List.length x =? List.length m) then Err EValue else                                (* 104 *)
  let c := match color with Some c => c | None => cycle end in                                 (* 101-106 *)
  let fill := if var && mem_str var_style ["fill"; "both"]%string                              (* 108-109 *)
              then Some (map (fun xms => let '(x, (m, s)) := xms in (x, Q2R m - s, Q2R m + s)%R) (combine x (combine m s)), c)
              else None in
  let (j, r) := remove_chartjunk j ["top"; "right"]%string None None None in                   (* 110 *)
  do _ <- r;
  Ok {| curve := combine x m; line_color := c; bars := yerr; area := fill; axis := j |}.

(** pcolormesh, 151-170, of a table with [columns] numbers in each row: the color map, the labels with their places on x and y
    (None: none are set, for no labels and for an empty list, 162 and 165), the limits, and what is left of the axis.  Labels are
    assumed to be as many as columns and rows: what the library does otherwise depends on its version. *)
Record mesh := { m_cmap : cmap; m_xlabels : option (list (Q * string)); m_ylabels : option (list (Q * string)); m_xlim : Q * Q; m_ylim : Q * Q; m_axis : junk }.
Definition place (n : nat) (labels : option (list string)) : option (list (Q * string)) :=
  match labels with None | Some [] => None | Some l => Some (combine (middles n) l) end.
Definition pcolormesh (j : junk) (x : list (list Q)) (columns : nat) (map_given : option cmap) (xticklabels yticklabels : option (list string)) : res mesh :=
  let c := match map_given with Some c => c | None => cmap_from_data (List.concat x) end in                            (* 153-154 *)
  let (j, r) := remove_chartjunk j ["top"; "right"; "bottom"; "left"]%string None (Some ["x"; "y"]%string) None in      (* 160 *)
  do _ <- r;
  Ok {| m_cmap := c; m_xlabels := place columns xticklabels; m_ylabels := place (List.length x) yticklabels;            (* 162-167 *)
        m_xlim := (0, inject_Z (Z.of_nat columns))%Q; m_ylim := (0, inject_Z (Z.of_nat (List.length x)))%Q; m_axis := j |}.  (* 168-169 *)
