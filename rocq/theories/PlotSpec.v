(** Specification for C124: rows of values and the rows that are drawn. *)
From Verif Require Import PyBase QBase PlotModel.
Local Open Scope list_scope.
Local Open Scope nat_scope.

(** A table with rows of the same positive length, one at least. *)
Definition table (values : list (list Q)) (width : nat) : Prop := values <> [] /\ 0 < width /\ forall row, In row values -> List.length row = width.
Definition somewhere (values : list (list Q)) (v : Q) : Prop := exists row, In row values /\ In v row.
(** The least of all values, and the greatest of a row. *)
Definition is_least (values : list (list Q)) (m : Q) : Prop := somewhere values m /\ forall v, somewhere values v -> (m <= v)%Q.
Definition is_top (row : list Q) (t : Q) : Prop := In t row /\ forall v, In v row -> (v <= t)%Q.
(** A row has nothing but the least of all values. *)
Definition bottom (values : list (list Q)) (row : list Q) : Prop := forall m v, is_least values m -> In v row -> (v == m)%Q.
(** The drawn row of a row: 0 for the least of all values, 1 for the greatest of the row, and in proportion between. *)
Definition drawn (m t v : Q) (x : number) : Prop := exists q, x = Fin q /\ (q * (t - m) == v - m)%Q /\ (0 <= q <= 1)%Q.
