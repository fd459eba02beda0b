(** Specification for C74: cells of the board. *)
From Verif Require Import PyBase ActionModel SnapModel.
Local Open Scope list_scope.
Local Open Scope nat_scope.

(** Index i of a dimension of length n is its k-th place; negative ones count from the end. *)
Definition designates (n i : Z) (k : nat) : Prop := (Z.of_nat k < n)%Z /\ (i = Z.of_nat k \/ i = Z.of_nat k - n)%Z.
(** A part with this identifier at this location takes the cell (i, x, y, o) of a board. *)
Definition takes (rows cols id : Z) (loc : location) (i x y o : nat) : Prop :=
  let '(lx, ly, lo) := loc in designates 20 id i /\ designates rows lx x /\ designates cols ly y /\ designates 4 lo o.
(** It is on the board. *)
Definition on_board (rows cols id : Z) (loc : location) : Prop := exists i x y o, takes rows cols id loc i x y o.
(** A state whose parts are all on its board. *)
Definition valid (s : snap) : Prop := (0 <= s_rows s)%Z /\ (0 <= s_cols s)%Z /\ forall loc p, In (loc, p) (s_parts s) -> on_board (s_rows s) (s_cols s) (p_id p) loc.
(** A part takes this cell. *)
Definition occupied (s : snap) (i x y o : nat) : Prop := exists loc p, In (loc, p) (s_parts s) /\ takes (s_rows s) (s_cols s) (p_id p) loc i x y o.
(** A part with this identifier is at this location. *)
Definition present (s : snap) (id : Z) (loc : location) : Prop :=
  exists i x y o, takes (s_rows s) (s_cols s) id loc i x y o /\ occupied s i x y o.
(** The number of a cell in the vector of features. *)
Definition cell_number (rows cols : Z) (i x y o : nat) : nat := o + 4 * (y + Z.to_nat cols * (x + Z.to_nat rows * i)).
Definition size (rows cols : Z) : nat := 80 * Z.to_nat rows * Z.to_nat cols.
