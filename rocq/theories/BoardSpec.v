(** Specification for C121: building a board one part after the other. *)
From Verif Require Import PyBase SnapModel SnapSpec GraphModel.
Local Open Scope list_scope.
Local Open Scope nat_scope.

(** The path that puts these parts one after the other on a board that has the parts [done] already: a state, the placement of the next part, the
    state with that part too... *)
Inductive stepwise (show : string -> Z * Z -> string -> string) (order : list (location * part) -> list (location * part)) (board : Z * Z) :
  list (location * part) -> list (location * part) -> list (item snap act) -> Prop :=
| sw_end done : stepwise show order board done [] [IState (new_snap order board done)]
| sw_place done loc p rest a path : place show board p loc = Ok a -> stepwise show order board (done ++ [(loc, p)]) rest path ->
    stepwise show order board done ((loc, p) :: rest) (IState (new_snap order board done) :: IAction a :: path).
(** Two parts take the same cell (same identifier, place and orientation). *)
Definition same_cell (rows cols : Z) (lp lp' : location * part) : Prop :=
  exists i x y o, takes rows cols (p_id (snd lp)) (fst lp) i x y o /\ takes rows cols (p_id (snd lp')) (fst lp') i x y o.
(** No two of them do. *)
Definition apart (rows cols : Z) (parts : list (location * part)) : Prop :=
  forall j k lp lp', j < k -> nth_error parts j = Some lp -> nth_error parts k = Some lp' -> ~ same_cell rows cols lp lp'.

(** The L at a position: part 0 at the position towards the north, then part 1 two rows further towards the east. *)
Definition two (id : Z) : part := {| p_id := id; p_label := "2" |}.
Definition L_parts (r c : Z) : list (location * part) := [((r, c, 0%Z), two 0); ((r + 2, c, 1)%Z, two 1)].
(** The positions that the script draws. *)
Definition drawn (position : Z * Z) : Prop := (0 <= fst position < 5 /\ 0 <= snd position < 9)%Z.
