(** Model of task_models/snap_circuit.py. *)
From Verif Require Export PyBase ActionModel.
Local Open Scope list_scope.
Local Open Scope nat_scope.

(** SnapCircuitPart, 18-32.  Simplification: identifiers and coordinates are integers. *)
Record part := { p_id : Z; p_label : string }.
Definition location : Type := (Z * Z * Z)%type.
#[global] Instance EqDec_Z : EqDec Z := Z.eq_dec.
#[global] Instance EqDec_string : EqDec string := string_dec.
#[global] Instance EqDec_part : EqDec part.
Proof. intros [i l] [j m]. destruct (Z.eq_dec i j), (string_dec l m); solve [left; congruence | right; congruence]. Defined.

(** SnapCircuitState, 35-91: the parts are a set; [s_parts] lists them in the order in which the copies returned by
    the attribute parts (70-72) are iterated. *)
Record snap := { s_rows : Z; s_cols : Z; s_parts : list (location * part) }.
(** __init__, 45-48; [order] is the order of iteration of the set. *)
Definition new_snap (order : list (location * part) -> list (location * part)) (board : Z * Z) (parts : list (location * part)) : snap :=
  {| s_rows := fst board; s_cols := snd board; s_parts := order (set_of parts) |}.
Definition n_parts : nat := 20.
Definition n_orientations : nat := 4.

(** An index of a dimension of length [n], as numpy takes it: IndexError. *)
Definition np_index (n i : Z) : res nat :=
  if ((0 <=? i) && (i <? n))%Z then Ok (Z.to_nat i) else if ((- n <=? i) && (i <? 0))%Z then Ok (Z.to_nat (i + n)) else Err EIndex.
(** Arrays with the dimensions of feature_shape, 88-91. *)
Definition tensor4 : Type := nat -> nat -> nat -> nat -> Q.
(** [np.zeros(shape)]: ValueError for negative dimensions *)
Definition zeros (rows cols : Z) : res tensor4 := if ((rows <? 0) || (cols <? 0))%Z then Err EValue else Ok (fun _ _ _ _ => 0%Q).
(** [t[id, x, y, o] = 1] *)
Definition put (rows cols : Z) (t : tensor4) (id : Z) (loc : location) : res tensor4 :=
  let '(x, y, o) := loc in
  do i <- np_index (Z.of_nat n_parts) id;
  do x <- np_index rows x;
  do y <- np_index cols y;
  do o <- np_index (Z.of_nat n_orientations) o;
  Ok (fun i' x' y' o' => if (i' =? i) && (x' =? x) && (y' =? y) && (o' =? o) then 1%Q else t i' x' y' o').
(** [t.flatten()]: rows first *)
Definition flatten (rows cols : Z) (t : tensor4) : list Q :=
  flat_map (fun i => flat_map (fun x => flat_map (fun y => map (fun o => t i x y o) (seq 0 n_orientations)) (seq 0 (Z.to_nat cols))) (seq 0 (Z.to_nat rows))) (seq 0 n_parts).
(** features and get_features, 78-86 *)
Definition features (s : snap) : res tensor4 :=
  do t <- zeros (s_rows s) (s_cols s);
  foldM (fun t lp => put (s_rows s) (s_cols s) t (p_id (snd lp)) (fst lp)) (s_parts s) t.
Definition get_features (s : snap) : res (list Q) := do t <- features s; Ok (flatten (s_rows s) (s_cols s) t).

Definition float_array (l : list Q) : arr := {| a_dtype := DFloat; a_cells := map Num l |}.
(** PartPresenceCondition, 94-104 *)
Definition presence (board : Z * Z) (p : part) (loc : location) (is_there : bool) : res cond :=
  let (rows, cols) := board in
  do z <- zeros rows cols;
  do mask <- put rows cols z (p_id p) loc;
  do z <- zeros rows cols;
  do value <- (if is_there then put rows cols z (p_id p) loc else Ok z);
  new_cond Presence (float_array (flatten rows cols mask)) (float_array (flatten rows cols value)).
(** PlaceAction, 107-119.  [show] formats the name. *)
Definition orientation_names : list string := ["north"; "east"; "south"; "west"]%string.
Definition place (show : string -> Z * Z -> string -> string) (board : Z * Z) (p : part) (loc : location) : res act :=
  let '(x, y, o) := loc in
  do pre <- presence board p loc false;
  do post <- presence board p loc true;
  do k <- np_index (Z.of_nat (length orientation_names)) o;
  Ok (PrePost true pre post (show (p_label p) (x, y) (nth k orientation_names ""%string))).
(** check of an action (inherited from PrePostConditionAction, action.py 93-94, for a PlaceAction) on board states *)
Definition act_check (mismatch : exn) (a : act) (before after : snap) : res bool :=
  match a with
  | PrePost _ pre post _ => prepost_check mismatch pre post (get_features before) (get_features after)
  | Abs _ _ | Meta _ _ _ _ => Ok true
  end.

(** __eq__, 24-27 and 53-56 *)
Definition snap_eq (s s' : snap) : bool := (s_rows s =? s_rows s')%Z && (s_cols s =? s_cols s')%Z && set_eqb (s_parts s) (s_parts s').
(** __hash__, 24-25 and 50-51 *)
Section Hash.
  Variable hash_int : Z -> Z.
  Variable hash_tuple : list Z -> Z.
  Definition part_hash (p : part) : Z := hash_int (p_id p).
  Definition item_hash (lp : location * part) : Z :=
    let '((x, y, o), p) := lp in hash_tuple [hash_tuple [hash_int x; hash_int y; hash_int o]; part_hash p].
  Definition snap_hash (s : snap) : Z :=
    hash_tuple [hash_tuple [hash_int (Z.of_nat n_parts); hash_int (s_rows s); hash_int (s_cols s); hash_int (Z.of_nat n_orientations)];
                hash_tuple (map item_hash (s_parts s))].
End Hash.
