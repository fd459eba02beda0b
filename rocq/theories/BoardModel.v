(** Model of samples/snap_circuit_scenarii.py: boards built step by step. *)
From Verif Require Export SnapModel GraphModel.
Local Open Scope list_scope.
Local Open Scope nat_scope.

(** snap_circuit.py 9-12 *)
Definition NORTH : Z := 0.
Definition EAST : Z := 1.
(** 10 *)
Definition BOARD : Z * Z := (7, 10)%Z.

Section Script.
  (** The format of the names of actions, the order of iteration of sets of parts, and the error of numpy when shapes
      differ (see SnapModel). *)
  Variable show : string -> Z * Z -> string -> string.
  Variable order : list (location * part) -> list (location * part).
  Variable mismatch : exn.

  (** path_make_L, 13-27 *)
  Definition path_make_L (position : Z * Z) : res (list (item snap act)) :=
    if negb (fst position <? fst BOARD - 2)%Z then Err EAssert                        (* 14 *)
    else if negb (snd position <? snd BOARD - 1)%Z then Err EAssert                   (* 15 *)
    else
      let part0 := {| p_id := 0; p_label := "2"%string |} in                          (* 16 *)
      let part1 := {| p_id := 1; p_label := "2"%string |} in                          (* 17 *)
      let location0 := (fst position, snd position, NORTH) in                         (* 18 *)
      let location1 := ((fst position + 2)%Z, snd position, EAST) in                  (* 19 *)
      do a0 <- place show BOARD part0 location0;                                      (* 22 *)
      do a1 <- place show BOARD part1 location1;                                      (* 24 *)
      Ok [IState (new_snap order BOARD []);                                           (* 21 *)
          IAction a0;
          IState (new_snap order BOARD [(location0, part0)]);                         (* 23 *)
          IAction a1;
          IState (new_snap order BOARD [(location0, part0); (location1, part1)])].    (* 25 *)

  (** The loop of the script, 35-37, over the positions that random_paths_make_L (30-32) draws, with the graph as it is
      when the loop ends or an exception leaves it.  Simplification: the positions are arguments. *)
  Fixpoint script {ES : EqDec snap} {EA : EqDec act} (g : task_graph snap act) (draws : list (Z * Z)) : task_graph snap act * res unit :=
    match draws with
    | [] => (g, Ok tt)
    | position :: draws =>
        match path_make_L position with
        | Err e => (g, Err e)
        | Ok path => match add_path (act_check mismatch) g path with (g', Ok _) => script g' draws | (g', Err e) => (g', Err e) end
        end
    end.
End Script.
