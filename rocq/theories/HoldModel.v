(** Model of task_models/hold_and_release.py. *)
From Verif Require Export PomdpModel ConvModel.
Local Open Scope list_scope.
Local Open Scope nat_scope.

Section Hold.
  Variables cost_wait cost_failure cost_communication proba_finish : Q.
  (** T, 9-18: the rows [T[:, 0, :]], [T[:, 2, :]] then [T[:, 1, :]], one row for each action *)
  Definition hold_T : tensor :=
    let T := fun _ _ _ => 0%Q in
    let T := put3 (fun _ s _ => s =? 0) (vec [1 - proba_finish; proba_finish; 0]%Q) T in
    let T := put3 (fun _ s _ => s =? 2) (vec [0; 0; 1]%Q) T in
    put3 (fun _ s _ => s =? 1) (fun a _ s' => nth s' (nth a [[0; 1; 0]; [0; 0; 1]; [0; 1; 0]]%Q []) 0%Q) T.
  (** O, 19-23: [O[0, :, :]], then [O[[1, 2], :, :]], one row for each state *)
  Definition hold_O : tensor :=
    let O := fun _ _ _ => 0%Q in
    let O := put3 (fun a _ _ => a =? 0) (vec [1; 0; 0]%Q) O in
    put3 (fun a _ _ => (a =? 1) || (a =? 2)) (fun _ s o => nth o (nth s [[0; 1; 0]; [0; 0; 1]; [1; 0; 0]]%Q []) 0%Q) O.
  (** R, 24-28 *)
  Definition hold_R : tensor4 :=
    let R := fun _ _ _ _ => 0%Q in
    let R := put4 (fun a _ _ _ => a =? 0) (fun _ _ _ _ => cost_wait) R in
    let R := put4 (fun a s _ _ => (a =? 1) && (s =? 0)) (fun _ _ _ _ => cost_failure) R in
    put4 (fun a _ _ _ => a =? 2) (fun _ _ _ _ => cost_communication) R.
  (** hold_and_release_pomdp, 6-33 *)
  Definition hold_and_release_pomdp (solver : bool) : res pomdp :=
    mk_pomdp (array3 3 3 3 hold_T) (array3 3 3 3 hold_O) (array4 3 3 3 3 hold_R) (array1 3 (fun s => nth s [1; 0; 0]%Q 0%Q)) 1
             (Some (map NStr ["zero"; "one"; "final"]%string)) (Some (map NStr ["wait"; "physical"; "communicate"]%string))
             (Some (map NStr ["nothing"; "doing"; "done"]%string)) "cost" solver.
End Hold.
