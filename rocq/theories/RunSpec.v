(** Specification for C101 to C103: the turns of an evaluation on a supportive model. *)
From Verif Require Import PyBase QBase SuppModel EvalModel ScriptSpec.
From Verif Require SuppSpec.
Local Open Scope list_scope.
Local Open Scope nat_scope.

(** One turn: the state, the name of the action, the observation, the next state and the reward. *)
Record turn := { t_from : Z; t_name : string; t_obs : string; t_to : Z; t_reward : Q }.
Fixpoint turns (names obs : list string) (s : Z) (ss : list Z) (acts os : list nat) (rs : list Q) : list turn :=
  match ss, acts, os, rs with
  | s' :: ss, a :: acts, o :: os, r :: rs =>
      {| t_from := s; t_name := nth a names ""%string; t_obs := nth o obs ""%string; t_to := s'; t_reward := r |} :: turns names obs s' ss acts os rs
  | _, _, _, _ => []
  end.
(** The turns of a record returned by simulate_one_evaluation. *)
Definition turns_of (m : spomdp) (rec : record Z) : list turn :=
  match r_states rec with
  | [] => []
  | s :: ss => turns (actions m) observations s ss (r_actions rec) (r_observations rec) (r_rewards rec)
  end.

Section Stages.
  Variable cf : config.
  Variable m : spomdp.
  (** The human is performing a leaf, cleaning, done. *)
  Definition busy (s : Z) : Prop := (htm (int_to_state cf m s) < htm_clean m)%Z.
  Definition cleaning (s : Z) : Prop := htm (int_to_state cf m s) = htm_clean m.
  (** The human finishes a leaf during this turn. *)
  Definition finishes_leaf (t : turn) : Prop := busy (t_from t) /\ htm (int_to_state cf m (t_to t)) <> htm (int_to_state cf m (t_from t)).
  Definition finishes_leafb (t : turn) : bool :=
    Z.ltb (htm (int_to_state cf m (t_from t))) (htm_clean m) && negb (Z.eqb (htm (int_to_state cf m (t_to t))) (htm (int_to_state cf m (t_from t)))).
  Definition leaves_finished (l : list turn) : nat := length (filter finishes_leafb l).
End Stages.

Definition holds_something (t : turn) : Prop := t_name t = "hold H"%string \/ t_name t = "hold V"%string.
(** The items of the script completed by these turns: all turns but those that fail. *)
Definition advanced (l : list turn) : nat := length (filter (fun t => negb (String.eqb (t_obs t) "fail")) l).
(** Each action is one of the item of the script that is reached. *)
Definition follows_script (n : nat) (holds : list string) (l : list turn) : Prop :=
  forall l1 t l2, l = l1 ++ t :: l2 -> In (t_name t) (item n holds (advanced l1)).

(** The likely outcomes of a call: no object or preference changes, undesired holds fail, questions are answered and
    no object action fails. *)
Definition quiet (d : draws) : Prop :=
  (forall i, d_object d i = false) /\ (forall i, d_preference d i = false) /\ d_hold d = true /\ d_answer d = true /\ d_fail d = false.

(** The sum of the rewards, and the best reward for a leaf when costs are not negative. *)
Fixpoint total (l : list Q) : Q := match l with [] => 0 | r :: l => r + total l end.
Definition best_leaf (cf : config) : Q := r_subtask cf + (if Qle_bool (cost_hold cf) (r_preference cf) then r_preference cf - cost_hold cf else 0).
Definition no_negative_cost (cf : config) : Prop := (0 <= cost_hold cf)%Q /\ (0 <= cost_get cf)%Q /\ (0 <= cost_intrinsic cf)%Q.

(** The evaluation of the scripted policy on n legs to assemble when nothing goes wrong: actions and rewards. *)
Definition smooth_names (n : nat) : list string :=
  ["bring screws"; "bring screwdriver"; "bring joints"]%string ++ concat (repeat ["bring leg"; "hold H"]%string n) ++
  ["clear screws"; "clear screwdriver"; "clear joints"; "wait"]%string.
Definition smooth_rewards (cf : config) (n : nat) : list Q :=
  let ask := (- cost_intrinsic cf)%Q in
  [ask; ask; ask] ++ concat (repeat [ask; r_subtask cf + r_preference cf - cost_hold cf]%Q n) ++ [ask; ask; ask; r_final cf].
