(** The random draws of the supportive simulator with their probabilities, /repo/task_models/supportive.py. *)
From Verif Require Import QBase PyBase CodecModel SuppModel.
Local Open Scope nat_scope.

(** The class attributes p_fail, p_consume_all, p_changed_by_human, p_change_preference and p_preferences,
    supportive.py 264-267 and 283; subclasses and instances may set others. *)
Record probabilities := { p_fail : Q; p_consume_all : Q; p_changed_by_human : Q; p_change_preference : Q; p_preferences : list Q }.
Definition class_probabilities : probabilities :=
  {| p_fail := 1 # 100; p_consume_all := 1 # 2; p_changed_by_human := 1 # 100; p_change_preference := 1 # 100;
     p_preferences := [3 # 10] |}%Q.

(** What the calls to np.random return during one step or one start: np.random.random((n_objects))
    (supportive.py 217), np.random.random((n_preferences)) or one np.random.random() for each preference
    (222 and 517), the np.random.random() of lines 469, 485, 490 or 502 (at most one of them is executed in a
    step), the index of np.random.choice (375 and 513), and one np.random.random() for each condition
    CONSUMES_SOME met (429). Simplification: numbers that a step does not need are there all the same. *)
Record numbers := { n_objects : list Q; n_preferences : list Q; n_luck : Q; n_index : nat; n_consume : list Q }.

(** [np.random.random() < p] *)
Definition below (p u : Q) : bool := negb (Qle_bool p u).

(** The comparisons of random_object_changes and random_preference_changes, supportive.py 216-224, of
    sample_transition, 440-443, 469, 485, 490, 502, and of _update_for_condition, 429. The answer to a question
    depends on the preference after the random changes. *)
Definition step_draws (cf : config) (m : spomdp) (pr : probabilities) (x : numbers) (random : bool) (s : Z) : draws :=
  let dobj := fun i => below (p_changed_by_human pr) (nth i (n_objects x) 0%Q) in
  let dpref := fun i => below (p_change_preference pr) (nth i (n_preferences x) 0%Q) in
  let y := if random
           then random_preference_changes (map dpref (seq 0 (cf_preferences cf)))
                  (random_object_changes (map dobj (seq 0 (length (objects m)))) (int_to_state cf m s))
           else int_to_state cf m s in
  {| d_object := dobj; d_preference := dpref; d_succ := n_index x;
     d_hold := below (98 # 100) (n_luck x);
     d_answer := below (if Z.eqb (has_preference y 0) 0 then 95 # 100 else 9 # 10)%Q (n_luck x);
     d_fail := below (p_fail pr) (n_luck x);
     d_consume := fun k => below (p_consume_all pr) (nth k (n_consume x) 0%Q) |}.
(** sample_transition with its draws, supportive.py 437-509 *)
Definition drawn_transition (cf : config) (m : spomdp) (pr : probabilities) (x : numbers) (random : bool) (a s : Z) : res (Z * nat * Q) :=
  sample_transition cf m (step_draws cf m pr x random s) random a s.

(** sample_start with its draws, supportive.py 511-520 *)
Definition start_draws (pr : probabilities) (x : numbers) : draws :=
  {| d_object := fun i => below (p_changed_by_human pr) (nth i (n_objects x) 0%Q);
     d_preference := fun i => below (nth i (p_preferences pr) 0%Q) (nth i (n_preferences x) 0%Q);
     d_succ := n_index x; d_hold := false; d_answer := false; d_fail := false; d_consume := fun _ => false |}.
Definition drawn_start (cf : config) (m : spomdp) (pr : probabilities) (x : numbers) : res Z :=
  sample_start cf m (start_draws pr x).
