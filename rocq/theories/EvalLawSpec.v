(** Specification for C112: the law of an evaluation, told on worlds. *)
From Verif Require Import QBase PyBase PomdpModel CodecModel SuppModel SuppSpec EvalModel EvalSpec SuppLawModel LawSpec SuppLawSpec.
Local Open Scope list_scope.
Local Open Scope nat_scope.

(** What happens at a moment of an episode: the action of the robot, the observation, the reward and the new world *)
Definition moment : Type := robot * string * Q * world.
Definition m_robot (x : moment) : robot := fst (fst (fst x)).
Definition m_observation (x : moment) : string := snd (fst (fst x)).
Definition m_reward (x : moment) : Q := snd (fst x).
Definition m_world (x : moment) : world := snd x.

Section Episodes.
  Variable cf : config.
  Variable pr : probabilities.
  (** The leaves of the task, their successors, the first leaves, and the names of the objects *)
  Variable nodes : list sparams.
  Variable succs : list (list nat).
  Variable init : list nat.
  Variable objs : list string.
  (** The policy: its action in each of its states, and its next state for each observation *)
  Variable P : Type.
  Variable act : P -> robot.
  Variable nxt : P -> string -> P.

  (** The chances of what happens in at most n moments: it ends before when the task is finished. *)
  Fixpoint episodes (n : nat) (p : P) (w : world) : space (list moment) :=
    match n with
    | 0 => certain []
    | S n => next (step_law cf pr nodes succs objs true w (act p)) (fun e =>
               let '(w', ob, r) := e in
               next (match w_stage w' with Finished => certain [] | _ => episodes n (nxt p ob) w' end)
                    (fun l => certain ((act p, ob, r, w') :: l)))
    end.
  Definition from_start (n : nat) (p : P) : space (world * list moment) :=
    next (start_law pr init objs) (fun w => next (episodes n p w) (fun l => certain (w, l))).

  (** Expected sum of the rewards of n moments *)
  Fixpoint expected_sum (n : nat) (p : P) (w : world) : Q :=
    match n with
    | 0 => 0%Q
    | S n => mean (step_law cf pr nodes succs objs true w (act p)) (fun e =>
               let '(w', ob, r) := e in (r + match w_stage w' with Finished => 0 | _ => expected_sum n (nxt p ob) w' end)%Q)
    end.
  (** Chance that the task is finished within n moments *)
  Fixpoint finish_chance (n : nat) (p : P) (w : world) : Q :=
    match n with
    | 0 => 0%Q
    | S n => mean (step_law cf pr nodes succs objs true w (act p)) (fun e =>
               let '(w', ob, r) := e in match w_stage w' with Finished => 1%Q | _ => finish_chance n (nxt p ob) w' end)
    end.
End Episodes.

(** A record of an evaluation tells the same as a start world and the moments that follow. *)
Definition same_moment (cf : config) (m : spomdp) (x : step Z) (y : moment) : Prop :=
  nth_error (actions m) (s_action x) = Some (robot_name (m_robot y)) /\ nth_error observations (s_observation x) = Some (m_observation y) /\
  (s_reward x == m_reward y)%Q /\ reads cf m (s_state x) (m_world y).
Definition tells (cf : config) (m : spomdp) (gamma : Q) (rec : record Z) (w : world) (l : list moment) : Prop :=
  exists s0 steps, r_states rec = s0 :: map s_state steps /\ r_actions rec = map s_action steps /\ r_observations rec = map s_observation steps /\ r_rewards rec = map s_reward steps /\
    reads cf m s0 w /\ Forall2 (same_moment cf m) steps l /\ (r_return rec == discounted gamma (rev (map m_reward l)))%Q.

(** The policy that is evaluated behaves like act and nxt, in the states of Inv. *)
Definition behaves {P} (m : spomdp) (pol : epolicy P) (Inv : P -> Prop) (act : P -> robot) (nxt : P -> string -> P) : Prop :=
  forall p, Inv p -> exists p1, ep_action pol p = Ok (robot_name (act p), p1) /\ In (robot_name (act p)) (actions m) /\
    forall ob, In ob observations -> ep_step pol p1 ob = Ok (nxt p ob) /\ Inv (nxt p ob).
