(** Specification for C127: the average cost of doing a task made of sequences. *)
From Coq Require Import Qabs.
From Verif Require Import PyBase QBase PomdpModel PomdpSpec ConvModel ConvSpec.
Local Open Scope list_scope.
Local Open Scope nat_scope.

(** x n gets and stays as close to v as one likes. *)
Definition tends_to (x : nat -> Q) (v : Q) : Prop := forall eps, (0 < eps)%Q -> exists N, forall n, N <= n -> (Qabs (x n - v) < eps)%Q.

(** The average of f over the states and observations that can follow action a in state s. *)
Definition average (p : pomdp) (a s : nat) (f : nat -> nat -> Q) : Q :=
  sum_n (nS p) (fun s' => Tr p a s s' * sum_n (nO p) (fun o => Ob p a s' o * f s' o))%Q.
(** The average of the rewards of the first n steps from state s, until state fin is reached, when action act s is chosen in each
    state s. *)
Fixpoint collected (p : pomdp) (act : nat -> nat) (fin n s : nat) : Q :=
  match n with
  | 0 => 0%Q
  | S n => if s =? fin then 0%Q else average p (act s) s (fun s' o => at_ (p_R p) [act s; s; s'; o] + collected p act fin n s')%Q
  end.

(** What the robot does in each state when it shares the task as told by who: before action k it says that it does it, or asks the
    human to; when it has to do it, it does, again and again if need be; when the human does it, it asks whether it is done. *)
Definition shares (who : nat -> bool) (s : nat) : nat :=
  let k := s / 3 in
  match s mod 3 with
  | 0 => if who k then tell_intention k else ask_intention k
  | 1 => ask_finished k
  | _ => physical k
  end.

(** The average cost of an action: what is said, then the attempts of the robot or the questions to the human, less the reward for
    subtasks.  The human finishes between two questions with probability finish. *)
Definition robot_cost (intr : Q) (q : collab) : Q := ((t_rob q + intr) / (1 - fail_proba q))%Q.
Definition human_cost (t_ask intr finish : Q) : Q := ((t_ask + intr) / finish)%Q.
Definition finish (exp : Q -> Q) (t_ask : Q) (fl : flags) (q : collab) : Q := if deterministic fl then 1%Q else (1 - exp (- t_ask / t_hum q))%Q.
Definition action_cost (exp : Q -> Q) (t_ask t_tell intr : Q) (fl : flags) (robot_does : bool) (q : collab) : Q :=
  ((if robot_does then t_tell + intr + robot_cost intr q
    else t_ask + intr + no_proba q * robot_cost intr q + (1 - no_proba q) * human_cost t_ask intr (finish exp t_ask fl q))
   - match subtask_reward fl with Some r => r | None => 0 end)%Q.
(** The sum over all actions, from number k *)
Fixpoint task_cost (cost : bool -> collab -> Q) (who : nat -> bool) (k : nat) (qs : list collab) : Q :=
  match qs with [] => 0%Q | q :: qs => (cost (who k) q + task_cost cost who (S k) qs)%Q end.

(** The durations (human, robot, error) and the probability that the robot fails for the steps of the stool and of the chair; the
    human refuses with probability 1/10. *)
Definition step_params (hum rob err fail : Q) : collab := {| t_hum := hum; t_rob := rob; t_err := err; no_proba := 1 # 10; fail_proba := fail |}.
Definition stool_params : list collab :=
  [step_params 100 20 30 (1 # 10); step_params (1 # 100) 15 30 (1 # 100);
   step_params 100 20 30 (1 # 10); step_params 5 100 100 (1 # 100); step_params 100 20 30 (1 # 10); step_params 5 100 100 (1 # 100);
   step_params 100 1 1 (1 # 10); step_params 100 20 30 (1 # 10); step_params 5 100 100 (1 # 10)].
Definition chair_params : list collab :=
  [step_params 100 20 30 (1 # 10); step_params 3 10 100 (1 # 10);
   step_params 100 20 30 (1 # 10); step_params 5 100 100 (1 # 10); step_params 100 20 30 (1 # 10); step_params 5 100 100 (1 # 10);
   step_params 100 1 1 (1 # 10); step_params 100 20 30 (1 # 10); step_params 5 100 100 (1 # 10)].
