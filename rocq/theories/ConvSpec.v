(** Specification for C65 to C67, C85 and C86: the POMDP of a task, in terms of the leaves of its unfolding
    (NodeSpec) and of their runs. *)
From Verif Require Import PyBase QBase HtmModel HtmSpec PomdpModel PomdpSpec ConvModel NodeModel NodeSpec NameSpec.
Local Open Scope list_scope.
Local Open Scope nat_scope.

(** Numbers of states and actions: three states and four actions for each leaf. *)
Definition before_leaf (k : nat) : nat := 3 * k.
Definition human (k : nat) : nat := 3 * k + 1.
Definition robot (k : nat) : nat := 3 * k + 2.
Definition waiting : nat := 0.
Definition physical (k : nat) : nat := 4 * k + 1.
Definition ask_intention (k : nat) : nat := 4 * k + 2.
Definition tell_intention (k : nat) : nat := 4 * k + 3.
Definition ask_finished (k : nat) : nat := 4 * k + 4.



Section Spec.
  Variable exp : Q -> Q.
  Variables t_wait t_ask t_tell intr end_reward : Q.
  Variable fl : flags.
  Variable t : n2p collab.

  Definition number : nat := length (leaves t).
  (** The state reached when the task is over; the state after it, with reward_state. *)
  Definition over : nat := 3 * number.
  Definition place (o : option nat) : nat := match o with Some j => before_leaf j | None => over end.
  Definition param (k : nat) (p : collab) : Prop := exists a, nth_error (leaves t) k = Some a /\ a_class a = KCollab /\ a_params a = Some p.

  (** Durations of actions. *)
  Inductive lasts : nat -> Q -> Prop :=
  | la_wait : lasts waiting t_wait
  | la_phy k p : param k p -> lasts (physical k) (t_err p)
  | la_ask k p : param k p -> lasts (ask_intention k) t_ask
  | la_tell k p : param k p -> lasts (tell_intention k) t_tell
  | la_finished k p : param k p -> lasts (ask_finished k) t_ask.

  (** In state s, action a leads to s' with probability q. *)
  Inductive goes (a : nat) : nat -> nat -> Q -> Prop :=
  | go_yes k p : param k p -> a = ask_intention k -> goes a (before_leaf k) (human k) (1 - no_proba p)
  | go_no k p : param k p -> a = ask_intention k -> goes a (before_leaf k) (robot k) (no_proba p)
  | go_told k p : param k p -> a = tell_intention k -> goes a (before_leaf k) (robot k) 1
  | go_undecided k p : param k p -> a <> ask_intention k -> a <> tell_intention k -> goes a (before_leaf k) (before_leaf k) 1
  (* the robot acts *)
  | go_fail k p : param k p -> a = physical k -> goes a (robot k) (robot k) (fail_proba p)
  | go_success k p o q : param k p -> a = physical k -> leads t k o q -> goes a (robot k) (place o) ((1 - fail_proba p) * q)
  | go_idle k p : param k p -> a <> physical k -> goes a (robot k) (robot k) 1
  (* the human acts: they finish after a random time, or, with deterministic, when asked whether they have *)
  | go_busy k p d : deterministic fl = false -> param k p -> lasts a d -> goes a (human k) (human k) (exp (- d / t_hum p))
  | go_finished k p d o q : deterministic fl = false -> param k p -> lasts a d -> leads t k o q -> goes a (human k) (place o) ((1 - exp (- d / t_hum p)) * q)
  | go_unasked k p : deterministic fl = true -> param k p -> a <> ask_finished k -> goes a (human k) (human k) 1
  | go_asked k p l o : deterministic fl = true -> param k p -> a = ask_finished k ->
      NoDup l -> (forall o, In o l <-> exists q, leads t k o q) -> In o l -> goes a (human k) (place o) (1 / inject_Z (Z.of_nat (length l)))
  (* the task is over *)
  | go_end : loop fl = false -> reward_state fl = false -> goes a over over 1
  | go_reward : loop fl = false -> reward_state fl = true -> goes a over (over + 1) 1
  | go_rewarded : loop fl = false -> reward_state fl = true -> goes a (over + 1) (over + 1) 1
  | go_again j q : loop fl = true -> enters t j q -> goes a over (before_leaf j) 1.

  (** Action a, reaching state s', is observed as o: none, yes, no, error, done. *)
  Definition none : nat := 0. Definition yes : nat := 1. Definition no : nat := 2. Definition error : nat := 3. Definition done : nat := 4.
  (** s' is a state in which leaf k has just been done; in which it has been done. *)
  Definition just_after (k s' : nat) : Prop :=
    (exists r j, run t r /\ directly r k j /\ s' = before_leaf j) \/ (exists r, run t r /\ ends_with r k /\ s' = over).
  Definition later (k s' : nat) : Prop :=
    (exists r j, run t r /\ before r k j /\ (s' = before_leaf j \/ s' = human j \/ s' = robot j)) \/ s' = over.
  Inductive answer (k : nat) (a s' : nat) : nat -> Prop :=
  | an_good : a = physical k -> just_after k s' -> answer k a s' none
  | an_bad : a = physical k -> ~ just_after k s' -> answer k a s' error
  | an_human : a = ask_intention k -> s' = human k -> answer k a s' yes
  | an_robot : a = ask_intention k -> s' = robot k -> answer k a s' no
  | an_nothing : a = ask_intention k -> s' <> human k -> s' <> robot k -> answer k a s' none
  | an_told : a = tell_intention k -> answer k a s' none
  | an_finished : deterministic fl = false -> a = ask_finished k -> later k s' -> answer k a s' yes
  | an_unfinished : deterministic fl = false -> a = ask_finished k -> ~ later k s' -> answer k a s' no
  | an_det_yes : deterministic fl = true -> a = ask_finished k -> just_after k s' -> answer k a s' yes
  | an_det_no : deterministic fl = true -> a = ask_finished k -> s' = human k -> answer k a s' no
  | an_det_error : deterministic fl = true -> a = ask_finished k -> ~ just_after k s' -> s' <> human k -> answer k a s' error.
  Inductive sees (a s' : nat) : nat -> Prop :=
  | se_done : (loop fl = true \/ reward_state fl = true) -> s' = over -> sees a s' done
  | se_end : reward_state fl = true -> s' = over + 1 -> sees a s' none
  | se_wait : s' < over \/ (loop fl = false /\ reward_state fl = false /\ s' = over) -> a = waiting -> sees a s' none
  | se_leaf k o : s' < over \/ (loop fl = false /\ reward_state fl = false /\ s' = over) -> k < number -> answer k a s' o -> sees a s' o.

  (** Doing action a in state s and reaching s' costs c. *)
  Definition intrinsic (a : nat) : Q := if Nat.eqb a waiting then 0%Q else intr.
  Definition of_leaf (k s : nat) : Prop := s = before_leaf k \/ s = human k \/ s = robot k.
  Definition bonus (k s' : nat) (b : Q) : Prop :=
    match subtask_reward fl with
    | Some r => (of_leaf k s' /\ b = 0%Q) \/ (~ of_leaf k s' /\ b = r)
    | None => b = 0%Q
    end.
  Inductive costs (a s s' : nat) : Q -> Prop :=
  | co_time k p d b : param k p -> of_leaf k s -> ~ (a = physical k /\ s = robot k) -> lasts a d -> bonus k s' b -> costs a s s' (d + intrinsic a - b)
  | co_physical k p b : param k p -> a = physical k -> s = robot k -> bonus k s' b -> costs a s s' (t_rob p + intr - b)
  | co_reward : s = over -> a = waiting -> costs a s s' (- end_reward)
  | co_over : s = over -> a <> waiting -> costs a s s' intr
  | co_end_wait : reward_state fl = true -> s = over + 1 -> a = waiting -> costs a s s' 0
  | co_end : reward_state fl = true -> s = over + 1 -> a <> waiting -> costs a s s' intr.

  (** Names. *)
  Definition state_name (s : nat) (n : string) : Prop :=
    (exists k a, nth_error (leaves t) k = Some a /\
       ((s = before_leaf k /\ n = "init-" ++ dashed (a_name a)) \/ (s = human k /\ n = "H-" ++ dashed (a_name a)) \/ (s = robot k /\ n = "R-" ++ dashed (a_name a))))%string \/
    (s = over /\ n = (if reward_state fl then "end-reward" else "end"))%string \/
    (reward_state fl = true /\ s = over + 1 /\ n = "end")%string.
  Definition action_name (i : nat) (n : string) : Prop :=
    (i = waiting /\ n = "wait")%string \/
    (exists k a, nth_error (leaves t) k = Some a /\
       ((i = physical k /\ n = "phy-" ++ dashed (a_name a)) \/ (i = ask_intention k /\ n = "com-ask-intention-" ++ dashed (a_name a)) \/
        (i = tell_intention k /\ n = "com-tell-intention-" ++ dashed (a_name a)) \/ (i = ask_finished k /\ n = "com-ask-finished-" ++ dashed (a_name a))))%string.
End Spec.

(** A leaf that can be converted; with probabilities and durations that make sense. *)
Definition collaborative (a : action collab) : Prop := exists p, a_class a = KCollab /\ a_params a = Some p.
Definition sensible (a : action collab) : Prop :=
  exists p, a_class a = KCollab /\ a_params a = Some p /\
    (0 <= no_proba p <= 1)%Q /\ (0 <= fail_proba p <= 1)%Q /\ (0 < t_hum p)%Q /\ (0 <= t_err p)%Q.
(** All leaves of a task. *)
Definition all_leaves (G : action collab -> Prop) (c : comb collab) : Prop := forall a i p h, In (Leaf a i p h) (HtmSpec.preorder c) -> G a.
(** The names of the leaves of the unfolded task differ, up to case and spaces. *)
Definition distinct_names (t : n2p collab) : Prop := NoDup (map (fun a => dashed (a_name a)) (leaves t)).
(** All runs start with the same leaf. *)
Definition one_start (t : n2p collab) : Prop := exists j, forall r i, run t r -> starts_with r i -> i = j.
