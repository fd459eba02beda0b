(** Model of the tasks of task_models/stool_scenarios.py and samples/htm2pomdp.py, and of how
    samples/icra_scenario2pomdp.py and samples/htm2pomdp.py convert them. *)
From Verif Require Import PyBase QBase HtmModel NodeModel ConvModel.
Local Open Scope list_scope.

(** CollaborativeAction(name, durations, fail_probability, no_probability), task_to_pomdp.py 35-41; both probabilities
    are 0.1 by default and human_probability is not used. *)
Definition collaborative_action (name : string) (hum rob err : Q) (fail no : Q) : action collab :=
  {| a_class := KCollab; a_name := name; a_agent := "None"; a_params := Some {| t_hum := hum; t_rob := rob; t_err := err; no_proba := no; fail_proba := fail |} |}.
(** LeafCombination(action), task.py 428-430; SequentialCombination(children, name=name), 405-409, 456-457 *)
Definition leaf_comb (a : action collab) : comb collab := Leaf a None None false.
Definition in_sequence (name : string) (ch : list (comb collab)) : res (comb collab) := mk_comb Sequential ch None None name false None.

(** Costs, stool_scenarios.py 7-12; htm2pomdp.py 15-19 has the first, 2 for T_COMM, the last ones *)
Definition T_WAIT : Q := 1.
Definition T_ASK : Q := 2.
Definition T_TELL : Q := 2.
Definition T_COMM : Q := 2.
Definition C_INTR : Q := 1.
Definition INF : Q := 100.

(** stool_scenarios.py 15-49 *)
Definition stool_mount_central : res (comb collab) := in_sequence "Mount central frame"
  [leaf_comb (collaborative_action "Get central frame" INF 20 30 (1 # 10) (1 # 10));
   leaf_comb (collaborative_action "Hold central frame" (1 # 100) 15 30 (1 # 100) (1 # 10))].
Definition stool_mount_legs : res (comb collab) :=
  do l <- in_sequence "Mount left leg"
    [leaf_comb (collaborative_action "Bring left leg" INF 20 30 (1 # 10) (1 # 10)); leaf_comb (collaborative_action "Snap left leg" 5 INF INF (1 # 100) (1 # 10))];
  do r <- in_sequence "Mount right leg"
    [leaf_comb (collaborative_action "Bring right leg" INF 20 30 (1 # 10) (1 # 10)); leaf_comb (collaborative_action "Snap right leg" 5 INF INF (1 # 100) (1 # 10))];
  in_sequence "Mount legs" [l; r].
Definition stool_release_central : comb collab := leaf_comb (collaborative_action "Release central frame" INF 1 1 (1 # 10) (1 # 10)).
Definition stool_mount_top : res (comb collab) := in_sequence "Mount top"
  [leaf_comb (collaborative_action "Bring top" INF 20 30 (1 # 10) (1 # 10)); leaf_comb (collaborative_action "Snap top" 5 INF INF (1 # 10) (1 # 10))].
Definition stool_task_sequential : res (comb collab) :=
  do central <- stool_mount_central; do legs <- stool_mount_legs; do top <- stool_mount_top;
  in_sequence "Mount stool" [central; legs; stool_release_central; top].

(** htm2pomdp.py 31-60 *)
Definition chair_mount_central : res (comb collab) := in_sequence "Mount central frame"
  [leaf_comb (collaborative_action "Get central frame" INF 20 30 (1 # 10) (1 # 10));
   leaf_comb (collaborative_action "Start Hold central frame" 3 10 INF (1 # 10) (1 # 10))].
Definition chair_mount_legs : res (comb collab) :=
  do l <- in_sequence "Mount left leg"
    [leaf_comb (collaborative_action "Get left leg" INF 20 30 (1 # 10) (1 # 10)); leaf_comb (collaborative_action "Snap left leg" 5 INF INF (1 # 10) (1 # 10))];
  do r <- in_sequence "Mount right leg"
    [leaf_comb (collaborative_action "Get right leg" INF 20 30 (1 # 10) (1 # 10)); leaf_comb (collaborative_action "Snap right leg" 5 INF INF (1 # 10) (1 # 10))];
  in_sequence "Mount legs" [l; r].
Definition chair_release_central : comb collab := leaf_comb (collaborative_action "Release central frame" INF 1 1 (1 # 10) (1 # 10)).
Definition chair_mount_top : res (comb collab) := in_sequence "Mount top"
  [leaf_comb (collaborative_action "Get top" INF 20 30 (1 # 10) (1 # 10)); leaf_comb (collaborative_action "Snap top" 5 INF INF (1 # 10) (1 # 10))].
Definition chair_task : res (comb collab) :=
  do central <- chair_mount_central; do legs <- chair_mount_legs; do top <- chair_mount_top;
  in_sequence "Mount chair" [central; legs; chair_release_central; top].

(** HTMToPOMDP(t_wait, t_ask, t_tell, intr_cost=0, end_reward=10., ...), task_to_pomdp.py 390-410, as called by
    icra_scenario2pomdp.py 18-19 and by htm2pomdp.py 64-66, where C_INTR is the third argument, t_tell *)
Definition script_flags : flags := {| deterministic := false; structured := false; loop := false; reward_state := false; subtask_reward := None |}.
Definition icra_pomdp (exp : Q -> Q) : res pomdp :=
  do task <- stool_task_sequential; task_to_pomdp exp T_ASK T_TELL script_flags T_WAIT C_INTR (1 # 10) task true.
Definition chair_pomdp (exp : Q -> Q) : res pomdp :=
  do task <- chair_task; task_to_pomdp exp T_COMM C_INTR script_flags T_WAIT 0 (1 # 10) task true.
