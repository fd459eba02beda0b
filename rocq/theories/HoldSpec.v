(** Specification for C77: the human does their part of the task, then the robot has to do a physical action. *)
From Verif Require Import PyBase PomdpModel PomdpSpec.
Local Open Scope nat_scope.

Definition wait : nat := 0. Definition physical : nat := 1. Definition communicate : nat := 2.
(** The human has not finished, has finished, both have finished. *)
Definition zero : nat := 0. Definition one : nat := 1. Definition final : nat := 2.
Definition nothing : nat := 0. Definition doing : nat := 1. Definition done : nat := 2.

Inductive hr_moves (finish : Q) (a : nat) : nat -> nat -> Q -> Prop :=
| hm_not_yet : hr_moves finish a zero zero (1 - finish)
| hm_finishes : hr_moves finish a zero one finish
| hm_robot : a = physical -> hr_moves finish a one final 1
| hm_idle : a <> physical -> hr_moves finish a one one 1
| hm_over : hr_moves finish a final final 1.
Inductive hr_observes (a : nat) : nat -> nat -> Prop :=
| ho_wait s : a = wait -> hr_observes a s nothing
| ho_zero : a <> wait -> hr_observes a zero doing
| ho_one : a <> wait -> hr_observes a one done
| ho_final : a <> wait -> hr_observes a final nothing.
Inductive hr_costs (cost_wait cost_failure cost_communication : Q) : nat -> nat -> Q -> Prop :=
| hc_wait s : hr_costs cost_wait cost_failure cost_communication wait s cost_wait
| hc_failure : hr_costs cost_wait cost_failure cost_communication physical zero cost_failure
| hc_physical s : s <> zero -> hr_costs cost_wait cost_failure cost_communication physical s 0
| hc_communicate s : hr_costs cost_wait cost_failure cost_communication communicate s cost_communication.
