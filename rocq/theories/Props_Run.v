(** C101 to C103: scripted policies evaluated on supportive models, and the returns of evaluations. *)
From Verif Require Import PyBase PyBaseFacts QBase HtmModel HtmSpec DagModel DagSpec SuppModel SuppSpec SuppProofs4 EvalModel EvalSpec RunModel RunSpec RunProofs RunProofs2 Props_Eval Props_Supp.
From Verif Require ScriptSpec.
From Coq Require Import Lia Lqa.
Import HtmSpec.
Local Open Scope list_scope.
Local Open Scope nat_scope.

(** *** C101 *)
(** Whatever the random outcomes, the random choices of the policy and its earlier uses, evaluating a scripted policy on a
    supportive model that has the actions it names returns a record: no observation is unexpected.  The policy follows its
    script, going to the next item at each turn that does not fail; and the human finishes a leaf exactly when they are busy
    and nothing special is observed while the robot holds or waits. *)
Theorem C101_follows : forall cf ordn t m n_tasks holds s0 uses s c choices disc d0 ds max_horizon discount,
  is_order ordn -> mk_supportive ordn t = Ok m -> 1 <= cf_preferences cf ->
  new_script (actions m) observations n_tasks holds = Ok s0 -> In "bring leg"%string (actions m) -> holds <> [] -> incl holds ["hold H"; "hold V"]%string ->
  ScriptSpec.after s0 uses = Some s ->
  exists rec q, simulate_one_evaluation (model_is_final cf m) (supportive_model cf m disc d0 ds) (script_policy choices) (s, c) max_horizon discount = Ok (rec, q) /\
    length (turns_of m rec) = length (r_actions rec) /\
    follows_script (Z.to_nat n_tasks) holds (turns_of m rec) /\
    forall x, In x (turns_of m rec) ->
      In (t_obs x) ["none"; "fail"; "not-found"]%string /\
      (finishes_leaf cf m x <-> busy cf m (t_from x) /\ t_obs x = "none"%string /\ (t_name x = "wait"%string \/ holds_something x)) /\
      (model_is_final cf m (t_to x) = true <-> t_name x = "wait"%string /\ cleaning cf m (t_from x)).
Proof.
  intros cf ordn t m n_tasks holds s0 uses s c choices disc d0 ds max_horizon discount Ho E Hc New Hleg Hne Hh Ha.
  destruct (mk_facts _ _ _ Ho E) as (nodes & succs & init & ps & Ed & B & D).
  destruct (evaluates cf ordn t m Ho E Hc nodes succs init ps B D n_tasks holds s0 New Hleg Hne Hh choices disc d0 ds uses s c max_horizon discount Ha) as (rec & q & Er).
  exists rec, q. split; [exact Er|].
  destruct (J_after m n_tasks holds s0 New Hleg Hne Hh choices uses s c Ha) as (p & Ep & Hj).
  destruct (C70_record _ _ _ _ _ _ _ _ _ _ Er) as (p0 & st0 & l & R1 & R2 & R3 & R4 & R5 & R6 & R7 & R8 & R9 & R10).
  assert (p0 = p) as -> by congruence. destruct (start_sound cf m _ _ _ _ B D d0) as (s' & i & Es & Hi & Hr). cbn [supportive_model em_start] in R2. assert (s' = st0) as -> by congruence.
  assert (HT : turns_of m rec = turns_from (actions m) observations st0 l) by (unfold turns_of; rewrite R4, R5, R6, R7; apply turns_map).
  rewrite HT. split; [rewrite turns_from_length, R5, map_length; reflexivity|].
  destruct (trace_script cf ordn t m Ho E Hc nodes succs init ps B D n_tasks holds s0 New Hleg Hne Hh choices disc d0 ds _ _ _ _ _ R3 0 _ Hj Hr) as [T1 T2].
  split; [exact T1|]. intros x Hx. rewrite Forall_forall in T2. split; [apply T2; auto|].
  pose proof (trace_documented cf m nodes succs init ps B D Hc _ _ _ _ _ _ _ _ _ R3 _ Hr) as TD. rewrite Forall_forall in TD. split; [apply (turn_leaf cf m nodes succs init ps D Hc _ (TD x Hx))|].
  apply (turn_final cf m succs ps Hc _ (TD x Hx)).
  assert (F0 : model_is_final cf m st0 = false) by (destruct (model_is_final cf m st0) eqn:K; [apply (final_iff cf m _ _ Hr) in K; discriminate|reflexivity]).
  pose proof (turns_not_final (actions m) observations (model_is_final cf m) l st0 F0 R9) as TF. rewrite Forall_forall in TF. apply TF. auto.
Qed.
Print Assumptions C101_follows.

(** A concrete evaluation: two legs, no outcome out of the ordinary; and the same when the first three calls fail. *)
Definition ex_quiet : draws := {| d_object := fun _ => false; d_preference := fun _ => false; d_succ := 0; d_hold := true; d_answer := true; d_fail := false; d_consume := fun _ => true |}.
Definition ex_first : draws := {| d_object := fun _ => false; d_preference := fun _ => true; d_succ := 0; d_hold := true; d_answer := true; d_fail := false; d_consume := fun _ => true |}.
Definition ex_fails : draws := {| d_object := fun _ => false; d_preference := fun _ => false; d_succ := 0; d_hold := true; d_answer := true; d_fail := true; d_consume := fun _ => true |}.
Definition ex_evaluation (n : nat) (max_horizon : Z) (ds : nat -> draws) : res (list string * list string * nat * Q * bool) :=
  do t <- task_long_sequence n; do m <- mk_supportive (fun l => l) t; do s0 <- long_sequence m;
  do rq <- simulate_one_evaluation (model_is_final default_config m) (supportive_model default_config m 1 ex_first ds) (script_policy (fun k => k)) (s0, 0) max_horizon false;
  let l := turns_of m (fst rq) in
  Ok (map t_name l, map t_obs l, leaves_finished default_config m l, Qred (total (r_rewards (fst rq))), existsb (model_is_final default_config m) (r_states (fst rq))).
Example C101_ex : ex_evaluation 2 20 (fun k => if k <? 3 then ex_fails else ex_quiet) =
  Ok (repeat "bring screws"%string 3 ++ smooth_names 2, repeat "fail"%string 3 ++ repeat "none"%string 11, 2, inject_Z 125, true).
Proof. vm_compute. reflexivity. Qed.
Example C101_ex_hypotheses : exists t m s0, task_long_sequence 2 = Ok t /\ mk_supportive (fun l => l) t = Ok m /\
  new_script (actions m) observations 2 ["hold H"%string] = Ok s0 /\ In "bring leg"%string (actions m) /\ ScriptSpec.after s0 [] = Some s0.
Proof. eexists _, _, _. split; [vm_compute; reflexivity|]. split; [vm_compute; reflexivity|]. split; [vm_compute; reflexivity|]. split; [|vm_compute; reflexivity]. vm_compute. tauto. Qed.

(** *** C102 *)
(** The human only finishes with the policy after as many leaves as the policy expects: if a final state is reached, the leaves
    finished are an execution of the task that has at least that many leaves. *)
Theorem C102_finishing : forall cf ordn t m n_tasks holds s0 uses s c choices disc d0 ds max_horizon discount rec q,
  is_order ordn -> mk_supportive ordn t = Ok m -> 1 <= cf_preferences cf ->
  new_script (actions m) observations n_tasks holds = Ok s0 -> In "bring leg"%string (actions m) -> holds <> [] -> incl holds ["hold H"; "hold V"]%string ->
  ScriptSpec.after s0 uses = Some s ->
  simulate_one_evaluation (model_is_final cf m) (supportive_model cf m disc d0 ds) (script_policy choices) (s, c) max_horizon discount = Ok (rec, q) ->
  forall x, In x (r_states rec) -> model_is_final cf m x = true ->
  Z.to_nat n_tasks <= leaves_finished cf m (turns_of m rec) /\ exists word, executes (fun a => a) t word /\ length word = leaves_finished cf m (turns_of m rec).
Proof.
  intros cf ordn t m n_tasks holds s0 uses s c choices disc d0 ds max_horizon discount rec q Ho E Hc New Hleg Hne Hh Ha Er x Hx Fx.
  destruct (mk_facts _ _ _ Ho E) as (nodes & succs & init & ps & Ed & B & D).
  destruct (J_after m n_tasks holds s0 New Hleg Hne Hh choices uses s c Ha) as (p & Ep & Hj).
  destruct (C70_record _ _ _ _ _ _ _ _ _ _ Er) as (p0 & st0 & l & R1 & R2 & R3 & R4 & R5 & R6 & R7 & R8 & R9 & R10).
  assert (p0 = p) as -> by congruence. destruct (start_sound cf m _ _ _ _ B D d0) as (s' & i & Es & Hi & Hr). cbn [supportive_model em_start] in R2. assert (s' = st0) as -> by congruence.
  assert (HT : turns_of m rec = turns_from (actions m) observations st0 l) by (unfold turns_of; rewrite R4, R5, R6, R7; apply turns_map). rewrite HT.
  destruct (trace_script cf ordn t m Ho E Hc nodes succs init ps B D n_tasks holds s0 New Hleg Hne Hh choices disc d0 ds _ _ _ _ _ R3 0 _ Hj Hr) as [T1 _].
  pose proof (trace_documented cf m nodes succs init ps B D Hc _ _ _ _ _ _ _ _ _ R3 _ Hr) as TD.
  assert (F0 : model_is_final cf m st0 = false) by (destruct (model_is_final cf m st0) eqn:K; [apply (final_iff cf m _ _ Hr) in K; discriminate|reflexivity]).
  pose proof (turns_not_final (actions m) observations (model_is_final cf m) l st0 F0 R9) as TF.
  destruct (trace_episode cf m _ _ _ _ _ _ _ _ _ R3 [] (episode_start cf m d0 st0 Es)) as (done & He & Hl). cbn [length plus] in Hl.
  (* the final state is the last one *)
  assert (exists l1 y, l = l1 ++ [y] /\ s_state y = x) as (l1 & y & El & Ey).
  { rewrite R4 in Hx. destruct Hx as [<-|Hx]; [congruence|]. apply in_map_iff in Hx. destruct Hx as (y & Ey & Hy). apply in_split in Hy. destruct Hy as (l1 & l2 & El). exists l1, y. split; [|auto]. destruct l2 as [|z l2]; [auto|]. exfalso. assert (model_is_final cf m (s_state y) = false) by (apply (R9 l1 y (z :: l2) El); discriminate). congruence. }
  rewrite El, turns_from_app in T1, TD, TF. cbn [turns_from] in T1, TD, TF. set (l0 := turns_from (actions m) observations st0 l1) in *.
  match type of TD with Forall _ (_ ++ [?t]) => set (tl := t) in * end.
  apply Forall_app in TD. destruct TD as [TD1 TD2]. apply Forall_app in TF. destruct TF as [TF1 TF2]. inversion TD2 as [|? ? TD3 _]; subst. inversion TF2 as [|? ? TF3 _]; subst.
  assert (Fl : model_is_final cf m (t_to tl) = true) by exact Fx.
  apply (turn_final cf m succs ps Hc tl TD3 TF3) in Fl. destruct Fl as [W1 W2].
  assert (Hw := T1 l0 tl [] eq_refl). cbn [plus] in Hw. rewrite W1 in Hw. apply (wait_end cf Hc (Z.to_nat n_tasks) holds Hh) in Hw.
  pose proof (count_holds cf m nodes succs init ps D Hc (Z.to_nat n_tasks) holds Hh l0 TD1 TF1 0) as CH. cbn [plus] in CH.
  rewrite (holds_before_end (Z.to_nat n_tasks) (advanced l0)) in CH by lia.
  split.
  - rewrite turns_from_app. unfold leaves_finished. rewrite filter_app, app_length. fold l0. unfold leaves_finished in CH. etransitivity; [apply CH|unfold holds_before; cbn; lia].
    intros l3 t' l4 K. apply (T1 l3 t' (l4 ++ [tl])). rewrite K, <- app_assoc. reflexivity.
  - destruct (C34_episodes cf ordn t m Ho E Hc done _ He) as (word & C1 & C2 & C3 & _). exists word. split; [exact C1|]. rewrite <- Hl. symmetry. apply C3. right.
    assert (Ll : forall (A : Type) (l : list A) a d, last (l ++ [a]) d = a) by (intros; apply last_last).
    rewrite map_app. cbn [map]. rewrite Ll. destruct TD3 as (_ & _ & w' & _ & _ & _ & Hr' & _). change (t_to tl) with (s_state y) in Hr'.
    rewrite (reads_htm cf m _ _ Hr'). apply (final_iff cf m _ _ Hr') in Fx. rewrite Fx. reflexivity.
Qed.
Print Assumptions C102_finishing.

(** So on a task that has no execution that long the evaluation never ends before max_horizon.  This happens for
    PolicyLongSupportiveSequence on tasks with alternatives, whose leaves it counts all. *)
Theorem C102_never : forall cf ordn t m n_tasks holds s0 uses s c choices disc d0 ds max_horizon discount rec q,
  is_order ordn -> mk_supportive ordn t = Ok m -> 1 <= cf_preferences cf ->
  new_script (actions m) observations n_tasks holds = Ok s0 -> In "bring leg"%string (actions m) -> holds <> [] -> incl holds ["hold H"; "hold V"]%string ->
  ScriptSpec.after s0 uses = Some s -> (forall word, executes (fun a => a) t word -> length word < Z.to_nat n_tasks) ->
  simulate_one_evaluation (model_is_final cf m) (supportive_model cf m disc d0 ds) (script_policy choices) (s, c) max_horizon discount = Ok (rec, q) ->
  length (r_actions rec) = Z.to_nat max_horizon /\ forall x, In x (r_states rec) -> model_is_final cf m x = false.
Proof.
  intros cf ordn t m n_tasks holds s0 uses s c choices disc d0 ds max_horizon discount rec q Ho E Hc New Hleg Hne Hh Ha HW Er.
  assert (NF : forall x, In x (r_states rec) -> model_is_final cf m x = false).
  { intros x Hx. destruct (model_is_final cf m x) eqn:Fx; [|reflexivity]. exfalso.
    destruct (C102_finishing cf ordn t m n_tasks holds s0 uses s c choices disc d0 ds max_horizon discount rec q Ho E Hc New Hleg Hne Hh Ha Er x Hx Fx) as (L1 & word & L2 & L3). specialize (HW word L2). lia. }
  split; [|exact NF]. destruct (C70_record _ _ _ _ _ _ _ _ _ _ Er) as (p0 & st0 & l & R1 & R2 & R3 & R4 & R5 & R6 & R7 & R8 & R9 & R10).
  rewrite R5, map_length. destruct R10 as [R10|(l1 & x & El & Fx)]; [exact R10|]. exfalso. rewrite (NF (s_state x)) in Fx; [discriminate|]. rewrite R4, El, map_app. right. apply in_or_app. right. left. reflexivity.
Qed.
Print Assumptions C102_never.

(** When nothing goes wrong: on a task that assembles n legs whatever the execution, if the human wants help and only the likely
    outcomes happen, the evaluation performs each item of the script once, with these rewards, and ends in a final state. *)
Theorem C102_quiet : forall cf ordn t m n s0 uses s c choices disc d0 ds max_horizon discount,
  is_order ordn -> mk_supportive ordn t = Ok m -> 1 <= cf_preferences cf ->
  (forall a i p h, In (Leaf a i p h) (preorder t) -> exists q, a_params a = Some q /\ sp_conditions q = leg_conditions /\ sp_hold q = Some "h"%string) ->
  (forall word, executes (fun a => a) t word -> length word = n) ->
  new_script (actions m) observations (Z.of_nat n) ["hold H"%string] = Ok s0 ->
  ScriptSpec.after s0 uses = Some s -> d_preference d0 0 = true -> (forall k, quiet (ds k)) -> (Z.of_nat (2 * n + 7) <= max_horizon)%Z ->
  exists rec q, simulate_one_evaluation (model_is_final cf m) (supportive_model cf m disc d0 ds) (script_policy choices) (s, c) max_horizon discount = Ok (rec, q) /\
  map t_name (turns_of m rec) = smooth_names n /\ Forall2 Qeq (r_rewards rec) (smooth_rewards cf n) /\
  exists l x, r_states rec = l ++ [x] /\ model_is_final cf m x = true.
Proof.
  intros cf ordn t m n s0 uses s c choices disc d0 ds max_horizon discount Ho E Hc Htree words New Ha Hp Hq Hmax.
  assert (Hlegs : forall x q, In x (htm_nodes m) -> action_params x = Ok q -> sp_conditions q = leg_conditions /\ sp_hold q = Some "h"%string).
  { apply (nodes_params ordn t m (fun q => sp_conditions q = leg_conditions /\ sp_hold q = Some "h"%string) E). intros a i p h Hin q Eq. destruct (Htree a i p h Hin) as (q' & E1 & E2). assert (q' = q) as -> by congruence. exact E2. }
  destruct (mk_facts _ _ _ Ho E) as (nodes & succs & init & ps & Ed & B & D).
  assert (legs : forall p, In p ps -> sp_conditions p = leg_conditions /\ sp_hold p = Some "h"%string).
  { intros p Hp'. destruct (params_in (SuppProofs.b_params _ _ _ _ _ B) p Hp') as (x & X1 & X2). rewrite <- (SuppProofs.b_nodes _ _ _ _ _ B) in X1. eauto. }
  assert (Hleg : In "bring leg"%string (actions m)).
  { apply (brings m _ _ _ _ "leg"%string B). destruct D as (_ & D2 & D3 & _). destruct init as [|i init]; [contradiction|]. assert (Hi : i < length nodes) by (apply D3; left; reflexivity).
    pose proof (RunProofs.params_len (SuppProofs.b_params _ _ _ _ _ B)) as HL. destruct ps as [|p ps]; [exfalso; destruct nodes; [cbn in Hi; lia|discriminate HL]|]. destruct (legs p (or_introl eq_refl)) as [L1 _].
    apply (SuppProofs.b_objs _ _ _ _ _ B). exists p, CConsumes. split; [left; reflexivity|]. rewrite L1. cbn. auto. }
  assert (Hne : ["hold H"%string] <> []) by discriminate. assert (Hh : incl ["hold H"%string] ["hold H"; "hold V"]%string) by (intros x [<-|[]]; left; reflexivity).
  assert (Hn : 1 <= n) by (eapply n_pos; eassumption).
  destruct (evaluates cf ordn t m Ho E Hc nodes succs init ps B D (Z.of_nat n) ["hold H"%string] s0 New Hleg Hne Hh choices disc d0 ds uses s c max_horizon discount Ha) as (rec & q & Er).
  exists rec, q. split; [exact Er|].
  destruct (J_after m (Z.of_nat n) ["hold H"%string] s0 New Hleg Hne Hh choices uses s c Ha) as (p & Ep & Hj).
  destruct (C70_record _ _ _ _ _ _ _ _ _ _ Er) as (p0 & st0 & l & R1 & R2 & R3 & R4 & R5 & R6 & R7 & R8 & R9 & R10).
  assert (p0 = p) as -> by congruence. destruct (start_sound cf m _ _ _ _ B D d0) as (s' & i & Es & Hi & Hr). cbn [supportive_model em_start] in R2. assert (s' = st0) as -> by congruence.
  assert (HT : turns_of m rec = turns_from (actions m) observations st0 l) by (unfold turns_of; rewrite R4, R5, R6, R7; apply turns_map). rewrite HT.
  assert (HK : K cf m n 0 st0).
  { eexists. exists []. split; [exact Hr|]. split; [unfold wants_hold; destruct (cf_preferences cf); [lia|exact Hp]|]. split.
    - split; [intros j o _; split; lia|]. split; [intros (k & _ & K1); lia|intros; lia].
    - split; [apply (episode_start cf m d0); exact Es|]. split; [reflexivity|discriminate]. }
  destruct (trace_quiet cf ordn t m Ho E Hc nodes succs init ps B D n s0 New Hleg legs words choices disc d0 ds Hq _ _ _ _ _ Hn R3 0 ltac:(lia) Hj HK R9) as (T1 & T2 & T3 & T4).
  cbn [skipn] in T1, T2. destruct (smooth_length cf Hc n) as [L1 L2].
  assert (HL : length l = 2 * n + 7).
  { destruct R10 as [R10|(l1 & x & El & Fx)]; [lia|]. apply (proj1 (T4 l1 x El)) in Fx. lia. }
  rewrite HL, <- L1, firstn_all in T1. rewrite HL, <- L2, firstn_all in T2. split; [exact T1|]. split; [rewrite R7; exact T2|].
  destruct (exists_last (l := l)) as (l1 & x & El); [intros ->; cbn in HL; lia|]. exists (st0 :: map s_state l1), (s_state x). rewrite R4, El, map_app. split; [reflexivity|]. apply (T4 l1 x El). lia.
Qed.
Print Assumptions C102_quiet.
Example C102_ex_quiet : quiet ex_quiet /\ d_preference ex_first 0 = true /\
  ex_evaluation 2 11 (fun _ => ex_quiet) = Ok (smooth_names 2, repeat "none"%string 11, 2, inject_Z 128, true) /\
  ex_evaluation 2 10 (fun _ => ex_quiet) = Ok (firstn 10 (smooth_names 2), repeat "none"%string 10, 2, inject_Z 28, false).
Proof. split; [repeat split|]. split; [reflexivity|]. split; vm_compute; reflexivity. Qed.

(** The policy 'repeat' on the task 'sequence' of the samples: for any number of legs, the policy can be built and the
    evaluation is as above. *)
Theorem C102_sequence : forall ordn n, is_order ordn -> 1 <= n ->
  exists t m s0, task_long_sequence n = Ok t /\ mk_supportive ordn t = Ok m /\ long_sequence m = Ok s0 /\
  forall cf uses s c choices disc d0 ds max_horizon discount, 1 <= cf_preferences cf ->
  ScriptSpec.after s0 uses = Some s -> d_preference d0 0 = true -> (forall k, quiet (ds k)) -> (Z.of_nat (2 * n + 7) <= max_horizon)%Z ->
  exists rec q, simulate_one_evaluation (model_is_final cf m) (supportive_model cf m disc d0 ds) (script_policy choices) (s, c) max_horizon discount = Ok (rec, q) /\
  map t_name (turns_of m rec) = smooth_names n /\ Forall2 Qeq (r_rewards rec) (smooth_rewards cf n) /\
  exists l x, r_states rec = l ++ [x] /\ model_is_final cf m x = true.
Proof.
  intros ordn n Ho Hn. destruct (sequence_good ordn n Ho Hn) as (t & Et & (m & Em) & HG & HW & HX). exists t, m.
  assert (HL : forall x q, In x (htm_nodes m) -> action_params x = Ok q -> sp_conditions q = leg_conditions).
  { apply (nodes_params ordn t m (fun q => sp_conditions q = leg_conditions) Em). intros a i p h Hin q Eq. destruct (HG a i p h Hin) as (q' & E1 & E2 & _). congruence. }
  destruct (legs_actions ordn t m Ho Em HL) as [_ HN]. destruct (HN (n_htm_states m - 2)%Z ["hold H"%string]) as [s0 Es]. { intros x [<-|[]]. left. reflexivity. }
  exists s0. split; [exact Et|]. split; [exact Em|]. split; [exact Es|].
  rewrite (leaves_count ordn t m Ho Em), HX in Es.
  intros cf uses s c choices disc d0 ds max_horizon discount Hc Ha Hp Hq Hmax. apply (C102_quiet cf ordn t m n s0 uses); auto.
Qed.
Print Assumptions C102_sequence.

(** The same policy on a choice between at least two sequences of the same length, as in the tasks 'alternative' and 'uniform':
    every evaluation runs until the horizon, without a final state. *)
Theorem C102_repeat_never : forall ordn l k, is_order ordn -> 1 <= k -> 2 <= length l -> (forall w, In w l -> length w = k) ->
  exists t m s0, task_seqs l = Ok t /\ mk_supportive ordn t = Ok m /\ long_sequence m = Ok s0 /\
  forall cf uses s c choices disc d0 ds max_horizon discount, 1 <= cf_preferences cf -> ScriptSpec.after s0 uses = Some s ->
  exists rec q, simulate_one_evaluation (model_is_final cf m) (supportive_model cf m disc d0 ds) (script_policy choices) (s, c) max_horizon discount = Ok (rec, q) /\
  length (r_actions rec) = Z.to_nat max_horizon /\ forall x, In x (r_states rec) -> model_is_final cf m x = false.
Proof.
  intros ordn l k Ho Hk Hl Hw. destruct (seqs_good ordn l k Ho Hk) as (t & Et & (m & Em) & HG & HW & HX); [intros ->; cbn in Hl; lia|exact Hw|]. exists t, m.
  assert (HL : forall x q, In x (htm_nodes m) -> action_params x = Ok q -> sp_conditions q = leg_conditions).
  { apply (nodes_params ordn t m (fun q => sp_conditions q = leg_conditions) Em). intros a i p h Hin q Eq. destruct (HG a i p h Hin) as (q' & E1 & E2). congruence. }
  assert (Hh : incl ["hold H"%string] ["hold H"; "hold V"]%string) by (intros x [<-|[]]; left; reflexivity).
  destruct (legs_actions ordn t m Ho Em HL) as [HB HN]. destruct (HN (n_htm_states m - 2)%Z ["hold H"%string] Hh) as [s0 Es].
  exists s0. split; [exact Et|]. split; [exact Em|]. split; [exact Es|]. rewrite (leaves_count ordn t m Ho Em), HX in Es.
  intros cf uses s c choices disc d0 ds max_horizon discount Hc Ha.
  destruct (C101_follows cf ordn t m _ _ s0 uses s c choices disc d0 ds max_horizon discount Ho Em Hc Es HB ltac:(discriminate) Hh Ha) as (rec & q & Er & _).
  exists rec, q. split; [exact Er|]. apply (C102_never cf ordn t m _ _ s0 uses s c choices disc d0 ds max_horizon discount rec q Ho Em Hc Es HB ltac:(discriminate) Hh Ha); [|exact Er].
  intros word Hword. rewrite (HW word Hword). nia.
Qed.
Print Assumptions C102_repeat_never.
(** The tasks of the samples are such choices. *)
Example C102_ex_alternative : exists l, task_alternative = task_seqs l /\ length l = 4 /\ forall w, In w l -> length w = 4.
Proof. eexists. split; [reflexivity|]. split; [reflexivity|]. intros w [<-|[<-|[<-|[<-|[]]]]]; reflexivity. Qed.
Example C102_ex_uniform : forall n, task_uniform n = task_seqs (product_hv n) /\ length (product_hv n) = 2 ^ n /\ forall w, In w (product_hv n) -> length w = n.
Proof. intros n. split; [reflexivity|]. apply product_hv_length. Qed.

(** The policy 'random' on such choices: the evaluations that reach a final state have finished one leaf for each item of the
    sequence. *)
Theorem C102_random : forall ordn l k, is_order ordn -> 1 <= k -> l <> [] -> (forall w, In w l -> length w = k) ->
  exists t m s0, task_seqs l = Ok t /\ mk_supportive ordn t = Ok m /\ alternatives m (Z.of_nat k) = Ok s0 /\
  forall cf uses s c choices disc d0 ds max_horizon discount, 1 <= cf_preferences cf -> ScriptSpec.after s0 uses = Some s ->
  exists rec q, simulate_one_evaluation (model_is_final cf m) (supportive_model cf m disc d0 ds) (script_policy choices) (s, c) max_horizon discount = Ok (rec, q) /\
  follows_script k ["hold H"; "hold V"]%string (turns_of m rec) /\ leaves_finished cf m (turns_of m rec) <= k /\
  forall x, In x (r_states rec) -> model_is_final cf m x = true -> leaves_finished cf m (turns_of m rec) = k.
Proof.
  intros ordn l k Ho Hk Hl Hw. destruct (seqs_good ordn l k Ho Hk Hl Hw) as (t & Et & (m & Em) & HG & HW & HX). exists t, m.
  assert (HL : forall x q, In x (htm_nodes m) -> action_params x = Ok q -> sp_conditions q = leg_conditions).
  { apply (nodes_params ordn t m (fun q => sp_conditions q = leg_conditions) Em). intros a i p h Hin q Eq. destruct (HG a i p h Hin) as (q' & E1 & E2). congruence. }
  destruct (legs_actions ordn t m Ho Em HL) as [HB HN]. destruct (HN (Z.of_nat k) ["hold H"; "hold V"]%string (fun x H => H)) as [s0 Es].
  exists s0. split; [exact Et|]. split; [exact Em|]. split; [apply alternatives_new; exact Es|].
  intros cf uses s c choices disc d0 ds max_horizon discount Hc Ha.
  destruct (C101_follows cf ordn t m _ _ s0 uses s c choices disc d0 ds max_horizon discount Ho Em Hc Es HB ltac:(discriminate) (fun x H => H) Ha) as (rec & q & Er & _ & F & _).
  rewrite Nat2Z.id in F. exists rec, q. split; [exact Er|]. split; [exact F|]. split.
  - destruct (leaves_bound cf ordn t m Ho Em Hc _ _ _ _ _ _ _ _ _ _ Er) as (word & W1 & W2). rewrite (HW word W1) in W2. exact W2.
  - intros x Hx Fx. destruct (C102_finishing cf ordn t m _ _ s0 uses s c choices disc d0 ds max_horizon discount rec q Ho Em Hc Es HB ltac:(discriminate) (fun x H => H) Ha Er x Hx Fx) as (_ & word & W1 & W2).
    rewrite <- W2. apply HW. exact W1.
Qed.
Print Assumptions C102_random.

(** *** C103 *)
(** Whatever the policy and the random outcomes, and when no cost is negative, the rewards of an evaluation sum up to at most
    the best reward for each leaf finished, plus the final reward if a final state is reached.  The leaves finished are at most
    those of an execution of the task. *)
Theorem C103_bound : forall (P : Type) (pol : epolicy P) p cf ordn t m disc d0 ds max_horizon discount rec q,
  is_order ordn -> mk_supportive ordn t = Ok m -> 1 <= cf_preferences cf -> no_negative_cost cf ->
  simulate_one_evaluation (model_is_final cf m) (supportive_model cf m disc d0 ds) pol p max_horizon discount = Ok (rec, q) ->
  (total (r_rewards rec) <= inject_Z (Z.of_nat (leaves_finished cf m (turns_of m rec))) * best_leaf cf +
                            (if existsb (model_is_final cf m) (r_states rec) then r_final cf else 0))%Q /\
  exists word, executes (fun a => a) t word /\ leaves_finished cf m (turns_of m rec) <= length word /\
               (existsb (model_is_final cf m) (r_states rec) = true -> leaves_finished cf m (turns_of m rec) = length word).
Proof.
  intros P pol p cf ordn t m disc d0 ds max_horizon discount rec q Ho E Hc Hcost Er.
  destruct (mk_facts _ _ _ Ho E) as (nodes & succs & init & ps & Ed & B & D).
  destruct (C70_record _ _ _ _ _ _ _ _ _ _ Er) as (p0 & st0 & l & R1 & R2 & R3 & R4 & R5 & R6 & R7 & R8 & R9 & R10).
  destruct (start_sound cf m _ _ _ _ B D d0) as (s' & i & Es & Hi & Hr). cbn [supportive_model em_start] in R2. assert (s' = st0) as -> by congruence.
  assert (HT : turns_of m rec = turns_from (actions m) observations st0 l) by (unfold turns_of; rewrite R4, R5, R6, R7; apply turns_map). rewrite HT.
  pose proof (trace_documented cf m nodes succs init ps B D Hc _ _ _ _ _ _ _ _ _ R3 _ Hr) as TD.
  assert (F0 : model_is_final cf m st0 = false) by (destruct (model_is_final cf m st0) eqn:K; [apply (final_iff cf m _ _ Hr) in K; discriminate|reflexivity]).
  pose proof (turns_not_final (actions m) observations (model_is_final cf m) l st0 F0 R9) as TF.
  assert (EX : existsb (model_is_final cf m) (r_states rec) = existsb (model_is_final cf m) (map s_state l)) by (rewrite R4; cbn [existsb]; rewrite F0; reflexivity). rewrite EX. split.
  - pose proof (turns_bound cf m nodes succs init ps D Hc Hcost _ TD TF) as TB. rewrite turns_rewards, turns_finals, (last_final _ _ R9) in TB. rewrite R7. revert TB. destruct (existsb (model_is_final cf m) (map s_state l)); intros TB.
    + cbv iota in TB. change (inject_Z (Z.of_nat 1)) with 1%Q in TB. lra.
    + cbv iota in TB. change (inject_Z (Z.of_nat 0)) with 0%Q in TB. lra.
  - destruct (trace_episode cf m _ _ _ _ _ _ _ _ _ R3 [] (episode_start cf m d0 st0 Es)) as (done & He & Hl). cbn [length plus] in Hl. rewrite <- Hl.
    destruct (C34_episodes cf ordn t m Ho E Hc done _ He) as (word & C1 & C2 & C3 & C4). exists word. split; [exact C1|]. split.
    + apply (f_equal (@length _)) in C2. rewrite !map_length, firstn_length in C2. lia.
    + intros EF. apply C3. right. apply existsb_exists in EF. destruct EF as (x & Hx & Fx). apply in_map_iff in Hx. destruct Hx as (y & Ey & Hy). apply in_split in Hy. destruct Hy as (l1 & l2 & El).
      destruct l2 as [|z l2]; [|exfalso; assert (model_is_final cf m (s_state y) = false) by (apply (R9 l1 y (z :: l2) El); discriminate); congruence].
      rewrite El, map_app. cbn [map]. rewrite last_last, Ey. rewrite El, turns_from_app in TD. apply Forall_app in TD. destruct TD as [_ TD]. cbn [turns_from] in TD. inversion TD as [|? ? T3 _]; subst.
      destruct T3 as (_ & _ & w' & _ & _ & _ & Hr' & _). cbn [t_to] in Hr'. rewrite (reads_htm cf m _ _ Hr'). apply (final_iff cf m _ _ Hr') in Fx. rewrite Fx. reflexivity.
Qed.
Print Assumptions C103_bound.

(** So, when helping is worth its cost, no policy gets more than the scripted policy gets when nothing goes wrong, apart
    from the n+6 actions of the script on objects. *)
Theorem C103_near : forall (P : Type) (pol : epolicy P) p cf ordn t m disc d0 ds max_horizon discount rec q n s0 uses s c choices d0' ds' max_horizon',
  is_order ordn -> mk_supportive ordn t = Ok m -> 1 <= cf_preferences cf -> no_negative_cost cf ->
  (cost_hold cf <= r_preference cf)%Q -> (0 <= r_subtask cf)%Q -> (0 <= r_final cf)%Q ->
  (forall a i p h, In (Leaf a i p h) (preorder t) -> exists q, a_params a = Some q /\ sp_conditions q = leg_conditions /\ sp_hold q = Some "h"%string) ->
  (forall word, executes (fun a => a) t word -> length word = n) ->
  new_script (actions m) observations (Z.of_nat n) ["hold H"%string] = Ok s0 ->
  ScriptSpec.after s0 uses = Some s -> d_preference d0' 0 = true -> (forall k, quiet (ds' k)) -> (Z.of_nat (2 * n + 7) <= max_horizon')%Z ->
  simulate_one_evaluation (model_is_final cf m) (supportive_model cf m disc d0 ds) pol p max_horizon discount = Ok (rec, q) ->
  exists rec' q', simulate_one_evaluation (model_is_final cf m) (supportive_model cf m disc d0' ds') (script_policy choices) (s, c) max_horizon' discount = Ok (rec', q') /\
    (total (r_rewards rec) <= total (r_rewards rec') + inject_Z (Z.of_nat (n + 6)) * cost_intrinsic cf)%Q.
Proof.
  intros P pol p cf ordn t m disc d0 ds max_horizon discount rec q n s0 uses s c choices d0' ds' max_horizon' Ho E Hc Hcost H1 H2 H3 Hlegs words New Ha Hp Hq Hmax Er.
  destruct (C102_quiet cf ordn t m n s0 uses s c choices disc d0' ds' max_horizon' discount Ho E Hc Hlegs words New Ha Hp Hq Hmax) as (rec' & q' & Er' & _ & HR & _).
  exists rec', q'. split; [exact Er'|]. rewrite (total_eq _ _ HR), total_smooth.
  destruct (C103_bound P pol p cf ordn t m disc d0 ds max_horizon discount rec q Ho E Hc Hcost Er) as (B1 & word & B2 & B3 & _). rewrite (words _ B2) in B3.
  assert (BL : (best_leaf cf == r_subtask cf + r_preference cf - cost_hold cf)%Q) by (unfold best_leaf; rewrite (proj2 (Qle_bool_iff _ _) H1); ring).
  assert (0 <= best_leaf cf)%Q by (rewrite BL; lra).
  assert (M : (inject_Z (Z.of_nat (leaves_finished cf m (turns_of m rec))) * best_leaf cf <= inject_Z (Z.of_nat n) * best_leaf cf)%Q) by (apply Qmult_le_compat_r; [rewrite <- Zle_Qle; lia|assumption]).
  rewrite <- BL. set (A := (inject_Z (Z.of_nat n) * best_leaf cf)%Q) in *. set (A' := (inject_Z (Z.of_nat (leaves_finished cf m (turns_of m rec))) * best_leaf cf)%Q) in *. set (C := (inject_Z (Z.of_nat (n + 6)) * cost_intrinsic cf)%Q).
  destruct (existsb (model_is_final cf m) (r_states rec)); lra.
Qed.
Print Assumptions C103_near.
(** Two legs: no evaluation returns more than 8 above the 128 of the scripted policy. *)
Example C103_ex : no_negative_cost default_config /\ (cost_hold default_config <= r_preference default_config)%Q /\
  ex_evaluation 2 11 (fun _ => ex_quiet) = Ok (smooth_names 2, repeat "none"%string 11, 2, inject_Z 128, true) /\
  (inject_Z 2 * best_leaf default_config + r_final default_config == inject_Z 128 + inject_Z (Z.of_nat (2 + 6)) * cost_intrinsic default_config)%Q.
Proof. split; [repeat split; vm_compute; discriminate|]. split; [vm_compute; discriminate|]. split; vm_compute; reflexivity. Qed.
