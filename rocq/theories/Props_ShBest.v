(** C133: with nodes shared by belief too the search tries all actions and returns the first of greatest value, in one call or in rounds. *)
From Verif Require Import PyBase PyBaseFacts QBase PomdpModel PomdpSpec BeliefModel EvalModel PolicyModel PomcpModel PomcpSpec PomcpProofs PomcpProofs2 SharedModel SharedSpec SharedProofs SharedProofs2
  ShStarveProofs ShBestProofs Props_Pomdp Props_Pomcp Props_Shared WarmModel.
From Coq Require Import Lia Lqa.
Local Open Scope list_scope.
Local Open Scope nat_scope.

(** The value of an action of a node. *)
Definition s_value {B} (n : snode B) (a : nat) : Q := match nth_error (sn_kids n) a with Some (Some k) => avg_value (k_avg k) | _ => 0%Q end.
(** The action at index a, of name nm, is the first of greatest value at the node, and all actions have been tried. *)
Definition s_best {X St B H} (P : search X St B H) (n : snode B) (a : nat) (nm : name) : Prop :=
  nth_error (s_actions P) a = Some nm /\ (forall i, i < length (s_actions P) -> 0 < s_visits n i /\ (s_value n i <= s_value n a)%Q) /\ forall i, i < a -> (s_value n i < s_value n a)%Q.

(** While an action of the node has never been tried, a simulation from there tries such an action. *)
Theorem C133_untried : forall X St B H (P : search X St B H) same b l r n fuel x st' x' w, (forall c, same c c = true) -> strace P same b l r -> s_reached P (s_horizon P) = false ->
  nth_error (sr_store r) (sr_node r) = Some n -> s_simulate_from P same fuel None (sr_store r) (sr_node r) x = (st', x', Ok w) ->
  exists a n', nth_error st' (sr_node r) = Some n' /\ a < length (s_actions P) /\ s_visits n a < s_visits n' a /\ (forall i, s_visits n i <= s_visits n' i) /\
    ((exists i, i < length (s_actions P) /\ s_visits n i = 0) -> s_visits n a = 0).
Proof.
  intros X St B H P same b l r n fuel x st' x' w R T Hh En E. destruct (strace_ok P same R (fun _ => True) (all_true P) b l r T I) as (S0 & _ & _ & _).
  unfold s_simulate_from in E. rewrite En in E. destruct (s_sample P (sn_belief n) x) as [[s|e] z]; [|discriminate].
  destruct (sim_chosen P same R _ _ _ _ _ _ _ _ _ _ S0 En Hh E) as (a & y & n' & Eb & En' & Va & Vb). exists a, n'. pose proof (best_lt P _ _ _ _ _ _ Eb) as Ha. rewrite tree_length in Ha.
  assert (L0 : length (sn_kids n) = n_actions P) by (apply (proj1 S0 n); eapply nth_error_In; eauto). unfold n_actions in L0.
  split; [exact En'|]. split; [lia|]. split; [exact Va|]. split; [exact Vb|]. intros (i & Hi & V0).
  destruct (C59_untried _ _ _ _ P _ _ _ _ _ _ Eb) as [_ U]; [exists i; rewrite tree_length, tree_visits; split; [lia|auto]|]. rewrite tree_visits in U. exact U.
Qed.
Print Assumptions C133_untried.

(** So with at least as many iterations as actions get_action returns the first action of greatest value, all of them tried. *)
Theorem C133_best : forall X St B H (P : search X St B H) same b l r k fuel x r' x' nm, (forall c, same c c = true) -> strace P same b l r -> s_reached P (s_horizon P) = false ->
  length (s_actions P) <= k -> s_get_action P same k fuel r x = (r', x', Ok nm) ->
  exists n0 n a, nth_error (sr_store r) (sr_node r) = Some n0 /\ sr_node r' = sr_node r /\ sr_history r' = sr_history r /\ nth_error (sr_store r') (sr_node r') = Some n /\ sr_last r' = Some a /\
    s_best P n a nm /\ k + s_all_visits n0 <= s_all_visits n.
Proof.
  intros X St B H P same b l r k fuel x r' x' nm R T Hh Hk E. destruct (strace_ok P same R (fun _ => True) (all_true P) b l r T I) as (S0 & _ & _ & F0).
  unfold s_get_action in E. destruct (s_simulations P same k fuel r x) as [[r1 y] w] eqn:Es. destruct (s_simulations_ok P same R (fun _ => True) (all_true P) _ _ _ _ _ _ _ S0 Es) as (S1 & X1 & A & C & D).
  destruct w as [[]|e]; [|discriminate]. destruct (nth_error (sr_store r1) (sr_node r1)) as [n|] eqn:En; [|discriminate]. destruct (best_action P (as_tree n) 0 false y) as [[a|e] z] eqn:Eb; [|discriminate].
  assert (Er : r' = {| sr_store := sr_store r1; sr_history := sr_history r1; sr_node := sr_node r1; sr_last := Some a |}) by congruence.
  assert (Enm : nth_error (s_actions P) a = Some nm) by (destruct (nth_error (s_actions P) a); congruence).
  assert (Hn0 : exists n0, nth_error (sr_store r) (sr_node r) = Some n0).
  { destruct (nth_error (sr_store r) (sr_node r)) as [n0|] eqn:E0; [eauto|]. exfalso. destruct k as [|k]; cbn [s_simulations] in Es; [congruence|]. unfold s_simulate_from in Es. rewrite E0 in Es. discriminate. }
  destruct Hn0 as [n0 En0]. destruct (sims_fresh P same R _ _ _ _ _ _ _ S0 Hh En0 Es) as (n1 & En1 & Fr & _ & AV). assert (n1 = n) as -> by congruence.
  assert (L : length (sn_kids n) = n_actions P) by (apply (proj1 S1 n); eapply nth_error_In; eauto).
  assert (LF : length (fresh_actions P n0) <= n_actions P) by (unfold fresh_actions; rewrite <- (seq_length (n_actions P) 0) at 2; generalize (seq 0 (n_actions P)); induction l0 as [|c t IH]; [auto|]; cbn [filter]; destruct (s_visits n0 c =? 0); cbn; lia).
  unfold n_actions in *. assert (FE : fresh_actions P n = []) by (destruct (fresh_actions P n); [auto|cbn in Fr; lia]).
  assert (AT : forall i, i < length (s_actions P) -> 0 < s_visits n i).
  { intros i Hi. destruct (s_visits n i) eqn:V; [|lia]. assert (J : In i (fresh_actions P n)) by (apply fresh_In; unfold n_actions; auto). rewrite FE in J. destruct J. }
  assert (NI : not_init (as_tree n) = []).
  { destruct (not_init (as_tree n)) as [|c t] eqn:E0; [auto|]. exfalso. assert (J : In c (not_init (as_tree n))) by (rewrite E0; left; auto). apply not_init_In in J. rewrite tree_length, tree_visits in J. specialize (AT c). lia. }
  destruct (action_value_best P _ _ _ _ _ Eb NI) as [B1 B2]. rewrite tree_length in B1.
  assert (VV : forall i, action_value (as_tree n) i = s_value n i) by (intros i; unfold action_value, s_value; rewrite tree_kid; destruct (nth_error (sn_kids n) i) as [[q|]|]; reflexivity).
  exists n0, n, a. subst r'. cbn [sr_store sr_node sr_last sr_history]. repeat (split; [auto; fail|]). split; [|exact AV]. split; [exact Enm|]. split.
  - intros i Hi. split; [auto|]. rewrite <- !VV. apply B1. lia.
  - intros i Hi. rewrite <- !VV. apply B2. exact Hi.
Qed.
Print Assumptions C133_best.

(** So many calls of get_action in a row, each of which returned. *)
Inductive s_calls_done {X St B H} (P : search X St B H) (same : B -> B -> bool) (k fuel : nat) (r0 : srunner B) (x0 : X) : nat -> option name -> srunner B -> X -> Prop :=
| s_calls_none : s_calls_done P same k fuel r0 x0 0 None r0 x0
| s_calls_more n best r x r' x' nm : s_calls_done P same k fuel r0 x0 n best r x -> s_get_action P same k fuel r x = (r', x', Ok nm) -> s_calls_done P same k fuel r0 x0 (S n) (Some nm) r' x'.
(** At the start of the runner the first action of greatest value has this name and value, all actions have been tried, and there were at least so many simulations from there. *)
Definition s_best_at_start {X St B H} (P : search X St B H) (r : srunner B) (simulations : nat) (nm : name) (v : Q) : Prop :=
  exists n a, nth_error (sr_store r) 0 = Some n /\ s_best P n a nm /\ v = s_value n a /\ simulations <= s_all_visits n.
(** A runner that was not stepped, with at least so many simulations from the start. *)
Definition s_searched {X St B H} (P : search X St B H) (same : B -> B -> bool) (b : B) (simulations : nat) (r : srunner B) : Prop :=
  (exists l, strace P same b l r) /\ sr_history r = [] /\ sr_node r = 0 /\ forall n, nth_error (sr_store r) 0 = Some n -> simulations <= s_all_visits n.

Lemma s_round X St B H (P : search X St B H) same b m k r fuel x r' x' nm : (forall c, same c c = true) -> s_reached P (s_horizon P) = false -> length (s_actions P) <= k ->
  s_searched P same b m r -> s_get_action P same k fuel r x = (r', x', Ok nm) ->
  s_searched P same b (k + m) r' /\ exists v, s_current_value r' = Ok v /\ s_best_at_start P r' (k + m) nm v.
Proof.
  intros R Hh Hk ((l & T) & EH & EN & C) E. destruct (C133_best _ _ _ _ P same b l r k fuel x r' x' nm R T Hh Hk E) as (n0 & n & a & En0 & K1 & K2 & En & La & Bn & AV).
  rewrite K1, EN in En. rewrite EN in En0. specialize (C n0 En0). split.
  - split; [exists (l ++ [EvAction (sr_last r')]); eapply st_action; eauto|]. split; [congruence|]. split; [congruence|]. intros n' En'. assert (n' = n) as -> by congruence. lia.
  - pose proof Bn as (Ba & Bt & _). assert (Ha : a < length (s_actions P)) by (apply nth_error_Some; congruence). destruct (Bt a Ha) as [Va _].
    exists (s_value n a). split; [|exists n, a; repeat split; auto; try apply Bn; lia]. unfold s_current_value. rewrite La, En. unfold s_visits in Va. unfold s_value. destruct (nth_error (sn_kids n) a) as [[q|]|]; [reflexivity|lia|lia].
Qed.
Lemma s_rounds X St B H (P : search X St B H) same b k fuel r0 x0 : (forall c, same c c = true) -> s_reached P (s_horizon P) = false -> length (s_actions P) <= k ->
  forall rounds calls best r x l r' x' out v, s_calls_done P same k fuel r0 x0 calls best r x -> s_searched P same b (calls * k) r -> s_current_value r = Ok v -> s_warm_up P same rounds k fuel best r x = (l, r', x', out) ->
  (forall i bs w, nth_error l i = Some (bs, w) -> (i = 0 /\ bs = best /\ w = v) \/ (0 < i /\ exists ri xi nm, bs = Some nm /\ s_calls_done P same k fuel r0 x0 (calls + i) bs ri xi /\ s_best_at_start P ri ((calls + i) * k) nm w)) /\
  match out with
  | Ok bs => length l = rounds /\ s_calls_done P same k fuel r0 x0 (calls + rounds) bs r' x' /\ (rounds = 0 /\ bs = best \/ 0 < rounds /\ exists nm w, bs = Some nm /\ s_best_at_start P r' ((calls + rounds) * k) nm w)
  | Err e => 0 < length l <= rounds /\ exists bi ri xi, s_calls_done P same k fuel r0 x0 (calls + (length l - 1)) bi ri xi /\ s_get_action P same k fuel ri xi = (r', x', Err e)
  end.
Proof.
  intros R Hh Hk. induction rounds as [|rounds IH]; intros calls best r x l r' x' out v D S V E; cbn [s_warm_up] in E.
  - assert (l = [] /\ r' = r /\ x' = x /\ out = Ok best) as (-> & -> & -> & ->) by (repeat split; congruence). split; [intros [|i] bs w Hi; discriminate|]. rewrite Nat.add_0_r. auto 10.
  - rewrite V in E. destruct (s_get_action P same k fuel r x) as [[r1 x1] a] eqn:Ea. destruct a as [nm|e].
    + destruct (s_round _ _ _ _ P same b (calls * k) k r fuel x r1 x1 nm R Hh Hk S Ea) as [S1 (v1 & V1 & B1)]. pose proof (s_calls_more P same k fuel r0 x0 _ _ _ _ _ _ _ D Ea) as D1.
      change (k + calls * k) with (Datatypes.S calls * k) in *. destruct (s_warm_up P same rounds k fuel (Some nm) r1 x1) as [[[l1 r2] x2] out1] eqn:Ew.
      destruct (IH _ _ _ _ _ _ _ _ _ D1 S1 V1 Ew) as [I1 I2]. assert (l = (best, v) :: l1 /\ r' = r2 /\ x' = x2 /\ out = out1) as (-> & -> & -> & ->) by (repeat split; congruence). split.
      * intros [|i] bs w Hi; cbn [nth_error] in Hi; [left; repeat split; congruence|]. right. split; [lia|]. destruct (I1 _ _ _ Hi) as [(-> & -> & ->)|(Hi0 & ri & xi & nm' & -> & Di & Bi)].
        -- exists r1, x1, nm. rewrite Nat.add_1_r. auto 10.
        -- exists ri, xi, nm'. replace (calls + Datatypes.S i) with (Datatypes.S calls + i) by lia. auto 10.
      * destruct out1 as [bs|e].
        -- destruct I2 as (L & Df & Hb). cbn [length]. split; [lia|]. replace (calls + Datatypes.S rounds) with (Datatypes.S calls + rounds) by lia. split; [exact Df|]. right. split; [lia|].
           destruct Hb as [(-> & ->)|(_ & Hb)]; [|exact Hb]. cbn [s_warm_up] in Ew. assert (r2 = r1) as -> by congruence. rewrite Nat.add_0_r. eauto.
        -- destruct I2 as (L & bi & ri & xi & Di & Ei). cbn [length]. split; [lia|]. exists bi, ri, xi. split; [|exact Ei]. replace (calls + (Datatypes.S (length l1) - 1)) with (Datatypes.S calls + (length l1 - 1)) by lia. exact Di.
    + assert (l = [(best, v)] /\ r' = r1 /\ x' = x1 /\ out = Err e) as (-> & -> & -> & ->) by (repeat split; congruence). split.
      * intros [|[|i]] bs w Hi; try discriminate. left. cbn in Hi. repeat split; congruence.
      * cbn [length]. split; [lia|]. exists best, r, x. rewrite Nat.add_0_r. auto.
Qed.
(** Rounds of search from the start, as in samples/pomcp.py: nothing is shown in the first, then the action returned last and its value, the greatest at the start. *)
Theorem C133_shown : forall X St B H (P : search X St B H) same b rounds k fuel r x l r' x' out, (forall c, same c c = true) -> s_reached P (s_horizon P) = false -> length (s_actions P) <= k ->
  strace P same b [] r -> s_warm_up P same rounds k fuel None r x = (l, r', x', out) ->
  (forall i bs w, nth_error l i = Some (bs, w) ->
     if i =? 0 then bs = None /\ w = 0%Q else exists ri xi nm, bs = Some nm /\ s_calls_done P same k fuel r x i bs ri xi /\ s_best_at_start P ri (i * k) nm w) /\
  match out with
  | Ok bs => length l = rounds /\ s_calls_done P same k fuel r x rounds bs r' x' /\ (0 < rounds -> exists nm w, bs = Some nm /\ s_best_at_start P r' (rounds * k) nm w)
  | Err e => 0 < length l <= rounds /\ exists bi ri xi, s_calls_done P same k fuel r x (length l - 1) bi ri xi /\ s_get_action P same k fuel ri xi = (r', x', Err e)
  end.
Proof.
  intros X St B H P same b rounds k fuel r x l r' x' out R Hh Hk T E.
  assert (ER : r = sr_reset [sn_new P b]).
  { inversion T as [x1 b' x1' r1 Hs Hr|? l1|? l1|? l1|? l1|? l1|? l1]; subst; try (match goal with E : _ ++ [_] = [] |- _ => destruct (app_eq_nil _ _ E) as [_ E']; discriminate end).
    unfold sr_init in Hr. rewrite Hs in Hr. cbn [bind] in Hr. unfold node_for_belief in Hr. cbn [index_of fst app] in Hr. congruence. }
  assert (S0 : s_searched P same b (0 * k) r). { split; [exists []; exact T|]. rewrite ER. split; [reflexivity|]. split; [reflexivity|]. intros n _. lia. }
  assert (V0 : s_current_value r = Ok 0%Q) by (rewrite ER; reflexivity).
  destruct (s_rounds _ _ _ _ P same b k fuel r x R Hh Hk rounds 0 None r x l r' x' out 0%Q (s_calls_none P same k fuel r x) S0 V0 E) as [I1 I2]. split.
  - intros i bs w Hi. destruct (I1 _ _ _ Hi) as [(-> & -> & ->)|(Hi0 & ri & xi & nm & -> & Di & Bi)]; [cbn; auto|]. destruct (Nat.eqb_spec i 0); [lia|]. exists ri, xi, nm. auto.
  - destruct out as [bs|e]; [|exact I2]. destruct I2 as (L & Df & Hb). split; [exact L|]. split; [exact Df|]. intros Hr. destruct Hb as [(-> & _)|(_ & Hb)]; [lia|exact Hb].
Qed.
Print Assumptions C133_shown.

(** The tiger: listening comes back to the belief of the start. *)
Example C133_ex : (forall c, same_array c c = true) /\ strace ex_search same_array [1 # 2; 1 # 2]%Q [] ex_shared /\ s_reached ex_search (s_horizon ex_search) = false /\ length (s_actions ex_search) = 3 /\
  (exists r x nm, s_get_action ex_search same_array 3 3 ex_shared 0 = (r, x, Ok nm) /\ option_map (fun n => (s_visits n 0, s_visits n 1, s_visits n 2)) (nth_error (sr_store r) 0) = Some (1, 1, 1)) /\
  exists l r x nm, s_warm_up ex_search same_array 3 4 3 None ex_shared 0 = (l, r, x, Ok (Some nm)) /\ length l = 3.
Proof.
  split; [apply same_array_refl|]. split; [apply ex_strace|]. split; [reflexivity|]. split; [reflexivity|]. split; [eexists _, _, _; split; vm_compute; reflexivity|]. eexists _, _, _, _. split; vm_compute; reflexivity.
Qed.
