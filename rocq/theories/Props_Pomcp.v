(** C57 to C63: the search tree of POMCP and its policy runner. *)
From Verif Require Import PyBase PyBaseFacts QBase PomdpModel PomdpSpec PomdpProofs BeliefModel EvalModel PolicyModel PolicyProofs PomcpModel PomcpSpec
  PomcpProofs PomcpProofs2 PomcpProofs3 Props_Pomdp Props_Belief.
From Coq Require Import Lia Lqa Field.
Local Open Scope list_scope.
Local Open Scope nat_scope.

(** A search over the tiger POMDP, for the examples. *)
Definition ex_u (i : nat) : Q := (Z.of_nat (37 * i mod 100) # 100).
Definition ex_r (i : nat) : nat := 7 * i + 1.
Definition ex_search := exact_search tiger ex_u ex_r 3 (1 # 2) true (fun n m => 1 / inject_Z (Z.of_nat m))%Q 2 0.
Definition ex_start : runner (list Q) := match fst (r_init ex_search 0) with Ok r => r | Err _ => r_reset (ON avg_new [] []) end.
Lemma ex_u_ok : forall i, (0 <= ex_u i < 1)%Q.
Proof.
  intros i. unfold ex_u. set (k := 37 * i mod 100). assert (Hk : k < 100) by (apply Nat.mod_upper_bound; lia). clearbody k. unfold Qle, Qlt. cbn. lia.
Qed.
Lemma ex_trace : trace ex_search [1 # 2; 1 # 2]%Q [] ex_start.
Proof. apply (tr_init ex_search 0 _ 0); vm_compute; reflexivity. Qed.

(** *** C57 *)
(** Alpha must be in [0, 1]. *)
Theorem C57_alpha : forall alpha, (0 <= alpha <= 1 -> mk_avg alpha = Ok avg_new)%Q /\ (~ (0 <= alpha <= 1) -> mk_avg alpha = Err EAssert)%Q.
Proof.
  intros alpha. unfold mk_avg. split; intros Ha.
  - assert (Qle_bool 0 alpha = true) as -> by (apply Qle_bool_iff; lra). assert (Qle_bool alpha 1 = true) as -> by (apply Qle_bool_iff; lra). reflexivity.
  - destruct (Qle_bool 0 alpha && Qle_bool alpha 1) eqn:E; [|reflexivity]. apply andb_prop in E. destruct E as [E1 E2]. apply Qle_bool_iff in E1, E2. tauto.
Qed.
Print Assumptions C57_alpha.
Theorem C57_plain : forall alpha l, (alpha == 0)%Q -> l <> [] -> (avg_value (after alpha l) == mean l)%Q.
Proof.
  intros alpha l Ha Hl. pose proof (after_value alpha l Hl) as V. assert (HL : 0 < length l) by (destruct l; [congruence|cbn; lia]). pose proof (nat_Q_pos _ HL) as HQ.
  assert (T : (total_value (after alpha l) == sumQ l)%Q).
  { clear V Hl HL HQ. induction l as [|v l IH] using rev_ind; [reflexivity|]. rewrite after_app. cbn [avg_update total_value]. rewrite IH, after_count, Ha. unfold sumQ. rewrite sum_app, sum_cons. cbn. ring. }
  rewrite T in V. unfold mean. rewrite <- V. field. lra.
Qed.
Print Assumptions C57_plain.
Theorem C57_last : forall alpha l v, (alpha == 1)%Q -> (avg_value (after alpha (l ++ [v])) == v)%Q.
Proof.
  intros alpha l v Ha. pose proof (after_value alpha (l ++ [v]) ltac:(destruct l; discriminate)) as V. set (a := avg_value _) in *. clearbody a. rewrite after_app in V. cbn [avg_update total_value] in V. rewrite after_count in V. set (t := total_value _) in V. clearbody t. rewrite Ha in V. rewrite app_length in V. cbn [length] in V.
  pose proof (nat_Q_pos (length l + 1) ltac:(lia)) as HQ. set (n := inject_Z (Z.of_nat (length l + 1))) in *. clearbody n.
  assert (K : (a * n == v * n)%Q) by (rewrite V; ring). apply Qmult_inj_r in K; [auto|lra].
Qed.
Print Assumptions C57_last.
Theorem C57_bounds : forall alpha l lo hi, (0 <= alpha <= 1)%Q -> l <> [] -> (forall v, In v l -> lo <= v <= hi)%Q -> (lo <= avg_value (after alpha l) <= hi)%Q.
Proof.
  intros alpha l lo hi Ha Hl HF. assert (HL : 0 < length l) by (destruct l; [congruence|cbn; lia]). pose proof (nat_Q_pos _ HL) as HQ.
  pose proof (after_total_bounds alpha lo hi l Ha ltac:(apply Forall_forall; auto)) as T. rewrite <- (after_value alpha l Hl) in T. split; [apply (Qmult_le_r _ _ _ HQ)|apply (Qmult_le_r _ _ _ HQ)]; apply T.
Qed.
Print Assumptions C57_bounds.
(** In general a new update has the weight it has in the plain average, plus alpha. *)
Theorem C57_update : forall alpha l v, let n := inject_Z (Z.of_nat (length l)) in
  (avg_value (after alpha (l ++ [v])) == (1 - alpha) * ((n * avg_value (after alpha l) + v) / (n + 1)) + alpha * v)%Q.
Proof.
  intros alpha l v n. pose proof (after_value alpha (l ++ [v]) ltac:(destruct l; discriminate)) as V.
  assert (T : (total_value (after alpha l) == n * avg_value (after alpha l))%Q).
  { destruct l as [|w l]; [unfold n; cbn; ring|]. rewrite <- after_value by discriminate. fold n. ring. }
  assert (En : (inject_Z (Z.of_nat (length (l ++ [v]))) == n + 1)%Q) by (unfold n; rewrite app_length, Nat2Z.inj_add, inject_Z_plus; reflexivity).
  assert (Hn : (0 <= n)%Q) by (unfold n; change 0%Q with (inject_Z 0); rewrite <- Zle_Qle; lia).
  rewrite En in V. rewrite after_app in *. cbn [avg_update total_value] in V. rewrite after_count in V. replace (length l + 1) with (length (l ++ [v])) in V by (rewrite app_length; reflexivity). rewrite En, T in V.
  set (a := avg_value (avg_update _ _ _)) in *. clearbody a. set (w := avg_value (after alpha l)) in *. clearbody w n. assert (Hn1 : ~ (n + 1 == 0)%Q) by lra.
  apply (Qmult_inj_r _ _ (n + 1)); [auto|]. rewrite V. field. auto.
Qed.
Print Assumptions C57_update.
Example C57_ex : (avg_value (after 0 [1; 2; 6]) == 3 /\ avg_value (after 1 [1; 2; 6]) == 6 /\ avg_value (after (1 # 2) [1; 2; 6]) == 55 # 12)%Q.
Proof. split; [vm_compute; reflexivity|]. split; vm_compute; reflexivity. Qed.

(** *** C58 *)
(** Whatever the operations, including those that raise: an observation node was visited as often as its
    actions, plus at most once. *)
Theorem C58_counts : forall X St B H (P : search X St B H) b l r h n, trace P b l r -> find (r_root r) h = Some n ->
  all_visits n <= o_count n <= all_visits n + 1.
Proof. intros X St B H P b l r h n T F. destruct (trace_balanced P b l r T h n F) as (d & D & E). lia. Qed.
Print Assumptions C58_counts.
(** A simulation that returns counts one visit of its node and of exactly one of its actions (the given one if
    any); one that raises, none; nothing is counted when the horizon is reached already. *)
Theorem C58_simulation : forall X St B H (P : search X St B H) fuel action n x n' x' v, simulate_from_node P fuel action n x = (n', x', v) ->
  match v with
  | Ok _ => if s_reached P (s_horizon P) then n' = n else
      exists a, a < length (o_kids n) /\ o_count n' = o_count n + 1 /\ visits n' a = visits n a + 1 /\ (forall a', a' <> a -> visits n' a' = visits n a') /\ (forall c, action = Some c -> a = c)
  | Err _ => o_count n' = o_count n /\ forall a, visits n' a = visits n a
  end.
Proof.
  intros X St B H P fuel action n x n' x' v E. unfold simulate_from_node in E. destruct (s_sample P (o_belief n) x) as [[s|e] y]; [|assert (n' = n /\ v = Err e) as [-> ->] by (split; congruence); auto].
  destruct v as [v|e].
  - destruct (s_reached P (s_horizon P)) eqn:Hr; [destruct fuel; cbn [simulate] in E; rewrite Hr in E; congruence|].
    destruct (simulate_counts P _ _ _ _ _ _ _ _ _ E Hr) as (a & Ha & C & V1 & V2 & _ & A). exists a. split; [auto|]. split; [lia|]. split; [lia|]. auto.
  - destruct (simulate_fail P _ _ _ _ _ _ _ _ _ E) as [A V]. split; [unfold o_count; rewrite A; auto|]. intros a. apply V.
Qed.
Print Assumptions C58_simulation.
(** Twenty simulations of the tiger: counts at the root. *)
Example C58_ex : exists r x nm n, get_action ex_search 20 3 ex_start 0 = (r, x, Ok nm) /\ find (r_root r) [] = Some n /\ o_count n = 20 /\ all_visits n = 20 /\
  exists m, find (r_root r) [(0, 1)] = Some m /\ o_count m = all_visits m + 1 /\ 1 < o_count m.
Proof. do 4 eexists. split; [vm_compute; reflexivity|]. split; [vm_compute; reflexivity|]. split; [vm_compute; reflexivity|]. split; [vm_compute; reflexivity|].
  eexists. split; [vm_compute; reflexivity|]. split; [vm_compute; reflexivity|]. vm_compute. lia. Qed.

(** *** C59 *)
(** While an action is untried only untried actions are chosen, for any exploration. *)
Theorem C59_untried : forall X St B H (P : search X St B H) n e rel x a x', best_action P n e rel x = (Ok a, x') ->
  (exists i, i < length (o_kids n) /\ visits n i = 0) -> a < length (o_kids n) /\ visits n a = 0.
Proof.
  intros X St B H P n e rel x a x' E (i & Hi & V). apply not_init_In. eapply best_untried; eauto. assert (I : In i (not_init n)) by (apply not_init_In; auto). intros E0. rewrite E0 in I. destruct I.
Qed.
Print Assumptions C59_untried.
(** With at least as many iterations as actions, all actions are tried and the returned one, which is
    remembered, is the first of greatest value. *)
Theorem C59_best : forall X St B H (P : search X St B H) b l r k fuel x r' x' nm, trace P b l r -> s_reached P (s_horizon P) = false -> length (s_actions P) <= k ->
  get_action P k fuel r x = (r', x', Ok nm) ->
  exists n a, find (r_root r') (r_history r') = Some n /\ r_last r' = Some a /\ nth_error (s_actions P) a = Some nm /\
    (forall i, i < length (s_actions P) -> 0 < visits n i /\ (action_value n i <= action_value n a)%Q) /\
    (forall i, i < a -> (action_value n i < action_value n a)%Q).
Proof.
  intros X St B H P b l r k fuel x r' x' nm T Hh Hk E. pose proof (trace_inv P _ _ _ T) as I. destruct (get_action_keep P _ _ _ _ _ _ _ E) as (G & K1 & K2 & _).
  destruct (get_action_pick P _ _ _ _ _ _ _ _ _ I E) as [_ Hp]. destruct (Hp _ eq_refl) as (a & r1 & x1 & m & Es & F1 & Eb & En & L & F). exists m, a.
  rewrite K1, <- (inv_node _ _ _ _ I), <- K2. split; [auto|]. split; [auto|]. split; [auto|].
  destruct (inv_find _ _ _ _ I) as [m0 F0]. destruct (simulations_tried P _ _ _ _ _ _ _ Es Hh F0) as (m' & F' & L' & C'). assert (m' = m) as -> by congruence.
  pose proof (not_init_le m0) as NL. rewrite (inv_sized P _ _ _ I _ _ F0) in NL. unfold n_actions in NL. assert (NI : not_init m = []) by (destruct (not_init m); [auto|cbn in L'; lia]).
  assert (SZ : length (o_kids m) = length (s_actions P)).
  { assert (S1 : every (sized P) (r_root r')) by (eapply grows_sized; [exact G|eapply inv_sized; eauto]). apply (S1 _ _ F). }
  destruct (action_value_best P _ _ _ _ _ Eb NI) as [B1 B2]. split; [|auto]. intros i Hi. split; [|apply B1; lia].
  destruct (visits m i) eqn:V; [|lia]. assert (J : In i (not_init m)) by (apply not_init_In; split; [lia|auto]). rewrite NI in J. destruct J.
Qed.
Print Assumptions C59_best.
Example C59_ex : exists r x n, get_action ex_search 12 3 ex_start 0 = (r, x, Ok (NStr "listen")) /\ find (r_root r) [] = Some n /\ visits n 0 = 8 /\ visits n 1 = 1 /\ visits n 2 = 3.
Proof. do 3 eexists. split; [vm_compute; reflexivity|]. split; [vm_compute; reflexivity|]. split; [vm_compute; reflexivity|]. split; vm_compute; reflexivity. Qed.

(** *** C60 *)
(** Every node of every tree holds a belief obtained by filtering the start belief along its history. *)
Theorem C60_filtered : forall X St B H (P : search X St B H) b l r h n, trace P b l r -> find (r_root r) h = Some n -> filters P b h (o_belief n).
Proof. intros X St B H P b l r h n T F. eapply trace_belief; eauto. Qed.
Print Assumptions C60_filtered.
(** Exact beliefs: its history is possible and the node holds the posterior of the start distribution, as the
    sums over all paths of states define it. *)
Theorem C60_exact : forall p u r horizon exploration relative bonus rollout_it alpha b l rn h n, stochastic p -> distribution p b ->
  trace (exact_search p u r horizon exploration relative bonus rollout_it alpha) b l rn -> find (r_root rn) h = Some n ->
  filter_belief p b h = Ok (o_belief n) /\ ~ (history p b h == 0)%Q /\ forall s, s < nS p -> (nth s (o_belief n) 0 == history_end p b h s / history p b h)%Q.
Proof.
  intros p u r horizon exploration relative bonus rollout_it alpha b l rn h n ST D T F. set (P := exact_search _ _ _ _ _ _ _ _ _) in T. pose proof (trace_belief P _ _ _ T _ _ F) as FB.
  pose proof (filters_range p u r horizon exploration relative bonus rollout_it alpha _ _ _ FB) as HF.
  destruct (filters_distribution p u r horizon exploration relative bonus rollout_it alpha ST _ _ _ FB HF D) as [E _]. split; [auto|].
  destruct (C40_history p b h ST D HF) as [C0 C1]. assert (NZ : ~ (history p b h == 0)%Q) by (intros Z0; rewrite (C0 Z0) in E; discriminate). split; [auto|].
  intros s Hs. destruct (C1 NZ) as (nb & E' & _ & V). assert (nb = o_belief n) as -> by congruence. rewrite <- (V s Hs). field. auto.
Qed.
Print Assumptions C60_exact.
(** The start beliefs themselves: the start distribution, and particles of positive start probability. *)
Theorem C60_start : forall p, well_shaped p -> distribution p (map (Start p) (seq 0 (nS p))) -> forall u r horizon exploration relative bonus rollout_it alpha,
  (forall x, s_start (exact_search p u r horizon exploration relative bonus rollout_it alpha) x = (Ok (map (Start p) (seq 0 (nS p))), x)) /\
  forall v k x b x', (forall i, 0 <= u i < 1)%Q -> s_start (particle_search p u r horizon exploration relative bonus rollout_it alpha v k) x = (Ok b, x') ->
    length b = k /\ forall s, In s b -> s < nS p /\ (0 < Start p s)%Q.
Proof.
  intros p (W1 & _) (D1 & D2 & D3) u r horizon exploration relative bonus rollout_it alpha.
  assert (Er : row (p_start p) [] = map (Start p) (seq 0 (nS p))) by (unfold row; rewrite W1; reflexivity).
  assert (Hn : forall s, s < nS p -> nth s (map (Start p) (seq 0 (nS p))) 0%Q = Start p s).
  { intros s Hs. rewrite (nth_indep _ 0%Q (Start p 0)) by (rewrite map_length, seq_length; auto). rewrite map_nth, seq_nth by auto. reflexivity. }
  assert (D3' : (sum_n (nS p) (Start p) == 1)%Q) by (rewrite <- D3; apply sum_n_ext; intros s Hs; rewrite Hn by auto; reflexivity).
  split.
  - intros x. cbn [exact_search s_start]. rewrite Er. unfold array_belief. assert (assert_normal (vector (map (Start p) (seq 0 (nS p)))) = Ok tt) as ->; [|reflexivity].
    apply (assert_normal1 _ (nS p)); [cbn; rewrite map_length, seq_length; reflexivity|]. unfold about_one. cbn [vector at_]. cbv beta iota. rewrite D3. vm_compute. discriminate.
  - intros v k x b x' Hu E. cbn [particle_search s_start] in E. destruct (C41_full _ _ _ _ _ _ _ E) as [L _]. split; [auto|]. intros s Hs.
    destruct (C41_drawn _ _ _ _ _ _ _ E s Hs) as (y & y' & Es). unfold pomdp_sample_start in Es. rewrite Er in Es.
    destruct (choice_exact (Start p) (nS p) (u (snd y))) as [_ C]; [intros i Hi; rewrite <- Hn by auto; auto|auto|auto|]. assert (E' : random_choice (map (Start p) (seq 0 (nS p))) (u (snd y)) = Ok s) by congruence.
    apply C in E'. destruct E' as [E1 E2]. split; [auto|lra].
Qed.
Print Assumptions C60_start.
(** Particle beliefs: the number of particles, all of positive probability given the history. *)
Theorem C60_particles : forall p u r horizon exploration relative bonus rollout_it alpha v k b0 b l rn h n, well_shaped p -> stochastic p ->
  (forall i, 0 <= u i < 1)%Q -> (forall i, 0 <= v i < 1)%Q -> 0 < k -> distribution p b0 -> length b = k -> (forall s, In s b -> s < nS p /\ (0 < nth s b0 0)%Q) ->
  trace (particle_search p u r horizon exploration relative bonus rollout_it alpha v k) b l rn -> Forall (fun ao => fst ao < nA p /\ snd ao < nO p) h -> find (r_root rn) h = Some n ->
  length (o_belief n) = k /\ exists nb, filter_belief p b0 h = Ok nb /\ distribution p nb /\ forall s, In s (o_belief n) -> s < nS p /\ (0 < nth s nb 0)%Q.
Proof.
  intros p u r horizon exploration relative bonus rollout_it alpha v k b0 b l rn h n WS ST HU HV Hk D L HB T HF F. set (P := particle_search _ _ _ _ _ _ _ _ _ _ _) in T.
  pose proof (trace_belief P _ _ _ T _ _ F) as FB. clear T F. set (b' := o_belief n) in *. clearbody b'. clear n rn l. revert b0 D L HB HF. induction FB as [b|b a o b1 h b2 (x & x' & Hm) FB IH]; intros b0 D L HB HF.
  - split; [auto|]. exists b0. auto.
  - inversion HF as [|q t [Ha Ho] HF']; subst q t. cbn [fst snd] in Ha, Ho. cbn [P particle_search s_succ] in Hm.
    assert (HC := C42_successor _ (particle_rand r) (particle_step p u v) snd).
    specialize (HC ltac:(unfold particle_rand; intros y i y' Hy; inversion Hy; reflexivity) ltac:(unfold particle_step; intros a0 s y i y' Hy; inversion Hy; reflexivity) k b (Z.of_nat a) (Z.of_nat o) x _ x' L Hk Hm).
    destruct HC as [_ [L1 HC]].
    assert (HS : forall s', In s' b1 -> exists s, s < nS p /\ s' < nS p /\ (0 < nth s b0 0)%Q /\ (0 < Tr p a s s')%Q /\ (0 < Ob p a s' o)%Q).
    { intros s' Hs'. destruct (HC s' Hs') as (s & y & q & y' & Is & Es). destruct (HB s Is) as [Hs Hp]. exists s. unfold particle_step in Es.
      destruct (C81_sampling_partial p a s WS ST Ha Hs) as (_ & C2 & _). destruct (pomdp_sample_transition p (u (snd y)) (v (snd y)) (Z.of_nat a) (Z.of_nat s)) as [[[s1 o1] q1]|] eqn:Et; [|discriminate].
      cbn [bind] in Es. assert (s1 = s' /\ o1 = o) as [-> ->] by (split; [congruence|]; apply Nat2Z.inj; congruence). apply C2 in Et; auto. destruct Et as (K1 & K2 & _ & K3 & K4). repeat split; auto; lra. }
    assert (Hne : exists s', In s' b1) by (destruct b1 as [|s' t]; [cbn in L1; lia|exists s'; cbn; auto]). destruct Hne as [s0 Hs0].
    destruct (HS s0 Hs0) as (s & Hs & Hs0' & P1 & P2 & P3). destruct (update_possible p ST b0 a s s0 o D Ha Hs Hs0' Ho P1 P2 P3) as (nb & Eb & Dn & _).
    destruct (IH nb Dn L1) as [L2 (nb2 & E2 & R)]; [|auto|].
    + intros s' Hs'. destruct (HS s' Hs') as (t & Ht & Ht' & Q1 & Q2 & Q3). split; [auto|]. destruct (update_possible p ST b0 a t s' o D Ha Ht Ht' Ho Q1 Q2 Q3) as (nb' & Eb' & _ & Pn). assert (nb' = nb) as -> by congruence. auto.
    + split; [auto|]. exists nb2. cbn [filter_belief]. rewrite Eb. auto.
Qed.
Print Assumptions C60_particles.
Example C60_ex : exists r x nm n, get_action ex_search 12 3 ex_start 0 = (r, x, Ok nm) /\ find (r_root r) [(0, 1); (0, 1)] = Some n /\ map Qred (o_belief n) = [9 # 298; 289 # 298]%Q.
Proof. do 4 eexists. split; [vm_compute; reflexivity|]. split; vm_compute; reflexivity. Qed.
Definition ex_particles := particle_search tiger ex_u ex_r 3 (1 # 2) true (fun n m => 1 / inject_Z (Z.of_nat m))%Q 2 0 ex_u 4.
Example C60_ex_particles : exists b r x nm n, r_init ex_particles (0, 0) = (Ok r, (0, 4)) /\ s_start ex_particles (0, 0) = (Ok b, (0, 4)) /\ length b = 4 /\ (forall s, In s b -> s < nS tiger) /\
  get_action ex_particles 12 3 r (0, 4) = x /\ snd x = Ok nm /\ find (r_root (fst (fst x))) [(0, 1)] = Some n /\ o_belief n = [1; 0; 1; 1].
Proof.
  do 5 eexists. split; [vm_compute; reflexivity|]. split; [vm_compute; reflexivity|]. split; [reflexivity|]. split; [intros s Hs; cbn in Hs; vm_compute; lia|]. split; [vm_compute; reflexivity|].
  split; [reflexivity|]. split; vm_compute; reflexivity.
Qed.

(** *** C61 *)
(** With exact beliefs and any outcome of the random draws, no exception at all is raised by simulations from
    any node, nor by get_action, given one rollout or more and fuel for the horizon; a step raises Impossible
    exactly when the observation has probability zero, other outcomes being successes. *)
Theorem C61_simulation : forall p u r horizon exploration relative bonus rollout_it alpha b l rn, well_shaped p -> stochastic p -> (forall i, 0 <= u i < 1)%Q ->
  0 < nA p -> 0 < rollout_it -> distribution p b -> let P := exact_search p u r horizon exploration relative bonus rollout_it alpha in trace P b l rn ->
  forall h n action fuel x, find (r_root rn) h = Some n -> (forall a, action = Some a -> a < nA p) -> Z.to_nat horizon <= fuel ->
  exists n' x' v, simulate_from_node P fuel action n x = (n', x', Ok v).
Proof. intros. eapply simulate_from_ok; eauto. eapply trace_good; eauto. Qed.
Print Assumptions C61_simulation.
Theorem C61_get_action : forall p u r horizon exploration relative bonus rollout_it alpha b l rn, well_shaped p -> stochastic p -> (forall i, 0 <= u i < 1)%Q ->
  0 < nA p -> 0 < rollout_it -> distribution p b -> let P := exact_search p u r horizon exploration relative bonus rollout_it alpha in trace P b l rn ->
  forall k fuel x, Z.to_nat horizon <= fuel -> exists rn' x' nm, get_action P k fuel rn x = (rn', x', Ok nm) /\ In nm (p_actions p).
Proof. intros. eapply get_action_ok; eauto. Qed.
Print Assumptions C61_get_action.
Theorem C61_step : forall p u r horizon exploration relative bonus rollout_it alpha b l rn, well_shaped p -> stochastic p ->
  distribution p b -> let P := exact_search p u r horizon exploration relative bonus rollout_it alpha in trace P b l rn ->
  forall a o ob x n, r_last rn = Some a -> a < nA p -> list_index (p_observations p) ob = Ok o -> find (r_root rn) (r_history rn) = Some n ->
  exists rn' x', ((prob_obs p (o_belief n) a o == 0)%Q -> r_step P ob rn x = (rn', x', Err EImpossible)) /\ (~ (prob_obs p (o_belief n) a o == 0)%Q -> r_step P ob rn x = (rn', x', Ok tt)).
Proof.
  intros p u r horizon exploration relative bonus rollout_it alpha b l rn WS ST D P T a o ob x n HL Ha Ho F.
  assert (Ho' : o < nO p) by (apply list_index_ok in Ho; apply nth_error_Some; congruence).
  assert (HA : 0 < nA p) by lia.
  assert (G : forall h m, find (r_root rn) h = Some m -> good p u r horizon exploration relative bonus rollout_it alpha m) by (intros h m Fm; eapply trace_good; eauto).
  assert (I : ((prob_obs p (o_belief n) a o == 0)%Q -> exists n', get_node P (r_root rn) (r_history rn ++ [(a, o)]) x = (n', x, Err EImpossible)) /\
    (~ (prob_obs p (o_belief n) a o == 0)%Q -> exists n', get_node P (r_root rn) (r_history rn ++ [(a, o)]) x = (n', x, Ok tt))).
  { eapply get_node_ok; eauto. apply (G []). reflexivity. }
  destruct I as [I0 I1].
  unfold r_step. rewrite HL. change (s_observations P) with (p_observations p). rewrite Ho. cbv zeta.
  destruct (Qeq_dec (prob_obs p (o_belief n) a o) 0) as [Z0|Z0].
  - destruct (I0 Z0) as [n' ->]. do 2 eexists. split; [reflexivity|contradiction].
  - destruct (I1 Z0) as [n' ->]. do 2 eexists. split; [contradiction|reflexivity].
Qed.
Print Assumptions C61_step.
(** Non-vacuity: the tiger meets all hypotheses. *)
Example C61_ex : well_shaped tiger /\ stochastic tiger /\ distribution tiger [1 # 2; 1 # 2]%Q /\ 0 < nA tiger /\ trace ex_search [1 # 2; 1 # 2]%Q [] ex_start /\
  exists rn x nm, get_action ex_search 2 3 ex_start 0 = (rn, x, Ok nm) /\ In nm (p_actions tiger).
Proof.
  assert (D : distribution tiger [1 # 2; 1 # 2]%Q) by (split; [reflexivity|]; split; [|vm_compute; reflexivity]; intros [|[|s]] H; change (nS tiger) with 2 in H; try lia; vm_compute; discriminate).
  assert (W : well_shaped tiger) by (vm_compute; auto). split; [auto|]. split; [apply tiger_stochastic|]. split; [auto|]. split; [vm_compute; lia|]. split; [apply ex_trace|].
  eapply (C61_get_action tiger ex_u ex_r 3); eauto using tiger_stochastic, ex_u_ok, ex_trace; vm_compute; lia.
Qed.

(** *** C62 *)
(** A rollout returns the discounted sum of the rewards of the random walk that ends exactly at the horizon. *)
Theorem C62_rollout : forall X St B H (P : search X St B H) s h x,
  (forall fuel v x', one_rollout P fuel s h 1 0 x = (Ok v, x') -> exists rs, walk P s h x rs x' /\ (v == discounted P rs)%Q) /\
  (forall fuel rs x', walk P s h x rs x' -> length rs <= fuel -> exists v, one_rollout P fuel s h 1 0 x = (Ok v, x') /\ (v == discounted P rs)%Q).
Proof.
  intros X St B H P s h x. assert (R1 : forall fuel v x', one_rollout P fuel s h 1 0 x = (Ok v, x') -> exists rs, walk P s h x rs x' /\ (v == discounted P rs)%Q).
  { intros fuel v x' E. destruct (one_rollout_gen P _ _ _ _ _ _ _ _ E) as (rs & W & V & _). exists rs. split; [auto|]. rewrite V. ring. }
  split; [auto|]. intros fuel rs x' W Hf. destruct (one_rollout_complete P _ _ _ _ _ W fuel 1 0 Hf) as [v E]. exists v. split; [auto|]. destruct (R1 _ _ _ E) as (rs' & W' & V).
  rewrite V. rewrite (walk_unique P _ _ _ _ _ W _ _ W'). reflexivity.
Qed.
Print Assumptions C62_rollout.
(** With a horizon of n transitions it makes exactly n. *)
Theorem C62_length : forall p u r horizon exploration relative bonus rollout_it alpha s h x rs x',
  walk (exact_search p u r horizon exploration relative bonus rollout_it alpha) s h x rs x' -> Z.of_nat (length rs) = Z.max 0 (nt_n h).
Proof.
  intros p u r horizon exploration relative bonus rollout_it alpha s h x rs x' W. set (P := exact_search _ _ _ _ _ _ _ _ _) in W.
  induction W as [s h x Hr|s h x a x1 s' o q x2 rs x3 Hr Hc Ht W IH].
  - cbn in Hr. unfold nt_reached in Hr. apply Z.leb_le in Hr. cbn. lia.
  - cbn in Hr. unfold nt_reached in Hr. apply Z.leb_gt in Hr. cbn [length]. cbn in IH. lia.
Qed.
Print Assumptions C62_length.
(** A new node gets the average of rollout_it rollouts as its only update; none at the horizon. *)
Theorem C62_new_node : forall X St B H (P : search X St B H) fuel n h x n' x' v, rollout_from_node P fuel n h x = (n', x', Ok v) ->
  if s_reached P h then n' = n /\ (v == 0)%Q else
  exists vs, walks P (o_belief n) h x vs x' /\ length vs = s_rollouts P /\ (v == mean vs)%Q /\ o_avg n' = avg_update (s_alpha P) (o_avg n) v /\ o_kids n' = o_kids n /\ o_belief n' = o_belief n.
Proof.
  intros X St B H P fuel n h x n' x' v E. destruct (rollout_node_gen P _ _ _ _ _ _ _ E) as [(-> & -> & -> & _)|(-> & -> & vs & W & L & M)]; [split; reflexivity|].
  exists vs. auto 7.
Qed.
Print Assumptions C62_new_node.
(** A simulation returns the discounted rewards of a path of transitions, of at least one transition when the
    horizon is not reached, and the discounted value at its end; the node and the action used are updated with it. *)
Theorem C62_simulation : forall X St B H (P : search X St B H) fuel n s h action x n' x' v, simulate P fuel n s h action x = (n', x', Ok v) ->
  (exists rs h' t, chain P s h rs h' /\ leaf P h' t /\ (v == discounted P (rs ++ [t]))%Q /\ (s_reached P h = false -> rs <> [])) /\
  (s_reached P h = false -> o_avg n' = avg_update (s_alpha P) (o_avg n) v /\ exists a c', nth_error (o_kids n') a = Some (Some c') /\
     a_avg c' = avg_update (s_alpha P) (match nth_error (o_kids n) a with Some (Some c) => a_avg c | _ => avg_new end) v /\
     forall a', a' <> a -> nth_error (o_kids n') a' = nth_error (o_kids n) a').
Proof.
  intros X St B H P fuel n s h action x n' x' v E. split.
  - destruct (simulate_return P _ _ _ _ _ _ _ _ _ E) as (rs & h' & t & C & L & V & N). exists rs, h', t. split; [auto|]. split; [auto|]. split; [|auto]. rewrite V. clear.
    induction rs as [|q rs IH]; cbn [discounted app length power]; [ring|]. rewrite <- IH. ring.
  - intros Hr. destruct (simulate_top P _ _ _ _ _ _ _ _ _ E Hr) as (a & c & c' & Ha & -> & Hc & _). assert (Hlt : a < length (o_kids n)) by (apply nth_error_Some; congruence). split; [reflexivity|].
    exists a, (a_update P c' v). cbn [o_update o_kids]. split; [apply kid_set_same; auto|]. split; [cbn [a_update a_avg]; rewrite Hc, Ha; destruct c; reflexivity|]. intros a' Hne. apply kid_set_other. auto.
Qed.
Print Assumptions C62_simulation.
(** Rewards 10, -100 and 10. *)
Example C62_ex : exists v x, one_rollout ex_search 3 1 (nt_init 3) 1 0 3 = (Ok v, x) /\ (v == 10 + (95 # 100) * -100 + (95 # 100) * (95 # 100) * 10)%Q.
Proof. do 2 eexists. split; [vm_compute; reflexivity|]. vm_compute. reflexivity. Qed.

(** *** C63 *)
(** After any history of operations, whatever raised: the history is the list of pairs of the last chosen
    action and observation of the successful steps since the last reset, and the current node is in the tree. *)
Theorem C63_history : forall X St B H (P : search X St B H) b l r, trace P b l r ->
  (r_last r, r_history r) = fold_left expect l (None, []) /\ r_node r = r_history r /\ exists n, find (r_root r) (r_node r) = Some n.
Proof. intros X St B H P b l r T. apply trace_inv in T. split; [apply T|]. split; [apply T|]. apply T. Qed.
Print Assumptions C63_history.
(** A step without an action raises ValueError and changes nothing; a step that raises leaves history, node and
    action; all nodes stay in the tree with their beliefs. *)
Theorem C63_step : forall X St B H (P : search X St B H) r ob x,
  (r_last r = None -> r_step P ob r x = (r, x, Err EValue)) /\
  (forall r' x' e, r_step P ob r x = (r', x', Err e) -> r_history r' = r_history r /\ r_node r' = r_node r /\ r_last r' = r_last r) /\
  (forall r' x' e, r_step P ob r x = (r', x', e) -> forall h n, find (r_root r) h = Some n -> exists n', find (r_root r') h = Some n' /\ o_belief n' = o_belief n).
Proof.
  intros X St B H P r ob x. split; [intros E; unfold r_step; rewrite E; reflexivity|]. split.
  - intros r' x' e E. apply (step_keep P _ _ _ _ _ _ E).
  - intros r' x' e E h n F. apply (grows_find P _ _ (proj1 (step_keep P _ _ _ _ _ _ E)) _ _ F).
Qed.
Print Assumptions C63_step.
(** The action is not forgotten by a step: a second step uses it again. *)
Theorem C63_last_kept : forall X St B H (P : search X St B H) r ob x r' x', r_step P ob r x = (r', x', Ok tt) -> r_last r' = r_last r /\ r_last r <> None.
Proof. intros X St B H P r ob x r' x' E. destruct (step_keep P _ _ _ _ _ _ E) as (_ & a & o & L & _ & L' & _). split; congruence. Qed.
Print Assumptions C63_last_kept.
Example C63_ex : exists r1 x1 r2 x2 r3 x3, get_action ex_search 20 3 ex_start 0 = (r1, x1, Ok (NStr "listen")) /\ r_step ex_search (NInt 1) r1 x1 = (r2, x2, Ok tt) /\
  get_action ex_search 5 3 r2 x2 = (r3, x3, Ok (NStr "listen")) /\ r_history r3 = [(0, 1)] /\ r_last r3 = Some 0 /\ r_step ex_search (NInt 5) r3 x3 = (r3, x3, Err EValue).
Proof. do 6 eexists. split; [vm_compute; reflexivity|]. split; [vm_compute; reflexivity|]. split; [vm_compute; reflexivity|]. split; [reflexivity|]. split; reflexivity. Qed.
