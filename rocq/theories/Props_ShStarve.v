(** C125: with nodes shared by belief the search starves no action either. *)
From Verif Require Import PyBase PyBaseFacts QBase PomdpModel PomdpSpec PomdpProofs BeliefModel EvalModel PolicyModel PomcpModel PomcpSpec
  PomcpProofs PomcpProofs2 ValueSpec ValueProofs SharedModel SharedSpec SharedProofs SharedProofs2 ShValueSpec ShValueProofs StarveSpec StarveProofs ShStarveSpec ShStarveProofs
  Props_Pomdp Props_Pomcp Props_Value Props_Shared Props_Starve Props_ShValue.
From Coq Require Import Lia Lqa Field.
Local Open Scope list_scope.
Local Open Scope nat_scope.

(** With a discount below one, a horizon of at most d transitions and an exploration term that explores: for any
    number k there is a number N such that, after any use of the runner, every action of a node has been tried at
    least k times once its actions have been tried N times together, whichever beliefs are found the same. *)
Theorem C125_tried : forall X St B H (P : search X St B H) lo hi d, (0 <= s_discount P < 1)%Q -> (0 <= s_alpha P <= 1)%Q -> (lo <= 0 <= hi)%Q -> rewards_in P lo hi ->
  (0 < s_exploration P)%Q -> s_relative P = false -> explores (s_bonus P) -> ends_within P d (s_horizon P) ->
  forall k, exists N, forall same b l r n, strace P same b l r -> ~ In EvExplore l -> In n (sr_store r) -> N <= s_all_visits n -> s_tried k (s_actions P) n.
Proof.
  intros X St B H P lo hi d Hg Ha Hz HR He Hrel HB HD k. set (g := s_discount P) in *.
  assert (Hd : (0 < 1 - g)%Q) by lra.
  assert (E1 : (lo / (1 - g) == lo + g * (lo / (1 - g)))%Q) by (field; lra).
  assert (E2 : (hi / (1 - g) == hi + g * (hi / (1 - g)))%Q) by (field; lra).
  assert (Z1 : (lo / (1 - g) <= 0)%Q) by (apply Qle_shift_div_r; lra).
  assert (Z2 : (0 <= hi / (1 - g))%Q) by (apply Qle_shift_div_l; lra).
  destruct (HB k ((hi / (1 - g) - lo / (1 - g)) / s_exploration P + 1)%Q) as (many & long & T0).
  exists (S (length (s_actions P) * (cap many long + d))). intros same b l r n T NE Hn HN.
  eapply (fairs_enough P (lo / (1 - g)) (hi / (1 - g))) with (many := many) (long := long); [|exact Hn|exact HN].
  eapply (fairs_trace P same (lo / (1 - g)) (hi / (1 - g)) lo hi)%Q; eauto; fold g; lra.
Qed.
Print Assumptions C125_tried.

(** So one call of get_action with enough iterations tries every action k times at the current node before it
    takes one whose value is the greatest. *)
Theorem C125_get_action : forall X St B H (P : search X St B H) lo hi d, (0 <= s_discount P < 1)%Q -> (0 <= s_alpha P <= 1)%Q -> (lo <= 0 <= hi)%Q -> rewards_in P lo hi ->
  (0 < s_exploration P)%Q -> s_relative P = false -> explores (s_bonus P) -> ends_within P d (s_horizon P) -> s_reached P (s_horizon P) = false ->
  forall k, 0 < k -> exists N, forall same b l r iterations fuel x r' x' nm, strace P same b l r -> ~ In EvExplore l -> N <= iterations -> s_get_action P same iterations fuel r x = (r', x', Ok nm) ->
  exists n a ka, nth_error (sr_store r') (sr_node r') = Some n /\ s_tried k (s_actions P) n /\ sr_last r' = Some a /\ nth_error (s_actions P) a = Some nm /\
    nth_error (sn_kids n) a = Some (Some ka) /\ forall i ki, nth_error (sn_kids n) i = Some (Some ki) -> (held (k_avg ki) <= held (k_avg ka))%Q.
Proof.
  intros X St B H P lo hi d Hg Ha Hz HR He Hrel HB HD Hh k Hk. destruct (C125_tried X St B H P lo hi d Hg Ha Hz HR He Hrel HB HD k) as [N HN].
  assert (Hd : (0 < 1 - s_discount P)%Q) by lra. set (g := s_discount P) in *.
  assert (E1 : (lo / (1 - g) == lo + g * (lo / (1 - g)))%Q) by (field; lra).
  assert (E2 : (hi / (1 - g) == hi + g * (hi / (1 - g)))%Q) by (field; lra).
  assert (Z1 : (lo / (1 - g) <= 0)%Q) by (apply Qle_shift_div_r; lra).
  assert (Z2 : (0 <= hi / (1 - g))%Q) by (apply Qle_shift_div_l; lra).
  destruct (HB k ((hi / (1 - g) - lo / (1 - g)) / s_exploration P + 1)%Q) as (many & long & T0).
  exists N. intros same b l r j fuel x r' x' nm T NE Hj E.
  assert (F : fairs P (lo / (1 - g)) (hi / (1 - g)) k many long d (sr_store r)) by (eapply (fairs_trace P same (lo / (1 - g)) (hi / (1 - g)) lo hi)%Q; eauto; fold g; lra).
  pose proof (st_action P same _ _ _ _ _ _ _ _ _ T E) as T'.
  assert (NE' : ~ In EvExplore (l ++ [EvAction (sr_last r')])) by (intros I; apply in_app_or in I; destruct I as [I|[I|[]]]; [auto|discriminate]).
  unfold s_get_action in E. destruct (s_simulations P same j fuel r x) as [[r1 y] [[]|e]] eqn:Es; [|discriminate].
  destruct (nth_error (sr_store r1) (sr_node r1)) as [n|] eqn:En; [|discriminate].
  destruct (best_action P (as_tree n) 0 false y) as [[a|e] z] eqn:Eb; [|discriminate].
  assert (Er : r' = {| sr_store := sr_store r1; sr_history := sr_history r1; sr_node := sr_node r1; sr_last := Some a |}) by congruence.
  assert (Enm : nth_error (s_actions P) a = Some nm) by (destruct (nth_error (s_actions P) a); congruence).
  assert (Hn0 : exists n0, nth_error (sr_store r) (sr_node r) = Some n0).
  { assert (K : sr_node r1 = sr_node r) by (revert Es; clear; revert fuel r x; induction j as [|j IH]; intros fuel r x Es; cbn [s_simulations] in Es;
      [congruence|]; destruct (s_simulate_from P same fuel None (sr_store r) (sr_node r) x) as [[st y0] w]; destruct w as [w|e]; [|discriminate]; apply IH in Es; exact Es).
    destruct (nth_error (sr_store r) (sr_node r)) as [n0|] eqn:E0; [eauto|]. exfalso.
    destruct j as [|j]; cbn [s_simulations] in Es; [congruence|]. unfold s_simulate_from in Es. rewrite E0 in Es. discriminate. }
  destruct Hn0 as [n0 E0].
  assert (ST : sr_node r1 = sr_node r /\ exists n', nth_error (sr_store r1) (sr_node r) = Some n' /\ j + s_all_visits n0 <= s_all_visits n').
  { eapply (simulations_tries P same (lo / (1 - g)) (hi / (1 - g)) lo hi)%Q with (kk := k) (many := many) (long := long) (D := d) (fuel := fuel) (x := x); eauto; fold g; lra. }
  destruct ST as (K & n' & En' & V). assert (n' = n) as -> by congruence.
  assert (Tr : s_tried k (s_actions P) n). { eapply (HN same b _ r'); [exact T'|exact NE'| |lia]. rewrite Er. cbn. eapply nth_error_In; eauto. }
  assert (Ln : length (sn_kids n) = length (s_actions P)).
  { assert (F1 : fairs P (lo / (1 - g)) (hi / (1 - g)) k many long d (sr_store r1)) by (eapply (fairs_simulations P same (lo / (1 - g)) (hi / (1 - g)) lo hi)%Q; eauto; fold g; lra).
    apply F1. eapply nth_error_In; eauto. }
  assert (NI : not_init (as_tree n) = []).
  { destruct (not_init (as_tree n)) as [|i t] eqn:Ei; [auto|]. assert (I : In i (not_init (as_tree n))) by (rewrite Ei; left; auto). apply not_init_In in I. destruct I as [I1 I2].
    rewrite tree_length in I1. rewrite tree_visits in I2. specialize (Tr i ltac:(lia)). lia. }
  destruct (best_tried P _ _ _ _ _ _ Eb NI) as (_ & _ & Hla & Hb & _). rewrite tree_length in Hla.
  assert (Ka : exists ka, nth_error (sn_kids n) a = Some (Some ka)).
  { specialize (Tr a ltac:(lia)). unfold s_visits in Tr. destruct (nth_error (sn_kids n) a) as [[ka|]|]; [eauto|lia|lia]. }
  destruct Ka as [ka Ka]. exists n, a, ka. rewrite Er. cbn [sr_store sr_node sr_last]. split; [auto|]. split; [auto|]. split; [auto|]. split; [auto|]. split; [auto|].
  intros i ki Ki. assert (Hi' : i < length (sn_kids n)) by (apply nth_error_Some; congruence). rewrite !held_value.
  specialize (Hb i ltac:(rewrite tree_length; auto)). rewrite !augmented_nth in Hb by (auto; rewrite tree_length; auto).
  unfold action_value in Hb. rewrite !tree_kid, Ki, Ka in Hb. cbn [option_map a_avg] in Hb. lra.
Qed.
Print Assumptions C125_get_action.

(** *** The number depends on the horizon *)
(** One state, two actions that do nothing, one observation and no rewards. *)
Definition idle_T : array := {| shape := [2; 1; 1]; at_ := fun _ => 1%Q |}.
Definition idle_R : array := {| shape := [2; 1; 1; 1]; at_ := fun _ => 0%Q |}.
Definition idle : pomdp :=
  match mk_pomdp idle_T idle_T idle_R one_start (1 # 2) None (Some [NStr "sit"; NStr "stand"]) None "reward" true with
  | Ok p => p
  | Err _ => {| p_T := one_start; p_O := one_start; p_R := one_start; p_start := one_start; p_discount := 0; p_s := NCount 0; p_a := NCount 0; p_o := NCount 0 |}
  end.
Definition idle_search (horizon : nat) exploration bonus := exact_search idle (fun _ => 0%Q) (fun _ => 0) (Z.of_nat horizon) exploration false bonus 1 0.
Lemma idle_ok : well_shaped idle /\ stochastic idle.
Proof.
  split; [repeat split|]. split; [|split; [|split]]; change (nS idle) with 1; change (nA idle) with 2; change (nO idle) with 1.
  - intros [|[|a]] [|s] [|s'] ? ? ?; try lia; vm_compute; discriminate.
  - intros [|[|a]] [|s] ? ?; try lia; vm_compute; reflexivity.
  - intros a s s' _ _ _; vm_compute; discriminate.
  - intros a s _ _; vm_compute; reflexivity.
Qed.
Lemma idle_distribution : distribution idle [1%Q].
Proof. split; [reflexivity|]. split; [|vm_compute; reflexivity]. intros [|s] Hs; change (nS idle) with 1 in Hs; [vm_compute; discriminate|lia]. Qed.
Lemma idle_rewards horizon exploration bonus : let P := idle_search horizon exploration bonus in rewards_in P 0 0 /\ counts_down P (fun h => Z.to_nat (nt_n h)).
Proof.
  destruct idle_ok as [W S]. destruct (C111_pomdp idle (fun _ => 0%Q) (fun _ => 0) (Z.of_nat horizon) exploration false bonus 1 0 0 0 W S) as (A & C & _); [|intros; split; vm_compute; discriminate|split; auto].
  intros _; split; vm_compute; congruence.
Qed.
(** a horizon that counts down ends *)
Lemma counts_ends X St B H (P : search X St B H) left : counts_down P left -> forall d h, left h <= d -> ends_within P d h.
Proof.
  intros (C1 & C2 & _). induction d as [|d IH]; intros h Hh; cbn [ends_within]; [apply C1; lia|]. right. intros a s s' o. apply IH. rewrite C2. lia.
Qed.

Section Idle.
  Variables (horizon : nat) (exploration : Q) (bonus : nat -> nat -> Q).
  Notation P := (idle_search horizon exploration bonus).
  Definition seat av k0 k1 : snode (list Q) := {| sn_avg := av; sn_belief := [1%Q]; sn_kids := [k0; k1] |}.
  Lemma idle_sample x : s_sample P [1%Q] x = (Ok 0, S x).
  Proof. reflexivity. Qed.
  Lemma idle_moves a x : a < 2 -> s_transition P a 0 x = (Ok (0, 0, 0%Q), S (S x)).
  Proof. intros Ha. destruct a as [|[|a]]; [reflexivity|reflexivity|lia]. Qed.
  Lemma idle_succ a x : a < 2 -> exists q, s_succ P [1%Q] a 0 x = (Ok [q], x) /\ Qeq_bool 1 q = true.
  Proof. intros Ha. destruct a as [|[|a]]; [| |lia]; eexists; split; reflexivity. Qed.

  (** the first simulation with an action *)
  Lemma idle_new fuel av k0 k1 a s h x st' x' v : let n := seat av k0 k1 in a < 2 -> s = 0 -> nth_error [k0; k1] a = Some None ->
    (forall y, fst (best_action P (as_tree n) exploration false y) = Ok a) ->
    s_simulate P same_array fuel [n] 0 s h None x = (st', x', Ok v) -> s_reached P h = false ->
    exists av' c, st' = [seat av' (if Nat.eqb a 0 then Some c else k0) (if Nat.eqb a 0 then k1 else Some c)] /\ n_simulations (k_avg c) = 1 /\ k_obs c = [(0, 0)].
  Proof.
    intros n Ha -> Ek Hb E Hr. destruct fuel as [|fuel]; cbn [s_simulate nth_error] in E; rewrite Hr in E; [discriminate|].
    change (s_exploration P) with exploration in E. change (s_relative P) with false in E.
    specialize (Hb x). destruct (best_action P (as_tree n) exploration false x) as [a' y]. cbn [fst] in Hb. subst a'. cbn [bind] in E.
    assert (Ec : sn_child n a = Ok k_new) by (unfold sn_child; change (sn_kids n) with [k0; k1]; rewrite Ek; reflexivity). rewrite Ec in E. cbn [bind] in E. cbv zeta in E.
    rewrite idle_moves in E by auto. cbn [k_new k_obs lookup] in E. change (sn_belief n) with [1%Q] in E.
    destruct (idle_succ a (S (S y)) Ha) as (q & Es & Eq). rewrite Es in E. clear Es.
    assert (Ef : node_for_belief P same_array (modify [n] 0 (sn_safe a)) [q] = (modify [n] 0 (sn_safe a), 0)).
    { unfold node_for_belief. cbn [modify index_of]. change (sn_belief (sn_safe a n)) with [1%Q]. cbn [same_array]. rewrite Eq. reflexivity. }
    rewrite Ef in E. set (h' := s_decrement P h a 0 0 0) in *. rewrite modify_modify in E. cbn [modify] in E.
    set (m := sn_kid a (k_put 0 0) (sn_safe a n)) in *.
    assert (Em : m = seat av (if Nat.eqb a 0 then Some {| k_avg := avg_new; k_obs := [(0, 0)] |} else k0) (if Nat.eqb a 0 then k1 else Some {| k_avg := avg_new; k_obs := [(0, 0)] |})).
    { unfold m, n. destruct a as [|[|a]]; [| |lia]; cbn in Ek; [assert (k0 = None) as -> by congruence|assert (k1 = None) as -> by congruence]; reflexivity. }
    clearbody m. destruct (s_rollout P fuel [m] 0 h' (S (S y))) as [[st4 y4] w] eqn:Er.
    assert (S4 : st4 = [m] \/ exists u, st4 = [sn_update P u m]).
    { revert Er. unfold s_rollout. destruct (s_reached P h'); [intros Er; left; congruence|]. cbn [nth_error].
      destruct (rollouts P (s_rollouts P) fuel (sn_belief m) h' 0 (S (S y))) as [[q'|e] z]; [|intros Er; left; congruence]. destruct (Nat.eqb (s_rollouts P) 0); [intros Er; left; congruence|].
      cbv zeta. cbn [modify]. intros Er. right. eexists. symmetry. match type of Er with (?z, _, _) = _ => assert (z = st4) as -> by congruence end. reflexivity. }
    match type of E with (match ?q with _ => _ end) = _ => destruct q as [u|e] end; [|discriminate].
    rewrite modify_modify in E. set (full := (0 + s_discount P * u)%Q) in *.
    assert (E' : st' = modify st4 0 (fun n0 => sn_update P full (sn_kid a (k_update P full) n0))) by congruence.
    rewrite Em in S4. destruct S4 as [->|[u' ->]]; cbn [modify] in E'; subst st';
      (destruct a as [|[|a]]; [| |lia]; cbn; do 2 eexists; (split; [unfold seat; reflexivity|split; reflexivity])).
  Qed.

  (** the following simulation stays in its only node, with the same action until the horizon *)
  Lemma idle_stays : forall d fuel n k0 k1 av s h x st' x' v, n = seat av (Some k0) (Some k1) -> s = 0 -> k_obs k0 = [(0, 0)] ->
    (forall y, fst (best_action P (as_tree n) exploration false y) = Ok 0) -> Z.to_nat (nt_n h) = d ->
    s_simulate P same_array fuel [n] 0 s h None x = (st', x', Ok v) ->
    exists av' k0', st' = [seat av' (Some k0') (Some k1)] /\ n_simulations (k_avg k0') = d + n_simulations (k_avg k0).
  Proof.
    induction d as [|d IH]; intros fuel n k0 k1 av s h x st' x' v En -> Eo Hb Hd E.
    - assert (Hr : s_reached P h = true) by (cbn; unfold nt_reached; apply Z.leb_le; lia).
      assert (st' = [n]) as -> by (destruct fuel; cbn [s_simulate nth_error] in E; rewrite Hr in E; congruence). subst n. exists av, k0. split; reflexivity.
    - assert (Hr : s_reached P h = false) by (cbn; unfold nt_reached; apply Z.leb_gt; lia).
      destruct fuel as [|fuel]; cbn [s_simulate nth_error] in E; rewrite Hr in E; [discriminate|].
      change (s_exploration P) with exploration in E. change (s_relative P) with false in E.
      pose proof (Hb x) as Hx. destruct (best_action P (as_tree n) exploration false x) as [a y]. cbn [fst] in Hx. subst a. cbn [bind] in E.
      assert (Ec : sn_child n 0 = Ok k0) by (subst n; reflexivity). rewrite Ec in E. cbn [bind] in E. cbv zeta in E.
      rewrite idle_moves in E by lia. rewrite Eo in E. change (lookup 0 [(0, 0)]) with (Some 0) in E. cbn [modify] in E.
      assert (Esafe : sn_safe 0 n = n) by (subst n; reflexivity). rewrite Esafe in E.
      destruct (s_simulate P same_array fuel [n] 0 0 (s_decrement P h 0 0 0 0) None (S (S y))) as [[st2 y2] w] eqn:Er.
      destruct w as [u|e]; [|discriminate]. apply (IH _ _ k0 k1 av) in Er; auto; [|cbn; lia].
      destruct Er as (av' & k0' & -> & Ev). rewrite modify_modify in E. cbn [modify] in E. set (full := (0 + s_discount P * u)%Q) in *.
      assert (E' : st' = [sn_update P full (sn_kid 0 (k_update P full) (seat av' (Some k0') (Some k1)))]) by congruence. subst st'.
      cbn. do 2 eexists. split; [reflexivity|]. cbn. rewrite Ev. reflexivity.
  Qed.

  (** one iteration of get_action *)
  Lemma one_iteration fuel rn x rn' x' nm : s_get_action P same_array 1 fuel rn x = (rn', x', Ok nm) -> sr_node rn' = sr_node rn /\
    exists y v, s_simulate_from P same_array fuel None (sr_store rn) (sr_node rn) x = (sr_store rn', y, Ok v).
  Proof.
    unfold s_get_action. cbn [s_simulations]. destruct (s_simulate_from P same_array fuel None (sr_store rn) (sr_node rn) x) as [[st y] w]. cbv zeta.
    destruct w as [w|e]; [|discriminate]. cbn [sr_store sr_node]. destruct (nth_error st (sr_node rn)) as [n|]; [|discriminate].
    destruct (best_action P (as_tree n) 0 false y) as [[a|e] z]; [|discriminate]. intros E.
    match type of E with (?q, _, _) = _ => assert (rn' = q) as -> by congruence end. cbn. eauto.
  Qed.
  Lemma idle_from fuel n st x y v : sn_belief n = [1%Q] -> s_simulate_from P same_array fuel None [n] 0 x = (st, y, Ok v) ->
    s_simulate P same_array fuel [n] 0 0 (s_horizon P) None (S x) = (st, y, Ok v).
  Proof. intros Eb. unfold s_simulate_from. cbn [nth_error]. rewrite Eb, idle_sample. auto. Qed.

  Hypothesis some : 0 < horizon.
  Lemma idle_run : exists l r n, strace P same_array [1%Q] l r /\ ~ In EvExplore l /\ In n (sr_store r) /\ s_visits n 0 = S horizon /\ s_visits n 1 = 1.
  Proof.
    destruct idle_ok as [W S]. pose proof idle_distribution as D.
    assert (GA : forall l rn x, strace P same_array [1%Q] l rn -> exists rn' x' nm, s_get_action P same_array 1 horizon rn x = (rn', x', Ok nm)).
    { intros l rn x T. destruct (C95_get_action idle (fun _ => 0%Q) (fun _ => 0) (Z.of_nat horizon) exploration false bonus 1 0 [1%Q] l rn W S) with (k := 1) (fuel := horizon) (x := x) as (rn' & x' & nm & E & _); auto.
      - intros _. split; vm_compute; congruence.
      - vm_compute. lia.
      - rewrite Nat2Z.id. auto.
      - eauto. }
    assert (Hr : s_reached P (s_horizon P) = false) by (cbn; unfold nt_reached; cbn; apply Z.leb_gt; lia).
    set (r0 := sr_reset [seat avg_new None None]). assert (T0 : strace P same_array [1%Q] [] r0) by (apply (st_init P same_array 0 _ 0); reflexivity).
    destruct (GA _ _ 0 T0) as (r1 & x1 & nm1 & E1). pose proof (st_action P same_array _ _ _ _ _ _ _ _ _ T0 E1) as T1.
    destruct (one_iteration _ _ _ _ _ _ E1) as (N1 & y1 & v1 & S1). change (sr_store r0) with [seat avg_new None None] in S1. change (sr_node r0) with 0 in *.
    apply idle_from in S1; [|reflexivity]. apply (idle_new _ _ _ _ 0) in S1; auto. destruct S1 as (av1 & c0 & S1 & C0 & O0). cbn [Nat.eqb] in S1.
    destruct (GA _ _ 0 T1) as (r2 & x2 & nm2 & E2). pose proof (st_action P same_array _ _ _ _ _ _ _ _ _ T1 E2) as T2.
    destruct (one_iteration _ _ _ _ _ _ E2) as (N2 & y2 & v2 & S2). rewrite S1, N1 in S2.
    apply idle_from in S2; [|reflexivity]. apply (idle_new _ _ _ _ 1) in S2; auto.
    2:{ intros y. assert (NI : not_init (as_tree (seat av1 (Some c0) None)) = [1]) by (unfold not_init; cbn; unfold a_count; cbn; rewrite C0; reflexivity).
        unfold best_action. rewrite NI. reflexivity. }
    destruct S2 as (av2 & c1 & S2 & C1 & O1). cbn [Nat.eqb] in S2.
    destruct (GA _ _ 0 T2) as (r3 & x3 & nm3 & E3). pose proof (st_action P same_array _ _ _ _ _ _ _ _ _ T2 E3) as T3.
    destruct (one_iteration _ _ _ _ _ _ E3) as (N3 & y3 & v3 & S3). rewrite S2, N2, N1 in S3.
    apply idle_from in S3; [|reflexivity].
    assert (V : forall c, c = c0 \/ c = c1 -> (avg_value (k_avg c) == 0)%Q).
    { intros c Hc. destruct (idle_rewards horizon exploration bonus) as [R _].
      assert (I : In (seat av2 (Some c0) (Some c1)) (sr_store r2)) by (rewrite S2; left; reflexivity).
      destruct (C122_discounted _ _ _ _ P same_array 0 0 _ _ _ _ ltac:(split; vm_compute; congruence) ltac:(split; vm_compute; congruence) ltac:(split; apply Qle_refl) R T2 I) as [_ V].
      change (0 / (1 - s_discount P))%Q with 0%Q in V. rewrite <- held_value.
      destruct Hc as [->| ->]; [specialize (V 0 c0 eq_refl)|specialize (V 1 c1 eq_refl)]; lra. }
    assert (NZ : n_simulations av2 <> 0).
    { destruct (C95_counts _ _ _ _ P same_array _ _ r2 [] 0 (seat av2 (Some c0) (Some c1)) same_array_refl T2 eq_refl ltac:(rewrite S2; reflexivity)) as [_ A].
      unfold s_all_visits, s_visits in A. cbn in A. rewrite C0, C1 in A. lia. }
    apply (idle_stays horizon _ _ c0 c1 av2) in S3; auto.
    2:{ intros y. set (n := seat av2 (Some c0) (Some c1)). assert (NI : not_init (as_tree n) = []) by (unfold not_init, n; cbn; unfold a_count; cbn; rewrite C0, C1; reflexivity).
        unfold best_action. rewrite NI. change (o_count (as_tree n)) with (n_simulations av2). destruct (Nat.eqb_spec (n_simulations av2) 0) as [Ez|_]; [destruct (NZ Ez)|]. cbn [fst].
        unfold augmented. rewrite andb_false_r. unfold n. cbn [as_tree seat sn_kids o_kids map option_map a_avg]. unfold a_count. cbn [a_avg]. rewrite C0, C1. unfold argmaxQ. cbn [argmaxQ_from].
        match goal with |- context [Qle_bool ?p ?q] => assert (Q : Qle_bool p q = true) end; [|rewrite Q; reflexivity].
        apply Qle_bool_iff. rewrite (V c0), (V c1) by auto. apply Qle_refl. }
    2:{ cbn. lia. }
    destruct S3 as (av3 & k0' & S3 & V3). exists ((([] ++ [EvAction (sr_last r1)]) ++ [EvAction (sr_last r2)]) ++ [EvAction (sr_last r3)]), r3, (seat av3 (Some k0') (Some c1)).
    split; [exact T3|]. split; [cbn; intros [I|[I|[I|[]]]]; discriminate I|]. split; [rewrite S3; left; reflexivity|]. unfold s_visits. cbn [seat sn_kids nth_error]. rewrite V3, C0, C1. split; [lia|reflexivity].
  Qed.
End Idle.

(** No number is enough for every horizon: for any N there is a horizon for which, with the same rewards, discount
    and exploration, an action of a node has been tried only once when another has been tried N times.  All the
    actions of a simulation are chosen before it changes any node, so that it takes the same action each time it
    comes back to a node. *)
Theorem C125_horizon_refuted : forall exploration bonus N, (0 < exploration)%Q -> explores bonus -> exists horizon, let P := idle_search horizon exploration bonus in
  (0 <= s_discount P < 1)%Q /\ (0 <= s_alpha P <= 1)%Q /\ rewards_in P 0 0 /\ (0 < s_exploration P)%Q /\ s_relative P = false /\ explores (s_bonus P) /\ ends_within P horizon (s_horizon P) /\
  exists l r n, strace P same_array [1%Q] l r /\ ~ In EvExplore l /\ In n (sr_store r) /\ N <= s_visits n 0 /\ s_visits n 1 = 1 /\ ~ s_tried 2 (s_actions P) n.
Proof.
  intros exploration bonus N He HB. exists (S N). intros P. destruct (idle_rewards (S N) exploration bonus) as [R C]. fold P in R, C.
  split; [split; vm_compute; congruence|]. split; [split; vm_compute; congruence|]. split; [exact R|]. split; [exact He|]. split; [reflexivity|]. split; [exact HB|].
  split; [apply (counts_ends _ _ _ _ P _ C); cbn; lia|].
  destruct (idle_run (S N) exploration bonus ltac:(lia)) as (l & r & n & T & NE & Hn & V0 & V1). exists l, r, n. split; [exact T|]. split; [exact NE|]. split; [exact Hn|]. split; [lia|]. split; [exact V1|].
  intros Tr. specialize (Tr 1 ltac:(vm_compute; lia)). lia.
Qed.
Print Assumptions C125_horizon_refuted.

(** The lever of C119 with a horizon of two transitions: waiting leads back to the same node. *)
Definition lever_two := exact_search lever (fun _ => 0%Q) (fun _ => 0) 2 1 false ratio 1 0.
Definition lever_run := s_get_action lever_two same_array 5 2 (sr_reset [sn_new lever_two [1; 0]%Q]) 0.
Example C125_ex : let P := lever_two in (0 <= s_discount P < 1)%Q /\ (0 <= s_alpha P <= 1)%Q /\ rewards_in P 0 1 /\ (0 < s_exploration P)%Q /\ s_relative P = false /\ explores (s_bonus P) /\
  ends_within P 2 (s_horizon P) /\ s_reached P (s_horizon P) = false /\
  exists l r n, strace P same_array [1; 0]%Q l r /\ l <> [] /\ ~ In EvExplore l /\ nth_error (sr_store r) 0 = Some n /\ 5 < s_all_visits n /\ s_tried 2 (s_actions P) n.
Proof.
  intros P. destruct lever_ok as [W S]. destruct (C111_pomdp lever (fun _ => 0%Q) (fun _ => 0) 2 1 false ratio 1 0 0 1) as (R & C & _); auto; [intros _; split; vm_compute; congruence| |].
  { change (nA lever) with 2; change (nS lever) with 2; change (nO lever) with 1. intros [|[|a]] [|[|s]] [|[|s']] [|o] ? ? ? ?; try lia; split; vm_compute; discriminate. }
  split; [split; vm_compute; congruence|]. split; [split; vm_compute; congruence|]. split; [exact R|]. split; [vm_compute; reflexivity|]. split; [reflexivity|]. split; [apply ratio_explores|].
  split; [apply (counts_ends _ _ _ _ P _ C); cbn; lia|]. split; [reflexivity|].
  assert (V : match lever_run with (r, _, Ok _) => match nth_error (sr_store r) 0 with Some n => Nat.ltb 5 (s_all_visits n) && Nat.leb 2 (s_visits n 0) && Nat.leb 2 (s_visits n 1) | None => false end | _ => false end = true) by (vm_compute; reflexivity).
  destruct lever_run as [[r x] [nm|e]] eqn:E; [|discriminate V]. destruct (nth_error (sr_store r) 0) as [n|] eqn:En; [|discriminate V].
  apply andb_prop in V as [V V1]. apply andb_prop in V as [V V0]. apply Nat.ltb_lt in V. apply Nat.leb_le in V0, V1.
  exists ([] ++ [EvAction (sr_last r)]), r, n.
  split; [refine (st_action P same_array _ [] _ 5 2 0 r x nm _ E); apply (st_init P same_array 0 _ 0); reflexivity|]. clear E. split; [discriminate|]. split; [cbn; intros [I|[]]; discriminate I|].
  split; [exact En|]. split; [exact V|]. intros [|[|a]] Ha; [exact V0|exact V1|change (length (s_actions P)) with 2 in Ha; lia].
Qed.
