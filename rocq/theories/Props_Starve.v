(** C119: the search starves no action. *)
From Verif Require Import PyBase PyBaseFacts QBase PomdpModel PomdpSpec PomdpProofs BeliefModel EvalModel PolicyModel PomcpModel PomcpSpec
  PomcpProofs PomcpProofs2 ValueSpec ValueProofs Props_Pomdp Props_Pomcp Props_Value StarveSpec StarveProofs.
From Coq Require Import Lia Lqa Field.
Local Open Scope list_scope.
Local Open Scope nat_scope.

Lemma tried_of_fair X St B H (P : search X St B H) kk many long b l r h n : trace P b l r -> every (fair kk many long) (r_root r) -> find (r_root r) h = Some n ->
  length (s_actions P) * cap many long + 2 <= o_count n -> tried kk (s_actions P) n.
Proof.
  intros T Fr F HN a Ha. pose proof (trace_inv P _ _ _ T) as I. pose proof (inv_sized P _ _ _ I _ _ F) as SZ. unfold sized, n_actions in SZ.
  apply (fair_enough kk many long n); [apply (Fr _ _ F)|apply (trace_balanced P _ _ _ T _ _ F)|lia|lia].
Qed.

(** With a discount below one: for any number k there is a number of visits after which every action of a node
    has been tried at least k times, whatever node of whatever tree, after any use of the runner. *)
Theorem C119_tried : forall X St B H (P : search X St B H) lo hi, (0 <= s_discount P < 1)%Q -> (0 <= s_alpha P <= 1)%Q -> (lo <= 0 <= hi)%Q -> rewards_in P lo hi ->
  (0 < s_exploration P)%Q -> s_relative P = false -> explores (s_bonus P) ->
  forall k, exists N, forall b l r h n, trace P b l r -> ~ In EvExplore l -> find (r_root r) h = Some n -> N <= o_count n -> tried k (s_actions P) n.
Proof.
  intros X St B H P lo hi Hg Ha Hz HR He Hrel HB k. set (g := s_discount P) in *.
  assert (Hd : (0 < 1 - g)%Q) by lra.
  assert (E1 : (lo / (1 - g) == lo + g * (lo / (1 - g)))%Q) by (field; lra).
  assert (E2 : (hi / (1 - g) == hi + g * (hi / (1 - g)))%Q) by (field; lra).
  assert (Z1 : (lo / (1 - g) <= 0)%Q) by (apply Qle_shift_div_r; lra).
  assert (Z2 : (0 <= hi / (1 - g))%Q) by (apply Qle_shift_div_l; lra).
  set (Lo := fun _ : nat => (lo / (1 - g))%Q). set (Hi := fun _ : nat => (hi / (1 - g))%Q).
  destruct (HB k ((hi / (1 - g) - lo / (1 - g)) / s_exploration P + 1)%Q) as (many & long & T0).
  exists (length (s_actions P) * cap many long + 2). intros b l r h n T NE F HN.
  eapply tried_of_fair; eauto.
  eapply (trace_fair P Lo Hi (fun _ _ => True) lo hi) with (K := 0) (D := deepest l) (L := (lo / (1 - g))%Q) (U := (hi / (1 - g))%Q); eauto; fold g; intros; unfold Lo, Hi; cbv beta; auto; lra.
Qed.
Print Assumptions C119_tried.

Lemma geometric_step g n : (0 <= g)%Q -> (geometric g n <= geometric g (S n))%Q.
Proof.
  intros Hg. induction n as [|n IH]; [cbn; lra|]. change (1 + g * geometric g n <= 1 + g * geometric g (S n))%Q.
  assert (0 <= g * (geometric g (S n) - geometric g n))%Q by (apply Qmult_le_0_compat; lra). lra.
Qed.
Lemma geometric_mono g n m : (0 <= g)%Q -> n <= m -> (geometric g n <= geometric g m)%Q.
Proof. intros Hg. induction 1 as [|m Hm IH]; [lra|]. pose proof (geometric_step g m Hg). lra. Qed.

(** With any discount and a horizon of a number of transitions, as long as the history of the runner is not
    longer than a given length. *)
Theorem C119_horizon : forall X St B H (P : search X St B H) left lo hi, (0 <= s_discount P)%Q -> (0 <= s_alpha P <= 1)%Q -> (lo <= 0 <= hi)%Q -> rewards_in P lo hi ->
  counts_down P left -> (0 < s_exploration P)%Q -> s_relative P = false -> explores (s_bonus P) ->
  forall k d, exists N, forall b l r h n, trace P b l r -> ~ In EvExplore l -> deepest l <= d -> find (r_root r) h = Some n -> N <= o_count n -> tried k (s_actions P) n.
Proof.
  intros X St B H P left lo hi Hg Ha Hz HR (C1 & C2 & C3) He Hrel HB k d.
  set (Lo := fun j => (lo * geometric (s_discount P) j)%Q). set (Hi := fun j => (hi * geometric (s_discount P) j)%Q).
  assert (Z0 : forall j, (Lo j <= 0 <= Hi j)%Q) by (intros j; pose proof (geometric_nonneg _ j Hg); split; [apply scale_neg|apply scale_pos]; auto; apply Hz).
  set (K := left (s_horizon P) + d).
  destruct (HB k ((Hi K - Lo K) / s_exploration P + 1)%Q) as (many & long & T0).
  exists (length (s_actions P) * cap many long + 2). intros b l r h n T NE HD F HN.
  eapply tried_of_fair; eauto.
  eapply (trace_fair P Lo Hi (fun h j => left h <= j) lo hi) with (K := K) (D := d) (L := Lo K) (U := Hi K); eauto.
  - intros h0 j Hr Hl. assert (left h0 <> 0) by (intros E; apply C1 in E; congruence). destruct j as [|j]; [lia|]. replace (S j - 1) with j by lia. unfold Lo, Hi. cbn [geometric].
    set (gg := geometric (s_discount P) j). split.
    + setoid_replace (lo * (1 + s_discount P * gg))%Q with (lo + s_discount P * (lo * gg))%Q by ring. apply Qle_refl.
    + setoid_replace (hi * (1 + s_discount P * gg))%Q with (hi + s_discount P * (hi * gg))%Q by ring. apply Qle_refl.
  - intros h0 j a s s' o Hr Hl. rewrite C2. lia.
  - intros h0 j Hl. rewrite C3. auto.
  - intros j Hj. pose proof (geometric_mono (s_discount P) j K Hg Hj). unfold Lo, Hi. destruct Hz as [Hz1 Hz2].
    pose proof (scale_neg lo (geometric (s_discount P) K - geometric (s_discount P) j) Hz1 ltac:(lra)). pose proof (scale_pos hi (geometric (s_discount P) K - geometric (s_discount P) j) Hz2 ltac:(lra)). split; lra.
  - intros d' Hd'. unfold K. lia.
Qed.
Print Assumptions C119_horizon.

(** So one call of get_action with enough iterations tries every action k times at the current node before it
    takes the best one. *)
Theorem C119_get_action : forall X St B H (P : search X St B H) lo hi, (0 <= s_discount P < 1)%Q -> (0 <= s_alpha P <= 1)%Q -> (lo <= 0 <= hi)%Q -> rewards_in P lo hi ->
  (0 < s_exploration P)%Q -> s_relative P = false -> explores (s_bonus P) -> s_reached P (s_horizon P) = false ->
  forall k, exists N, forall b l r iterations fuel x r' x' nm, trace P b l r -> ~ In EvExplore l -> N <= iterations -> get_action P iterations fuel r x = (r', x', Ok nm) ->
  exists n a, find (r_root r') (r_history r') = Some n /\ tried k (s_actions P) n /\ r_last r' = Some a /\ nth_error (s_actions P) a = Some nm /\
    forall i, i < length (s_actions P) -> (action_value n i <= action_value n a)%Q.
Proof.
  intros X St B H P lo hi Hg Ha Hz HR He Hrel HB Hh k. destruct (C119_tried X St B H P lo hi Hg Ha Hz HR He Hrel HB k) as [N HN]. exists (N + length (s_actions P)).
  intros b l r j fuel x r' x' nm T NE Hj E. destruct (C59_best X St B H P b l r j fuel x r' x' nm T Hh ltac:(lia) E) as (n & a & F & La & En & Hb & _). exists n, a.
  split; [exact F|]. split; [|split; [exact La|split; [exact En|intros i Hi; apply Hb; exact Hi]]].
  eapply (HN b (l ++ [EvAction (r_last r')]) r'); [eapply tr_action; eauto| |exact F|].
  - intros I. apply in_app_or in I. destruct I as [I|[I|[]]]; [auto|discriminate].
  - pose proof (trace_inv P _ _ _ T) as I. destruct (get_action_keep P _ _ _ _ _ _ _ E) as (G & K1 & K2 & _).
    destruct (get_action_pick P _ _ _ _ _ _ _ _ _ I E) as [_ Hp]. destruct (Hp _ eq_refl) as (a' & r1 & x1 & m & Es & F1 & Eb & En' & L & F').
    destruct (inv_find _ _ _ _ I) as [m0 F0]. destruct (simulations_tried P _ _ _ _ _ _ _ Es Hh F0) as (m' & F2 & L' & C').
    rewrite K1, <- (inv_node _ _ _ _ I), <- K2 in F. assert (m' = n) as -> by congruence. lia.
Qed.
Print Assumptions C119_get_action.

(** *** Relative exploration starves actions *)
(** Two states; in the first, waiting does nothing and pulling the lever wins 1 half of the time.  The horizon is
    one transition, and all the draws of transitions fall in the first half. *)
Definition pull_T : array := {| shape := [2; 2; 2]; at_ := fun i => match i with [1; 0; _] => (1 # 2)%Q | [_; s; s'] => if Nat.eqb s s' then 1%Q else 0%Q | _ => 0%Q end |}.
Definition pull_O : array := {| shape := [2; 2; 1]; at_ := fun _ => 1%Q |}.
Definition pull_R : array := {| shape := [2; 2; 2; 1]; at_ := fun i => match i with [1; 0; 1; _] => 1%Q | _ => 0%Q end |}.
Definition pull_start : array := {| shape := [2]; at_ := fun i => match i with [0] => 1%Q | _ => 0%Q end |}.
Definition lever : pomdp :=
  match mk_pomdp pull_T pull_O pull_R pull_start (1 # 2) None (Some [NStr "wait"; NStr "pull"]) None "reward" true with
  | Ok p => p
  | Err _ => {| p_T := one_start; p_O := one_start; p_R := one_start; p_start := one_start; p_discount := 0; p_s := NCount 0; p_a := NCount 0; p_o := NCount 0 |}
  end.
Definition lever_search relative exploration bonus := exact_search lever (fun _ => 0%Q) (fun _ => 0) 1 exploration relative bonus 1 0.
Lemma lever_ok : well_shaped lever /\ stochastic lever.
Proof.
  split; [repeat split|]. split; [|split; [|split]]; change (nS lever) with 2; change (nA lever) with 2; change (nO lever) with 1.
  - intros [|[|a]] [|[|s]] [|[|s']] ? ? ?; try lia; vm_compute; discriminate.
  - intros [|[|a]] [|[|s]] ? ?; try lia; vm_compute; reflexivity.
  - intros a s s' _ _ _; vm_compute; discriminate.
  - intros a s _ _; vm_compute; reflexivity.
Qed.
Lemma lever_rewards relative exploration bonus : rewards_in (lever_search relative exploration bonus) 0 1.
Proof.
  destruct lever_ok as [W S]. apply (C111_pomdp lever); auto; [intros _; split; vm_compute; congruence|].
  change (nA lever) with 2; change (nS lever) with 2; change (nO lever) with 1. intros [|[|a]] [|[|s]] [|[|s']] [|o] ? ? ? ?; try lia; split; vm_compute; discriminate.
Qed.

Section Starving.
  Variables (exploration : Q) (bonus : nat -> nat -> Q).
  Notation P := (lever_search true exploration bonus).
  Definition nil_avg (v : vavg) : Prop := (total_value v == 0)%Q.
  Lemma nil_value v : nil_avg v -> (avg_value v == 0)%Q.
  Proof. unfold nil_avg, avg_value. intros E. destruct (Nat.eqb _ 0); [reflexivity|]. rewrite E. unfold Qdiv. ring. Qed.
  Lemma nil_update v q : nil_avg v -> (q == 0)%Q -> nil_avg (avg_update 0 v q).
  Proof. unfold nil_avg. cbn [avg_update total_value]. intros -> ->. ring. Qed.
  (** every action was tried, the second one once, and all the values are 0 *)
  Definition stuck (N : nat) (n : onode (list Q)) : Prop := exists c0 c1, o_belief n = [1; 0]%Q /\ o_kids n = [Some c0; Some c1] /\ o_count n = N /\ nil_avg (a_avg c0) /\ nil_avg (a_avg c1) /\
    0 < a_count c0 /\ a_count c1 = 1 /\ 0 < N /\ forall o m, lookup o (a_kids c0) = Some m -> nil_avg (o_avg m).
  Lemma stuck_best N n x : stuck N n -> (0 < exploration)%Q -> best_action P n (s_exploration P) (s_relative P) x = (Ok 0, x).
  Proof.
    intros (c0 & c1 & Eb & Ek & EN & V0 & V1 & K0 & K1 & KN & _) He. unfold best_action, not_init. rewrite Ek. cbn [length seq filter nth].
    destruct (Nat.eqb_spec (a_count c0) 0); [lia|]. destruct (Nat.eqb_spec (a_count c1) 0); [lia|]. destruct (Nat.eqb_spec (o_count n) 0); [lia|].
    unfold augmented, values. rewrite Ek. cbn [map]. set (q0 := avg_value (a_avg c0)). set (q1 := avg_value (a_avg c1)).
    pose proof (nil_value _ V0 : (q0 == 0)%Q) as Q0. pose proof (nil_value _ V1 : (q1 == 0)%Q) as Q1.
    change (s_exploration P) with exploration. change (s_relative P) with true. destruct (Qle_bool exploration 0) eqn:El; [apply Qle_bool_iff in El; lra|]. cbn [negb andb].
    assert (M : (qmax [q0; q1] - qmin [q0; q1] == 0)%Q) by (unfold qmax, qmin; cbn [fold_right hd]; repeat (destruct (Qle_bool _ _)); lra).
    set (e := (exploration * (qmax [q0; q1] - qmin [q0; q1]))%Q) in *. assert (E0 : (e == 0)%Q) by (unfold e; rewrite M; ring).
    unfold argmaxQ. cbn [argmaxQ_from]. match goal with |- context [Qle_bool ?a ?b] => assert (Qle_bool a b = true) as -> end; [|reflexivity].
    apply Qle_bool_iff. rewrite E0, Q0, Q1. lra.
  Qed.
  Lemma stuck_step N n fuel x : stuck N n -> (0 < exploration)%Q -> exists n' x' v, simulate_from_node P (S fuel) None n x = (n', x', Ok v) /\ stuck (S N) n'.
  Proof.
    intros G He. pose proof (stuck_best N n (S x) G He) as HB. destruct G as (c0 & c1 & Eb & Ek & EN & V0 & V1 & K0 & K1 & KN & KM).
    unfold simulate_from_node. rewrite Eb. change (s_sample P [1; 0]%Q x) with (Ok 0 : res nat, S x). cbv iota. cbn [simulate].
    change (s_reached P (s_horizon P)) with false. cbv iota. rewrite HB. cbn [bind]. unfold safe_child. rewrite Ek. cbn [nth_error bind].
    change (s_transition P 0 0 (S x)) with (Ok (0, 0, 0%Q) : res (nat * nat * Q), S (S (S x))). cbv iota beta zeta.
    destruct (lookup 0 (a_kids c0)) as [m|] eqn:El.
    - assert (Es : forall f y, simulate P f m 0 (s_decrement P (s_horizon P) 0 0 0 0) None y = (m, y, Ok (avg_value (o_avg m)))) by (intros [|f] y; reflexivity).
      rewrite Es. cbv iota beta. do 3 eexists. split; [reflexivity|]. set (v := (0 + s_discount P * avg_value (o_avg m))%Q).
      assert (Hv : (v == 0)%Q) by (unfold v; rewrite (nil_value _ (KM _ _ El)); ring).
      exists (a_update P (put c0 0 m) v), c1. split; [exact Eb|]. split; [cbn; rewrite Ek; reflexivity|]. split; [rewrite <- EN; reflexivity|]. split; [|split; [|split; [|split; [|split]]]].
      + apply (nil_update (a_avg c0)); auto.
      + exact V1.
      + cbn. lia.
      + exact K1.
      + lia.
      + intros o m' L. cbn [a_update a_kids put] in L. destruct (Nat.eq_dec o 0) as [->|Ho]; [rewrite lookup_upd_same in L; assert (m' = m) as -> by congruence; eauto|]. rewrite lookup_upd_other in L by auto. eauto.
    - change (o_belief (set_kid n 0 c0)) with (o_belief n). rewrite Eb. destruct (s_succ P [1; 0]%Q 0 0 (S (S (S x)))) as [sb y] eqn:Esb.
      assert (exists b, sb = Ok b) as [b ->] by (revert Esb; vm_compute; intros E; inversion E; eauto).
      assert (Er : forall f y, rollout_from_node P f (o_new P b) (s_decrement P (s_horizon P) 0 0 0 0) y = (o_new P b, y, Ok 0%Q)) by reflexivity.
      rewrite Er. cbv iota beta. do 3 eexists. split; [reflexivity|]. set (v := (0 + s_discount P * 0)%Q). assert (Hv : (v == 0)%Q) by (unfold v; ring).
      exists (a_update P (put c0 0 (o_new P b)) v), c1. split; [exact Eb|]. split; [cbn; rewrite Ek; reflexivity|]. split; [rewrite <- EN; reflexivity|]. split; [|split; [|split; [|split; [|split]]]].
      + apply (nil_update (a_avg c0)); auto.
      + exact V1.
      + cbn. lia.
      + exact K1.
      + lia.
      + intros o m' L. cbn [a_update a_kids put] in L. destruct (Nat.eq_dec o 0) as [->|Ho]; [rewrite lookup_upd_same in L; assert (m' = o_new P b) as -> by congruence; reflexivity|]. rewrite lookup_upd_other in L by auto. eauto.
  Qed.
  Lemma stuck_more : forall j N r x, stuck N (r_root r) -> r_node r = [] -> (0 < exploration)%Q -> exists r' x', simulations P j 1 r x = (r', x', Ok tt) /\ stuck (j + N) (r_root r') /\ r_node r' = [].
  Proof.
    induction j as [|j IH]; intros N r x G Hn He; cbn [simulations]; [eauto|]. rewrite Hn. cbn [at_node]. destruct (stuck_step N (r_root r) 0 x G He) as (n' & x1 & v & E & G'). rewrite E.
    destruct (IH (S N) {| r_root := n'; r_history := r_history r; r_node := []; r_last := r_last r |} x1 G' eq_refl He) as (r2 & x2 & E2 & G2 & N2). exists r2, x2. split; [exact E2|]. split; [|exact N2].
    replace (S j + N) with (j + S N) by lia. exact G2.
  Qed.
  Lemma simulations_app : forall i j fuel r x r1 x1, simulations P i fuel r x = (r1, x1, Ok tt) -> simulations P (i + j) fuel r x = simulations P j fuel r1 x1.
  Proof.
    induction i as [|i IH]; intros j fuel r x r1 x1 E; cbn [simulations Nat.add] in *; [congruence|]. destruct (at_node _ _ _ _) as [[root y] [v|e]]; [|discriminate]. eauto.
  Qed.
End Starving.

(** With relative_exploration, whatever the exploration coefficient and the exploration term: the coefficient is
    multiplied by the difference of the greatest and least values, which is 0 as long as nothing was won; then
    the first action is chosen for ever.  Pulling the lever, the better action, is tried once in any number of
    simulations, and get_action answers to wait. *)
Theorem C119_relative_refuted : forall exploration bonus, (0 < exploration)%Q -> let P := lever_search true exploration bonus in
  mk_pomdp pull_T pull_O pull_R pull_start (1 # 2) None (Some [NStr "wait"; NStr "pull"]) None "reward" true = Ok lever /\ rewards_in P 0 1 /\ (s_discount P == 1 # 2)%Q /\
  forall N, exists l r, trace P [1; 0]%Q l r /\ l = [EvAction (Some 0)] /\ N <= o_count (r_root r) /\ visits (r_root r) 1 = 1.
Proof.
  intros exploration bonus He P. split; [vm_compute; reflexivity|]. split; [apply lever_rewards|]. split; [reflexivity|]. intros N.
  set (r0 := r_reset (o_new P [1; 0]%Q)).
  assert (T0 : trace P [1; 0]%Q [] r0) by (apply (tr_init P 0 _ 0); reflexivity).
  destruct (simulations P 2 1 r0 0) as [[r1 x1] v1] eqn:E1.
  assert (G1 : v1 = Ok tt /\ stuck 2 (r_root r1) /\ r_node r1 = []).
  { revert E1. vm_compute. intros E. inversion E. subst. split; [reflexivity|]. split; [|reflexivity]. do 2 eexists. repeat (split; [try reflexivity; try lia|]).
    - intros o m. destruct o; [intros L; inversion L; reflexivity|discriminate]. }
  destruct G1 as (-> & G1 & N1). destruct (stuck_more exploration bonus N 2 r1 x1 G1 N1 He) as (r2 & x2 & E2 & G2 & N2). fold P in E2.
  pose proof (simulations_app exploration bonus 2 N 1 r0 0 r1 x1 E1) as EA. fold P in EA. rewrite E2 in EA.
  assert (HB : forall x, best_action P (r_root r2) 0 false x = (Ok 0, x)).
  { intros x. destruct G2 as (c0 & c1 & Eb & Ek & EN & V0 & V1 & K0 & K1 & KN & _). unfold best_action, not_init. rewrite Ek. cbn [length seq filter nth].
    destruct (Nat.eqb_spec (a_count c0) 0); [lia|]. destruct (Nat.eqb_spec (a_count c1) 0); [lia|]. destruct (Nat.eqb_spec (o_count (r_root r2)) 0); [lia|].
    unfold augmented. rewrite Ek, andb_false_r. cbn [map]. unfold argmaxQ. cbn [argmaxQ_from]. match goal with |- context [Qle_bool ?a ?b] => assert (Qle_bool a b = true) as -> end; [|reflexivity].
    apply Qle_bool_iff. rewrite (nil_value _ V0), (nil_value _ V1). lra. }
  exists [EvAction (Some 0)], {| r_root := r_root r2; r_history := r_history r2; r_node := r_node r2; r_last := Some 0 |}. split; [|split; [reflexivity|]].
  - refine (tr_action P [1; 0]%Q [] r0 (2 + N) 1 0 {| r_root := r_root r2; r_history := r_history r2; r_node := r_node r2; r_last := Some 0 |} x2 (NStr "wait") T0 _).
    unfold get_action. rewrite EA, N2. cbn [at_node]. rewrite HB. reflexivity.
  - cbn [r_root]. destruct G2 as (c0 & c1 & Eb & Ek & EN & V0 & V1 & K0 & K1 & KN & _). split; [lia|]. unfold visits. rewrite Ek. cbn [nth_error]. exact K1.
Qed.
Print Assumptions C119_relative_refuted.

(** The same lever with exploration that is not relative, and a rational exploration term. *)
Definition ratio (N n : nat) : Q := (inject_Z (Z.of_nat N) / inject_Z (Z.of_nat n))%Q.
Lemma ratio_explores : explores ratio.
Proof.
  intros k W. exists (2 * k), (2 * k * Z.to_nat (Qceiling W)). intros N j n HN Hj Hk Hn. unfold ratio.
  pose proof (Qle_ceiling W) as HW. set (w := Z.to_nat (Qceiling W)) in *. assert (Hw : (W <= inject_Z (Z.of_nat w))%Q).
  { apply (Qle_trans _ (inject_Z (Qceiling W))); [auto|]. rewrite <- Zle_Qle. unfold w. lia. }
  set (q := fun i => inject_Z (Z.of_nat i)). assert (QP : forall i, 0 < i -> (0 < q i)%Q) by (intros i Hi; unfold q; change 0%Q with (inject_Z 0); rewrite <- Zlt_Qlt; lia).
  assert (QM : forall i i', i <= i' -> (q i <= q i')%Q) by (intros i i' Hi; unfold q; rewrite <- Zle_Qle; lia).
  pose proof (QP j Hj) as Pj. pose proof (QP k ltac:(lia)) as Pk. pose proof (QP n ltac:(lia)) as Pn. pose proof (QM _ _ Hk) as Mk. pose proof (QM _ _ Hn) as Mn. pose proof (QM _ _ HN) as MN. pose proof (QM 0 N ltac:(lia)) as PN.
  assert (E2 : (q (2 * k)%nat == 2 * q k)%Q) by (unfold q; rewrite Nat2Z.inj_mul, inject_Z_mult; reflexivity).
  assert (E3 : (q (2 * k * w)%nat == 2 * q k * q w)%Q) by (rewrite <- E2; unfold q; rewrite Nat2Z.inj_mul, inject_Z_mult; reflexivity).
  rewrite E2 in Mn. rewrite E3 in MN. change (q 0) with 0%Q in PN. change (W <= q w)%Q in Hw. change (q N / q n + W <= q N / q j)%Q.
  assert (A1 : (q N / q n <= q N / (2 * q k))%Q).
  { apply Qle_shift_div_l; [lra|]. setoid_replace (q N / q n * (2 * q k))%Q with (q N * (2 * q k) / q n)%Q by (field; lra). apply Qle_shift_div_r; [auto|]. rewrite !(Qmult_comm (q N)). apply Qmult_le_compat_r; auto. }
  assert (A2 : (q N / q k <= q N / q j)%Q).
  { apply Qle_shift_div_l; [lra|]. setoid_replace (q N / q k * q j)%Q with (q N * q j / q k)%Q by (field; lra). apply Qle_shift_div_r; [auto|]. rewrite !(Qmult_comm (q N)). apply Qmult_le_compat_r; auto. }
  assert (A3 : (q w <= q N / (2 * q k))%Q) by (apply Qle_shift_div_l; [lra|]; rewrite Qmult_comm; auto).
  assert (A4 : (q N / q k == q N / (2 * q k) + q N / (2 * q k))%Q) by (field; lra). lra.
Qed.
Example C119_ex : let P := lever_search false 1 ratio in (0 <= s_discount P < 1)%Q /\ (0 <= s_alpha P <= 1)%Q /\ rewards_in P 0 1 /\ counts_down P (fun h => Z.to_nat (nt_n h)) /\
  (0 < s_exploration P)%Q /\ s_relative P = false /\ explores (s_bonus P) /\ s_reached P (s_horizon P) = false /\
  exists l r, trace P [1; 0]%Q l r /\ ~ In EvExplore l /\ l = [EvAction (Some 0)] /\ o_count (r_root r) = 12 /\ tried 5 (s_actions P) (r_root r).
Proof.
  intros P. split; [split; vm_compute; congruence|]. split; [split; vm_compute; congruence|]. split; [apply lever_rewards|]. split.
  { destruct lever_ok as [W S]. apply (C111_pomdp lever (fun _ => 0%Q) (fun _ => 0) 1 1 false ratio 1 0 0 1); auto; [intros _; split; vm_compute; congruence|].
    change (nA lever) with 2; change (nS lever) with 2; change (nO lever) with 1. intros [|[|a]] [|[|s]] [|[|s']] [|o] ? ? ? ?; try lia; split; vm_compute; discriminate. }
  split; [vm_compute; reflexivity|]. split; [reflexivity|]. split; [apply ratio_explores|]. split; [reflexivity|].
  set (r0 := r_reset (o_new P [1; 0]%Q)). assert (T0 : trace P [1; 0]%Q [] r0) by (apply (tr_init P 0 _ 0); reflexivity).
  destruct (get_action P 12 1 r0 0) as [[r1 x1] v1] eqn:E1.
  assert (G : v1 = Ok (NStr "wait") /\ r_last r1 = Some 0 /\ o_count (r_root r1) = 12 /\ 5 <= visits (r_root r1) 0 /\ 5 <= visits (r_root r1) 1).
  { revert E1. vm_compute. intros E. inversion E. split; [reflexivity|]. split; [reflexivity|]. split; [reflexivity|]. split; lia. }
  destruct G as (-> & L & C & V0 & V1). exists [EvAction (Some 0)], r1. split; [|split; [|split; [reflexivity|split; [exact C|]]]].
  - rewrite <- L. apply (tr_action P [1; 0]%Q [] r0 12 1 0 r1 x1 (NStr "wait") T0 E1).
  - intros [D|[]]. discriminate.
  - intros [|[|a]] Ha; [exact V0|exact V1|cbn in Ha; lia].
Qed.
