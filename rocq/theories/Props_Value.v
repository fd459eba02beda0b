(** C111: the values in the search tree stay in the interval of the attainable returns. *)
From Verif Require Import PyBase PyBaseFacts QBase PomdpModel PomdpSpec PomdpProofs BeliefModel EvalModel PolicyModel PomcpModel PomcpSpec
  PomcpProofs PomcpProofs2 ValueSpec ValueProofs Props_Pomdp Props_Pomcp.
From Coq Require Import Lia Lqa Field.
Local Open Scope list_scope.
Local Open Scope nat_scope.

(** With a discount below one, and rewards from lo <= 0 to hi >= 0, every value in the tree is between
    lo / (1 - discount) and hi / (1 - discount), whatever the horizon and after any operations. *)
Theorem C111_discounted : forall X St B H (P : search X St B H) lo hi b l r h n, (0 <= s_discount P < 1)%Q -> (0 <= s_alpha P <= 1)%Q ->
  (lo <= 0 <= hi)%Q -> rewards_in P lo hi -> trace P b l r -> find (r_root r) h = Some n ->
  valued (lo / (1 - s_discount P)) (hi / (1 - s_discount P)) n.
Proof.
  intros X St B H P lo hi b l r h n Hg Ha Hz HR T F. set (g := s_discount P) in *.
  assert (Hd : (0 < 1 - g)%Q) by lra.
  assert (E1 : (lo / (1 - g) == lo + g * (lo / (1 - g)))%Q) by (field; lra).
  assert (E2 : (hi / (1 - g) == hi + g * (hi / (1 - g)))%Q) by (field; lra).
  assert (Z1 : (lo / (1 - g) <= 0)%Q) by (apply Qle_shift_div_r; lra).
  assert (Z2 : (0 <= hi / (1 - g))%Q) by (apply Qle_shift_div_l; lra).
  apply (okn_valued (fun _ => lo / (1 - g))%Q (fun _ => hi / (1 - g))%Q (fun _ => conj Z1 Z2) 0 (r_root r) h n); [|exact F].
  eapply (trace_bound P (fun _ => lo / (1 - g))%Q (fun _ => hi / (1 - g))%Q (fun _ _ => True) lo hi); eauto; fold g; intros; cbv beta; auto; lra.
Qed.
Print Assumptions C111_discounted.

Lemma geometric_nonneg g n : (0 <= g)%Q -> (0 <= geometric g n)%Q.
Proof. intros Hg. induction n as [|n IH]; cbn [geometric]; [lra|]. assert (0 <= g * geometric g n)%Q by (apply Qmult_le_0_compat; auto). lra. Qed.
Lemma scale_pos x y : (0 <= x)%Q -> (0 <= y)%Q -> (0 <= x * y)%Q.
Proof. apply Qmult_le_0_compat. Qed.
Lemma scale_neg x y : (x <= 0)%Q -> (0 <= y)%Q -> (x * y <= 0)%Q.
Proof. intros Hx Hy. assert (0 <= (- x) * y)%Q by (apply Qmult_le_0_compat; lra). lra. Qed.

(** With a horizon of n transitions, and any discount, the value of the node of a history of length d is
    between lo * k and hi * k where k = 1 + discount + ... has (n + deepest) - d terms: deepest is the
    longest history the runner had so far, 0 if no step was made. *)
Theorem C111_horizon : forall X St B H (P : search X St B H) left lo hi b l r h n, (0 <= s_discount P)%Q -> (0 <= s_alpha P <= 1)%Q ->
  (lo <= 0 <= hi)%Q -> rewards_in P lo hi -> counts_down P left -> trace P b l r -> ~ In EvExplore l -> find (r_root r) h = Some n ->
  let k := geometric (s_discount P) (left (s_horizon P) + deepest l - length h) in valued (lo * k) (hi * k) n.
Proof.
  intros X St B H P left lo hi b l r h n Hg Ha Hz HR (C1 & C2 & C3) T NE F k. subst k.
  set (Lo := fun j => (lo * geometric (s_discount P) j)%Q). set (Hi := fun j => (hi * geometric (s_discount P) j)%Q).
  assert (Z0 : forall j, (Lo j <= 0 <= Hi j)%Q) by (intros j; pose proof (geometric_nonneg _ j Hg); split; [apply scale_neg|apply scale_pos]; auto; apply Hz).
  set (K := left (s_horizon P) + deepest l).
  apply (okn_valued Lo Hi Z0 K (r_root r) h n); [|exact F].
  apply (trace_dive_bound P Lo Hi (fun h j => left h <= j) lo hi) with (b := b) (l := l) (D := deepest l); auto.
  - intros h0 j Hr Hl. assert (left h0 <> 0) by (intros E; apply C1 in E; congruence). destruct j as [|j]; [lia|]. replace (S j - 1) with j by lia. unfold Lo, Hi. cbn [geometric].
    set (gg := geometric (s_discount P) j). split.
    + setoid_replace (lo * (1 + s_discount P * gg))%Q with (lo + s_discount P * (lo * gg))%Q by ring. apply Qle_refl.
    + setoid_replace (hi * (1 + s_discount P * gg))%Q with (hi + s_discount P * (hi * gg))%Q by ring. apply Qle_refl.
  - intros h0 j a s s' o Hr Hl. rewrite C2. lia.
  - intros h0 j Hl. rewrite C3. auto.
  - intros d Hd. unfold K. lia.
Qed.
Print Assumptions C111_horizon.

(** Both apply to the runner over a POMDP with a horizon of a number of transitions: its rewards are those of
    its table. *)
Theorem C111_pomdp : forall p u r horizon exploration relative bonus rollout_it alpha lo hi, well_shaped p -> stochastic p -> (forall i, 0 <= u i < 1)%Q ->
  (forall a s s' o, a < nA p -> s < nS p -> s' < nS p -> o < nO p -> (lo <= at_ (p_R p) [a; s; s'; o] <= hi)%Q) ->
  let P := exact_search p u r horizon exploration relative bonus rollout_it alpha in
  rewards_in P lo hi /\ counts_down P (fun h => Z.to_nat (nt_n h)) /\ Z.to_nat (nt_n (s_horizon P)) = Z.to_nat horizon.
Proof.
  intros p u r horizon exploration relative bonus rollout_it alpha lo hi WS ST HU HR P. split; [|split; [|reflexivity]].
  - intros a s x s' o q x' E. unfold P in E. cbn [exact_search s_transition] in E. unfold draw_transition in E.
    assert (Et : pomdp_sample_transition p (u x) (u (S x)) (Z.of_nat a) (Z.of_nat s) = Ok (s', o, q)) by congruence.
    assert (Ha : a < nA p /\ s < nS p).
    { unfold pomdp_sample_transition in Et. rewrite !axis_nat in Et. fold (nA p) (nS p) in Et. destruct (Nat.ltb_spec a (nA p)); [|discriminate]. destruct (Nat.ltb_spec s (nS p)); [|discriminate]. auto. }
    destruct Ha as [Ha Hs]. apply (C81_sampling_partial p a s WS ST Ha Hs) in Et; [|auto|auto]. destruct Et as (Hs' & Ho & -> & _). auto.
  - split; [|split]; cbn.
    + intros h. unfold nt_reached. rewrite Z.leb_le. lia.
    + intros h _ _ _ _. lia.
    + reflexivity.
Qed.
Print Assumptions C111_pomdp.

(** *** Without counting steps the bound of the horizon is not kept *)
(** One state, one action, one observation; the reward is 1, the discount 1 and the horizon one transition. *)
Definition one_T : array := {| shape := [1; 1; 1]; at_ := fun _ => 1%Q |}.
Definition one_R : array := {| shape := [1; 1; 1; 1]; at_ := fun _ => 1%Q |}.
Definition one_start : array := {| shape := [1]; at_ := fun _ => 1%Q |}.
Definition one : pomdp :=
  match mk_pomdp one_T one_T one_R one_start 1 None (Some [NStr "go"]) None "reward" true with
  | Ok p => p
  | Err _ => {| p_T := one_start; p_O := one_start; p_R := one_start; p_start := one_start; p_discount := 0; p_s := NCount 0; p_a := NCount 0; p_o := NCount 0 |}
  end.
Definition one_search := exact_search one (fun _ => 0%Q) (fun _ => 0) 1 0 false (fun _ _ => 0%Q) 1 0.
Definition one_r0 : runner (list Q) := r_reset (o_new one_search [1%Q]).
Definition one_r1 := fst (fst (get_action one_search 1 1 one_r0 0)).
Definition one_r2 := fst (fst (r_step one_search (NInt 0) one_r1 0)).
Definition one_r3 := fst (fst (get_action one_search 1 1 one_r2 0)).
Definition one_r4 := fst (fst (get_action one_search 1 1 (r_reset (r_root one_r3)) 0)).
(** get_action, step, get_action, reset, get_action: no return of one transition is above 1, but the value of
    the root is 3/2.  At the end of its horizon a simulation adds the value its last node has from other
    simulations, here those made after the step, which had a whole horizon from there. *)
Theorem C111_horizon_refuted : exists l r, mk_pomdp one_T one_T one_R one_start 1 None (Some [NStr "go"]) None "reward" true = Ok one /\
  rewards_in one_search 1 1 /\ Z.to_nat (nt_n (s_horizon one_search)) = 1 /\ trace one_search [1%Q] l r /\
  l = [EvAction (Some 0); EvStep (Some 0); EvAction (Some 0); EvReset; EvAction (Some 0)] /\ (avg_value (o_avg (r_root r)) == 3 # 2)%Q.
Proof.
  eexists _, one_r4. split; [vm_compute; reflexivity|]. split.
  { apply C111_pomdp.
    - repeat split.
    - assert (Z0 : forall n, n < 1 -> n = 0) by lia. split; [|split; [|split]]; change (nS one) with 1; change (nA one) with 1; change (nO one) with 1.
      + intros a s s' _ _ _. vm_compute. discriminate.
      + intros a s _ _. vm_compute. reflexivity.
      + intros a s s' _ _ _. vm_compute. discriminate.
      + intros a s _ _. vm_compute. reflexivity.
    - intros _. split; vm_compute; congruence.
    - intros a s s' o _ _ _ _. split; vm_compute; discriminate. }
  split; [reflexivity|]. split; [|split; [|]].
  - pose proof (tr_init one_search 0 [1%Q] 0 one_r0 ltac:(vm_compute; reflexivity) ltac:(vm_compute; reflexivity)) as T0.
    pose proof (fun x' => tr_action one_search _ _ _ 1 1 0 one_r1 x' (NStr "go") T0) as T1. specialize (T1 _ ltac:(vm_compute; reflexivity)).
    pose proof (fun x' => tr_step one_search _ _ _ (NInt 0) 0 0 one_r2 x' T1) as T2. specialize (T2 _ ltac:(vm_compute; reflexivity) ltac:(vm_compute; reflexivity)).
    pose proof (fun x' => tr_action one_search _ _ _ 1 1 0 one_r3 x' (NStr "go") T2) as T3. specialize (T3 _ ltac:(vm_compute; reflexivity)).
    pose proof (tr_reset one_search _ _ _ T3) as T4.
    pose proof (fun x' => tr_action one_search _ _ _ 1 1 0 one_r4 x' (NStr "go") T4) as T5. specialize (T5 _ ltac:(vm_compute; reflexivity)). exact T5.
  - reflexivity.
  - vm_compute. reflexivity.
Qed.
Print Assumptions C111_horizon_refuted.

(** The tiger: rewards from -100 to 10, discount 95/100, so values from -2000 to 200; a history with a step. *)
Example C111_ex : (0 <= s_discount ex_search < 1)%Q /\ (0 <= s_alpha ex_search <= 1)%Q /\ rewards_in ex_search (-100) 10 /\
  counts_down ex_search (fun h => Z.to_nat (nt_n h)) /\
  exists l r n, trace ex_search [1 # 2; 1 # 2]%Q l r /\ ~ In EvExplore l /\ deepest l = 1 /\ find (r_root r) [(0, 1)] = Some n /\ (avg_value (o_avg n) < 0)%Q.
Proof.
  split; [split; vm_compute; congruence|]. split; [split; vm_compute; congruence|].
  destruct (C111_pomdp tiger ex_u ex_r 3 (1 # 2) true (fun n m => 1 / inject_Z (Z.of_nat m))%Q 2 0 (-100) 10) as (R & C & _).
  { repeat split. } { apply tiger_stochastic. } { apply ex_u_ok. }
  { change (nA tiger) with 3. change (nS tiger) with 2. change (nO tiger) with 2. intros [|[|[|a]]] [|[|s]] s' o Ha Hs _ _; try lia; split; vm_compute; discriminate. }
  split; [exact R|]. split; [exact C|].
  destruct (get_action ex_search 20 3 ex_start 0) as [[r1 x1] v1] eqn:E1. assert (V1 : v1 = Ok (NStr "listen") /\ r_last r1 = Some 0) by (revert E1; vm_compute; intros E; inversion E; auto). destruct V1 as [-> L1].
  destruct (r_step ex_search (NInt 1) r1 x1) as [[r2 x2] v2] eqn:E2.
  assert (V2 : v2 = Ok tt /\ exists n, find (r_root r2) [(0, 1)] = Some n /\ (avg_value (o_avg n) < 0)%Q).
  { revert E2. generalize E1. vm_compute. intros E. inversion E. subst r1 x1. intros E2. vm_compute in E2. inversion E2. split; [reflexivity|]. eexists. split; [reflexivity|]. vm_compute. reflexivity. }
  destruct V2 as [-> (n & F & V)]. exists [EvAction (Some 0); EvStep (Some 1)], r2, n.
  split; [|split; [|split; [reflexivity|split; [exact F|exact V]]]].
  - eapply (tr_step ex_search _ [EvAction (Some 0)]); [|exact E2|vm_compute; reflexivity]. rewrite <- L1. eapply (tr_action ex_search _ []); [apply ex_trace|exact E1].
  - cbn. intros [D|[D|[]]]; discriminate.
Qed.
