(** C97 and C98: probabilities of the samples of a POMDP and of particle beliefs. *)
From Verif Require Import QBase PyBase PyBaseFacts PomdpModel PomdpSpec PomdpProofs PomdpProofs2 BeliefModel BeliefSpec BeliefProofs Props_Pomdp Props_Belief LawSpec LawProofs LawProofs2 LawProofs3 LawProofs4.
From Coq Require Import Lia Lqa Field Factorial.
Local Open Scope list_scope.
Local Open Scope nat_scope.

(** *** C97 *)
(** Uniform draws exist for the tables of any POMDP: equally likely points of a fine enough grid, and any finer one. *)
Theorem C97_draws : forall p, stochastic p -> start_ok p -> exists n, 0 < n /\ forall m, 0 < m -> is_space (grid (m * n)) /\ uniform (grid (m * n)) (fun w => w) (model_marks p).
Proof.
  intros p St S0. destruct (grid_uniform (model_marks p) (model_marks_bounds p St S0)) as (n & Hn & U). exists n. split; [auto|]. intros m Hm. split; [apply grid_space; lia|auto].
Qed.
Print Assumptions C97_draws.

(** sample_start and sample, for one uniform draw, return each state with its probability. *)
Theorem C97_start : forall p W (sp : space W) draw, well_shaped p -> start_ok p -> uniform sp draw (model_marks p) ->
  forall s, s < nS p -> (prob sp (fun w => match pomdp_sample_start p (draw w) with Ok s' => Nat.eqb s' s | Err _ => false end) == Start p s)%Q.
Proof.
  intros p W sp draw (W1 & _) [S1 S2] U s Hs.
  assert (E : forall x, pomdp_sample_start p x = random_choice (map (Start p) (seq 0 (nS p))) x) by (intros x; unfold pomdp_sample_start, row; rewrite W1; reflexivity).
  set (g := fun r : res nat => match r with Ok s' => if Nat.eqb s' s then 1%Q else 0%Q | Err _ => 0%Q end).
  transitivity (mean sp (fun w => g (random_choice (map (Start p) (seq 0 (nS p))) (draw w)))).
  { apply mean_ext. intros q w _. rewrite E. unfold g. destruct (random_choice _ _); reflexivity. }
  rewrite (proj2 (choice_law sp draw (model_marks p) (Start p) (nS p) U (fun c I => in_or_app _ _ c (or_introl I)) S1 S2) g). unfold sum_n. rewrite (sum_single _ _ s).
  - unfold g. rewrite Nat.eqb_refl. ring.
  - apply seq_NoDup.
  - apply in_seq. lia.
  - intros y _ Ny. unfold g. destruct (Nat.eqb_spec y s); [congruence|ring].
Qed.
Print Assumptions C97_start.
Theorem C97_sample : forall b W (sp : space W) draw, (forall s, s < length b -> (0 <= nth s b 0)%Q) -> (sumQ b == 1)%Q ->
  uniform sp draw (row_marks (fun s => nth s b 0%Q) (length b)) ->
  forall s, s < length b -> (prob sp (fun w => match array_sample b (draw w) with Ok s' => Nat.eqb s' s | Err _ => false end) == nth s b 0)%Q.
Proof.
  intros b W sp draw H0 H1 U s Hs.
  assert (E : map (fun i => nth i b 0%Q) (seq 0 (length b)) = b).
  { apply nth_ext with (d := 0%Q) (d' := 0%Q); rewrite map_length, seq_length; auto. intros i Hi. apply nth_map_seq. auto. }
  set (g := fun r : res nat => match r with Ok s' => if Nat.eqb s' s then 1%Q else 0%Q | Err _ => 0%Q end).
  transitivity (mean sp (fun w => g (random_choice (map (fun s => nth s b 0%Q) (seq 0 (length b))) (draw w)))).
  { apply mean_ext. intros q w _. rewrite E. unfold g, array_sample. destruct (random_choice _ _); reflexivity. }
  assert (HS : (sum_n (length b) (fun s => nth s b 0%Q) == 1)%Q) by (rewrite <- H1; apply (sum_n_nth b 0%Q (fun x => x))).
  rewrite (proj2 (choice_law sp draw _ (fun s => nth s b 0%Q) (length b) U (fun c I => I) H0 HS) g). unfold sum_n. rewrite (sum_single _ _ s).
  - unfold g. rewrite Nat.eqb_refl. ring.
  - apply seq_NoDup.
  - apply in_seq. lia.
  - intros y _ Ny. unfold g. destruct (Nat.eqb_spec y s); [congruence|ring].
Qed.
Print Assumptions C97_sample.

(** sample_transition, for two independent uniform draws, goes to s' and observes o with the probability given by the tables, and
    the expected value of any function of its result follows, e.g. that of the reward. *)
Theorem C97_transition : forall p U V (spu : space U) (spv : space V) u v a s, well_shaped p -> stochastic p -> a < nA p -> s < nS p ->
  uniform spu u (model_marks p) -> uniform spv v (model_marks p) ->
  (forall s' o, s' < nS p -> o < nO p ->
     (prob (pairs spu spv) (fun uv => goes s' (Z.of_nat o) (do (s', o, r) <- pomdp_sample_transition p (u (fst uv)) (v (snd uv)) (Z.of_nat a) (Z.of_nat s); Ok (s', Z.of_nat o, r))) ==
      Tr p a s s' * Ob p a s' o)%Q) /\
  forall g : nat -> nat -> Q -> Q,
    (mean (pairs spu spv) (fun uv => match pomdp_sample_transition p (u (fst uv)) (v (snd uv)) (Z.of_nat a) (Z.of_nat s) with Ok (s', o, r) => g s' o r | Err _ => 0 end) ==
     sum_n (nS p) (fun s' => sum_n (nO p) (fun o => Tr p a s s' * Ob p a s' o * g s' o (at_ (p_R p) [a; s; s'; o]))))%Q.
Proof.
  intros p U V spu spv u v a s Ws St Ha Hs Uu Uv. split.
  - intros s' o Hs' Ho. set (g := fun r : res (nat * nat * Q) => if goes s' (Z.of_nat o) (do (s', o', r) <- r; Ok (s', Z.of_nat o', r)) then 1%Q else 0%Q).
    transitivity (mean (pairs spu spv) (fun y => g (pomdp_sample_transition p (u (fst y)) (v (snd y)) (Z.of_nat a) (Z.of_nat s)))); [reflexivity|].
    rewrite (transition_law p spu spv u v a s Ws St Ha Hs Uu Uv g). unfold sum_n. rewrite (sum_single _ _ s').
    + rewrite (sum_single _ _ o).
      * unfold g. cbn [bind goes]. rewrite Nat.eqb_refl, Z.eqb_refl. cbn [andb]. unfold step_prob. ring.
      * apply seq_NoDup.
      * apply in_seq. lia.
      * intros o' _ Ne. unfold g. cbn [bind goes]. destruct (Z.eqb_spec (Z.of_nat o') (Z.of_nat o)); [lia|]. rewrite Bool.andb_false_r. ring.
    + apply seq_NoDup.
    + apply in_seq. lia.
    + intros s2 _ Ne. apply sum_zero. intros o' _. unfold g. cbn [bind goes]. destruct (Nat.eqb_spec s2 s'); [congruence|]. cbn [andb]. ring.
  - intros g. set (h := fun r : res (nat * nat * Q) => match r with Ok (s', o, r) => g s' o r | Err _ => 0%Q end).
    transitivity (mean (pairs spu spv) (fun y => h (pomdp_sample_transition p (u (fst y)) (v (snd y)) (Z.of_nat a) (Z.of_nat s)))); [reflexivity|].
    rewrite (transition_law p spu spv u v a s Ws St Ha Hs Uu Uv h). unfold step_prob. reflexivity.
Qed.
Print Assumptions C97_transition.

(** The tiger: 20 equally likely points are enough. *)
Lemma tiger_start_ok : start_ok tiger.
Proof. split; [intros [|[|s]] H; vm_compute in H; try lia; vm_compute; discriminate|vm_compute; reflexivity]. Qed.
Example C97_ex_uniform : is_space (grid 20) /\ uniform (grid 20) (fun w => w) (model_marks tiger).
Proof.
  split; [apply grid_space; lia|]. split.
  - intros q w H. apply in_map_iff in H. destruct H as (k & E & Hk). apply in_seq in Hk. assert (w = (inject_Z (Z.of_nat k) / inject_Z (Z.of_nat 20))%Q) as -> by congruence.
    split; [apply Qle_shift_div_l; [reflexivity|]; rewrite Qmult_0_l; change 0%Q with (inject_Z 0); rewrite <- Zle_Qle; lia|].
    apply Qlt_shift_div_r; [reflexivity|]. rewrite Qmult_1_l, <- Zlt_Qlt. lia.
  - assert (F : forallb (fun c => Qeq_bool (prob (grid 20) (fun w => negb (Qle_bool c w))) c) (model_marks tiger) = true) by (vm_compute; reflexivity).
    intros c I. rewrite forallb_forall in F. apply Qeq_bool_iff, F. auto.
Qed.
Example C97_ex : (prob (pairs (grid 20) (grid 20)) (fun uv => goes 1 1 (do (s', o, r) <- pomdp_sample_transition tiger (fst uv) (snd uv) 0 1; Ok (s', Z.of_nat o, r))) == 17 # 20)%Q.
Proof. apply Qeq_bool_iff. vm_compute. reflexivity. Qed.

(** *** C98 *)
(** The first belief: particles are independent and each is a state with the probability that the sampler returns it. *)
Theorem C98_initial : forall W (sp : space W) start rand N l, is_space sp -> length l <= N ->
  (prob (tapes sp N) (fun x => match fst (particle_belief rand (length l) (next_start start) x) with Ok parts => if list_eq_dec Nat.eq_dec parts l then true else false | Err _ => false end) ==
   product l (fun s => prob sp (fun w => Nat.eqb (start w) s)))%Q.
Proof.
  intros W sp start rand N l Sp HN. rewrite <- (initial_joint sp start Sp l N HN). apply prob_ext. intros q x Ix. destruct (tapes_length sp N q x Ix) as [Lx _].
  rewrite initial_parts by lia. reflexivity.
Qed.
Print Assumptions C98_initial.

(** The successor of a particle belief, for any simulator that does not raise: it fails with MaxSamplesReached with probability
    (1 - chance of the observation)^(100 n), and otherwise the expected frequency of each state is exactly its chance given the
    observation, even when particles are duplicated because the limit of samples is reached. *)
Theorem C98_unbiased : forall W (sp : space W) idx out ns parts a o N, is_space sp -> fair sp idx (length parts) -> parts <> [] -> simulates sp out ns parts a ->
  201 * length parts <= N ->
  let outcome x := fst (successor (next_index idx) (next_step out) (length parts) parts a o x) in
  let alpha := chance_obs sp out ns parts a o in
  let failure := pow (1 - alpha) (100 * length parts) in
  (forall q x, In (q, x) (tapes sp N) -> match outcome x with Ok l => length l = length parts | Err e => e = EMaxSamples end) /\
  (prob (tapes sp N) (fun x => match outcome x with Ok _ => false | Err _ => true end) == failure)%Q /\
  (0 <= alpha <= 1)%Q /\
  ((0 < alpha)%Q -> (failure < 1)%Q /\ forall s, s < ns ->
     (mean (tapes sp N) (fun x => match outcome x with Ok l => frequency l s | Err _ => 0 end) / (1 - failure) == chance sp out parts a o s / alpha)%Q).
Proof.
  intros W sp idx out ns parts a o N Sp Fi Hne Si HN outcome alpha failure. split; [|split; [|split]].
  - intros q x Ix. pose proof (successor_both sp idx out ns parts a o N Hne Si q x HN Ix) as H. fold (outcome x) in H. destruct (outcome x); tauto.
  - apply (successor_fails sp idx out ns parts a o N Sp Fi Hne Si HN).
  - apply (chance_obs_bounds sp out ns parts a o Sp Hne Si).
  - intros Ha. assert (HF : (failure < 1)%Q).
    { unfold failure. pose proof (chance_obs_bounds sp out ns parts a o Sp Hne Si) as B. fold alpha in B. assert (P : 0 < 100 * length parts) by (destruct parts; [congruence|cbn; lia]).
      apply pow_lt; [lra|lra|auto]. }
    split; [auto|]. intros s Hs. pose proof (successor_mean sp idx out ns parts a o N Sp Fi Hne Si HN s Hs) as E. fold alpha in E. fold failure in E. unfold outcome.
    apply Qmult_inj_r with (alpha * (1 - failure))%Q; [intros X; apply Qmult_integral in X; destruct X; lra|].
    transitivity (mean (tapes sp N) (fun x => match fst (successor (next_index idx) (next_step out) (length parts) parts a o x) with Ok l => frequency l s | Err _ => 0 end) * alpha)%Q; [field; lra|].
    rewrite E. field. lra.
Qed.
Print Assumptions C98_unbiased.

(** For a POMDP this is the exact update of the belief that the particles stand for. *)
Theorem C98_posterior : forall p I U V (spi : space I) (spu : space U) (spv : space V) idx u v parts b nb a o N,
  well_shaped p -> stochastic p -> is_space spi -> is_space spu -> is_space spv -> fair spi idx (length parts) -> uniform spu u (model_marks p) -> uniform spv v (model_marks p) ->
  a < nA p -> o < nO p -> parts <> [] -> particle_array (nS p) parts = Ok b -> belief_update p (Z.of_nat a) (Z.of_nat o) b = Ok nb -> 201 * length parts <= N ->
  let sp := pairs spi (pairs spu spv) in
  let out := pomdp_out p (fun w : I * (U * V) => u (fst (snd w))) (fun w => v (snd (snd w))) in
  let outcome x := fst (successor (next_index (fun w : I * (U * V) => idx (fst w))) (next_step out) (length parts) parts (Z.of_nat a) (Z.of_nat o) x) in
  let failure := pow (1 - prob_obs p b a o) (100 * length parts) in
  (prob (tapes sp N) (fun x => match outcome x with Ok _ => false | Err _ => true end) == failure)%Q /\ (failure < 1)%Q /\
  forall s, s < nS p ->
    (mean (tapes sp N) (fun x => match outcome x with Ok l => match particle_array (nS p) l with Ok c => nth s c 0 | Err _ => 0 end | Err _ => 0 end) / (1 - failure) == nth s nb 0)%Q.
Proof.
  intros p I U V spi spu spv idx u v parts b nb a o N Ws St Si Su Sv Fi Uu Uv Ha Ho Hne Eb En HN sp out outcome failure.
  assert (HF : Forall (fun i => i < nS p) parts).
  { apply Forall_forall. intros i Hi. destruct (Nat.lt_ge_cases i (nS p)) as [X|X]; [auto|]. rewrite (proj1 (C41_array (nS p) parts)) in Eb; [discriminate|]. eauto. }
  assert (Ssp : is_space sp) by (apply pairs_space; [auto|apply pairs_space; auto]).
  pose proof (fair_fst spi (pairs spu spv) idx _ (pairs_space _ _ Su Sv) Fi) as Fs.
  pose proof (out_simulates p Ws St spi spu spv u v Uu Uv parts a Ha HF) as Sim.
  pose proof (chance_obs_obs p Ws St spi spu spv u v Si Uu Uv parts b a o Ha Ho HF Hne Eb) as EO.
  destruct (array_distribution p parts b HF Hne Eb) as [Db _].
  destruct (C98_unbiased _ sp (fun w => idx (fst w)) out (nS p) parts (Z.of_nat a) (Z.of_nat o) N Ssp Fs Hne Sim HN) as (C1 & C2 & C3 & C4).
  fold sp out in EO. rewrite EO in C3. assert (Pf : (pow (1 - chance_obs sp out (nS p) parts (Z.of_nat a) (Z.of_nat o)) (100 * length parts) == failure)%Q) by (apply pow_comp; rewrite EO; reflexivity).
  assert (HP : (0 < prob_obs p b a o)%Q).
  { destruct (Qlt_le_dec 0 (prob_obs p b a o)); auto. assert (Z0 : (prob_obs p b a o == 0)%Q) by lra. rewrite (proj1 (C40_bayes p b a o St Db Ha Ho) Z0) in En. discriminate. }
  destruct C4 as [C4 C5]; [rewrite EO; auto|]. cbv zeta in C2. rewrite Pf in C2, C4. split; [exact C2|]. split; [auto|]. intros s Hs.
  specialize (C5 s Hs). rewrite Pf, EO in C5. assert (CE : (chance sp out parts (Z.of_nat a) (Z.of_nat o) s == prob_end p b a s o)%Q) by exact (chance_end p Ws St spi spu spv u v Si Uu Uv parts b a o s Ha Ho Hs HF Hne Eb). rewrite CE in C5.
  destruct (proj2 (C40_bayes p b a o St Db Ha Ho)) as (nb' & En' & _ & Vn); [lra|]. assert (nb' = nb) as -> by congruence. rewrite (Vn s Hs), <- C5.
  apply Qmult_comp; [|reflexivity]. apply mean_ext. intros q x Ix. specialize (C1 q x Ix). cbv beta in C1. change (fst (successor (next_index (fun w : I * (U * V) => idx (fst w))) (next_step out) (length parts) parts (Z.of_nat a) (Z.of_nat o) x)) with (outcome x) in C1 |- *. destruct (outcome x) as [l|e] eqn:Eo; [|reflexivity].
  assert (Hl : Forall (fun i => i < nS p) l) by (pose proof (successor_both sp (fun w => idx (fst w)) out (nS p) parts (Z.of_nat a) (Z.of_nat o) N Hne Sim q x HN Ix) as HB; fold (outcome x) in HB; rewrite Eo in HB; tauto).
  destruct (proj2 (C41_array (nS p) l) Hl) as (c & Ec & _ & Hc & _). rewrite Ec. apply Hc; [|auto]. intros ->. destruct parts; [congruence|discriminate].
Qed.
Print Assumptions C98_posterior.

(** For the tiger and four particles, two for each state: after listening and hearing the second observation, the expected belief in
    the second state is 17/20. *)
Lemma tiger_shaped : well_shaped tiger.
Proof. repeat split. Qed.
Example C98_ex : forall N, 201 * 4 <= N -> let sp := pairs (dice (fact 4)) (pairs (grid 20) (grid 20)) in
  let out := pomdp_out tiger (fun w : nat * (Q * Q) => fst (snd w)) (fun w => snd (snd w)) in
  let outcome x := fst (successor (next_index (fun w : nat * (Q * Q) => fst w)) (next_step out) (length [0; 1; 1; 0]) [0; 1; 1; 0] (Z.of_nat 0) (Z.of_nat 1) x) in
  let failure := pow (1 # 2) (100 * 4) in
  (prob (tapes sp N) (fun x => match outcome x with Ok _ => false | Err _ => true end) == failure)%Q /\
  (mean (tapes sp N) (fun x => match outcome x with Ok l => match particle_array (nS tiger) l with Ok c => nth 1 c 0 | Err _ => 0 end | Err _ => 0 end) / (1 - failure) == 17 # 20)%Q.
Proof.
  intros N HN sp out outcome failure. destruct C97_ex_uniform as [G U]. assert (D : is_space (dice (fact 4))) by (apply dice_space; cbn; lia).
  assert (Eb : match particle_array (nS tiger) [0; 1; 1; 0] with Ok b => Qeq_bool (prob_obs tiger b 0 1) (1 # 2) && match belief_update tiger (Z.of_nat 0) (Z.of_nat 1) b with Ok nb => Qeq_bool (nth 1 nb 0%Q) (17 # 20) | Err _ => false end | Err _ => false end = true) by (vm_compute; reflexivity).
  destruct (particle_array (nS tiger) [0; 1; 1; 0]) as [b|] eqn:E; [|discriminate]. apply andb_prop in Eb. destruct Eb as [EO En].
  destruct (belief_update tiger (Z.of_nat 0) (Z.of_nat 1) b) as [nb|] eqn:E2; [|discriminate]. apply Qeq_bool_iff in EO, En.
  pose proof (C98_posterior tiger nat Q Q (dice (fact 4)) (grid 20) (grid 20) (fun w => w) (fun w => w) (fun w => w) [0; 1; 1; 0] b nb 0 1 N tiger_shaped tiger_stochastic D G G (dice_fair 4) U U
    ltac:(vm_compute; lia) ltac:(vm_compute; lia) ltac:(discriminate) E E2 HN) as C. cbv zeta in C. fold sp out in C.
  assert (EP : (pow (1 - prob_obs tiger b 0 1) (100 * length [0; 1; 1; 0]) == failure)%Q) by (apply pow_comp; rewrite EO; reflexivity).
  destruct C as (C1 & _ & C3). rewrite EP in C1. split; [exact C1|]. specialize (C3 1 ltac:(vm_compute; lia)). rewrite EP, En in C3. exact C3.
Qed.
