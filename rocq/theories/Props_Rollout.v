(** C99: rollouts and first simulations are unbiased estimates of the value of the random policy. *)
From Verif Require Import QBase PyBase PyBaseFacts PomdpModel PomdpSpec PomdpProofs PomdpProofs2 BeliefModel BeliefSpec BeliefProofs EvalModel PomcpModel Props_Pomdp Props_Belief LawSpec LawProofs LawProofs2 LawProofs3 LawProofs4 Props_Law RolloutSpec RolloutProofs RolloutProofs2.
From Coq Require Import Lia Lqa Field Factorial.
Local Open Scope list_scope.
Local Open Scope nat_scope.

(** The result of an operation that returns a node, a world and a value: the value, and whether there is an exception. *)
Definition value_of {A B} (r : A * B * res Q) : Q := match snd r with Ok v => v | Err _ => 0%Q end.
Definition raises {A B} (r : A * B * res Q) : bool := match snd r with Ok _ => false | Err _ => true end.

Lemma filter_whole {A} f (l : list A) : (forall x, In x l -> f x = true) -> filter f l = l.
Proof. induction l as [|x t IH]; intros H; [reflexivity|]. cbn. rewrite (H x) by (cbn; auto). f_equal. apply IH. intros y Hy. apply H. cbn. auto. Qed.
Section Marks.
  Variables (p : pomdp) (b : list Q).
  Hypothesis Db : distribution p b.
  Lemma marks_model : incl (model_marks p) (search_marks p b).
  Proof. intros c H. apply in_or_app. auto. Qed.
  Lemma marks_belief : incl (row_marks (fun s => nth s b 0%Q) (length b)) (search_marks p b).
  Proof. destruct Db as (-> & _). intros c H. apply in_or_app. right. apply in_or_app. auto. Qed.
  Lemma marks_next a o nb : stochastic p -> a < nA p -> o < nO p -> belief_update p (Z.of_nat a) (Z.of_nat o) b = Ok nb -> incl (row_marks (fun s => nth s nb 0%Q) (length nb)) (search_marks p b).
  Proof.
    intros St Ha Ho E c H. assert (Dn : distribution p nb).
    { destruct (Qeq_dec (prob_obs p b a o) 0) as [Z0|Z0]; [rewrite (proj1 (C40_bayes p b a o St Db Ha Ho) Z0) in E; discriminate|].
      destruct (proj2 (C40_bayes p b a o St Db Ha Ho) Z0) as (nb' & E' & Dn & _). congruence. }
    destruct Dn as (L & _). rewrite L in H. apply in_or_app. right. apply in_or_app. right.
    apply in_flat_map. exists a. split; [apply in_seq; lia|]. apply in_flat_map. exists o. split; [apply in_seq; lia|]. rewrite E. auto.
  Qed.
End Marks.

(** Such draws exist. *)
Theorem C99_draws : forall p b, stochastic p -> start_ok p -> distribution p b -> exists n, 0 < n /\ forall m, 0 < m -> is_space (grid (m * n)) /\ uniform (grid (m * n)) (fun w => w) (search_marks p b).
Proof.
  intros p b St S0 Db.
  assert (RB : forall l, distribution p l -> forall c, In c (row_marks (fun s => nth s l 0%Q) (nS p)) -> (0 <= c <= 1)%Q) by (intros l (L & D0 & D1); apply row_marks_bounds; auto).
  destruct (grid_uniform (search_marks p b)) as (n & Hn & U).
  - intros c H. apply in_app_or in H. destruct H as [H|H]; [apply (model_marks_bounds p St S0 c H)|]. apply in_app_or in H. destruct H as [H|H]; [apply (RB b Db c H)|].
    apply in_flat_map in H. destruct H as (a & Ha & H). apply in_flat_map in H. destruct H as (o & Ho & H). apply in_seq in Ha, Ho.
    destruct (belief_update p (Z.of_nat a) (Z.of_nat o) b) as [nb|] eqn:E; [|destruct H]. apply (RB nb); auto.
    destruct (Qeq_dec (prob_obs p b a o) 0) as [Z0|Z0]; [rewrite (proj1 (C40_bayes p b a o St Db ltac:(lia) ltac:(lia)) Z0) in E; discriminate|].
    destruct (proj2 (C40_bayes p b a o St Db ltac:(lia) ltac:(lia)) Z0) as (nb' & E' & Dn & _). congruence.
  - exists n. split; [auto|]. intros m Hm. split; [apply grid_space; lia|auto].
Qed.
Print Assumptions C99_draws.

(** rollout_from_node, exact beliefs: never raises, and the expected return is that of the random policy, from the states of the belief, over
    the transitions left before the horizon.  The new node has this value. *)
Theorem C99_rollout : forall p I U V (spi : space I) (spu : space U) (spv : space V) idx u v b n horizon exploration relative bonus k alpha fuel N,
  well_shaped p -> stochastic p -> 0 < nA p -> is_space spi -> is_space spu -> is_space spv -> fair spi idx (nA p) -> uniform spu u (search_marks p b) -> uniform spv v (model_marks p) ->
  distribution p b -> 0 < k -> n <= fuel -> k * (2 * n + 1) <= N ->
  let P := exact_tape p (fun w : I * (U * V) => idx (fst w)) (fun w => u (fst (snd w))) (fun w => v (snd (snd w))) horizon exploration relative bonus k alpha in
  let run x := rollout_from_node P fuel (o_new P b) (nt_init (Z.of_nat n)) x in
  let draws := tapes (pairs spi (pairs spu spv)) N in
  (prob draws (fun x => raises (run x)) == 0)%Q /\
  (mean draws (fun x => value_of (run x)) == random_from p n (fun s => nth s b 0))%Q /\
  (mean draws (fun x => avg_value (o_avg (fst (fst (run x))))) == random_from p n (fun s => nth s b 0))%Q.
Proof.
  intros p I U V spi spu spv idx u v b n horizon exploration relative bonus k alpha fuel N Ws St Na Si Su Sv Fi Uu Uv Db Hk Hf HN P run draws.
  pose proof (fun K A C => rollout_exact p Ws St Na spi spu spv idx u v (search_marks p b) Si Su Sv Fi Uu Uv (marks_model p b) horizon exploration relative bonus k alpha Hk (o_new P b) Db (marks_belief p b Db) n fuel N K A C Hf ltac:(lia)) as L.
  fold P draws in L. assert (MV : (mean draws (fun x => value_of (run x)) == random_from p n (fun s => nth s b 0%Q))%Q).
  { transitivity (1 * random_from p n (fun s => nth s b 0%Q) + 0)%Q; [|ring]. exact (L (fun r => match r with Ok v => v | Err _ => 0%Q end) 1%Q 0%Q ltac:(intros; cbv beta iota; ring)). }
  split; [|split; [exact MV|]].
  - transitivity (0 * random_from p n (fun s => nth s b 0%Q) + 0)%Q; [|ring].
    rewrite <- (L (fun r => match r with Ok _ => 0%Q | Err _ => 1%Q end) 0%Q 0%Q ltac:(intros; cbv beta iota; ring)). unfold prob. apply mean_ext. intros q x _. unfold raises, run. destruct (snd _); reflexivity.
  - rewrite <- MV. apply mean_ext. intros q x _. unfold run, value_of, rollout_from_node. destruct (s_reached P (nt_init (Z.of_nat n))); [reflexivity|].
    destruct (rollouts P (s_rollouts P) fuel (o_belief (o_new P b)) (nt_init (Z.of_nat n)) 0 x) as [[r|e] y]; [|reflexivity]. destruct (Nat.eqb (s_rollouts P) 0); [reflexivity|].
    cbn [fst snd]. unfold avg_value, o_update, o_avg, o_new, avg_new, avg_update. cbn [n_simulations total_value]. destruct (Nat.eqb_spec 1 0); [lia|].
    cbn [Nat.add]. change (inject_Z (Z.of_nat 1)) with 1%Q. unfold Qdiv. change (/ 1)%Q with 1%Q. ring.
Qed.
Print Assumptions C99_rollout.

(** The same with particles: the expected return from a state drawn among the particles *)
Theorem C99_particles : forall p I U V (spi : space I) (spu : space U) (spv : space V) idx u v parts n horizon exploration relative bonus k alpha fuel N,
  well_shaped p -> stochastic p -> 0 < nA p -> is_space spi -> is_space spu -> is_space spv -> fair spi idx (nA p + length parts) -> uniform spu u (model_marks p) -> uniform spv v (model_marks p) ->
  parts <> [] -> Forall (fun s => s < nS p) parts -> 0 < k -> n <= fuel -> k * (2 * n + 1) <= N ->
  let P := particle_tape p (fun w : I * (U * V) => idx (fst w)) (fun w => u (fst (snd w))) (fun w => v (snd (snd w))) (length parts) horizon exploration relative bonus k alpha in
  let run x := rollout_from_node P fuel (o_new P parts) (nt_init (Z.of_nat n)) x in
  let draws := tapes (pairs spi (pairs spu spv)) N in
  (prob draws (fun x => raises (run x)) == 0)%Q /\
  (mean draws (fun x => value_of (run x)) == random_from p n (frequency parts))%Q.
Proof.
  intros p I U V spi spu spv idx u v parts n horizon exploration relative bonus k alpha fuel N Ws St Na Si Su Sv Fi Uu Uv Hne HF Hk Hf HN P run draws.
  assert (HL : 0 < length parts) by (destruct parts; [congruence|cbn; lia]).
  assert (Fa : fair spi idx (nA p)) by (intros j i Hj Hi; apply Fi; lia).
  assert (L : forall (K : res Q -> Q) A C, (forall x, (K (Ok x) == A * x + C)%Q) -> (mean draws (fun x => K (snd (run x))) == A * random_from p n (frequency parts) + C)%Q).
  { intros K A C HK. unfold run, P, particle_tape. apply (rollout_node_law p Ws St Na spi spu spv idx u v Si Su Sv Fa Uu Uv _ _ _ horizon exploration relative bonus k alpha (o_new P parts)
    (fun w => Ok (nth (idx (fst w) mod length parts) parts 0)) (frequency parts)); auto; [| |lia].
    - intros w t. unfold particle_sample, choice. cbn [next_index o_belief o_new]. pose proof (Nat.mod_upper_bound (idx (fst w)) (length parts) ltac:(lia)) as B.
      destruct (length parts) as [|l] eqn:El; [lia|]. rewrite <- El in *. rewrite (nth_error_nth' parts 0 B). reflexivity.
    - intros g. transitivity (mean spi (fun i => g (Ok (nth (idx i mod length parts) parts 0)))).
      + apply (mean_fst spi (pairs spu spv) (fun i => g (Ok (nth (idx i mod length parts) parts 0)))). apply pairs_space; auto.
      + rewrite (mean_fair spi idx (nA p + length parts) parts (fun s => g (Ok s)) Si Fi ltac:(lia)). apply sum_frequency. auto. }
  split.
  - transitivity (0 * random_from p n (frequency parts) + 0)%Q; [|ring].
    rewrite <- (L (fun r => match r with Ok _ => 0%Q | Err _ => 1%Q end) 0%Q 0%Q ltac:(intros; cbv beta iota; ring)). unfold prob. apply mean_ext. intros q x _. unfold raises. destruct (snd _); reflexivity.
  - transitivity (1 * random_from p n (frequency parts) + 0)%Q; [|ring]. exact (L (fun r => match r with Ok v => v | Err _ => 0%Q end) 1%Q 0%Q ltac:(intros; cbv beta iota; ring)).
Qed.
Print Assumptions C99_particles.

(** The first simulation through an action never tried at a node, with exact beliefs: the expected return is that of doing this action and
    then following the random policy, although the rollout starts from a new state drawn from the updated belief. *)
Theorem C99_first : forall p I U V (spi : space I) (spu : space U) (spv : space V) idx u v m n exploration relative bonus k alpha fuel N a,
  well_shaped p -> stochastic p -> 0 < nA p -> is_space spi -> is_space spu -> is_space spv -> fair spi idx (nA p) -> uniform spu u (search_marks p (o_belief m)) -> uniform spv v (model_marks p) ->
  distribution p (o_belief m) -> 0 < k -> n < fuel -> 2 + k * (2 * n + 1) <= N -> a < nA p -> nth_error (o_kids m) a = Some None ->
  let P := exact_tape p (fun w : I * (U * V) => idx (fst w)) (fun w => u (fst (snd w))) (fun w => v (snd (snd w))) (Z.of_nat (S n)) exploration relative bonus k alpha in
  let run x := simulate_from_node P fuel (Some a) m x in
  let draws := tapes (pairs spi (pairs spu spv)) N in
  (prob draws (fun x => raises (run x)) == 0)%Q /\
  (mean draws (fun x => value_of (run x)) == random_after p n (fun s => nth s (o_belief m) 0) a)%Q.
Proof.
  intros p I U V spi spu spv idx u v m n exploration relative bonus k alpha fuel N a Ws St Na Si Su Sv Fi Uu Uv Db Hk Hf HN Ha Hc P run draws.
  destruct N as [|N]; [lia|]. set (b := o_belief m) in *.
  assert (SP : is_space (pairs spi (pairs spu spv))) by (apply pairs_space; [auto|apply pairs_space; auto]).
  assert (L : forall (K : res Q -> Q) A C, (forall x, (K (Ok x) == A * x + C)%Q) -> (mean draws (fun x => K (snd (run x))) == A * random_after p n (fun s => nth s b 0%Q) a + C)%Q).
  { intros K A C HK.
    etransitivity; [|exact (action_law p Ws St Na spi spu spv idx u v (search_marks p b) Si Su Sv Fi Uu Uv (marks_model p b) n exploration relative bonus k alpha Hk m Db (marks_belief p b Db) a fuel N K A C Hf Ha ltac:(lia) Hc
      (fun o nb Ho E => marks_next p b Db a o nb St Ha Ho E) HK)].
    unfold draws. rewrite mean_tapes.
    set (g := fun r : res nat => match r with Ok s => mean (tapes (pairs spi (pairs spu spv)) N) (fun x => K (run_action p idx u v n exploration relative bonus k alpha m fuel a s x)) | Err e => K (Err e) end).
    transitivity (mean (pairs spi (pairs spu spv)) (fun w => g (array_sample b (u (fst (snd w)))))).
    - apply mean_ext. intros q w _. unfold run, simulate_from_node. cbn [s_sample P exact_tape tape_search]. fold b. destruct (array_sample b (u (fst (snd w)))) as [s|e]; unfold g; [reflexivity|].
      apply (mean_const (tapes (pairs spi (pairs spu spv)) N) (K (Err e))). apply tapes_space. auto.
    - apply (exact_law p spi spu spv u (search_marks p b) Si Sv Uu b Db (marks_belief p b Db) g). }
  split.
  - transitivity (0 * random_after p n (fun s => nth s b 0%Q) a + 0)%Q; [|ring].
    rewrite <- (L (fun r => match r with Ok _ => 0%Q | Err _ => 1%Q end) 0%Q 0%Q ltac:(intros; cbv beta iota; ring)). unfold prob. apply mean_ext. intros q x _. unfold raises. destruct (snd _); reflexivity.
  - transitivity (1 * random_after p n (fun s => nth s b 0%Q) a + 0)%Q; [|ring]. exact (L (fun r => match r with Ok v => v | Err _ => 0%Q end) 1%Q 0%Q ltac:(intros; cbv beta iota; ring)).
Qed.
Print Assumptions C99_first.

(** The first simulation from a new node: the action is drawn uniformly, and the expected return is that of the random policy. *)
Theorem C99_new : forall p I U V (spi : space I) (spu : space U) (spv : space V) idx u v b n exploration relative bonus k alpha fuel N,
  well_shaped p -> stochastic p -> 0 < nA p -> is_space spi -> is_space spu -> is_space spv -> fair spi idx (nA p) -> uniform spu u (search_marks p b) -> uniform spv v (model_marks p) ->
  distribution p b -> 0 < k -> n < fuel -> 3 + k * (2 * n + 1) <= N ->
  let P := exact_tape p (fun w : I * (U * V) => idx (fst w)) (fun w => u (fst (snd w))) (fun w => v (snd (snd w))) (Z.of_nat (S n)) exploration relative bonus k alpha in
  let run x := simulate_from_node P fuel None (o_new P b) x in
  let draws := tapes (pairs spi (pairs spu spv)) N in
  (prob draws (fun x => raises (run x)) == 0)%Q /\
  (mean draws (fun x => value_of (run x)) == random_from p (S n) (fun s => nth s b 0))%Q.
Proof.
  intros p I U V spi spu spv idx u v b n exploration relative bonus k alpha fuel N Ws St Na Si Su Sv Fi Uu Uv Db Hk Hf HN P run draws.
  destruct N as [|[|N]]; [lia|lia|]. set (sp := pairs spi (pairs spu spv)) in *. set (m := o_new P b) in *.
  assert (SP : is_space sp) by (apply pairs_space; [auto|apply pairs_space; auto]).
  set (G := fun (K : res Q -> Q) a s => mean (tapes sp N) (fun x => K (run_action p idx u v n exploration relative bonus k alpha m fuel a s x))).
  assert (Lc : length (o_kids m) = nA p) by (unfold m, o_new; cbn [o_kids]; rewrite repeat_length; reflexivity).
  assert (Nc : forall a, a < nA p -> nth_error (o_kids m) a = Some None).
  { intros a Ha. rewrite (nth_error_nth' (o_kids m) None) by lia. f_equal. unfold m, o_new. cbn [o_kids]. apply nth_repeat. }
  assert (NI : not_init m = seq 0 (nA p)).
  { unfold not_init. rewrite Lc. apply filter_whole. intros a Ha. apply in_seq in Ha. rewrite (nth_error_nth (o_kids m) a None (Nc a ltac:(lia))). reflexivity. }
  assert (L : forall (K : res Q -> Q) A C, (forall x, (K (Ok x) == A * x + C)%Q) -> (mean draws (fun x => K (snd (run x))) == A * random_from p (S n) (fun s => nth s b 0%Q) + C)%Q).
  { intros K A C HK. unfold draws. rewrite mean_tapes.
    set (g := fun r : res nat => match r with Ok s => mean sp (fun w => (fun a => G K a s) (idx (fst w) mod nA p)) | Err e => K (Err e) end).
    transitivity (mean sp (fun w => g (array_sample b (u (fst (snd w)))))).
    - apply mean_ext. intros q w _. unfold run, simulate_from_node. cbn [s_sample P exact_tape tape_search]. change (o_belief m) with b. destruct (array_sample b (u (fst (snd w)))) as [s|e]; unfold g.
      2:{ apply (mean_const (tapes sp (S N)) (K (Err e))). apply tapes_space. auto. }
      rewrite mean_tapes. apply mean_ext. intros q2 w2 _. unfold G. apply mean_ext. intros q3 t _. unfold run_action. destruct fuel as [|fuel]; [lia|]. cbn [simulate].
      change (s_horizon P) with (nt_init (Z.of_nat (S n))). change (exact_tape p (fun w : I * (U * V) => idx (fst w)) (fun w => u (fst (snd w))) (fun w => v (snd (snd w))) (Z.of_nat (S n)) exploration relative bonus k alpha) with P.
      unfold best_action. rewrite NI. destruct (seq 0 (nA p)) as [|a0 l0] eqn:Es; [apply (f_equal (@length nat)) in Es; rewrite seq_length in Es; cbn in Es; lia|].
      assert (EC : choice (s_rand P) (nA p) (w2 :: t) = (Ok (idx (fst w2) mod nA p), t)) by (unfold choice; cbn [s_rand P exact_tape tape_search next_index]; destruct (nA p); [lia|reflexivity]).
      rewrite <- Es. rewrite seq_length, EC.
      assert (Hm : idx (fst w2) mod nA p < nA p) by (apply Nat.mod_upper_bound; lia).
      assert (nth_error (seq 0 (nA p)) (idx (fst w2) mod nA p) = Some (idx (fst w2) mod nA p)) as ->.
      { rewrite (nth_error_nth' _ 0) by (rewrite seq_length; auto). rewrite seq_nth by auto. reflexivity. }
      reflexivity.
    - etransitivity; [exact (exact_law p spi spu spv u (search_marks p b) Si Sv Uu b Db (marks_belief p b Db) g)|].
      transitivity (sum_n (nA p) (fun a => 1 / inject_Z (Z.of_nat (nA p)) * (A * random_after p n (fun s => nth s b 0%Q) a + C)))%Q.
      + transitivity (sum_n (nS p) (fun s => sum_n (nA p) (fun a => 1 / inject_Z (Z.of_nat (nA p)) * (nth s b 0 * G K a s))))%Q.
        * apply sum_n_ext. intros s _. unfold g, sp. rewrite (law_action p Na spi spu spv idx Su Sv Fi (fun a => G K a s)). unfold sum_n. rewrite <- sum_scale. apply sum_ext. intros; ring.
        * unfold sum_n. rewrite sum_swap. apply sum_ext. intros a Ha. apply in_seq in Ha. rewrite sum_scale. apply Qmult_comp; [reflexivity|]. unfold G.
          exact (action_law p Ws St Na spi spu spv idx u v (search_marks p b) Si Su Sv Fi Uu Uv (marks_model p b) n exploration relative bonus k alpha Hk m Db (marks_belief p b Db) a fuel N K A C Hf ltac:(lia) ltac:(lia) (Nc a ltac:(lia))
            (fun o nb Ho E => marks_next p b Db a o nb St ltac:(lia) Ho E) HK).
      + rewrite (action_affine p Na spi spu spv idx Si Su Sv Fi A C (fun a => random_after p n (fun s => nth s b 0%Q) a)). apply Qplus_comp; [|reflexivity]. apply Qmult_comp; [reflexivity|].
        unfold random_from. cbn [random_value]. unfold random_after, sum_n.
        transitivity (sum_over (seq 0 (nA p)) (fun a => sum_over (seq 0 (nS p)) (fun s => 1 / inject_Z (Z.of_nat (nA p)) * (nth s b 0 * sum_over (seq 0 (nS p)) (fun s' => sum_over (seq 0 (nO p)) (fun o => Tr p a s s' * Ob p a s' o * (at_ (p_R p) [a; s; s'; o] + p_discount p * random_value p n s')))))))%Q.
        * apply sum_ext. intros a _. rewrite sum_scale. reflexivity.
        * rewrite sum_swap. apply sum_ext. intros s _. rewrite <- sum_scale. apply sum_ext. intros a _. ring. }
  split.
  - transitivity (0 * random_from p (S n) (fun s => nth s b 0%Q) + 0)%Q; [|ring].
    rewrite <- (L (fun r => match r with Ok _ => 0%Q | Err _ => 1%Q end) 0%Q 0%Q ltac:(intros; cbv beta iota; ring)). unfold prob. apply mean_ext. intros q x _. unfold raises. destruct (snd _); reflexivity.
  - transitivity (1 * random_from p (S n) (fun s => nth s b 0%Q) + 0)%Q; [|ring]. exact (L (fun r => match r with Ok v => v | Err _ => 0%Q end) 1%Q 0%Q ltac:(intros; cbv beta iota; ring)).
Qed.
Print Assumptions C99_new.

(** The tiger, with the first belief: the hypotheses are met by a die and a grid. *)
Lemma tiger_belief : distribution tiger [1 # 2; 1 # 2]%Q.
Proof. split; [reflexivity|]. split; [intros [|[|s]] H; vm_compute in H; try lia; vm_compute; discriminate|vm_compute; reflexivity]. Qed.
Lemma tiger_uniform : uniform (grid 20) (fun w => w) (search_marks tiger [1 # 2; 1 # 2]%Q).
Proof.
  destruct C97_ex_uniform as [_ [G _]]. split; [exact G|].
  assert (F : forallb (fun c => Qeq_bool (prob (grid 20) (fun w => negb (Qle_bool c w))) c) (search_marks tiger [1 # 2; 1 # 2]%Q) = true) by (vm_compute; reflexivity).
  intros c I. rewrite forallb_forall in F. apply Qeq_bool_iff, F. auto.
Qed.
Example C99_ex : let P := exact_tape tiger (fun w : nat * (Q * Q) => fst w) (fun w => fst (snd w)) (fun w => snd (snd w)) (Z.of_nat 2) 1 true (fun _ _ => 1%Q) 3 0 in
  let draws := tapes (pairs (dice (fact 3)) (pairs (grid 20) (grid 20))) 20 in
  (mean draws (fun x => value_of (rollout_from_node P 5 (o_new P [1 # 2; 1 # 2]%Q) (nt_init (Z.of_nat 2)) x)) == -1183 # 20)%Q /\
  (mean draws (fun x => value_of (simulate_from_node P 5 None (o_new P [1 # 2; 1 # 2]%Q) x)) == -1183 # 20)%Q /\
  (mean draws (fun x => value_of (simulate_from_node P 5 (Some 0%nat) (o_new P [1 # 2; 1 # 2]%Q) x)) == -1789 # 60)%Q.
Proof.
  intros P draws. destruct C97_ex_uniform as [G U]. assert (D : is_space (dice (fact 3))) by (apply dice_space; cbn; lia).
  assert (E1 : (random_from tiger 2 (fun s => nth s [1 # 2; 1 # 2] 0) == -1183 # 20)%Q) by (vm_compute; reflexivity).
  assert (E2 : (random_after tiger 1 (fun s => nth s [1 # 2; 1 # 2] 0) 0 == -1789 # 60)%Q) by (vm_compute; reflexivity).
  split; [|split].
  - rewrite <- E1. exact (proj1 (proj2 (C99_rollout tiger nat Q Q (dice (fact 3)) (grid 20) (grid 20) (fun w => w) (fun w => w) (fun w => w) [1 # 2; 1 # 2]%Q 2 (Z.of_nat 2) 1%Q true (fun _ _ => 1%Q) 3 0%Q 5 20
      tiger_shaped tiger_stochastic ltac:(vm_compute; lia) D G G (dice_fair 3) tiger_uniform U tiger_belief ltac:(lia) ltac:(lia) ltac:(lia)))).
  - rewrite <- E1. exact (proj2 (C99_new tiger nat Q Q (dice (fact 3)) (grid 20) (grid 20) (fun w => w) (fun w => w) (fun w => w) [1 # 2; 1 # 2]%Q 1 1%Q true (fun _ _ => 1%Q) 3 0%Q 5 20
      tiger_shaped tiger_stochastic ltac:(vm_compute; lia) D G G (dice_fair 3) tiger_uniform U tiger_belief ltac:(lia) ltac:(lia) ltac:(lia))).
  - rewrite <- E2. exact (proj2 (C99_first tiger nat Q Q (dice (fact 3)) (grid 20) (grid 20) (fun w => w) (fun w => w) (fun w => w) (o_new P [1 # 2; 1 # 2]%Q) 1 1%Q true (fun _ _ => 1%Q) 3 0%Q 5 20 0
      tiger_shaped tiger_stochastic ltac:(vm_compute; lia) D G G (dice_fair 3) tiger_uniform U tiger_belief ltac:(lia) ltac:(lia) ltac:(lia) ltac:(vm_compute; lia) eq_refl)).
Qed.
