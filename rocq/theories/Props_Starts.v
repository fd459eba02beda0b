(** C55 for any number of possible start states. *)
From Verif Require Import PyBase PyBaseFacts QBase PomdpModel PomdpSpec PomdpProofs PomdpProofs2 SuppModel PolicyModel PolicySpec PolicyProofs Props_Pomdp Props_Policy.
From Coq Require Import Lia Lqa.
Local Open Scope list_scope.
Local Open Scope nat_scope.

Section Scale.
  Variable g : graph_policy.
  Variable p : pomdp.
  Variables b u : list Q.
  Variable c : Q.
  Hypothesis Hc : (0 < c)%Q.
  Hypotheses (Lb : length b = nS p) (Lu : length u = nS p).
  Hypothesis HU : forall s, s < nS p -> (nth s u 0 == c * nth s b 0)%Q.

  Lemma scalar_scale r : (scalar r u == c * scalar r b)%Q.
  Proof.
    unfold scalar. rewrite Lb, Lu. unfold sum_n. rewrite <- sum_scale. apply sum_ext. intros s Hs. apply in_seq in Hs. rewrite HU by lia. ring.
  Qed.
  Lemma best_scale values n : best values b n -> best values u n.
  Proof.
    intros (B1 & B2 & B3). split; [exact B1|]. split.
    - intros m Hm. rewrite !scalar_scale. specialize (B2 m Hm). nra.
    - intros m Hm. rewrite !scalar_scale. specialize (B3 m Hm). nra.
  Qed.
  Lemma prob_end_scale a s' o : (prob_end p u a s' o == c * prob_end p b a s' o)%Q.
  Proof. unfold prob_end, sum_n. rewrite <- sum_scale. apply sum_ext. intros s Hs. apply in_seq in Hs. unfold joint. rewrite HU by lia. ring. Qed.
  Lemma prob_obs_scale a o : (prob_obs p u a o == c * prob_obs p b a o)%Q.
  Proof. unfold prob_obs, sum_n. rewrite <- sum_scale. apply sum_ext. intros s' _. apply prob_end_scale. Qed.
  Lemma prob_obs_zero a o : Qeq_bool (prob_obs p u a o) 0 = Qeq_bool (prob_obs p b a o) 0.
  Proof. apply eq_true_iff_eq. rewrite !Qeq_bool_iff, prob_obs_scale. split; intros H; nra. Qed.
  Lemma posterior_scale a o nb : ~ (prob_obs p b a o == 0)%Q -> posterior p b a o nb -> posterior p u a o nb.
  Proof.
    intros NZ [H1 H2]. split; [exact H1|]. intros s' Hs. rewrite H2, prob_end_scale, prob_obs_scale by exact Hs. field. split; [exact NZ|lra].
  Qed.
  Lemma are_trees_scale h a : forall ios ts, Forall (fun io => ~ (prob_obs p b a io == 0)%Q) ios -> are_trees g p h b a ios ts -> are_trees g p h u a ios ts.
  Proof.
    induction ios as [|io ios IH]; intros ts F H; inversion H as [|h1 b1 a1 io1 ios1 nb t ts1 P1 P2 P3]; subst; [constructor|].
    inversion F as [|x l F1 F2]; subst. econstructor; [apply posterior_scale; eassumption|exact P2|]. apply IH; assumption.
  Qed.
  Lemma is_tree_scale h nm n obs ch : is_tree g p h b (TNode b nm n obs ch) -> is_tree g p h u (TNode u nm n obs ch).
  Proof.
    intros H. inversion H as [b1 n1 nm1 B1 B2|h1 b1 n1 nm1 a ios ch1 B1 B2 B3 B4 B5]; subst.
    - apply it_leaf; [apply best_scale; exact B1|exact B2].
    - apply (it_node g p h1 u n1 nm a); [apply best_scale; exact B1|exact B2|exact B3| |].
      + apply filter_ext. intros io. rewrite prob_obs_zero. reflexivity.
      + apply are_trees_scale; [|exact B5]. apply Forall_forall. intros io K. apply filter_In in K. destruct K as [_ K]. apply negb_true_iff in K. intros E. apply Qeq_bool_iff in E. congruence.
  Qed.
End Scale.

(** Whatever the start distribution, exactly one tree is returned: the tree of the uniform distribution over the possible
    start states (so with one start state, of the certainty of that state), except that the belief written at its root has
    a one for each possible start state. *)
Theorem C55_exact : forall g p h r starts, policy_for g p -> stochastic p -> NoDup (p_actions p) -> NoDup (p_observations p) -> length (start_list p) = nS p ->
  NoDup starts -> (forall s, In s starts <-> possible_start p s) -> starts <> [] ->
  exists r' b nm n obs children, trajectory_trees_from_starts g p h r = (r', Ok [TNode b nm n obs children]) /\ length b = nS p /\
    (forall s, s < nS p -> (In s starts -> nth s b 0%Q = 1%Q) /\ (~ In s starts -> nth s b 0%Q = 0%Q)) /\
    forall u, length u = nS p -> (forall s, s < nS p -> (In s starts -> nth s u 0 == 1 / inject_Z (Z.of_nat (length starts)))%Q /\ (~ In s starts -> nth s u 0 == 0)%Q) ->
      distribution p u /\ is_tree g p (Z.to_nat h) u (TNode u nm n obs children).
Proof.
  intros g p h r starts PF St NA NO HL ND HS NE. unfold trajectory_trees_from_starts.
  set (sup := filter (fun s => negb (Qeq_bool (nth s (start_list p) 0%Q) 0)) (seq 0 (length (start_list p)))).
  assert (HI : forall i, existsb (Nat.eqb i) sup = true <-> In i starts).
  { intros i. rewrite existsb_exists, HS. unfold possible_start. split.
    - intros (x & X1 & X2). apply Nat.eqb_eq in X2. subst x. apply filter_In in X1. destruct X1 as [X1 X2]. apply in_seq in X1. split; [lia|].
      apply negb_true_iff in X2. intros Y. apply Qeq_bool_iff in Y. congruence.
    - intros [X1 X2]. exists i. split; [|apply Nat.eqb_refl]. apply filter_In. split; [apply in_seq; lia|]. apply negb_true_iff, not_true_is_false. rewrite Qeq_bool_iff. auto. }
  set (b := map (fun i => if existsb (Nat.eqb i) sup then 1%Q else 0%Q) (seq 0 (length (start_list p)))).
  assert (Lb : length b = nS p) by (unfold b; rewrite map_length, seq_length; exact HL).
  assert (Vb : forall s, s < nS p -> (In s starts -> nth s b 0%Q = 1%Q) /\ (~ In s starts -> nth s b 0%Q = 0%Q)).
  { intros s Hs. unfold b. rewrite nth_map_seq by lia. destruct (existsb (Nat.eqb s) sup) eqn:E; (split; [|]); intros K; try reflexivity.
    - destruct K. apply HI, E.
    - apply HI in K. congruence. }
  assert (Wb : weights p b). { split; [exact Lb|]. intros s Hs. unfold b. rewrite nth_map_seq by lia. destruct (existsb _ _); lra. }
  destruct (reset_ok g p PF b r Lb) as (n & B & E). cbv zeta. rewrite E.
  destruct (trajectory_weights g p PF St NA NO (Z.to_nat h) b {| b_belief := b; b_node := Some (Z.of_nat n) |} Wb) as (t & T1 & T2). { split; [reflexivity|]. exists n. auto. }
  unfold trajectory_tree. rewrite T1.
  assert (RT : exists nm n obs ch, t = TNode b nm n obs ch) by (destruct T2; eauto). destruct RT as (nm & k & obs & ch & ->).
  exists {| b_belief := b; b_node := Some (Z.of_nat n) |}, b, nm, k, obs, ch. split; [reflexivity|]. split; [exact Lb|]. split; [exact Vb|].
  intros u Lu Hu. assert (K0 : (0 < inject_Z (Z.of_nat (length starts)))%Q). { destruct starts; [congruence|]. unfold Qlt. cbn. lia. }
  set (k0 := inject_Z (Z.of_nat (length starts))) in *.
  assert (RG : forall s, In s starts -> s < nS p) by (intros s K; apply HS in K; destruct K; lia).
  assert (HU : forall s, s < nS p -> (nth s u 0 == (1 / k0) * nth s b 0)%Q).
  { intros s Hs. destruct (in_dec Nat.eq_dec s starts) as [K|K]; [rewrite (proj1 (Hu s Hs) K), (proj1 (Vb s Hs) K)|rewrite (proj2 (Hu s Hs) K), (proj2 (Vb s Hs) K)]; ring. }
  assert (C0 : (0 < 1 / k0)%Q) by (apply Qlt_shift_div_l; lra).
  split; [|exact (is_tree_scale g p b u (1 / k0) C0 Lb Lu HU _ _ _ _ _ T2)].
  split; [exact Lu|]. split.
  - intros s Hs. rewrite HU by exact Hs. apply Qmult_le_0_compat; [lra|apply Wb; exact Hs].
  - rewrite (sum_n_ext (nS p) _ (fun s => (1 / k0) * nth s b 0)%Q) by exact HU. unfold sum_n. rewrite sum_scale.
    assert (X : (sum_over (seq 0 (nS p)) (fun s => nth s b 0) == k0)%Q); [|rewrite X; field; lra].
    assert (Y : forall l, (sum_over l (fun s => if in_dec Nat.eq_dec s starts then 1 else 0) == inject_Z (Z.of_nat (length (filter (fun s => if in_dec Nat.eq_dec s starts then true else false) l))))%Q).
    { induction l as [|x l IH]; [reflexivity|]. rewrite sum_cons, IH. cbn [filter]. destruct (in_dec Nat.eq_dec x starts); cbn [length].
      - rewrite Nat2Z.inj_succ, <- Z.add_1_l, inject_Z_plus. reflexivity.
      - ring. }
    rewrite (sum_ext _ _ (fun s => if in_dec Nat.eq_dec s starts then 1%Q else 0%Q)).
    + rewrite Y. unfold k0. assert (PL : length (filter (fun s => if in_dec Nat.eq_dec s starts then true else false) (seq 0 (nS p))) = length starts); [|rewrite PL; reflexivity].
      apply Permutation.Permutation_length, Permutation.NoDup_Permutation; [apply NoDup_filter, seq_NoDup|exact ND|]. intros s. rewrite filter_In, in_seq. destruct (in_dec Nat.eq_dec s starts) as [K|K]; [|intuition discriminate]. specialize (RG s K). intuition lia.
    + intros s Hs. apply in_seq in Hs. destruct (in_dec Nat.eq_dec s starts) as [K|K]; [rewrite (proj1 (Vb s ltac:(lia)) K)|rewrite (proj2 (Vb s ltac:(lia)) K)]; reflexivity.
Qed.
Print Assumptions C55_exact.
Example C55_exact_ex : NoDup [0; 1] /\ (forall s, In s [0; 1] <-> possible_start tiger s) /\ length (start_list tiger) = nS tiger /\ policy_for ex_policy tiger.
Proof.
  split; [repeat constructor; cbn; intuition lia|]. split; [|split; [reflexivity|exact ex_policy_for]]. intros s. unfold possible_start. change (length (start_list tiger)) with 2. split.
  - intros [<-|[<-|[]]]; (split; [lia|]); vm_compute; discriminate.
  - intros [H _]. cbn. lia.
Qed.
