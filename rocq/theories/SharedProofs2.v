(** Proofs for C95: exact beliefs over a POMDP. *)
From Verif Require Import PyBase PyBaseFacts QBase PomdpModel PomdpSpec PomdpProofs PomdpProofs2 BeliefModel EvalModel PolicyModel PomcpModel PomcpSpec
  PolicySpec PolicyProofs PomcpProofs PomcpProofs2 PomcpProofs3 SharedModel SharedSpec SharedProofs Props_Pomdp Props_Belief.
From Coq Require Import Lia Lqa Field.
Local Open Scope list_scope.
Local Open Scope nat_scope.

Lemma same_array_refl b : same_array b b = true.
Proof. induction b as [|x b IH]; cbn [same_array]; [auto|]. rewrite IH, (proj2 (Qeq_bool_iff x x)) by reflexivity. auto. Qed.
Lemma Qeq_bool_sym x y : Qeq_bool x y = Qeq_bool y x.
Proof.
  destruct (Qeq_bool x y) eqn:E, (Qeq_bool y x) eqn:F; auto.
  - apply Qeq_bool_iff in E. assert (Qeq_bool y x = true) by (apply Qeq_bool_iff; lra). congruence.
  - apply Qeq_bool_iff in F. assert (Qeq_bool x y = true) by (apply Qeq_bool_iff; lra). congruence.
Qed.
Lemma same_array_sym : forall b c, same_array b c = same_array c b.
Proof. induction b as [|x b IH]; intros [|y c]; cbn [same_array]; auto. rewrite IH, Qeq_bool_sym. auto. Qed.
Lemma same_array_iff : forall b c, same_array b c = true <-> length b = length c /\ forall i, (nth i b 0 == nth i c 0)%Q.
Proof.
  induction b as [|x b IH]; intros [|y c]; cbn [same_array length]; split; try (intros; discriminate); auto.
  - intros _. split; [auto|]. intros [|i]; reflexivity.
  - intros [L _]. discriminate.
  - intros [L _]. discriminate.
  - intros E. apply andb_prop in E. destruct E as [E1 E2]. apply Qeq_bool_iff in E1. apply IH in E2. destruct E2 as [L E2]. split; [auto|]. intros [|i]; cbn [nth]; auto.
  - intros [L E]. rewrite (proj2 (IH c)); [|split; [auto|intros i; apply (E (S i))]]. rewrite (proj2 (Qeq_bool_iff x y)); [auto|]. apply (E 0).
Qed.

Section Exact.
  Variable p : pomdp.
  Variable u : nat -> Q.
  Variable r : nat -> nat.
  Variables (horizon : Z) (exploration : Q) (relative : bool) (bonus : nat -> nat -> Q) (rollout_it : nat) (alpha : Q).
  Let P := exact_search p u r horizon exploration relative bonus rollout_it alpha.
  Hypothesis WS : well_shaped p.
  Hypothesis ST : stochastic p.
  Hypothesis HU : forall i, (0 <= u i < 1)%Q.
  Hypothesis HA : 0 < nA p.
  Hypothesis HR : 0 < rollout_it.

  (** beliefs that are the same *)
  Lemma same_distribution b c : same_array b c = true -> distribution p b -> distribution p c.
  Proof.
    intros E (L & N & S). apply same_array_iff in E. destruct E as [EL E]. split; [congruence|]. split; [intros s Hs; rewrite <- E; auto|].
    rewrite <- S. apply sum_n_ext. intros s _. rewrite E. reflexivity.
  Qed.
  Lemma same_end b c a s' o : same_array b c = true -> (prob_end p b a s' o == prob_end p c a s' o)%Q.
  Proof. intros E. apply same_array_iff in E. destruct E as [_ E]. unfold prob_end, joint. apply sum_n_ext. intros s _. rewrite (E s). reflexivity. Qed.
  Lemma same_obs b c a o : same_array b c = true -> (prob_obs p b a o == prob_obs p c a o)%Q.
  Proof. intros E. unfold prob_obs. apply sum_n_ext. intros s' _. apply same_end. auto. Qed.
  Lemma same_update b c a o b1 : a < nA p -> o < nO p -> distribution p b -> same_array b c = true -> belief_update p (Z.of_nat a) (Z.of_nat o) b = Ok b1 ->
    exists c1, belief_update p (Z.of_nat a) (Z.of_nat o) c = Ok c1 /\ same_array b1 c1 = true.
  Proof.
    intros Ha Ho D E Eb. pose proof (same_distribution _ _ E D) as D'. destruct (C40_bayes p b a o ST D Ha Ho) as [C0 C1]. destruct (C40_bayes p c a o ST D' Ha Ho) as [C0' C1'].
    pose proof (same_obs b c a o E) as EO. destruct (Qeq_dec (prob_obs p b a o) 0) as [Z0|Z0]; [rewrite (C0 Z0) in Eb; discriminate|].
    destruct (C1 Z0) as (nb & E1 & D1 & V1). assert (nb = b1) as -> by congruence. destruct C1' as (nc & E2 & D2 & V2); [rewrite <- EO; auto|].
    exists nc. split; [auto|]. apply same_array_iff. split; [rewrite (proj1 D1), (proj1 D2); auto|]. intros s. destruct (Nat.lt_ge_cases s (nS p)) as [Hs|Hs].
    - rewrite V1, V2 by auto. rewrite EO, (same_end b c a s o E). reflexivity.
    - rewrite !nth_overflow; [reflexivity|rewrite (proj1 D2); auto|rewrite (proj1 D1); auto].
  Qed.

  Lemma follow_update b a o b1 : may_follow P b a o b1 -> belief_update p (Z.of_nat a) (Z.of_nat o) b = Ok b1.
  Proof. intros (x & x' & Hm). cbn [P exact_search s_succ] in Hm. rewrite C82_successor in Hm. congruence. Qed.
  Lemma follow_range b a o b1 : may_follow P b a o b1 -> a < nA p /\ o < nO p.
  Proof.
    intros Hm. assert (F : filters P b [(a, o)] b1) by (econstructor; [eauto|constructor]). apply filters_range in F. inversion F as [|q l Hq _]; subst. exact Hq.
  Qed.
  Lemma follow_distribution b a o b1 : distribution p b -> may_follow P b a o b1 -> distribution p b1.
  Proof.
    intros D Hm. assert (F : filters P b [(a, o)] b1) by (econstructor; [eauto|constructor]).
    eapply filters_distribution; eauto. eapply filters_range; eauto.
  Qed.

  Lemma same_filters_exact : forall b h b', same_filters P same_array b h b' -> distribution p b -> forall c, same_array b c = true ->
    Forall (fun ao => fst ao < nA p /\ snd ao < nO p) h /\ exists nb, filter_belief p c h = Ok nb /\ same_array b' nb = true.
  Proof.
    induction 1 as [b|b a o b1 b1' h b2 Hm Hs F IH]; intros D c Ec; [split; [constructor|exists c; auto]|].
    pose proof (follow_range _ _ _ _ Hm) as [Ha Ho]. pose proof (follow_distribution _ _ _ _ D Hm) as D1. pose proof (same_update b c a o b1 Ha Ho D Ec (follow_update _ _ _ _ Hm)) as (c1 & E1 & Ec1).
    assert (D1' : distribution p b1') by (eapply same_distribution; [rewrite same_array_sym; exact Hs|auto]).
    assert (Ec1' : same_array b1' c1 = true).
    { apply same_array_iff in Hs, Ec1. apply same_array_iff. destruct Hs as [L1 V1], Ec1 as [L2 V2]. split; [congruence|]. intros i. rewrite V1. auto. }
    destruct (IH D1' c1 Ec1') as [HF (nb & E2 & E3)]. split; [constructor; auto|]. exists nb. split; [|auto]. cbn [filter_belief]. rewrite E1. cbn [bind]. auto.
  Qed.

  (** choosing an action *)
  Lemma s_best_ok bs n e rel x : node_ok P same_array bs n -> exists a x', best_action P (as_tree n) e rel x = (Ok a, x') /\ a < nA p.
  Proof.
    intros (SZ & C & _). change (n_actions P) with (nA p) in SZ.
    assert (V : forall a, visits (as_tree n) a = s_visits n a).
    { intros a. unfold visits, s_visits. cbn [as_tree o_kids]. rewrite nth_error_map. destruct (nth_error (sn_kids n) a) as [[k|]|]; reflexivity. }
    assert (SZ' : length (o_kids (as_tree n)) = nA p) by (cbn [as_tree o_kids]; rewrite map_length; auto).
    unfold best_action. destruct (not_init (as_tree n)) as [|i l] eqn:En.
    - assert (0 < o_count (as_tree n)).
      { change (o_count (as_tree n)) with (n_simulations (sn_avg n)). eapply Nat.lt_le_trans; [|exact C]. assert (V0 : 0 < s_visits n 0).
        { rewrite <- V. destruct (visits (as_tree n) 0) eqn:E0; [|lia]. assert (I : In 0 (not_init (as_tree n))) by (apply not_init_In; split; [lia|auto]). rewrite En in I. destruct I. }
        unfold s_all_visits. rewrite SZ. destruct (nA p) as [|k]; [lia|]. cbn [seq map]. unfold list_sum. cbn [fold_right]. lia. }
      destruct (Nat.eqb_spec (o_count (as_tree n)) 0); [lia|]. assert (L : length (augmented P (as_tree n) e rel) = nA p) by (unfold augmented; rewrite map_length; auto).
      destruct (argmaxQ_spec (augmented P (as_tree n) e rel)) as (k & Ek & K1 & _); [intros E0; rewrite E0 in L; cbn in L; lia|]. exists k, x. split; [congruence|]. lia.
    - unfold choice. cbn [P exact_search s_rand draw_rand length]. set (k := r x mod S (length l)). assert (Hk : k < S (length l)) by (apply Nat.mod_upper_bound; lia).
      destruct (nth_error (i :: l) k) as [a|] eqn:Ea; [|apply nth_error_None in Ea; cbn in Ea; lia]. exists a, (S x). split; [reflexivity|].
      apply nth_error_In in Ea. rewrite <- En in Ea. apply not_init_In in Ea. lia.
  Qed.

  Notation store_ok := (store_ok P same_array (distribution p)).

  Lemma s_simulate_succeeds : forall fuel st i n s h action x, store_ok st -> nth_error st i = Some n -> s < nS p -> (0 < nth s (sn_belief n) 0)%Q ->
    (forall a, action = Some a -> a < nA p) -> Z.to_nat (nt_n h) <= fuel -> exists st' x' v, s_simulate P same_array fuel st i s h action x = (st', x', Ok v).
  Proof.
    induction fuel as [|fuel IH]; intros st i n s h action x S0 En Hs Hp Hact Hf; cbn [s_simulate]; rewrite En; change (s_reached P h) with (nt_reached h); destruct (nt_reached h) eqn:Hr; eauto.
    - unfold nt_reached in Hr. apply Z.leb_gt in Hr. lia.
    - pose proof S0 as (S1 & _ & S3). pose proof (S1 n (nth_error_In _ _ En)) as N. assert (D : distribution p (sn_belief n)) by (apply S3, in_map; eapply nth_error_In; eauto).
      assert (HC : exists a y, match action with Some a => (Ok a, x) | None => best_action P (as_tree n) (s_exploration P) (s_relative P) x end = (Ok a, y) /\ a < nA p).
      { destruct action as [a|]; [exists a, x; auto|]. eapply s_best_ok. eauto. }
      destruct HC as (a & y & -> & Ha). cbn [bind]. destruct N as (SZ & _ & ED). change (n_actions P) with (nA p) in SZ.
      assert (HCc : exists k, sn_child n a = Ok k) by (unfold sn_child; destruct (nth_error (sn_kids n) a) as [[c|]|] eqn:E; eauto; apply nth_error_None in E; lia).
      destruct HCc as [k Ek]. rewrite Ek. cbn [bind]. cbv zeta.
      assert (R1 : store_ok (modify st i (sn_safe a)) /\ extends st (modify st i (sn_safe a))).
      { apply modify_ok; auto. intros m _ Hm. apply safe_ok. auto. }
      destruct (safe_child_after st i n a k En Ek) as (n1 & En1 & Eb1 & Ek1).
      set (st1 := modify st i (sn_safe a)) in *. destruct R1 as [S1' X1].
      destruct (transition_exact p u WS ST HU a s y Ha Hs) as (s' & o & v & Et & Hs' & Ho & P2 & P3). change (s_transition P) with (draw_transition p u). rewrite Et.
      change (s_decrement P h a s s' o) with (nt_decrement h). destruct (update_possible p ST (sn_belief n) a s s' o D Ha Hs Hs' Ho Hp P2 P3) as (b' & Eb & D' & Hp').
      assert (Hf' : Z.to_nat (nt_n (nt_decrement h)) <= fuel) by (unfold nt_reached in Hr; apply Z.leb_gt in Hr; cbn; lia).
      destruct (lookup o (k_obs k)) as [j|] eqn:El.
      + assert (Ekn : nth_error (sn_kids n) a = Some (Some k)) by (unfold sn_child in Ek; destruct (nth_error (sn_kids n) a) as [[d|]|]; [congruence| |discriminate]; assert (k = k_new) as -> by congruence; discriminate).
        destruct (ED a k o j Ekn El) as (b & m & Em & Hm & Hsm & _). apply follow_update in Hm. assert (b = b') as -> by congruence.
        rewrite nth_error_map in Em. destruct (nth_error st j) as [nj|] eqn:Enj; [|discriminate]. cbn in Em. assert (m = sn_belief nj) as -> by congruence.
        destruct X1 as [_ X1]. destruct (X1 j nj Enj) as (nj1 & Enj1 & Ebj1 & _).
        destruct (IH st1 j nj1 s' (nt_decrement h) None (S (S y)) S1' Enj1 Hs') as (m' & x' & w & ->); [|discriminate|auto|eauto].
        rewrite Ebj1. apply same_array_iff in Hsm. rewrite (proj2 Hsm s'). auto.
      + cbn [P exact_search s_succ]. rewrite C82_successor, Eb. fold P.
        destruct (node_for_belief P same_array st1 b') as [st3 j] eqn:Ef.
        destruct (node_for_belief_ok P same_array same_array_refl (distribution p) st1 b' st3 j S1' D' Ef) as (S3' & _ & nj & Enj & Hsj).
        unfold s_rollout. rewrite modify_nth. destruct (s_reached P (nt_decrement h)); [eauto|].
        assert (Dj : distribution p (sn_belief nj)) by (eapply same_distribution; [rewrite same_array_sym; exact Hsj|auto]).
        assert (Hnj : exists nj', (if j =? i then option_map (sn_kid a (k_put o j)) (nth_error st3 j) else nth_error st3 j) = Some nj' /\ sn_belief nj' = sn_belief nj).
        { rewrite Enj. destruct (j =? i); [exists (sn_kid a (k_put o j) nj)|exists nj]; split; reflexivity. }
        destruct Hnj as (nj' & -> & ->). change (s_rollouts P) with rollout_it.
        destruct (rollouts_ok p u r horizon exploration relative bonus rollout_it alpha WS ST HU HA HR rollout_it fuel (sn_belief nj) (nt_decrement h) 0 (S (S y)) Dj Hf') as (w & x' & Er).
        fold P in Er. change (s_rollouts P) with rollout_it in *. rewrite Er.
        destruct (Nat.eqb_spec rollout_it 0); [lia|]. eauto.
  Qed.
  Lemma s_simulate_from_succeeds fuel action st i n x : store_ok st -> nth_error st i = Some n -> (forall a, action = Some a -> a < nA p) -> Z.to_nat horizon <= fuel ->
    exists st' x' v, s_simulate_from P same_array fuel action st i x = (st', x', Ok v).
  Proof.
    intros S0 En Hact Hf. unfold s_simulate_from. rewrite En. assert (D : distribution p (sn_belief n)) by (apply (proj2 (proj2 S0)), in_map; eapply nth_error_In; eauto).
    destruct (sample_exact p u HU (sn_belief n) x D) as (s & Es & Hs & Hp). cbn [P exact_search s_sample]. rewrite Es. fold P. eapply s_simulate_succeeds; eauto.
  Qed.
  Lemma s_simulations_succeed : forall k fuel rn n x, store_ok (sr_store rn) -> nth_error (sr_store rn) (sr_node rn) = Some n -> Z.to_nat horizon <= fuel ->
    exists rn' x', s_simulations P same_array k fuel rn x = (rn', x', Ok tt).
  Proof.
    induction k as [|k IH]; intros fuel rn n x S0 En Hf; cbn [s_simulations]; [eauto|].
    destruct (s_simulate_from_succeeds fuel None (sr_store rn) (sr_node rn) n x S0 En ltac:(discriminate) Hf) as (st & y & v & E). rewrite E. cbv zeta.
    destruct (s_simulate_from_ok P same_array same_array_refl (distribution p) follow_distribution _ _ _ _ _ _ _ _ S0 E) as [S1 [_ X1]]. destruct (X1 _ _ En) as (n' & En' & _).
    eapply (IH fuel); cbn [sr_store sr_node]; eauto.
  Qed.
  Lemma s_get_action_succeeds k fuel rn n x : store_ok (sr_store rn) -> nth_error (sr_store rn) (sr_node rn) = Some n -> Z.to_nat horizon <= fuel ->
    exists rn' x' nm, s_get_action P same_array k fuel rn x = (rn', x', Ok nm) /\ In nm (p_actions p).
  Proof.
    intros S0 En Hf. unfold s_get_action. destruct (s_simulations_succeed k fuel rn n x S0 En Hf) as (r1 & y & E). rewrite E.
    destruct (s_simulations_ok P same_array same_array_refl (distribution p) follow_distribution _ _ _ _ _ _ _ S0 E) as (S1 & [_ X1] & _ & N1 & _). destruct (X1 _ _ En) as (n' & En' & _).
    rewrite N1, En'. destruct (s_best_ok (map sn_belief (sr_store r1)) n' 0 false y) as (a & x2 & -> & Ha); [apply (proj1 S1); eapply nth_error_In; eauto|].
    change (s_actions P) with (p_actions p). destruct (nth_error (p_actions p) a) as [nm|] eqn:Ea; [|apply nth_error_None in Ea; unfold nA in Ha; lia].
    do 3 eexists. split; [reflexivity|]. eapply nth_error_In; eauto.
  Qed.

  (** steps *)
  Lemma s_get_node_succeeds : forall h st i n m j x a o, store_ok st -> nth_error st i = Some n -> s_find st i h = Some j -> nth_error st j = Some m -> a < nA p -> o < nO p ->
    ((prob_obs p (sn_belief m) a o == 0)%Q -> exists st', s_get_node P same_array st i (h ++ [(a, o)]) x = (st', x, Err EImpossible)) /\
    (~ (prob_obs p (sn_belief m) a o == 0)%Q -> exists st' j', s_get_node P same_array st i (h ++ [(a, o)]) x = (st', x, Ok j')).
  Proof.
    clear HR HA HU WS. induction h as [|[a0 o0] h IH]; intros st i n m j x a o S0 En F Em Ha Ho; cbn [s_find app s_get_node] in *; rewrite En in *.
    - assert (j = i) as -> by congruence. assert (m = n) as -> by congruence. clear Em.
      pose proof S0 as (S1 & _ & S3). pose proof (S1 n (nth_error_In _ _ En)) as (SZ & _ & ED). change (n_actions P) with (nA p) in SZ.
      assert (D : distribution p (sn_belief n)) by (apply S3, in_map; eapply nth_error_In; eauto).
      assert (HCc : exists k, sn_child n a = Ok k) by (unfold sn_child; destruct (nth_error (sn_kids n) a) as [[c|]|] eqn:E; eauto; apply nth_error_None in E; lia).
      destruct HCc as [k Ek]. rewrite Ek. cbv zeta. destruct (C40_bayes p (sn_belief n) a o ST D Ha Ho) as [C0 C1].
      destruct (lookup o (k_obs k)) as [j|] eqn:El.
      + assert (Ekn : nth_error (sn_kids n) a = Some (Some k)) by (unfold sn_child in Ek; destruct (nth_error (sn_kids n) a) as [[d|]|]; [congruence| |discriminate]; assert (k = k_new) as -> by congruence; discriminate).
        destruct (ED a k o j Ekn El) as (b & m & Em & Hm & Hsm & _). apply follow_update in Hm. split; [intros Z0; rewrite (C0 Z0) in Hm; discriminate|eauto].
      + cbn [P exact_search s_succ]. rewrite C82_successor. fold P. split; intros Z0; [rewrite (C0 Z0); eauto|]. destruct (C1 Z0) as (nb & -> & _).
        destruct (node_for_belief P same_array (modify st i (sn_safe a)) nb) as [st3 j]. eauto.
    - destruct (nth_error (sn_kids n) a0) as [[k|]|] eqn:Ea; try discriminate. destruct (lookup o0 (k_obs k)) as [j'|] eqn:El; [|discriminate].
      assert (Ek : sn_child n a0 = Ok k) by (unfold sn_child; rewrite Ea; auto). rewrite Ek. cbv zeta. rewrite El.
      assert (R1 : store_ok (modify st i (sn_safe a0)) /\ extends st (modify st i (sn_safe a0))).
      { apply modify_ok; auto. intros n0 _ Hm. apply safe_ok. auto. }
      destruct R1 as [S1 X1]. destruct (find_filters P same_array (distribution p) st S0 [(a0, o0)] i n j' En) as (n1 & En1 & _); [cbn [s_find]; rewrite En, Ea, El; auto|].
      pose proof (proj2 X1 j' n1 En1) as (n2 & En2 & _). pose proof (proj2 X1 j m Em) as (m2 & Em2 & Eb2 & _).
      destruct (IH (modify st i (sn_safe a0)) j' n2 m2 j x a o S1 En2 (find_extends _ _ X1 _ _ _ F) Em2 Ha Ho) as [I0 I1].
      rewrite Eb2 in I0, I1. split; auto.
  Qed.
End Exact.
