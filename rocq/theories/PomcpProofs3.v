(** Proofs for C61: searches with exact beliefs over a POMDP do not fail. *)
From Verif Require Import PyBase PyBaseFacts QBase PomdpModel PomdpSpec PomdpProofs PomdpProofs2 BeliefModel EvalModel PolicyModel PomcpModel PomcpSpec
  PolicySpec PolicyProofs PomcpProofs PomcpProofs2 Props_Pomdp Props_Belief.
From Coq Require Import Lia Lqa Field.
Local Open Scope list_scope.
Local Open Scope nat_scope.

Lemma sum_n_positive (f : nat -> Q) n i : (forall j, j < n -> (0 <= f j)%Q) -> i < n -> (0 < f i)%Q -> (0 < sum_n n f)%Q.
Proof. intros H0 Hi Hf. pose proof (sum_n_le_mem n f i H0 Hi). lra. Qed.
Lemma list_seq (b : list Q) : b = map (fun i => nth i b 0%Q) (seq 0 (length b)).
Proof.
  apply nth_ext with (d := 0%Q) (d' := 0%Q); [rewrite map_length, seq_length; auto|]. intros i Hi. symmetry. apply (nth_map_seq (fun i => nth i b 0%Q)). auto.
Qed.

Section Exact.
  Variable p : pomdp.
  Variable u : nat -> Q.
  Variable r : nat -> nat.
  Variables (horizon : Z) (exploration : Q) (relative : bool) (bonus : nat -> nat -> Q) (rollout_it : nat) (alpha : Q).
  Let P := exact_search p u r horizon exploration relative bonus rollout_it alpha.
  Hypothesis WS : well_shaped p.
  Hypothesis ST : stochastic p.
  Hypothesis HU : forall i, (0 <= u i < 1)%Q.
  Hypothesis HA : 0 < nA p.
  Hypothesis HR : 0 < rollout_it.

  Lemma sample_exact b x : distribution p b -> exists s, array_sample b (u x) = Ok s /\ s < nS p /\ (0 < nth s b 0)%Q.
  Proof.
    intros (L & N & S). assert (E : array_sample b (u x) = random_choice (map (fun i => nth i b 0%Q) (seq 0 (nS p))) (u x)) by (unfold array_sample; rewrite <- L, <- list_seq; reflexivity). rewrite E. destruct (choice_exact (fun i => nth i b 0%Q) (nS p) (u x) N S (HU x)) as [[s Es] C].
    exists s. split; [auto|]. apply C in Es. destruct Es as [Hs [I1 I2]]. split; [auto|lra].
  Qed.
  Lemma transition_exact a s x : a < nA p -> s < nS p -> exists s' o v, draw_transition p u a s x = (Ok (s', o, v), S (S x)) /\ s' < nS p /\ o < nO p /\ (0 < Tr p a s s')%Q /\ (0 < Ob p a s' o)%Q.
  Proof.
    intros Ha Hs. destruct (C81_sampling_partial p a s WS ST Ha Hs) as (C1 & C2 & _). destruct (C1 (u x) (u (S x)) (HU x) (HU (S x))) as (s' & o & v & E).
    exists s', o, v. unfold draw_transition. rewrite E. split; [auto|]. apply C2 in E; auto. destruct E as (K1 & K2 & _ & K3 & K4). repeat split; auto; lra.
  Qed.
  Lemma update_possible b a s s' o : distribution p b -> a < nA p -> s < nS p -> s' < nS p -> o < nO p -> (0 < nth s b 0)%Q -> (0 < Tr p a s s')%Q -> (0 < Ob p a s' o)%Q ->
    exists b', belief_update p (Z.of_nat a) (Z.of_nat o) b = Ok b' /\ distribution p b' /\ (0 < nth s' b' 0)%Q.
  Proof.
    intros Hb Ha Hs Hs' Ho P1 P2 P3. assert (PJ : (0 < joint p b a s s' o)%Q) by (unfold joint; repeat apply Qmult_lt_0_compat; auto).
    assert (PE : (0 < prob_end p b a s' o)%Q) by (eapply (sum_n_positive _ _ s); eauto; intros j Hj; apply joint_nonneg; auto).
    assert (PO : (0 < prob_obs p b a o)%Q) by (eapply (sum_n_positive _ _ s'); eauto; intros j Hj; apply prob_end_nonneg; auto).
    destruct (C40_bayes p b a o ST Hb Ha Ho) as [_ C]. destruct C as (b' & E & D & V); [lra|]. exists b'. split; [auto|]. split; [auto|].
    rewrite V by auto. apply Qlt_shift_div_l; [auto|]. lra.
  Qed.

  (** what the tree satisfies *)
  Definition good (n : onode (list Q)) : Prop := every (sized P) n /\ every balanced n /\ every (edges P) n /\ distribution p (o_belief n).
  Lemma good_new b : distribution p b -> good (o_new P b).
  Proof.
    intros D. split; [|split; [|split]]; [| | |exact D]; apply every_new.
    - unfold sized, o_new. cbn. apply repeat_length.
    - exists 0. split; [auto|]. rewrite (untouched_all _ (new_untouched P b)). reflexivity.
    - intros a c o k Ek. destruct (no_kid _ _ _ _ Ek).
  Qed.
  Lemma good_grows n n' : grows P n n' -> good n -> good n'.
  Proof.
    intros G (H1 & H2 & H3 & H4). split; [eapply grows_sized; eauto|]. split; [eapply grows_balanced; eauto|]. split; [eapply grows_edges; eauto|]. rewrite (grows_belief P _ _ G). auto.
  Qed.
  Lemma edge_update (n : onode (list Q)) a c o m : every (edges P) n -> nth_error (o_kids n) a = Some (Some c) -> lookup o (a_kids c) = Some m -> belief_update p (Z.of_nat a) (Z.of_nat o) (o_belief n) = Ok (o_belief m).
  Proof.
    intros E Ek El. destruct (E [] n eq_refl _ _ _ _ Ek El) as (x & x' & Hs). cbn [P exact_search s_succ] in Hs. rewrite C82_successor in Hs. congruence.
  Qed.
  Lemma good_child n a c o m : good n -> nth_error (o_kids n) a = Some (Some c) -> lookup o (a_kids c) = Some m -> distribution p (o_belief m) -> good m.
  Proof.
    intros (H1 & H2 & H3 & H4) Ek El D.
    assert (K : forall (Q : onode (list Q) -> Prop), every Q n -> every Q m) by (intros Q HQ h k F; apply (HQ ((a, o) :: h)); cbn [find]; rewrite Ek, El; auto).
    split; [auto|]. split; [auto|]. split; auto.
  Qed.

  Lemma best_ok n e rel x : good n -> exists a x', best_action P n e rel x = (Ok a, x') /\ a < nA p.
  Proof.
    intros (H1 & H2 & _). pose proof (H1 [] n eq_refl) as SZ. destruct (H2 [] n eq_refl) as (d & D & C). unfold sized in SZ. change (n_actions P) with (nA p) in SZ.
    unfold best_action. destruct (not_init n) as [|i l] eqn:En.
    - assert (0 < o_count n).
      { rewrite C. assert (V : 0 < visits n 0).
        { destruct (visits n 0) eqn:V; [|lia]. assert (I : In 0 (not_init n)) by (apply not_init_In; split; [lia|auto]). rewrite En in I. destruct I. }
        unfold all_visits. rewrite SZ. destruct (nA p) as [|k]; [lia|]. cbn [seq map]. unfold list_sum. cbn [fold_right]. lia. }
      destruct (Nat.eqb_spec (o_count n) 0); [lia|]. assert (L : length (augmented P n e rel) = nA p) by (unfold augmented; rewrite map_length; auto).
      destruct (argmaxQ_spec (augmented P n e rel)) as (k & Ek & K1 & _); [intros E0; rewrite E0 in L; cbn in L; lia|]. exists k, x. split; [congruence|]. lia.
    - unfold choice. cbn [P exact_search s_rand draw_rand length]. set (k := r x mod S (length l)). assert (Hk : k < S (length l)) by (apply Nat.mod_upper_bound; lia).
      destruct (nth_error (i :: l) k) as [a|] eqn:Ea; [|apply nth_error_None in Ea; cbn in Ea; lia]. exists a, (S x). split; [reflexivity|].
      apply nth_error_In in Ea. rewrite <- En in Ea. apply not_init_In in Ea. lia.
  Qed.

  Lemma choice_ok x : exists a, choice (s_rand P) (n_actions P) x = (Ok a, S x) /\ a < nA p.
  Proof.
    exists (r x mod nA p). split; [|apply Nat.mod_upper_bound; lia]. unfold choice. change (n_actions P) with (nA p). change (s_rand P x) with (r x, S x). destruct (nA p); [lia|reflexivity].
  Qed.
  Lemma one_rollout_ok : forall fuel s h gamma full x, s < nS p -> Z.to_nat (nt_n h) <= fuel -> exists v x', one_rollout P fuel s h gamma full x = (Ok v, x').
  Proof.
    induction fuel as [|fuel IH]; intros s h gamma full x Hs Hf; cbn [one_rollout]; change (s_reached P h) with (nt_reached h); destruct (nt_reached h) eqn:Hr; eauto.
    - unfold nt_reached in Hr. apply Z.leb_gt in Hr. lia.
    - destruct (choice_ok x) as (a & -> & Ha). destruct (transition_exact a s (S x) Ha Hs) as (s' & o & v & Et & Hs' & _). change (s_transition P) with (draw_transition p u). rewrite Et. apply IH; [auto|].
      unfold nt_reached in Hr. apply Z.leb_gt in Hr. cbn. lia.
  Qed.
  Lemma rollouts_ok : forall k fuel b h acc x, distribution p b -> Z.to_nat (nt_n h) <= fuel -> exists v x', rollouts P k fuel b h acc x = (Ok v, x').
  Proof.
    induction k as [|k IH]; intros fuel b h acc x D Hf; cbn [rollouts]; eauto. destruct (sample_exact b x D) as (s & Es & Hs & _). cbn [P exact_search s_sample]. rewrite Es. fold P.
    destruct (one_rollout_ok fuel s (s_copy P h) 1 0 (S x) Hs Hf) as (v & x' & ->). apply IH; auto.
  Qed.
  Lemma rollout_node_ok fuel m h x : distribution p (o_belief m) -> Z.to_nat (nt_n h) <= fuel -> exists m' x' v, rollout_from_node P fuel m h x = (m', x', Ok v).
  Proof.
    intros D Hf. unfold rollout_from_node. destruct (s_reached P h); eauto. change (s_rollouts P) with rollout_it. destruct (rollouts_ok rollout_it fuel (o_belief m) h 0 x D Hf) as (v & x' & ->).
    destruct (Nat.eqb_spec rollout_it 0); [lia|]. eauto.
  Qed.

  Lemma simulate_ok : forall fuel n s h action x, good n -> s < nS p -> (0 < nth s (o_belief n) 0)%Q -> (forall a, action = Some a -> a < nA p) -> Z.to_nat (nt_n h) <= fuel ->
    exists n' x' v, simulate P fuel n s h action x = (n', x', Ok v).
  Proof.
    induction fuel as [|fuel IH]; intros n s h action x G Hs Hp Hact Hf; cbn [simulate]; change (s_reached P h) with (nt_reached h); destruct (nt_reached h) eqn:Hr; eauto.
    - unfold nt_reached in Hr. apply Z.leb_gt in Hr. lia.
    - assert (HC : exists a y, match action with Some a => (Ok a, x) | None => best_action P n (s_exploration P) (s_relative P) x end = (Ok a, y) /\ a < nA p).
      { destruct action as [a|]; [exists a, x; auto|]. apply best_ok. auto. }
      destruct HC as (a & y & -> & Ha). cbn [bind]. pose proof G as (SZ & _ & ED & D). pose proof (SZ [] n eq_refl) as SZ0. unfold sized in SZ0. change (n_actions P) with (nA p) in SZ0.
      assert (HCc : exists c, safe_child n a = Ok c) by (unfold safe_child; destruct (nth_error (o_kids n) a) as [[c|]|] eqn:E; eauto; apply nth_error_None in E; lia).
      destruct HCc as [c Ec]. rewrite Ec. cbn [bind]. destruct (transition_exact a s y Ha Hs) as (s' & o & v & Et & Hs' & Ho & P2 & P3). change (s_transition P) with (draw_transition p u). rewrite Et. cbv zeta.
      change (s_decrement P h a s s' o) with (nt_decrement h). destruct (update_possible (o_belief n) a s s' o D Ha Hs Hs' Ho Hp P2 P3) as (b' & Eb & D' & Hp').
      assert (Hf' : Z.to_nat (nt_n (nt_decrement h)) <= fuel) by (unfold nt_reached in Hr; apply Z.leb_gt in Hr; cbn; lia).
      destruct (lookup o (a_kids c)) as [m|] eqn:El.
      + assert (Ek : nth_error (o_kids n) a = Some (Some c)) by (unfold safe_child in Ec; destruct (nth_error (o_kids n) a) as [[d|]|]; [congruence| |discriminate]; assert (c = a_new) as -> by congruence; discriminate).
        pose proof (edge_update _ _ _ _ _ ED Ek El) as Em. assert (b' = o_belief m) as -> by congruence. pose proof (good_child _ _ _ _ _ G Ek El D') as Gm.
        destruct (IH m s' (nt_decrement h) None (S (S y)) Gm Hs' Hp') as (m' & x' & w & ->); [discriminate|auto|]. eauto.
      + change (o_belief (set_kid n a c)) with (o_belief n). cbn [P exact_search s_succ]. rewrite C82_successor, Eb. fold P.
        destruct (rollout_node_ok fuel (o_new P b') (nt_decrement h) (S (S y)) D' Hf') as (m' & x' & w & ->). eauto.
  Qed.
  Lemma simulate_from_ok fuel action n x : good n -> (forall a, action = Some a -> a < nA p) -> Z.to_nat horizon <= fuel -> exists n' x' v, simulate_from_node P fuel action n x = (n', x', Ok v).
  Proof.
    intros G Hact Hf. unfold simulate_from_node. pose proof G as (_ & _ & _ & D). destruct (sample_exact (o_belief n) x D) as (s & Es & Hs & Hp). cbn [P exact_search s_sample]. rewrite Es. fold P.
    apply simulate_ok; auto.
  Qed.

  (** the trees of runners *)
  Lemma filters_distribution : forall h b b', filters P b h b' -> Forall (fun ao => fst ao < nA p /\ snd ao < nO p) h -> distribution p b -> filter_belief p b h = Ok b' /\ distribution p b'.
  Proof.
    induction 1 as [b|b a o b1 h b2 (x & x' & Hm) F IH]; intros HF D; [auto|]. inversion HF as [|q l [Ha Ho] HF']; subst. cbn [P exact_search s_succ] in Hm. rewrite C82_successor in Hm.
    assert (Em : belief_update p (Z.of_nat a) (Z.of_nat o) b = Ok b1) by congruence. cbn [filter_belief]. rewrite Em. cbn [bind]. apply IH; auto.
    cbn in Ha, Ho. destruct (C40_bayes p b a o ST D Ha Ho) as [C0 C1]. destruct (Qeq_dec (prob_obs p b a o) 0) as [Z0|Z0]; [rewrite (C0 Z0) in Em; discriminate|].
    destruct (C1 Z0) as (nb & E & Dn & _). congruence.
  Qed.
  Lemma filters_range : forall h b b', filters P b h b' -> Forall (fun ao => fst ao < nA p /\ snd ao < nO p) h.
  Proof.
    induction 1 as [b|b a o b1 h b2 (x & x' & Hm) F IH]; constructor; auto. cbn [fst snd]. cbn [P exact_search s_succ] in Hm. rewrite C82_successor in Hm.
    assert (Em : belief_update p (Z.of_nat a) (Z.of_nat o) b = Ok b1) by congruence. unfold belief_update in Em. rewrite !axis_nat in Em. fold (nA p) (nO p) in Em.
    destruct (Nat.ltb_spec a (nA p)); [|discriminate]. cbn [bind] in Em. destruct (negb _); [discriminate|]. destruct (Nat.ltb_spec o (nO p)); [auto|discriminate].
  Qed.
  Lemma every_down (Q : onode (list Q) -> Prop) n : every Q n -> forall h m, find n h = Some m -> every Q m.
  Proof.
    intros HQ h. revert n HQ. induction h as [|[a o] h IH]; intros n HQ m F; cbn [find] in F; [assert (m = n) as -> by congruence; exact HQ|].
    destruct (nth_error (o_kids n) a) as [[c|]|] eqn:Ek; try discriminate. destruct (lookup o (a_kids c)) as [k|] eqn:El; [|discriminate]. apply (IH k); [|auto].
    intros h' z Hz. apply (HQ ((a, o) :: h')). cbn [find]. rewrite Ek, El. auto.
  Qed.
  Lemma trace_good b l rn : trace P b l rn -> distribution p b -> forall h m, find (r_root rn) h = Some m -> good m.
  Proof.
    intros T D h m F. pose proof (trace_belief P b l rn T h m F) as FB. apply (trace_inv P) in T. pose proof (good_grows _ _ (inv_grows _ _ _ _ T) (good_new b D)) as (H1 & H2 & H3 & H4).
    split; [eapply every_down; eauto|]. split; [eapply every_down; eauto|]. split; [eapply every_down; eauto|]. apply (filters_distribution _ _ _ FB (filters_range _ _ _ FB) D).
  Qed.
  Lemma simulations_ok : forall k fuel b l rn x, trace P b l rn -> distribution p b -> Z.to_nat horizon <= fuel -> exists rn' x', simulations P k fuel rn x = (rn', x', Ok tt) /\ trace P b (l ++ repeat EvExplore k) rn'.
  Proof.
    induction k as [|k IH]; intros fuel b l rn x T D Hf; cbn [simulations repeat]; [exists rn, x; rewrite app_nil_r; auto|].
    pose proof (trace_inv P _ _ _ T) as I. destruct (inv_find _ _ _ _ I) as [m F]. pose proof (trace_good _ _ _ T D _ _ F) as G.
    destruct (simulate_from_ok fuel None m x G ltac:(discriminate) Hf) as (m' & x1 & v & Em). destruct (at_node_find _ _ _ _ _ F _ _ _ Em) as (root & Er & _).
    pose proof (tr_explore P b l rn fuel None (r_node rn) x root x1 (Ok v) T Er) as T'. rewrite Er.
    destruct (IH fuel b _ _ x1 T' D Hf) as (rn' & x' & E & T2). exists rn', x'. split; [auto|]. rewrite <- app_assoc in T2. auto.
  Qed.
  Lemma get_action_ok k fuel b l rn x : trace P b l rn -> distribution p b -> Z.to_nat horizon <= fuel -> exists rn' x' nm, get_action P k fuel rn x = (rn', x', Ok nm) /\ In nm (p_actions p).
  Proof.
    intros T D Hf. destruct (simulations_ok k fuel b l rn x T D Hf) as (r1 & x1 & E & T1). unfold get_action. rewrite E. pose proof (trace_inv P _ _ _ T1) as I. destruct (inv_find _ _ _ _ I) as [m F].
    pose proof (trace_good _ _ _ T1 D _ _ F) as G. destruct (best_ok m 0 false x1 G) as (a & x2 & Eb & Ha).
    assert (Ep : pick P m x1 = (m, x2, Ok a)) by (unfold pick; rewrite Eb; reflexivity). destruct (at_node_find (pick P) _ _ _ _ F _ _ _ Ep) as (root & Er & _). unfold pick in Er. rewrite Er.
    change (s_actions P) with (p_actions p). destruct (nth_error (p_actions p) a) as [nm|] eqn:En; [|apply nth_error_None in En; unfold nA in Ha; lia].
    do 3 eexists. split; [reflexivity|]. eapply nth_error_In; eauto.
  Qed.
  (** steps: possible observations are accepted, impossible ones raise Impossible *)
  Lemma get_node_ok : forall h n m x a o, find n h = Some m -> good n -> a < nA p -> o < nO p -> good m ->
    ((prob_obs p (o_belief m) a o == 0)%Q -> exists n', get_node P n (h ++ [(a, o)]) x = (n', x, Err EImpossible)) /\
    (~ (prob_obs p (o_belief m) a o == 0)%Q -> exists n', get_node P n (h ++ [(a, o)]) x = (n', x, Ok tt)).
  Proof.
    clear HR HA HU WS. induction h as [|[a0 o0] h IH]; intros n m x a o F G Ha Ho Gm; cbn [find app get_node] in *.
    - assert (m = n) as -> by congruence. pose proof G as (SZ & _ & ED & D). pose proof (SZ [] n eq_refl) as SZ0. unfold sized in SZ0. change (n_actions P) with (nA p) in SZ0.
      assert (HCc : exists c, safe_child n a = Ok c) by (unfold safe_child; destruct (nth_error (o_kids n) a) as [[c|]|] eqn:E; eauto; apply nth_error_None in E; lia).
      destruct HCc as [c Ec]. rewrite Ec. destruct (C40_bayes p (o_belief n) a o ST D Ha Ho) as [C0 C1].
      destruct (lookup o (a_kids c)) as [k|] eqn:El.
      + assert (Ek : nth_error (o_kids n) a = Some (Some c)) by (unfold safe_child in Ec; destruct (nth_error (o_kids n) a) as [[d|]|]; [congruence| |discriminate]; assert (c = a_new) as -> by congruence; discriminate).
        pose proof (edge_update _ _ _ _ _ ED Ek El) as Em. split; [intros Z0; rewrite (C0 Z0) in Em; discriminate|eauto].
      + cbn [P exact_search s_succ]. rewrite C82_successor. fold P. split; intros Z0; [rewrite (C0 Z0); eauto|]. destruct (C1 Z0) as (nb & -> & _). eauto.
    - destruct (nth_error (o_kids n) a0) as [[c|]|] eqn:Ek; try discriminate. destruct (lookup o0 (a_kids c)) as [k|] eqn:El; [|discriminate]. unfold safe_child. rewrite Ek, El.
      assert (Gk : good k).
      { apply (good_child n a0 c o0 k G Ek El). pose proof G as (_ & _ & ED & D). pose proof (edge_update _ _ _ _ _ ED Ek El) as Em.
        assert (FB : filters P (o_belief n) [(a0, o0)] (o_belief k)) by (econstructor; [eapply (ED [] n eq_refl); eauto|constructor]). apply (filters_distribution _ _ _ FB (filters_range _ _ _ FB) D). }
      destruct (IH k m x a o F Gk Ha Ho Gm) as [I0 I1]. split; intros Z0; [destruct (I0 Z0) as [n' ->]|destruct (I1 Z0) as [n' ->]]; eauto.
  Qed.
End Exact.
