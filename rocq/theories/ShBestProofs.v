(** Proofs for C133: with nodes shared by belief a simulation tries an action never tried before, as long as there is one. *)
From Verif Require Import PyBase PyBaseFacts QBase PomdpModel BeliefModel EvalModel PolicyModel PomcpModel PomcpSpec PomcpProofs PomcpProofs2 SharedModel SharedSpec SharedProofs ShStarveProofs.
From Coq Require Import Lia Lqa.
Local Open Scope list_scope.
Local Open Scope nat_scope.

Section ShBest.
  Context {X St B H : Type}.
  Variable P : search X St B H.
  Variable same : B -> B -> bool.
  Hypothesis same_refl : forall b, same b b = true.
  Notation T0 := (fun _ : B => True).
  Notation ok := (store_ok P same T0).
  Lemma all_true : forall b a o c, T0 b -> may_follow P b a o c -> T0 c.
  Proof. auto. Qed.

  Lemma ext_visits (n n' : snode B) b : node_ext n n' -> s_visits n b <= s_visits n' b.
  Proof.
    intros (_ & _ & K). unfold s_visits. destruct (nth_error (sn_kids n) b) as [[k|]|] eqn:E; [|lia|lia]. destruct (K b k E) as (k' & E' & L & _). rewrite E'. exact L.
  Qed.
  Lemma sim_chosen fuel st i s h x st' x' w n : ok st -> nth_error st i = Some n -> s_reached P h = false -> s_simulate P same fuel st i s h None x = (st', x', Ok w) ->
    exists a y n', best_action P (as_tree n) (s_exploration P) (s_relative P) x = (Ok a, y) /\ nth_error st' i = Some n' /\ s_visits n a < s_visits n' a /\ forall b, s_visits n b <= s_visits n' b.
  Proof.
    intros S0 En Hr E. pose proof (s_simulate_ok P same same_refl T0 all_true _ _ _ _ _ _ _ _ _ _ S0 E) as [_ XX].
    destruct fuel as [|fuel]; cbn [s_simulate] in E; rewrite En, Hr in E; [discriminate|].
    destruct (best_action P (as_tree n) (s_exploration P) (s_relative P) x) as [ra y]. destruct ra as [a|e]; cbn [bind] in E; [|discriminate].
    destruct (sn_child n a) as [k|e] eqn:Ek; cbn [bind] in E; [|discriminate].
    assert (R1 : ok (modify st i (sn_safe a)) /\ extends st (modify st i (sn_safe a))).
    { apply modify_ok; auto. intros m _ Hm. apply safe_ok; auto. }
    destruct (safe_child_after st i n a k En Ek) as (n1 & En1 & Eb1 & Ek1).
    assert (N1 : n1 = sn_safe a n) by (rewrite modify_nth, Nat.eqb_refl, En in En1; cbn in En1; congruence).
    set (st1 := modify st i (sn_safe a)) in *. destruct R1 as [S1 X1].
    destruct (s_transition P a s y) as [[[[s' o] r]|e] z]; [|discriminate]. cbv zeta in E.
    set (h' := s_decrement P h a s s' o) in *.
    match type of E with match ?t with _ => _ end = _ => assert (R2 : forall st2 x2 v2, t = (st2, x2, v2) -> extends st1 st2) end.
    { intros st2 x2 v2. destruct (lookup o (k_obs k)) as [j|] eqn:El; [intros E2; apply (s_simulate_ok P same same_refl T0 all_true _ _ _ _ _ _ _ _ _ _ S1 E2)|].
      destruct (s_succ P (sn_belief n) a o z) as [rb z1] eqn:Es. destruct rb as [b|e].
      - destruct (node_for_belief P same st1 b) as [st3 j] eqn:Ef.
        destruct (put_modify_ok P same same_refl T0 all_true st1 i n1 a k o b st3 j S1 En1 Ek1 El) as [S3 X3]; [rewrite Eb1; exists z, z1; auto|auto|].
        destruct (s_rollout P fuel (modify st3 i (sn_kid a (k_put o j))) j h' z1) as [[st4 x4] v4] eqn:Er.
        intros E2. assert (st2 = st4) as -> by congruence. destruct (s_rollout_ok P same T0 _ _ _ _ _ _ _ _ S3 Er) as [S4 X4]. eapply extends_trans; eauto.
      - intros E2. assert (st2 = st1) as -> by (destruct e; congruence). apply extends_refl. }
    match type of E with match ?t with _ => _ end = _ => destruct t as [[st2 x2] v2] end.
    pose proof (R2 st2 x2 v2 eq_refl) as X2. destruct v2 as [v2|e]; [|discriminate].
    rewrite modify_modify in E. match type of E with (modify st2 i ?f, _, _) = _ => assert (st' = modify st2 i f) as -> by congruence end.
    destruct X2 as [_ X2]. destruct (X2 i n1 En1) as (n2 & En2 & _ & _ & K2). destruct (K2 a k Ek1) as (k2 & Ek2 & L2 & _).
    destruct XX as [_ XX]. destruct (XX i n En) as (n' & En' & X'). exists a, y, n'. split; [reflexivity|]. split; [exact En'|]. split; [|intros b; apply ext_visits; exact X'].
    rewrite modify_nth, Nat.eqb_refl, En2 in En'. cbn [option_map] in En'. set (full := (r + s_discount P * v2)%Q) in *.
    assert (n' = sn_update P full (sn_kid a (k_update P full) n2)) as -> by congruence.
    assert (V : s_visits n a = n_simulations (k_avg k)) by (rewrite <- (safe_visits a n a), <- N1; unfold s_visits; rewrite Ek1; reflexivity).
    assert (V' : s_visits (sn_update P full (sn_kid a (k_update P full) n2)) a = S (n_simulations (k_avg k2))); [|lia].
    unfold s_visits. cbn. rewrite Ek2. rewrite set_nth_same by (apply nth_error_Some; congruence). reflexivity.
  Qed.

  (** Actions not tried yet *)
  Definition fresh_actions (n : snode B) : list nat := filter (fun a => s_visits n a =? 0) (seq 0 (n_actions P)).
  Lemma fresh_In n a : In a (fresh_actions n) <-> a < n_actions P /\ s_visits n a = 0.
  Proof. unfold fresh_actions. rewrite filter_In, in_seq, Nat.eqb_eq. split; intros [A C]; split; auto; lia. Qed.
  Lemma fewer (f g : nat -> bool) l : (forall b, g b = true -> f b = true) -> length (filter g l) <= length (filter f l).
  Proof. intros Hm. induction l as [|b l IH]; [auto|]. cbn [filter]. specialize (Hm b). destruct (g b); [rewrite Hm by auto; cbn; lia|]. destruct (f b); cbn; lia. Qed.
  Lemma one_fewer (f g : nat -> bool) l a : (forall b, g b = true -> f b = true) -> In a l -> f a = true -> g a = false -> length (filter g l) < length (filter f l).
  Proof.
    intros Hm. induction l as [|b l IH]; [intros []|]. intros [->|Hin] Hf Hg; cbn [filter].
    - rewrite Hf, Hg. cbn. pose proof (fewer f g l Hm). lia.
    - specialize (IH Hin Hf Hg). pose proof (Hm b) as Hb. destruct (g b); [rewrite Hb by auto; cbn; lia|]. destruct (f b); cbn; lia.
  Qed.
  Lemma sims_fresh : forall k fuel r x r' x' n, ok (sr_store r) -> s_reached P (s_horizon P) = false -> nth_error (sr_store r) (sr_node r) = Some n ->
    s_simulations P same k fuel r x = (r', x', Ok tt) -> exists n', nth_error (sr_store r') (sr_node r') = Some n' /\ length (fresh_actions n') <= length (fresh_actions n) - k /\
      (forall b, s_visits n b <= s_visits n' b) /\ k + s_all_visits n <= s_all_visits n'.
  Proof.
    induction k as [|k IH]; intros fuel r x r' x' n S0 Hh En E; cbn [s_simulations] in E.
    - assert (r' = r) as -> by congruence. exists n. repeat split; auto; lia.
    - destruct (s_simulate_from P same fuel None (sr_store r) (sr_node r) x) as [[st y] w] eqn:Es. destruct (s_simulate_from_ok P same same_refl T0 all_true _ _ _ _ _ _ _ _ S0 Es) as [S1 X1].
      cbv zeta in E. destruct w as [w|e]; [|discriminate]. unfold s_simulate_from in Es. rewrite En in Es. destruct (s_sample P (sn_belief n) x) as [[s|e] z]; [|discriminate].
      destruct (sim_chosen _ _ _ _ _ _ _ _ _ _ S0 En Hh Es) as (a & y0 & n1 & Eb & En1 & Va & Vb).
      destruct (IH fuel {| sr_store := st; sr_history := sr_history r; sr_node := sr_node r; sr_last := sr_last r |} y r' x' n1 S1 Hh En1 E) as (n' & En' & F' & V' & A'). exists n'. split; [exact En'|].
      assert (L0 : length (sn_kids n) = n_actions P) by (apply (proj1 S0 n); eapply nth_error_In; eauto).
      assert (L1 : length (sn_kids n1) = n_actions P) by (apply (proj1 S1 n1); eapply nth_error_In; eauto).
      pose proof (best_lt P _ _ _ _ _ _ Eb) as Ha. rewrite tree_length in Ha.
      split; [|split; [intros b; specialize (Vb b); specialize (V' b); lia|]].
      + assert (FF : length (fresh_actions n1) <= length (fresh_actions n) - 1); [|lia]. destruct (fresh_actions n) as [|b t] eqn:Ef.
        * cbn. destruct (fresh_actions n1) as [|c u] eqn:E1; [auto|]. exfalso. assert (I : In c (fresh_actions n1)) by (rewrite E1; left; auto). apply fresh_In in I. destruct I as [I1 I2].
          assert (J : In c (fresh_actions n)) by (apply fresh_In; split; [auto|specialize (Vb c); lia]). rewrite Ef in J. destruct J.
        * rewrite <- Ef. assert (I : In b (fresh_actions n)) by (rewrite Ef; left; auto). apply fresh_In in I. destruct I as [I1 I2].
          assert (HU : a < length (o_kids (as_tree n)) /\ visits (as_tree n) a = 0).
          { apply not_init_In. eapply best_untried; [exact Eb|]. assert (J : In b (not_init (as_tree n))) by (apply not_init_In; rewrite tree_length, tree_visits; split; [lia|auto]). intros E0. rewrite E0 in J. destruct J. }
          rewrite tree_visits in HU. destruct HU as [_ HU]. assert (FF : length (fresh_actions n1) < length (fresh_actions n)); [|lia].
          unfold fresh_actions. apply (one_fewer _ _ _ a); [|apply in_seq; lia|apply Nat.eqb_eq; auto|apply Nat.eqb_neq; lia].
          intros c Hc. apply Nat.eqb_eq in Hc. apply Nat.eqb_eq. specialize (Vb c). lia.
      + assert (LT : s_all_visits n < s_all_visits n1); [|lia]. unfold s_all_visits. rewrite L0, L1. apply (list_sum_more _ _ _ a); [exact Vb|apply in_seq; lia|exact Va].
  Qed.
End ShBest.
