(** Proofs for C122. *)
From Verif Require Import PyBase PyBaseFacts QBase PomdpModel BeliefModel PolicyModel PomcpModel PomcpSpec PomcpProofs PomcpProofs2 ValueSpec ValueProofs
  SharedModel SharedSpec SharedProofs ShValueSpec.
From Coq Require Import Lia Lqa Field.
Local Open Scope list_scope.
Local Open Scope nat_scope.

Lemma held_value v : held v = avg_value v.
Proof. unfold held, avg_value. destruct (n_simulations v); reflexivity. Qed.

Section Sh.
  Context {X St B H : Type}.
  Variable P : search X St B H.
  Variable same : B -> B -> bool.
  Variables Lo Hi lo hi : Q.
  Hypothesis alpha_ok : (0 <= s_alpha P <= 1)%Q.
  Hypothesis gamma_ok : (0 <= s_discount P)%Q.
  Hypothesis rew : rewards_in P lo hi.
  Hypothesis zero_ok : (Lo <= 0 <= Hi)%Q.
  Hypothesis low_ok : (Lo <= lo + s_discount P * Lo)%Q.
  Hypothesis high_ok : (hi + s_discount P * Hi <= Hi)%Q.

  Definition inn (n : snode B) : Prop := within Lo Hi (sn_avg n) /\ forall a k, nth_error (sn_kids n) a = Some (Some k) -> within Lo Hi (k_avg k).
  Definition ins (st : store B) : Prop := forall n, In n st -> inn n.

  Lemma ins_modify st i f : ins st -> (forall n, inn n -> inn (f n)) -> ins (modify st i f).
  Proof.
    intros I Hf n Hn. apply In_nth_error in Hn as [j Ej]. rewrite modify_nth in Ej. destruct (Nat.eqb j i).
    - destruct (nth_error st j) as [m|] eqn:Em; [|discriminate]. cbn in Ej. assert (n = f m) as -> by congruence. apply Hf, I. eapply nth_error_In; eauto.
    - apply I. eapply nth_error_In; eauto.
  Qed.
  Lemma inn_new b : inn (sn_new P b).
  Proof. split; [apply within_new|]. intros a k E. cbn in E. apply nth_error_In, repeat_spec in E. discriminate. Qed.
  Lemma inn_safe a n : inn n -> inn (sn_safe a n).
  Proof.
    intros [I1 I2]. split; [exact I1|]. intros a' k E. cbn in E. destruct (nth_error (sn_kids n) a) as [[k'|]|] eqn:Ea; eauto.
    destruct (Nat.eq_dec a' a) as [->|Hne].
    - rewrite set_nth_same in E by (apply nth_error_Some; congruence). assert (k = k_new) as -> by congruence. apply within_new.
    - rewrite set_nth_other in E by auto. eauto.
  Qed.
  Lemma inn_kid a f n : inn n -> (forall k, within Lo Hi (k_avg k) -> within Lo Hi (k_avg (f k))) -> inn (sn_kid a f n).
  Proof.
    intros [I1 I2] Hf. split; [exact I1|]. intros a' k E. cbn in E. destruct (nth_error (sn_kids n) a) as [[k'|]|] eqn:Ea; eauto.
    destruct (Nat.eq_dec a' a) as [->|Hne].
    - rewrite set_nth_same in E by (apply nth_error_Some; congruence). assert (k = f k') as -> by congruence. eauto.
    - rewrite set_nth_other in E by auto. eauto.
  Qed.
  Lemma inn_update v n : (Lo <= v <= Hi)%Q -> inn n -> inn (sn_update P v n).
  Proof. intros V [I1 I2]. split; [apply within_update; auto|exact I2]. Qed.
  Lemma inn_put a o j n : inn n -> inn (sn_kid a (k_put o j) n).
  Proof. intros I. apply inn_kid; auto. Qed.
  Lemma inn_both a v n : (Lo <= v <= Hi)%Q -> inn n -> inn (sn_kid a (k_update P v) n).
  Proof. intros V I. apply inn_kid; auto. intros k K. apply within_update; auto. Qed.
  Lemma ins_belief st b st' j : ins st -> node_for_belief P same st b = (st', j) -> ins st'.
  Proof.
    unfold node_for_belief. destruct (index_of same st b) as [i|]; intros I E; [assert (st' = st) as -> by congruence; auto|].
    assert (st' = st ++ [sn_new P b]) as -> by congruence. intros n Hn. apply in_app_or in Hn as [Hn|[<-|[]]]; [auto|apply inn_new].
  Qed.
  Lemma ins_rollout fuel st j h x st' x' v : ins st -> s_rollout P fuel st j h x = (st', x', v) -> ins st' /\ forall w, v = Ok w -> (Lo <= w <= Hi)%Q.
  Proof.
    intros I E. unfold s_rollout in E. destruct (s_reached P h) eqn:Hr; [assert (st' = st /\ v = Ok 0%Q) as [-> ->] by (split; congruence); split; [auto|]; intros w Ew; assert (w = 0%Q) as -> by congruence; auto|].
    destruct (nth_error st j) as [n|]; [|assert (st' = st /\ v = Err EKey) as [-> ->] by (split; congruence); split; [auto|discriminate]].
    destruct (rollouts P (s_rollouts P) fuel (sn_belief n) h 0 x) as [r y] eqn:Er.
    destruct r as [r|e]; [|assert (st' = st /\ v = Err e) as [-> ->] by (split; congruence); split; [auto|discriminate]].
    destruct (Nat.eqb (s_rollouts P) 0) eqn:Ez; [assert (st' = st /\ v = Err EZeroDiv) as [-> ->] by (split; congruence); split; [auto|discriminate]|].
    cbv zeta in E. set (q := (r / inject_Z (Z.of_nat (s_rollouts P)))%Q) in *.
    assert (st' = modify st j (sn_update P q) /\ v = Ok q) as [-> ->] by (split; congruence).
    assert (Q1 : exists m', rollout_from_node P fuel (as_tree n) h x = (m', y, Ok q)).
    { unfold rollout_from_node. rewrite Hr. cbn [as_tree o_belief]. rewrite Er, Ez. eexists. reflexivity. }
    destruct Q1 as [m' Q1].
    assert (Q2 : (Lo <= q <= Hi)%Q).
    { eapply (leaf_bound P (fun _ => Lo) (fun _ => Hi) (fun _ _ => True) lo hi); eauto. }
    split; [|intros w Ew; assert (w = q) as -> by congruence; auto]. apply ins_modify; auto. intros m. apply inn_update; auto.
  Qed.

  Lemma ins_simulate : forall fuel st i s h action x st' x' v, ins st -> s_simulate P same fuel st i s h action x = (st', x', v) ->
    ins st' /\ forall w, v = Ok w -> (Lo <= w <= Hi)%Q.
  Proof.
    assert (Bad : forall (st st' : store B) (y y' : X) (v : res Q) e, ins st -> (st, y, Err e) = (st', y', v) -> ins st' /\ forall w, v = Ok w -> (Lo <= w <= Hi)%Q)
      by (intros st st' y y' v e I E; assert (st' = st /\ v = Err e) as [-> ->] by (split; congruence); split; [auto|discriminate]).
    induction fuel as [|fuel IH]; intros st i s h action x st' x' v I E; cbn [s_simulate] in E;
      (destruct (nth_error st i) as [n|] eqn:En; [|exact (Bad _ _ _ _ _ _ I E)]); pose proof (I n (nth_error_In _ _ En)) as In0;
      (destruct (s_reached P h) eqn:Hr; [assert (st' = st /\ v = Ok (avg_value (sn_avg n))) as [-> ->] by (split; congruence); split; [auto|]; intros w Ew; assert (w = avg_value (sn_avg n)) as -> by congruence; apply within_value; [auto|apply In0]|]).
    - exact (Bad _ _ _ _ _ _ I E).
    - destruct (match action with Some a => _ | None => _ end) as [a y]. destruct a as [a|e]; cbn [bind] in E; [|exact (Bad _ _ _ _ _ _ I E)].
      destruct (sn_child n a) as [k|e] eqn:Ek; cbn [bind] in E; [|exact (Bad _ _ _ _ _ _ I E)].
      cbv zeta in E. assert (I1 : ins (modify st i (sn_safe a))) by (apply ins_modify; auto using inn_safe).
      set (st1 := modify st i (sn_safe a)) in *. clearbody st1.
      destruct (s_transition P a s y) as [[[[s' o] r]|e] y1] eqn:Et; [|exact (Bad _ _ _ _ _ _ I1 E)].
      pose proof (rew _ _ _ _ _ _ _ Et) as Hrew.
      match type of E with (match ?q with _ => _ end) = _ => destruct q as [[st2 y2] w] eqn:Eq end.
      assert (I2 : ins st2 /\ forall u, w = Ok u -> (Lo <= u <= Hi)%Q).
      { destruct (lookup o (k_obs k)) as [j|] eqn:El; [eapply IH; [exact I1|exact Eq]|].
        destruct (s_succ P (sn_belief n) a o y1) as [[b|e] y3] eqn:Es.
        - destruct (node_for_belief P same st1 b) as [st3 j] eqn:Ef. pose proof (ins_belief _ _ _ _ I1 Ef) as I3.
          destruct (s_rollout P fuel (modify st3 i (sn_kid a (k_put o j))) j (s_decrement P h a s s' o) y3) as [[st4 y4] w'] eqn:Er.
          assert (I4 : ins (modify st3 i (sn_kid a (k_put o j)))) by (apply ins_modify; auto using inn_put).
          destruct (ins_rollout _ _ _ _ _ _ _ _ I4 Er) as [I5 V5]. assert (st2 = st4) as -> by congruence. split; [auto|]. intros u Eu.
          destruct w' as [u'|e]; [apply V5; congruence|]. assert (Ez : (match e with EMaxSamples => Ok 0%Q | e => Err e end) = w) by (destruct e; congruence).
          rewrite Eu in Ez. destruct e; try discriminate. assert (u = 0%Q) as -> by congruence. auto.
        - assert (st2 = st1) as -> by (destruct e; congruence). split; [auto|]. intros u Eu. destruct e; try congruence; assert (u = 0%Q) as -> by congruence; auto. }
      destruct I2 as [I2 V2]. destruct w as [u|e]; [|exact (Bad _ _ _ _ _ _ I2 E)].
      set (full := (r + s_discount P * u)%Q) in *. specialize (V2 u eq_refl).
      assert (F : (Lo <= full <= Hi)%Q).
      { eapply (step_bound P (fun _ => Lo) (fun _ => Hi) (fun _ _ => True) lo hi) with (h := h); auto. }
      match type of E with (?z, _, _) = _ => assert (st' = z /\ v = Ok full) as [-> ->] by (split; congruence) end.
      split; [|intros w Ew; assert (w = full) as -> by congruence; auto].
      apply ins_modify; [apply ins_modify; auto|]; intros m; [apply inn_both|apply inn_update]; auto.
  Qed.
  Lemma ins_simulate_from fuel action st i x st' x' v : ins st -> s_simulate_from P same fuel action st i x = (st', x', v) -> ins st'.
  Proof.
    intros I E. unfold s_simulate_from in E. destruct (nth_error st i) as [n|]; [|assert (st' = st) as -> by congruence; auto].
    destruct (s_sample P (sn_belief n) x) as [[s|e] y]; [|assert (st' = st) as -> by congruence; auto]. eapply ins_simulate; eauto.
  Qed.
  Lemma ins_get_node : forall h st i x st' x' v, ins st -> s_get_node P same st i h x = (st', x', v) -> ins st'.
  Proof.
    induction h as [|[a o] h IH]; intros st i x st' x' v I E; cbn [s_get_node] in E; [assert (st' = st) as -> by congruence; auto|].
    destruct (nth_error st i) as [n|] eqn:En; [|assert (st' = st) as -> by congruence; auto].
    destruct (sn_child n a) as [k|e] eqn:Ek; [|assert (st' = st) as -> by congruence; auto].
    cbv zeta in E. assert (I1 : ins (modify st i (sn_safe a))) by (apply ins_modify; auto using inn_safe). set (st1 := modify st i (sn_safe a)) in *. clearbody st1.
    destruct (lookup o (k_obs k)) as [j|] eqn:El; [eapply IH; [exact I1|exact E]|].
    destruct (s_succ P (sn_belief n) a o x) as [[b|e] y]; [|assert (st' = st1) as -> by congruence; auto].
    destruct (node_for_belief P same st1 b) as [st3 j] eqn:Ef. eapply IH; [|exact E]. apply ins_modify; [eapply ins_belief; eauto|]. auto using inn_put.
  Qed.
  Lemma ins_simulations : forall k fuel r x r' x' v, ins (sr_store r) -> s_simulations P same k fuel r x = (r', x', v) -> ins (sr_store r').
  Proof.
    induction k as [|k IH]; intros fuel r x r' x' v I E; cbn [s_simulations] in E; [assert (r' = r) as -> by congruence; auto|].
    destruct (s_simulate_from P same fuel None (sr_store r) (sr_node r) x) as [[st y] w] eqn:Es. apply ins_simulate_from in Es; auto.
    cbv zeta in E. destruct w as [w|e]; [eapply IH; [|exact E]; exact Es|]. match type of E with (?q, _, _) = _ => assert (r' = q) as -> by congruence end. exact Es.
  Qed.
  Lemma ins_get_action k fuel r x r' x' v : ins (sr_store r) -> s_get_action P same k fuel r x = (r', x', v) -> ins (sr_store r').
  Proof.
    intros I E. unfold s_get_action in E. destruct (s_simulations P same k fuel r x) as [[r1 y] w] eqn:Es. apply ins_simulations in Es; auto.
    destruct w as [w|e]; [|assert (r' = r1) as -> by congruence; auto].
    destruct (nth_error (sr_store r1) (sr_node r1)) as [n|]; [|assert (r' = r1) as -> by congruence; auto].
    destruct (best_action P (as_tree n) 0 false y) as [[a|e] z]; [|assert (r' = r1) as -> by congruence; auto].
    match type of E with (?q, _, _) = _ => assert (r' = q) as -> by congruence end. exact Es.
  Qed.
  Lemma ins_step ob r x r' x' v : ins (sr_store r) -> s_step P same ob r x = (r', x', v) -> ins (sr_store r').
  Proof.
    intros I E. unfold s_step in E. destruct (sr_last r) as [a|]; [|assert (r' = r) as -> by congruence; auto].
    destruct (list_index (s_observations P) ob) as [o|e]; [|assert (r' = r) as -> by congruence; auto]. cbv zeta in E.
    destruct (s_get_node P same (sr_store r) 0 _ x) as [[st y] w] eqn:Eg. apply ins_get_node in Eg; auto.
    destruct w as [i|e]; match type of E with (?q, _, _) = _ => assert (r' = q) as -> by congruence end; exact Eg.
  Qed.
  Lemma ins_trace b l r : strace P same b l r -> ins (sr_store r).
  Proof.
    induction 1 as [x b x' r Es Ei|b l r k fuel x r' x' nm T IH E|b l r k fuel x r' x' e T IH E|b l r ob o x r' x' T IH E Eo|b l r ob x r' x' e T IH E|b l r T IH|b l r fuel action i x st x' v T IH E];
      eauto using ins_get_action, ins_step.
    - unfold sr_init in Ei. rewrite Es in Ei. cbn [bind] in Ei. destruct (node_for_belief P same [] b) as [st j] eqn:Ef. assert (r = sr_reset st) as -> by (cbn in Ei; congruence).
      cbn. eapply ins_belief; [|exact Ef]. intros n [].
    - cbn. eapply ins_simulate_from; eauto.
  Qed.
  Lemma inn_valued n : inn n -> s_valued Lo Hi n.
  Proof. intros [I1 I2]. split; [|intros a k Ek]; rewrite held_value; apply within_value; eauto. Qed.
End Sh.
