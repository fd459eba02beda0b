(** Proofs for C134. *)
From Verif Require Import PyBase PyBaseFacts QBase PomdpModel BeliefModel PolicyModel PomcpModel PomcpSpec PomcpProofs PomcpProofs2 ValueSpec ValueProofs
  SharedModel SharedSpec SharedProofs ShValueSpec ShValueProofs DomProofs ShDomSpec.
From Coq Require Import Lia Lqa Field.
Local Open Scope list_scope.
Local Open Scope nat_scope.

Section ShDom.
  Context {X St B H : Type}.
  Variable P : search X St B H.
  Variable same : B -> B -> bool.
  Hypothesis same_refl : forall b, same b b = true.
  Variables Lo Hi lo hi : Q.
  Hypothesis alpha_ok : (0 <= s_alpha P <= 1)%Q.
  Hypothesis gamma_ok : (0 <= s_discount P)%Q.
  Hypothesis rew : rewards_in P lo hi.
  Hypothesis zero_ok : (Lo <= 0 <= Hi)%Q.
  Hypothesis low_ok : (Lo <= lo + s_discount P * Lo)%Q.
  Hypothesis high_ok : (hi + s_discount P * Hi <= Hi)%Q.
  Variable b0 : B.
  Notation T0 := (fun b : B => exists h, filters P b0 h b).
  Notation ok := (store_ok P same T0).
  Notation g := (s_discount P).
  Lemma any_true : forall b a o c, T0 b -> may_follow P b a o c -> T0 c.
  Proof. intros b a o c [h F] M. exists (h ++ [(a, o)]). apply (filters_snoc P h b0 b a o c F M). Qed.

  Lemma mul_mono a b c : (0 <= a)%Q -> (b <= c)%Q -> (a * b <= a * c)%Q.
  Proof. intros Ha Hb. rewrite (Qmult_comm a b), (Qmult_comm a c). apply Qmult_le_compat_r; auto. Qed.
  Definition dom (n : snode B) : Prop := forall a k q1 q2, nth_error (sn_kids n) a = Some (Some k) -> pays_at P same b0 (sn_belief n) a q1 q2 -> within (q1 + g * Lo) (q2 + g * Hi) (k_avg k).
  Definition doms (st : store B) : Prop := forall n, In n st -> dom n.

  Lemma doms_at st i n : doms st -> nth_error st i = Some n -> dom n.
  Proof. intros D E. apply D. eapply nth_error_In; eauto. Qed.
  Lemma doms_modify st i f : doms st -> (forall n, nth_error st i = Some n -> dom n -> dom (f n)) -> doms (modify st i f).
  Proof.
    intros I Hf n Hn. apply In_nth_error in Hn as [j Ej]. rewrite modify_nth in Ej. destruct (Nat.eqb j i) eqn:Eji; [apply Nat.eqb_eq in Eji; rewrite Eji in Ej|].
    - destruct (nth_error st i) as [m|] eqn:Em; [|discriminate]. cbn in Ej. assert (n = f m) as -> by congruence. apply Hf; [auto|]. eapply doms_at; eauto.
    - eapply doms_at; eauto.
  Qed.
  Lemma dom_new b : dom (sn_new P b).
  Proof. intros a k q1 q2 E. cbn in E. apply nth_error_In, repeat_spec in E. discriminate. Qed.
  Lemma dom_safe a n : dom n -> dom (sn_safe a n).
  Proof.
    intros D a' k q1 q2 E. cbn in E |- *. destruct (nth_error (sn_kids n) a) as [[k'|]|] eqn:Ea; [intros; eapply D; eauto| |intros; eapply D; eauto].
    destruct (Nat.eq_dec a' a) as [->|Hne].
    - rewrite set_nth_same in E by (apply nth_error_Some; congruence). assert (k = k_new) as -> by congruence. intros _. apply within_new.
    - rewrite set_nth_other in E by auto. intros; eapply D; eauto.
  Qed.
  Lemma dom_put a o j n : dom n -> dom (sn_kid a (k_put o j) n).
  Proof.
    intros D a' k q1 q2 E. cbn in E |- *. destruct (nth_error (sn_kids n) a) as [[k'|]|] eqn:Ea; [|intros; eapply D; eauto|intros; eapply D; eauto].
    destruct (Nat.eq_dec a' a) as [->|Hne].
    - rewrite set_nth_same in E by (apply nth_error_Some; congruence). assert (k = k_put o j k') as -> by congruence. intros Hp. exact (D a k' q1 q2 Ea Hp).
    - rewrite set_nth_other in E by auto. intros; eapply D; eauto.
  Qed.
  Lemma dom_back a v n : (forall q1 q2, pays_at P same b0 (sn_belief n) a q1 q2 -> (q1 + g * Lo <= v <= q2 + g * Hi)%Q) -> dom n -> dom (sn_kid a (k_update P v) n).
  Proof.
    intros V D a' k q1 q2 E. cbn in E |- *. destruct (nth_error (sn_kids n) a) as [[k'|]|] eqn:Ea; [|intros; eapply D; eauto|intros; eapply D; eauto].
    destruct (Nat.eq_dec a' a) as [->|Hne].
    - rewrite set_nth_same in E by (apply nth_error_Some; congruence). assert (k = k_update P v k') as -> by congruence. intros Hp. apply within_update; auto. exact (D a k' q1 q2 Ea Hp).
    - rewrite set_nth_other in E by auto. intros; eapply D; eauto.
  Qed.
  Lemma dom_update v n : dom n -> dom (sn_update P v n).
  Proof. intros D. exact D. Qed.
  Lemma doms_belief st b st' j : doms st -> node_for_belief P same st b = (st', j) -> doms st'.
  Proof.
    unfold node_for_belief. destruct (index_of same st b) as [i|]; intros I E; [assert (st' = st) as -> by congruence; auto|].
    assert (st' = st ++ [sn_new P b]) as -> by congruence. intros n Hn. apply in_app_or in Hn as [Hn|[<-|[]]]; [auto|apply dom_new].
  Qed.
  Lemma doms_rollout fuel st j h x st' x' v : doms st -> s_rollout P fuel st j h x = (st', x', v) -> doms st'.
  Proof.
    intros D E. unfold s_rollout in E. destruct (s_reached P h); [assert (st' = st) as -> by congruence; auto|]. destruct (nth_error st j) as [n|]; [|assert (st' = st) as -> by congruence; auto].
    destruct (rollouts P (s_rollouts P) fuel (sn_belief n) h 0 x) as [[r|e] y]; [|assert (st' = st) as -> by congruence; auto].
    destruct (Nat.eqb (s_rollouts P) 0); [assert (st' = st) as -> by congruence; auto|]. cbv zeta in E.
    match type of E with (?q, _, _) = _ => assert (st' = q) as -> by congruence end. apply doms_modify; auto.
  Qed.

  Lemma doms_simulate : forall fuel st i s h action x st' x' v, ok st -> ins Lo Hi st -> doms st -> (forall n, nth_error st i = Some n -> may_be_at P same b0 (sn_belief n) s) ->
    s_simulate P same fuel st i s h action x = (st', x', v) -> doms st'.
  Proof.
    induction fuel as [|fuel IH]; intros st i s h action x st' x' v S0 I0 D0 Hs E; cbn [s_simulate] in E;
      (destruct (nth_error st i) as [n|] eqn:En; [|assert (st' = st) as -> by congruence; auto]); specialize (Hs n eq_refl);
      (destruct (s_reached P h); [assert (st' = st) as -> by congruence; auto|]).
    - assert (st' = st) as -> by congruence; auto.
    - destruct (match action with Some a => (Ok a, x) | None => best_action P (as_tree n) (s_exploration P) (s_relative P) x end) as [ra y].
      destruct ra as [a|e]; cbn [bind] in E; [|assert (st' = st) as -> by congruence; auto].
      destruct (sn_child n a) as [k|e] eqn:Ek; cbn [bind] in E; [|assert (st' = st) as -> by congruence; auto].
      assert (R1 : ok (modify st i (sn_safe a)) /\ extends st (modify st i (sn_safe a))).
      { apply modify_ok; auto. intros m _ Hm. apply safe_ok; auto. }
      assert (I1 : ins Lo Hi (modify st i (sn_safe a))) by (apply ins_modify; auto using inn_safe).
      assert (D1 : doms (modify st i (sn_safe a))) by (apply doms_modify; auto using dom_safe).
      destruct (safe_child_after st i n a k En Ek) as (n1 & En1 & Eb1 & Ek1).
      set (st1 := modify st i (sn_safe a)) in *. destruct R1 as [S1 X1].
      destruct (s_transition P a s y) as [[[[s' o] r]|e] z] eqn:Et; [|assert (st' = st1) as -> by congruence; auto]. cbv zeta in E.
      set (h' := s_decrement P h a s s' o) in *.
      match type of E with match ?t with _ => _ end = _ => assert (R2 : forall st2 x2 v2, t = (st2, x2, v2) -> doms st2 /\ extends st1 st2 /\ forall u, v2 = Ok u -> (Lo <= u <= Hi)%Q) end.
      { intros st2 x2 v2. destruct (lookup o (k_obs k)) as [j|] eqn:El.
        - intros E2. split; [|split; [apply (s_simulate_ok P same same_refl T0 any_true _ _ _ _ _ _ _ _ _ _ S1 E2)|apply (ins_simulate P same Lo Hi lo hi alpha_ok gamma_ok rew zero_ok low_ok high_ok _ _ _ _ _ _ _ _ _ _ I1 E2)]].
          eapply IH; [exact S1|exact I1|exact D1| |exact E2]. intros m Em.
          destruct (proj2 (proj2 (proj1 S1 n1 (nth_error_In _ _ En1))) a k o j Ek1 El) as (c & mb & Emb & (y1 & y2 & Ec) & Sm & _).
          assert (mb = sn_belief m) as -> by (rewrite (map_nth_error sn_belief _ _ Em) in Emb; congruence). rewrite Eb1 in Ec. destruct (proj2 (proj2 S1) (sn_belief m)) as [hm Fm]; [apply in_map; eapply nth_error_In; eauto|]. eapply ma_moved; eauto.
        - destruct (s_succ P (sn_belief n) a o z) as [rb z1] eqn:Es. destruct rb as [b|e].
          + destruct (node_for_belief P same st1 b) as [st3 j] eqn:Ef.
            destruct (put_modify_ok P same same_refl T0 any_true st1 i n1 a k o b st3 j S1 En1 Ek1 El) as [S3 X3]; [rewrite Eb1; exists z, z1; auto|auto|].
            assert (I3 : ins Lo Hi (modify st3 i (sn_kid a (k_put o j)))) by (apply ins_modify; [eapply ins_belief; eauto|auto using inn_put]).
            assert (D3 : doms (modify st3 i (sn_kid a (k_put o j)))) by (apply doms_modify; [eapply doms_belief; eauto|auto using dom_put]).
            destruct (s_rollout P fuel (modify st3 i (sn_kid a (k_put o j))) j h' z1) as [[st4 x4] v4] eqn:Er.
            intros E2. assert (st2 = st4) as -> by congruence. destruct (s_rollout_ok P same T0 _ _ _ _ _ _ _ _ S3 Er) as [S4 X4].
            split; [eapply doms_rollout; eauto|]. split; [eapply extends_trans; eauto|]. destruct (ins_rollout P Lo Hi lo hi alpha_ok gamma_ok rew zero_ok low_ok high_ok _ _ _ _ _ _ _ _ I3 Er) as [_ V4].
            intros u Eu. destruct v4 as [u'|e]; [apply V4; congruence|]. destruct e; congruence.
          + intros E2. assert (st2 = st1) as -> by (destruct e; congruence). split; [auto|]. split; [apply extends_refl|]. intros u Eu. destruct e; try congruence; assert (u = 0%Q) as -> by congruence; auto. }
      match type of E with match ?t with _ => _ end = _ => destruct t as [[st2 x2] v2] end.
      destruct (R2 st2 x2 v2 eq_refl) as (D2 & X2 & U2). destruct v2 as [u|e]; [|assert (st' = st2) as -> by congruence; auto]. specialize (U2 u eq_refl).
      match type of E with (?q, _, _) = _ => assert (st' = q) as -> by congruence end. apply doms_modify; [|auto using dom_update]. apply doms_modify; [auto|].
      intros m Em. apply dom_back. intros q1 q2 Hp.
      destruct X2 as [_ X2]. destruct (X2 i n1 En1) as (n2 & En2 & Bn2 & _). assert (m = n2) as -> by congruence. rewrite Bn2, Eb1 in Hp. pose proof (Hp _ _ _ _ _ _ Hs Et) as Hr.
      assert (A1 : (g * Lo <= g * u)%Q) by (apply mul_mono; lra). assert (A2 : (g * u <= g * Hi)%Q) by (apply mul_mono; lra). lra.
  Qed.
  Definition fine (st : store B) : Prop := ok st /\ ins Lo Hi st /\ doms st.
  Lemma fine_simulate_from fuel action st i x st' x' v : fine st -> s_simulate_from P same fuel action st i x = (st', x', v) -> fine st'.
  Proof.
    intros (S0 & I0 & D0) E. split; [eapply (s_simulate_from_ok P same same_refl T0 any_true); eauto|]. split; [eapply (ins_simulate_from P same Lo Hi lo hi); eauto|].
    unfold s_simulate_from in E. destruct (nth_error st i) as [n|] eqn:En; [|assert (st' = st) as -> by congruence; auto].
    destruct (s_sample P (sn_belief n) x) as [[s|e] y] eqn:Es; [|assert (st' = st) as -> by congruence; auto]. eapply doms_simulate; [exact S0|exact I0|exact D0| |exact E].
    intros m Em. assert (m = n) as -> by congruence. destruct (proj2 (proj2 S0) (sn_belief n)) as [hn Fn]; [apply in_map; eapply nth_error_In; eauto|]. eapply ma_drawn; eauto.
  Qed.
  Lemma doms_get_node : forall h st i x st' x' v, doms st -> s_get_node P same st i h x = (st', x', v) -> doms st'.
  Proof.
    induction h as [|[a o] h IH]; intros st i x st' x' v I E; cbn [s_get_node] in E; [assert (st' = st) as -> by congruence; auto|].
    destruct (nth_error st i) as [n|] eqn:En; [|assert (st' = st) as -> by congruence; auto].
    destruct (sn_child n a) as [k|e] eqn:Ek; [|assert (st' = st) as -> by congruence; auto].
    cbv zeta in E. assert (I1 : doms (modify st i (sn_safe a))) by (apply doms_modify; auto using dom_safe). set (st1 := modify st i (sn_safe a)) in *. clearbody st1.
    destruct (lookup o (k_obs k)) as [j|] eqn:El; [eapply IH; [exact I1|exact E]|].
    destruct (s_succ P (sn_belief n) a o x) as [[b|e] y]; [|assert (st' = st1) as -> by congruence; auto].
    destruct (node_for_belief P same st1 b) as [st3 j] eqn:Ef. eapply IH; [|exact E]. apply doms_modify; [eapply doms_belief; eauto|]. auto using dom_put.
  Qed.
  Lemma fine_simulations : forall k fuel r x r' x' v, fine (sr_store r) -> s_simulations P same k fuel r x = (r', x', v) -> fine (sr_store r').
  Proof.
    induction k as [|k IH]; intros fuel r x r' x' v I E; cbn [s_simulations] in E; [assert (r' = r) as -> by congruence; auto|].
    destruct (s_simulate_from P same fuel None (sr_store r) (sr_node r) x) as [[st y] w] eqn:Es. apply fine_simulate_from in Es; auto.
    cbv zeta in E. destruct w as [w|e]; [eapply IH; [|exact E]; exact Es|]. match type of E with (?q, _, _) = _ => assert (r' = q) as -> by congruence end. exact Es.
  Qed.
  Lemma fine_get_action k fuel r x r' x' v : fine (sr_store r) -> s_get_action P same k fuel r x = (r', x', v) -> fine (sr_store r').
  Proof.
    intros I E. unfold s_get_action in E. destruct (s_simulations P same k fuel r x) as [[r1 y] w] eqn:Es. apply fine_simulations in Es; auto.
    destruct w as [w|e]; [|assert (r' = r1) as -> by congruence; auto].
    destruct (nth_error (sr_store r1) (sr_node r1)) as [n|]; [|assert (r' = r1) as -> by congruence; auto].
    destruct (best_action P (as_tree n) 0 false y) as [[a|e] z]; [|assert (r' = r1) as -> by congruence; auto].
    match type of E with (?q, _, _) = _ => assert (r' = q) as -> by congruence end. exact Es.
  Qed.
  Lemma fine_step ob r x r' x' v : fine (sr_store r) -> s_step P same ob r x = (r', x', v) -> fine (sr_store r').
  Proof.
    intros I E. unfold s_step in E. destruct (sr_last r) as [a|]; [|assert (r' = r) as -> by congruence; auto].
    destruct (list_index (s_observations P) ob) as [o|e]; [|assert (r' = r) as -> by congruence; auto]. cbv zeta in E.
    destruct (s_get_node P same (sr_store r) 0 _ x) as [[st y] w] eqn:Eg. destruct I as (S0 & I0 & D0).
    assert (F : fine st). { split; [eapply (s_get_node_ok P same same_refl T0 any_true); eauto|]. split; [eapply (ins_get_node P same Lo Hi); eauto|eapply doms_get_node; eauto]. }
    destruct w as [i|e]; match type of E with (?q, _, _) = _ => assert (r' = q) as -> by congruence end; exact F.
  Qed.
  Lemma fine_trace l r : strace P same b0 l r -> fine (sr_store r).
  Proof.
    intros TT. remember b0 as b eqn:Eb. revert Eb. induction TT as [x b x' r Es Ei|b l r k fuel x r' x' nm T IH E|b l r k fuel x r' x' e T IH E|b l r ob o x r' x' T IH E Eo|b l r ob x r' x' e T IH E|b l r T IH|b l r fuel action i x st x' v T IH E];
      intros Eb; try specialize (IH Eb); eauto using fine_get_action, fine_step.
    - pose proof (st_init P same x b x' r Es Ei) as T. destruct (strace_ok P same same_refl T0 any_true b [] r T ltac:(exists []; rewrite Eb; constructor)) as (S0 & _).
      split; [exact S0|]. split; [eapply (ins_trace P same Lo Hi lo hi); eauto|].
      unfold sr_init in Ei. rewrite Es in Ei. cbn [bind] in Ei. destruct (node_for_belief P same [] b) as [st j] eqn:Ef. assert (r = sr_reset st) as -> by (cbn in Ei; congruence).
      cbn. eapply doms_belief; [|exact Ef]. intros n [].
    - cbn. eapply fine_simulate_from; eauto.
  Qed.
End ShDom.
