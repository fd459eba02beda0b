(** Proofs for C131. *)
From Verif Require Import PyBase PyBaseFacts QBase PomdpModel BeliefModel PolicyModel PomcpModel PomcpSpec PomcpProofs PomcpProofs2 ValueSpec ValueProofs DomSpec.
From Coq Require Import Lia Lqa Field.
Local Open Scope list_scope.
Local Open Scope nat_scope.

Lemma within_value_pos lo hi v : 0 < n_simulations v -> within lo hi v -> (lo <= avg_value v <= hi)%Q.
Proof.
  intros Hz [I1 I2]. unfold avg_value. destruct (Nat.eqb_spec (n_simulations v) 0) as [E|E]; [lia|]. pose proof (nat_Q_pos (n_simulations v) ltac:(lia)) as HQ.
  split; [apply Qle_shift_div_l|apply Qle_shift_div_r]; auto.
Qed.

Section Dominance.
  Context {X St B H : Type}.
  Variable P : search X St B H.
  Variables Lo Hi : nat -> Q.
  Variable lev : H -> nat -> Prop.
  Variables lo hi : Q.
  Hypothesis alpha_ok : (0 <= s_alpha P <= 1)%Q.
  Hypothesis gamma_ok : (0 <= s_discount P)%Q.
  Hypothesis rew : rewards_in P lo hi.
  Hypothesis zero_ok : forall k, (Lo k <= 0 <= Hi k)%Q.
  Hypothesis step_ok : forall h k, s_reached P h = false -> lev h k -> (Lo k <= lo + s_discount P * Lo (k - 1) /\ hi + s_discount P * Hi (k - 1) <= Hi k)%Q.
  Hypothesis lev_dec : forall h k a s s' o, s_reached P h = false -> lev h k -> lev (s_decrement P h a s s' o) (k - 1).
  Hypothesis lev_copy : forall h k, lev h k -> lev (s_copy P h) k.
  (** the belief of the root *)
  Variable b0 : B.
  (** the rewards of actions by history *)
  Variables rl rh : list (nat * nat) -> nat -> Q.
  Hypothesis pay : forall t a, pays P b0 t a (rl t a) (rh t a).

  Lemma filters_snoc h : forall b b1 a o b2, filters P b h b1 -> may_follow P b1 a o b2 -> filters P b (h ++ [(a, o)]) b2.
  Proof. induction h as [|[a' o'] h IH]; intros b b1 a o b2 F M; inversion F; subst; cbn; [econstructor; [eauto|constructor]|econstructor; eauto]. Qed.

  Definition worth (k : nat) (t : list (nat * nat)) (a : nat) (v : vavg) : Prop := within (rl t a + s_discount P * Lo (k - 1)) (rh t a + s_discount P * Hi (k - 1)) v.
  Definition at_here (k : nat) (t : list (nat * nat)) (n : onode B) : Prop :=
    filters P b0 t (o_belief n) /\ forall a c, nth_error (o_kids n) a = Some (Some c) -> worth k t a (a_avg c).
  Definition okx (k : nat) (t : list (nat * nat)) (n : onode B) : Prop := forall q m, find n q = Some m -> at_here (k - length q) (t ++ q) m.
  Lemma okx_here k t n : okx k t n -> at_here k t n.
  Proof. intros O. specialize (O [] n eq_refl). cbn [length] in O. rewrite Nat.sub_0_r, app_nil_r in O. auto. Qed.
  Lemma okx_new k t b : filters P b0 t b -> okx k t (o_new P b).
  Proof.
    intros F q m E. destruct q as [|[a o] q].
    - cbn in E. assert (m = o_new P b) as -> by congruence. rewrite app_nil_r. split; [exact F|]. intros a c Ek. destruct (no_kid P _ _ _ Ek).
    - cbn [find] in E. destruct (nth_error (o_kids (o_new P b)) a) as [[c|]|] eqn:Ek; try discriminate. destruct (no_kid P _ _ _ Ek).
  Qed.
  Lemma okx_update k t n v : okx k t n -> okx k t (o_update P n v).
  Proof.
    intros O q m F. destruct q as [|x q]; [|rewrite find_update in F by discriminate; apply O; auto].
    cbn in F. assert (m = o_update P n v) as -> by congruence. cbn [length]. rewrite Nat.sub_0_r, app_nil_r. exact (okx_here _ _ _ O).
  Qed.
  Definition okxc (k : nat) (t : list (nat * nat)) (a : nat) (c : anode B) : Prop := worth k t a (a_avg c) /\ forall o m, lookup o (a_kids c) = Some m -> okx (k - 1) (t ++ [(a, o)]) m.
  Lemma worth_new k t a : worth k t a avg_new. Proof. apply within_new. Qed.
  Lemma okxc_child k t n a c : okx k t n -> safe_child n a = Ok c -> okxc k t a c.
  Proof.
    intros O. unfold safe_child. destruct (nth_error (o_kids n) a) as [[d|]|] eqn:E; intros Ec; [| |discriminate].
    - assert (c = d) as -> by congruence. split; [apply (okx_here _ _ _ O); auto|]. intros o m L q z F. specialize (O ((a, o) :: q) z). cbn [find length] in O. rewrite E, L in O. specialize (O F).
      rewrite <- app_assoc. cbn [app]. replace (k - 1 - length q) with (k - S (length q)) by lia. auto.
    - assert (c = a_new) as -> by congruence. split; [apply worth_new|]. intros o m L. discriminate.
  Qed.
  Lemma okxc_put k t a c o m : okxc k t a c -> okx (k - 1) (t ++ [(a, o)]) m -> okxc k t a (put c o m).
  Proof.
    intros [C1 C2] O. split; [exact C1|]. intros o' m' L. cbn [put a_kids] in L. destruct (Nat.eq_dec o' o) as [->|Ho]; [rewrite lookup_upd_same in L; assert (m' = m) as -> by congruence; exact O|]. rewrite lookup_upd_other in L by auto. eauto.
  Qed.
  Lemma okx_set k t n a c : okx k t n -> a < length (o_kids n) -> okxc k t a c -> okx k t (set_kid n a c).
  Proof.
    intros O Ha [C1 C2] q m F. destruct q as [|[a' o'] q].
    - cbn [find] in F. assert (m = set_kid n a c) as -> by congruence. cbn [length]. rewrite Nat.sub_0_r, app_nil_r. destruct (okx_here _ _ _ O) as [O1 O2]. split; [exact O1|]. intros a' c' E.
      destruct (Nat.eq_dec a' a) as [->|Hne]; [|rewrite kid_set_other in E by auto; eauto]. rewrite kid_set_same in E by auto. congruence.
    - destruct (Nat.eq_dec a' a) as [->|Hne].
      + cbn [find] in F. rewrite kid_set_same in F by auto. destruct (lookup o' (a_kids c)) as [z|] eqn:L; [|discriminate]. specialize (C2 _ _ L _ _ F). rewrite <- app_assoc in C2. cbn [app] in C2. cbn [length]. replace (k - S (length q)) with (k - 1 - length q) by lia. auto.
      + cbn [find] in F. rewrite kid_set_other in F by auto. apply (O ((a', o') :: q)). exact F.
  Qed.
  Lemma worth_step k t a s x s' o r x' u : may_be P b0 t s -> s_transition P a s x = (Ok (s', o, r), x') -> (Lo (k - 1) <= u <= Hi (k - 1))%Q ->
    (rl t a + s_discount P * Lo (k - 1) <= r + s_discount P * u <= rh t a + s_discount P * Hi (k - 1))%Q.
  Proof.
    intros M E [U1 U2]. destruct (pay t a _ _ _ _ _ _ M E) as [R1 R2].
    assert (K1 : (0 <= s_discount P * (u - Lo (k - 1)))%Q) by (apply Qmult_le_0_compat; lra).
    assert (K2 : (0 <= s_discount P * (Hi (k - 1) - u))%Q) by (apply Qmult_le_0_compat; lra). lra.
  Qed.

  Lemma simulate_worth : forall fuel n s h action x n' x' v k t, simulate P fuel n s h action x = (n', x', v) -> lev h k -> okn Lo Hi k n -> okx k t n -> may_be P b0 t s -> okx k t n'.
  Proof.
    induction fuel as [|fuel IH]; intros n s h action x n' x' v k t E Hl O Ox M; cbn [simulate] in E; (destruct (s_reached P h) eqn:Hr; [assert (n' = n) as -> by congruence; auto|]).
    - assert (n' = n) as -> by congruence. auto.
    - destruct (match action with Some a => _ | None => _ end) as [a y]. destruct a as [a|e]; cbn [bind] in E; [|assert (n' = n) as -> by congruence; auto].
      destruct (safe_child n a) as [c|e] eqn:Ec; cbn [bind] in E; [|assert (n' = n) as -> by congruence; auto].
      pose proof (safe_child_lt _ _ _ Ec) as Ha. pose proof (okc_child Lo Hi _ _ _ _ O Ec) as Oc. pose proof (okxc_child _ _ _ _ _ Ox Ec) as Oxc.
      destruct (s_transition P a s y) as [[[[s' o] r]|e] y1] eqn:Et; [|assert (n' = set_kid n a c) as -> by congruence; apply okx_set; auto].
      cbn [set_kid o_belief] in E. change (ON (o_avg n) (o_belief n) (set_nth (o_kids n) a (Some c))) with (set_kid n a c) in E.
      pose proof (lev_dec h k a s s' o Hr Hl) as Hl'.
      match type of E with (match ?q with _ => _ end) = _ => destruct q as [[c' y2] w] eqn:Eq end.
      assert (Hc' : okxc k t a c' /\ forall u, w = Ok u -> (Lo (k - 1) <= u <= Hi (k - 1))%Q).
      { destruct (lookup o (a_kids c)) as [m|] eqn:El.
        - destruct (simulate P fuel m s' _ None y1) as [[m' y3] w'] eqn:Em. assert (c' = put c o m' /\ w = w') as [-> ->] by (split; congruence).
          destruct (simulate_bound P Lo Hi lev lo hi alpha_ok gamma_ok rew zero_ok step_ok lev_dec lev_copy _ _ _ _ _ _ _ _ _ _ Em Hl' (proj2 Oc _ _ El)) as [_ V']. split; [|auto]. apply okxc_put; [auto|].
          eapply IH; eauto; [eapply Oc; eauto|eapply Oxc; eauto|eapply mb_moved; eauto].
        - destruct (s_succ P (o_belief n) a o y1) as [[b|e] y3] eqn:Es.
          + assert (FB : filters P b0 (t ++ [(a, o)]) b). { apply filters_snoc with (o_belief n); [apply (okx_here _ _ _ Ox)|exists y1, y3; exact Es]. }
            destruct (rollout_from_node P fuel (o_new P b) _ y3) as [[m' y4] w'] eqn:Er.
            assert (Om : okx (k - 1) (t ++ [(a, o)]) m' /\ forall u, w' = Ok u -> (Lo (k - 1) <= u <= Hi (k - 1))%Q).
            { destruct w' as [u|e].
              - pose proof (leaf_bound P Lo Hi lev lo hi gamma_ok rew zero_ok step_ok lev_dec lev_copy _ _ _ _ _ _ _ _ Er Hl') as Hu. split; [|intros ? ?; congruence]. destruct (rollout_node_gen P _ _ _ _ _ _ _ Er) as [(_ & _ & -> & _)|(_ & -> & _)]; [apply okx_new; auto|apply okx_update; apply okx_new; auto].
              - split; [|discriminate]. unfold rollout_from_node in Er. destruct (s_reached P (s_decrement P h a s s' o)); [inversion Er|]. destruct (rollouts _ _ _ _ _ _ _) as [[q|e'] z].
                + destruct (Nat.eqb _ 0); [|inversion Er]. assert (m' = o_new P b) as -> by congruence. apply okx_new; auto.
                + assert (m' = o_new P b) as -> by congruence. apply okx_new; auto. }
            destruct Om as [Om Vm]. assert (c' = put c o m') as -> by congruence. split; [apply okxc_put; auto|]. intros u Eu. destruct w' as [u'|e]; [apply Vm; congruence|].
            assert (Ez : (match e with EMaxSamples => Ok 0%Q | e => Err e end) = w) by (destruct e; congruence). rewrite Eu in Ez. destruct e; try discriminate. assert (u = 0%Q) as -> by congruence. apply zero_ok.
          + assert (c' = c) as -> by (destruct e; congruence). split; [auto|]. intros u Eu. destruct e; try congruence. assert (u = 0%Q) as -> by congruence. apply zero_ok. }
      destruct Hc' as [Oc' Vc]. destruct w as [u|e].
      + cbv zeta in E. rewrite set_kid_set_kid in E. set (full := (r + s_discount P * u)%Q) in *. assert (n' = o_update P (set_kid n a (a_update P c' full)) full) as -> by congruence.
        apply okx_update. apply okx_set; [auto|auto|]. split; [|apply Oc']. unfold worth. cbn [a_update a_avg]. apply within_update; [auto|apply Oc'|]. eapply worth_step; eauto.
      + rewrite set_kid_set_kid in E. assert (n' = set_kid n a c') as -> by congruence. apply okx_set; auto.
  Qed.
  Definition good (k : nat) (t : list (nat * nat)) (n : onode B) : Prop := okn Lo Hi k n /\ okx k t n.
  Lemma simulate_from_worth fuel action n x n' x' v k t : simulate_from_node P fuel action n x = (n', x', v) -> lev (s_horizon P) k -> good k t n -> good k t n'.
  Proof.
    intros E Hl [O Ox]. split; [eapply simulate_from_bound; eauto|]. unfold simulate_from_node in E. destruct (s_sample P (o_belief n) x) as [[s|e] y] eqn:Es; [|assert (n' = n) as -> by congruence; auto].
    eapply simulate_worth; eauto. eapply mb_drawn; [apply (okx_here _ _ _ Ox)|exact Es].
  Qed.
  Lemma get_node_worth : forall h n x n' x' v k t, get_node P n h x = (n', x', v) -> okx k t n -> okx k t n'.
  Proof.
    induction h as [|[a o] h IH]; intros n x n' x' v k t E O; cbn [get_node] in E; [assert (n' = n) as -> by congruence; auto|].
    destruct (safe_child n a) as [c|e] eqn:Ec; [|assert (n' = n) as -> by congruence; auto]. pose proof (safe_child_lt _ _ _ Ec) as Ha. pose proof (okxc_child _ _ _ _ _ O Ec) as Oc.
    destruct (lookup o (a_kids c)) as [m|] eqn:El.
    - destruct (get_node P m h x) as [[m' y] w] eqn:Em. assert (n' = set_kid n a (put c o m')) as -> by congruence. apply okx_set; [auto|auto|]. apply okxc_put; [auto|]. eapply IH; eauto. eapply Oc; eauto.
    - destruct (s_succ P (o_belief n) a o x) as [[b|e] y] eqn:Es; [|assert (n' = set_kid n a c) as -> by congruence; apply okx_set; auto].
      destruct (get_node P (o_new P b) h y) as [[m' y'] w] eqn:Em. assert (n' = set_kid n a (put c o m')) as -> by congruence. apply okx_set; [auto|auto|]. apply okxc_put; [auto|]. eapply IH; eauto. apply okx_new.
      apply filters_snoc with (o_belief n); [apply (okx_here _ _ _ O)|exists x, y; exact Es].
  Qed.
  Lemma good_kid k t n a c o m : good k t n -> safe_child n a = Ok c -> lookup o (a_kids c) = Some m -> good (k - 1) (t ++ [(a, o)]) m.
  Proof. intros [O Ox] Ec El. split; [eapply (proj2 (okc_child Lo Hi _ _ _ _ O Ec)); eauto|eapply (proj2 (okxc_child _ _ _ _ _ Ox Ec)); eauto]. Qed.
  Lemma at_node_worth {A} (f : onode B -> X -> onode B * X * res A) : forall h n x n' x' v k t, (forall m y m' y' w, f m y = (m', y', w) -> good (k - length h) (t ++ h) m -> good (k - length h) (t ++ h) m') ->
    at_node f n h x = (n', x', v) -> good k t n -> good k t n'.
  Proof.
    induction h as [|[a o] h IH]; intros n x n' x' v k t Hf E O; cbn [at_node] in E.
    - cbn [length] in Hf. rewrite Nat.sub_0_r, app_nil_r in Hf. eapply Hf; eauto.
    - destruct (nth_error (o_kids n) a) as [[c|]|] eqn:Ek; [|assert (n' = n) as -> by congruence; auto|assert (n' = n) as -> by congruence; auto]. destruct (lookup o (a_kids c)) as [m|] eqn:El; [|assert (n' = n) as -> by congruence; auto].
      destruct (at_node f m h x) as [[m' y] w] eqn:Em. assert (n' = set_kid n a (put c o m')) as -> by congruence.
      assert (Ec : safe_child n a = Ok c) by (unfold safe_child; rewrite Ek; reflexivity). pose proof (safe_child_lt _ _ _ Ec) as Ha. pose proof (good_kid _ _ _ _ _ _ _ O Ec El) as Gm.
      assert (Gm' : good (k - 1) (t ++ [(a, o)]) m').
      { eapply (IH _ _ _ _ _ (k - 1) (t ++ [(a, o)])); [|exact Em|exact Gm]. cbn [length] in Hf. replace (k - 1 - length h) with (k - S (length h)) by lia. rewrite <- app_assoc. exact Hf. }
      destruct O as [O Ox]. split; [apply okn_set; [auto|auto|apply okc_put; [eapply okc_child; eauto|apply Gm']]|apply okx_set; [auto|auto|apply okxc_put; [eapply okxc_child; eauto|apply Gm']]].
  Qed.
  Lemma simulations_worth : forall j fuel r x r' x' e k, simulations P j fuel r x = (r', x', e) -> lev (s_horizon P) (k - length (r_node r)) -> good k [] (r_root r) -> good k [] (r_root r') /\ r_node r' = r_node r.
  Proof.
    induction j as [|j IH]; intros fuel r x r' x' e k E Hl O; cbn [simulations] in E; [assert (r' = r) as -> by congruence; auto|].
    destruct (at_node _ (r_root r) (r_node r) x) as [[root y] v] eqn:Ea.
    assert (O1 : good k [] root) by (eapply at_node_worth; [|exact Ea|exact O]; intros m z m' z' w Em; apply (simulate_from_worth _ _ _ _ _ _ _ _ _ Em Hl)).
    destruct v as [v|e']; [|assert (r' = {| r_root := root; r_history := r_history r; r_node := r_node r; r_last := r_last r |}) as -> by congruence; auto].
    apply IH with (k := k) in E; auto.
  Qed.
  Lemma get_action_worth j fuel r x r' x' v k : get_action P j fuel r x = (r', x', v) -> lev (s_horizon P) (k - length (r_node r)) -> good k [] (r_root r) -> good k [] (r_root r') /\ r_node r' = r_node r.
  Proof.
    unfold get_action. destruct (simulations P j fuel r x) as [[r1 x1] e1] eqn:Es. intros E Hl O. destruct (simulations_worth _ _ _ _ _ _ _ _ Es Hl O) as [O1 N1].
    destruct e1 as [u|e]; [|assert (r' = r1) as -> by congruence; auto].
    destruct (at_node _ (r_root r1) (r_node r1) x1) as [[root y] a] eqn:Ea.
    assert (O2 : good k [] root). { eapply at_node_worth; [|exact Ea|exact O1]. intros m z m' z' w Em G. cbv beta in Em. destruct (best_action P m 0 false z) as [q z1]. assert (m' = m) as -> by congruence. auto. }
    destruct a as [a|e]; [|assert (r' = r1) as -> by congruence; auto]. match type of E with (?z, _, _) = _ => assert (r' = z) as -> by congruence end. auto.
  Qed.
  Lemma step_worth ob r x r' x' v k : r_step P ob r x = (r', x', v) -> good k [] (r_root r) -> good k [] (r_root r').
  Proof.
    intros E [O Ox]. split; [eapply step_bound_; eauto|]. unfold r_step in E. destruct (r_last r) as [a|]; [|assert (r' = r) as -> by congruence; auto]. destruct (list_index _ ob) as [o|e]; [|assert (r' = r) as -> by congruence; auto].
    destruct (get_node P (r_root r) (r_history r ++ [(a, o)]) x) as [[root y] e] eqn:Eg. pose proof (get_node_worth _ _ _ _ _ _ _ _ Eg Ox) as O1.
    destruct e as [u|e]; match type of E with (?z, _, _) = _ => assert (r' = z) as -> by congruence end; auto.
  Qed.
  Lemma trace_worth l r : (forall k, lev (s_horizon P) k) -> trace P b0 l r -> good 0 [] (r_root r).
  Proof.
    intros Hl T. remember b0 as b eqn:Eb. induction T as [x b x' r Hs Hr|b l r j fuel x r' x' nm T I Ea|b l r j fuel x r' x' e T I Ea|b l r ob o x r' x' T I Es Eo|b l r ob x r' x' e T I Es|b l r T I|b l r fuel action path x root x' v T I Ea]; subst b; try specialize (I eq_refl); try specialize (I pay).
    - unfold r_init in Hr. rewrite Hs in Hr. cbn [bind] in Hr. assert (r = r_reset (o_new P b0)) as -> by congruence. split; [apply okn_new|apply okx_new; constructor].
    - eapply get_action_worth; eauto.
    - eapply get_action_worth; eauto.
    - eapply step_worth; eauto.
    - eapply step_worth; eauto.
    - auto.
    - cbn [r_root]. eapply at_node_worth; [|exact Ea|exact I]. intros m z m' z' w Em. apply (simulate_from_worth _ _ _ _ _ _ _ _ _ Em). auto.
  Qed.
  Lemma trace_dive_worth l r k D : (forall d, d <= D -> lev (s_horizon P) (k - d)) -> trace P b0 l r -> ~ In EvExplore l -> deepest l <= D -> good k [] (r_root r).
  Proof.
    intros Hl T. remember b0 as b eqn:Eb.
    assert (AR : forall (l : list event) ev, ~ In EvExplore (l ++ [ev]) -> ~ In EvExplore l) by (intros l0 ev A Hin; apply A; apply in_or_app; auto).
    induction T as [x b x' r Hs Hr|b l r j fuel x r' x' nm T I Ea|b l r j fuel x r' x' e T I Ea|b l r ob o x r' x' T I Es Eo|b l r ob x r' x' e T I Es|b l r T I|b l r fuel action path x root x' v T I Ea]; subst b; try specialize (I eq_refl); try specialize (I pay); intros A HD.
    1:{ unfold r_init in Hr. rewrite Hs in Hr. cbn [bind] in Hr. assert (r = r_reset (o_new P b0)) as -> by congruence. split; [apply okn_new|apply okx_new; constructor]. }
    all: match type of HD with deepest (?k0 ++ [?ev]) <= _ => destruct (dive_step k0 ev) as [D1 D2] end; pose proof (I (AR _ _ A) ltac:(lia)) as O;
      destruct (trace_dive_bound P Lo Hi lev lo hi alpha_ok gamma_ok rew zero_ok step_ok lev_dec lev_copy _ _ _ k D Hl T (AR _ _ A) ltac:(lia)) as (_ & N & HN).
    - eapply get_action_worth; eauto. apply Hl. lia.
    - eapply get_action_worth; eauto. apply Hl. lia.
    - eapply step_worth; eauto.
    - eapply step_worth; eauto.
    - auto.
    - destruct A. apply in_or_app. right. left. reflexivity.
  Qed.
  Lemma good_value k n t m a : good k [] n -> find n t = Some m -> 0 < visits m a ->
    (rl t a + s_discount P * Lo (k - length t - 1) <= action_value m a <= rh t a + s_discount P * Hi (k - length t - 1))%Q.
  Proof.
    intros [_ O] F V. destruct (O _ _ F) as [_ W]. unfold visits, action_value in *. destruct (nth_error (o_kids m) a) as [[c|]|] eqn:E; try lia. apply within_value_pos; [exact V|]. apply (W _ _ E).
  Qed.
End Dominance.
