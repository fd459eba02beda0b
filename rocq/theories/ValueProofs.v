(** Proofs for C111. *)
From Verif Require Import PyBase PyBaseFacts QBase PomdpModel BeliefModel PolicyModel PomcpModel PomcpSpec PomcpProofs PomcpProofs2 ValueSpec.
From Coq Require Import Lia Lqa Field.
Local Open Scope list_scope.
Local Open Scope nat_scope.

Definition within (lo hi : Q) (v : vavg) : Prop :=
  (lo * inject_Z (Z.of_nat (n_simulations v)) <= total_value v <= hi * inject_Z (Z.of_nat (n_simulations v)))%Q.
Lemma within_new lo hi : within lo hi avg_new.
Proof. unfold within. cbn [avg_new n_simulations total_value]. change (inject_Z (Z.of_nat 0)) with 0%Q. split; ring_simplify; apply Qle_refl. Qed.
Lemma within_update alpha lo hi v w : (0 <= alpha <= 1)%Q -> within lo hi v -> (lo <= w <= hi)%Q -> within lo hi (avg_update alpha v w).
Proof.
  intros Ha [I1 I2] [V1 V2]. unfold within. cbn [avg_update n_simulations total_value].
  assert (Hn : (0 <= inject_Z (Z.of_nat (n_simulations v)))%Q) by (change 0%Q with (inject_Z 0); rewrite <- Zle_Qle; lia).
  assert (E : (inject_Z (Z.of_nat (n_simulations v + 1)) == inject_Z (Z.of_nat (n_simulations v)) + 1)%Q) by (rewrite Nat2Z.inj_add, inject_Z_plus; reflexivity).
  replace (S (n_simulations v)) with (n_simulations v + 1) by lia. rewrite E. set (t := total_value v) in *. set (n := inject_Z (Z.of_nat (n_simulations v))) in *. clearbody t n.
  destruct Ha as [A1 A2].
  assert (K1 : (0 <= (1 - alpha) * (t + w - lo * (n + 1)))%Q) by (apply Qmult_le_0_compat; lra).
  assert (K2 : (0 <= (1 - alpha) * (hi * (n + 1) - (t + w)))%Q) by (apply Qmult_le_0_compat; lra).
  assert (K3 : (0 <= alpha * ((n + 1) * (w - lo)))%Q) by (repeat apply Qmult_le_0_compat; lra).
  assert (K4 : (0 <= alpha * ((n + 1) * (hi - w)))%Q) by (repeat apply Qmult_le_0_compat; lra).
  split; lra.
Qed.
Lemma within_value lo hi v : (lo <= 0 <= hi)%Q -> within lo hi v -> (lo <= avg_value v <= hi)%Q.
Proof.
  intros Hz [I1 I2]. unfold avg_value. destruct (Nat.eqb_spec (n_simulations v) 0) as [E|E]; [auto|]. pose proof (nat_Q_pos (n_simulations v) ltac:(lia)) as HQ.
  split; [apply Qle_shift_div_l|apply Qle_shift_div_r]; auto.
Qed.
Lemma mean_within lo hi vs : vs <> [] -> Forall (fun v => lo <= v <= hi)%Q vs -> (lo <= mean vs <= hi)%Q.
Proof.
  intros Hn HF. unfold mean. assert (HL : 0 < length vs) by (destruct vs; [congruence|cbn; lia]). pose proof (nat_Q_pos _ HL) as HQ.
  assert (K : (lo * inject_Z (Z.of_nat (length vs)) <= sumQ vs <= hi * inject_Z (Z.of_nat (length vs)))%Q).
  { clear Hn HL HQ. induction HF as [|v vs Hv HF IH]; [change (sumQ []) with 0%Q; change (inject_Z (Z.of_nat (length (@nil Q)))) with 0%Q; split; ring_simplify; apply Qle_refl|].
    change (sumQ (v :: vs)) with (v + sumQ vs)%Q. cbn [length]. rewrite Nat2Z.inj_succ, <- Z.add_1_r, inject_Z_plus. change (inject_Z 1) with 1%Q. set (n := inject_Z (Z.of_nat (length vs))) in *. clearbody n. split; lra. }
  split; [apply Qle_shift_div_l|apply Qle_shift_div_r]; auto; apply K.
Qed.

(** the tree is the same *)
Ltac same := match goal with O : ?F ?k ?n |- ?F ?k ?n' => assert (n' = n) as -> by congruence; exact O end.

Section Bounds.
  Context {X St B H : Type}.
  Variable P : search X St B H.
  Variables Lo Hi : nat -> Q.
  Variable lev : H -> nat -> Prop.
  Variables lo hi : Q.
  Hypothesis alpha_ok : (0 <= s_alpha P <= 1)%Q.
  Hypothesis gamma_ok : (0 <= s_discount P)%Q.
  Hypothesis rew : rewards_in P lo hi.
  Hypothesis zero_ok : forall k, (Lo k <= 0 <= Hi k)%Q.
  Hypothesis step_ok : forall h k, s_reached P h = false -> lev h k -> (Lo k <= lo + s_discount P * Lo (k - 1) /\ hi + s_discount P * Hi (k - 1) <= Hi k)%Q.
  Hypothesis lev_dec : forall h k a s s' o, s_reached P h = false -> lev h k -> lev (s_decrement P h a s s' o) (k - 1).
  Hypothesis lev_copy : forall h k, lev h k -> lev (s_copy P h) k.

  Lemma step_bound h k r v : s_reached P h = false -> lev h k -> (lo <= r <= hi)%Q -> (Lo (k - 1) <= v <= Hi (k - 1))%Q -> (Lo k <= r + s_discount P * v <= Hi k)%Q.
  Proof.
    intros Hr Hl [R1 R2] [V1 V2]. destruct (step_ok h k Hr Hl) as [S1 S2].
    assert (K1 : (0 <= s_discount P * (v - Lo (k - 1)))%Q) by (apply Qmult_le_0_compat; lra).
    assert (K2 : (0 <= s_discount P * (Hi (k - 1) - v))%Q) by (apply Qmult_le_0_compat; lra). lra.
  Qed.
  Lemma walk_bound s h x rs x' : walk P s h x rs x' -> forall k, lev h k -> (Lo k <= discounted P rs <= Hi k)%Q.
  Proof.
    induction 1 as [s h x Hr|s h x a x1 s' o r x2 rs x3 Hr Hc Ht W IH]; intros k Hl; [cbn; apply zero_ok|].
    cbn [discounted]. eapply step_bound; eauto.
  Qed.
  Lemma walks_bound b h x vs x' : walks P b h x vs x' -> forall k, lev h k -> Forall (fun v => Lo k <= v <= Hi k)%Q vs.
  Proof. induction 1; intros k Hl; constructor; eauto using walk_bound. Qed.
  Lemma leaf_bound fuel m h x m' x' v k : rollout_from_node P fuel m h x = (m', x', Ok v) -> lev h k -> (Lo k <= v <= Hi k)%Q.
  Proof.
    intros E Hl. destruct (rollout_node_gen P _ _ _ _ _ _ _ E) as [(_ & -> & _)|(Hr & _ & vs & W & L & M)]; [apply zero_ok|].
    rewrite M. apply mean_within; [|eapply walks_bound; eauto]. intros ->. unfold rollout_from_node in E. rewrite Hr in E. destruct (rollouts _ _ _ _ _ _ _) as [[w|e] y]; [|discriminate]. cbn in L. rewrite <- L in E. discriminate.
  Qed.

  (** A node of level k *)
  Definition here (k : nat) (n : onode B) : Prop := within (Lo k) (Hi k) (o_avg n) /\ forall a c, nth_error (o_kids n) a = Some (Some c) -> within (Lo k) (Hi k) (a_avg c).
  Definition okn (k : nat) (n : onode B) : Prop := forall p m, find n p = Some m -> here (k - length p) m.
  Lemma okn_here k n : okn k n -> here k n.
  Proof. intros O. specialize (O [] n eq_refl). cbn [length] in O. rewrite Nat.sub_0_r in O. auto. Qed.
  Lemma okn_value k n : okn k n -> (Lo k <= avg_value (o_avg n) <= Hi k)%Q.
  Proof. intros O. apply within_value; [auto|]. apply okn_here. auto. Qed.
  Lemma okn_new k b : okn k (o_new P b).
  Proof.
    intros p m F. destruct p as [|[a o] p].
    - cbn in F. assert (m = o_new P b) as -> by congruence. split; [apply within_new|]. intros a c E. destruct (no_kid P _ _ _ E).
    - cbn [find] in F. destruct (nth_error (o_kids (o_new P b)) a) as [[c|]|] eqn:E; try discriminate. destruct (no_kid P _ _ _ E).
  Qed.
  Lemma okn_update k n v : okn k n -> (Lo k <= v <= Hi k)%Q -> okn k (o_update P n v).
  Proof.
    intros O V p m F. destruct p as [|q p]; [|rewrite find_update in F by discriminate; apply O; auto].
    cbn in F. assert (m = o_update P n v) as -> by congruence. cbn [length]. rewrite Nat.sub_0_r. destruct (okn_here _ _ O) as [O1 O2]. split; [apply within_update; auto|exact O2].
  Qed.
  Lemma okn_deep k n a c o m : okn k n -> nth_error (o_kids n) a = Some (Some c) -> lookup o (a_kids c) = Some m -> okn (k - 1) m.
  Proof.
    intros O E L p z F. specialize (O ((a, o) :: p) z). cbn [find length] in O. rewrite E, L in O. specialize (O F). replace (k - 1 - length p) with (k - S (length p)) by lia. auto.
  Qed.
  (** the action node of an action *)
  Definition okc (k : nat) (c : anode B) : Prop := within (Lo k) (Hi k) (a_avg c) /\ forall o m, lookup o (a_kids c) = Some m -> okn (k - 1) m.
  Lemma okc_child k n a c : okn k n -> safe_child n a = Ok c -> okc k c.
  Proof.
    intros O. unfold safe_child. destruct (nth_error (o_kids n) a) as [[d|]|] eqn:E; intros Ec; [| |discriminate].
    - assert (c = d) as -> by congruence. split; [apply (okn_here _ _ O) with (a := a); auto|]. intros o m L. eapply okn_deep; eauto.
    - assert (c = a_new) as -> by congruence. split; [apply within_new|]. intros o m L. discriminate.
  Qed.
  Lemma okc_put k c o m : okc k c -> okn (k - 1) m -> okc k (put c o m).
  Proof.
    intros [C1 C2] O. split; [exact C1|]. intros o' m' L. cbn [put a_kids] in L. destruct (Nat.eq_dec o' o) as [->|Ho]; [rewrite lookup_upd_same in L; assert (m' = m) as -> by congruence; exact O|]. rewrite lookup_upd_other in L by auto. eauto.
  Qed.
  Lemma okn_set k n a c : okn k n -> a < length (o_kids n) -> okc k c -> okn k (set_kid n a c).
  Proof.
    intros O Ha [C1 C2] p m F. destruct p as [|[a' o'] p].
    - cbn [find] in F. assert (m = set_kid n a c) as -> by congruence. cbn [length]. rewrite Nat.sub_0_r. destruct (okn_here _ _ O) as [O1 O2]. split; [exact O1|]. intros a' c' E.
      destruct (Nat.eq_dec a' a) as [->|Hne]; [|rewrite kid_set_other in E by auto; eauto]. rewrite kid_set_same in E by auto. congruence.
    - destruct (Nat.eq_dec a' a) as [->|Hne].
      + cbn [find] in F. rewrite kid_set_same in F by auto. destruct (lookup o' (a_kids c)) as [z|] eqn:L; [|discriminate]. specialize (C2 _ _ L _ _ F). cbn [length]. replace (k - S (length p)) with (k - 1 - length p) by lia. auto.
      + cbn [find] in F. rewrite kid_set_other in F by auto. apply (O ((a', o') :: p)). exact F.
  Qed.

  Lemma simulate_bound : forall fuel n s h action x n' x' v k, simulate P fuel n s h action x = (n', x', v) -> lev h k -> okn k n ->
    okn k n' /\ forall w, v = Ok w -> (Lo k <= w <= Hi k)%Q.
  Proof.
    induction fuel as [|fuel IH]; intros n s h action x n' x' v k E Hl O; cbn [simulate] in E; (destruct (s_reached P h) eqn:Hr;
      [assert (n' = n /\ v = Ok (avg_value (o_avg n))) as [-> ->] by (split; congruence); split; [auto|]; intros w Ew; assert (w = avg_value (o_avg n)) as -> by congruence; apply okn_value; auto|]).
    - assert (n' = n /\ v = Err EFuel) as [-> ->] by (split; congruence). split; [auto|discriminate].
    - destruct (match action with Some a => _ | None => _ end) as [a y]. destruct a as [a|e]; cbn [bind] in E; [|assert (n' = n /\ v = Err e) as [-> ->] by (split; congruence); split; [auto|discriminate]].
      destruct (safe_child n a) as [c|e] eqn:Ec; cbn [bind] in E; [|assert (n' = n /\ v = Err e) as [-> ->] by (split; congruence); split; [auto|discriminate]].
      pose proof (safe_child_lt _ _ _ Ec) as Ha. pose proof (okc_child _ _ _ _ O Ec) as Oc.
      destruct (s_transition P a s y) as [[[[s' o] r]|e] y1] eqn:Et; [|assert (n' = set_kid n a c /\ v = Err e) as [-> ->] by (split; congruence); split; [apply okn_set; auto|discriminate]].
      cbn [set_kid o_belief] in E. change (ON (o_avg n) (o_belief n) (set_nth (o_kids n) a (Some c))) with (set_kid n a c) in E.
      pose proof (lev_dec h k a s s' o Hr Hl) as Hl'. pose proof (rew _ _ _ _ _ _ _ Et) as Hrew.
      match type of E with (match ?q with _ => _ end) = _ => destruct q as [[c' y2] w] eqn:Eq end.
      assert (Hc' : okc k c' /\ forall u, w = Ok u -> (Lo (k - 1) <= u <= Hi (k - 1))%Q).
      { destruct (lookup o (a_kids c)) as [m|] eqn:El.
        - destruct (simulate P fuel m s' _ None y1) as [[m' y3] w'] eqn:Em. assert (c' = put c o m' /\ w = w') as [-> ->] by (split; congruence).
          destruct (IH _ _ _ _ _ _ _ _ _ Em Hl' (proj2 Oc _ _ El)) as [O' V']. split; [apply okc_put; auto|auto].
        - destruct (s_succ P (o_belief n) a o y1) as [[b|e] y3] eqn:Es.
          + destruct (rollout_from_node P fuel (o_new P b) _ y3) as [[m' y4] w'] eqn:Er.
            assert (Om : okn (k - 1) m' /\ forall u, w' = Ok u -> (Lo (k - 1) <= u <= Hi (k - 1))%Q).
            { destruct w' as [u|e].
              - pose proof (leaf_bound _ _ _ _ _ _ _ _ Er Hl') as Hu. split; [|intros ? ?; congruence]. destruct (rollout_node_gen P _ _ _ _ _ _ _ Er) as [(_ & _ & -> & _)|(_ & -> & _)]; [apply okn_new|apply okn_update; [apply okn_new|auto]].
              - split; [|discriminate]. unfold rollout_from_node in Er. destruct (s_reached P (s_decrement P h a s s' o)); [inversion Er|]. destruct (rollouts _ _ _ _ _ _ _) as [[q|e'] z].
                + destruct (Nat.eqb _ 0); [|inversion Er]. assert (m' = o_new P b) as -> by congruence. apply okn_new.
                + assert (m' = o_new P b) as -> by congruence. apply okn_new. }
            destruct Om as [Om Vm]. assert (c' = put c o m') as -> by congruence. split; [apply okc_put; auto|]. intros u Eu. destruct w' as [u'|e]; [apply Vm; congruence|].
            assert (Ez : (match e with EMaxSamples => Ok 0%Q | e => Err e end) = w) by (destruct e; congruence). rewrite Eu in Ez. destruct e; try discriminate. assert (u = 0%Q) as -> by congruence. apply zero_ok.
          + assert (c' = c) as -> by (destruct e; congruence). split; [auto|]. intros u Eu. destruct e; try congruence. assert (u = 0%Q) as -> by congruence. apply zero_ok. }
      destruct Hc' as [Oc' Vc]. destruct w as [u|e].
      + cbv zeta in E. rewrite set_kid_set_kid in E. set (full := (r + s_discount P * u)%Q) in *. assert (n' = o_update P (set_kid n a (a_update P c' full)) full /\ v = Ok full) as [-> ->] by (split; congruence).
        assert (F : (Lo k <= full <= Hi k)%Q) by (eapply step_bound; eauto). split; [|intros w Ew; assert (w = full) as -> by congruence; auto].
        apply okn_update; [|auto]. apply okn_set; [auto|auto|]. split; [apply within_update; auto; apply Oc'|apply Oc'].
      + rewrite set_kid_set_kid in E. assert (n' = set_kid n a c' /\ v = Err e) as [-> ->] by (split; congruence). split; [apply okn_set; auto|discriminate].
  Qed.
  Lemma simulate_from_bound fuel action n x n' x' v k : simulate_from_node P fuel action n x = (n', x', v) -> lev (s_horizon P) k -> okn k n -> okn k n'.
  Proof.
    unfold simulate_from_node. destruct (s_sample P (o_belief n) x) as [[s|e] y]; intros E Hl O; [|same]. eapply simulate_bound; eauto.
  Qed.
  Lemma get_node_bound : forall h n x n' x' v k, get_node P n h x = (n', x', v) -> okn k n -> okn k n'.
  Proof.
    induction h as [|[a o] h IH]; intros n x n' x' v k E O; cbn [get_node] in E; [same|].
    destruct (safe_child n a) as [c|e] eqn:Ec; [|same]. pose proof (safe_child_lt _ _ _ Ec) as Ha. pose proof (okc_child _ _ _ _ O Ec) as Oc.
    destruct (lookup o (a_kids c)) as [m|] eqn:El.
    - destruct (get_node P m h x) as [[m' y] w] eqn:Em. assert (n' = set_kid n a (put c o m')) as -> by congruence. apply okn_set; [auto|auto|]. apply okc_put; [auto|]. eapply IH; eauto. eapply Oc; eauto.
    - destruct (s_succ P (o_belief n) a o x) as [[b|e] y] eqn:Es; [|assert (n' = set_kid n a c) as -> by congruence; apply okn_set; auto].
      destruct (get_node P (o_new P b) h y) as [[m' y'] w] eqn:Em. assert (n' = set_kid n a (put c o m')) as -> by congruence. apply okn_set; [auto|auto|]. apply okc_put; [auto|]. eapply IH; eauto. apply okn_new.
  Qed.
  Lemma at_node_bound {A} (f : onode B -> X -> onode B * X * res A) : forall h n x n' x' v k, (forall m y m' y' w, f m y = (m', y', w) -> okn (k - length h) m -> okn (k - length h) m') ->
    at_node f n h x = (n', x', v) -> okn k n -> okn k n'.
  Proof.
    induction h as [|[a o] h IH]; intros n x n' x' v k Hf E O; cbn [at_node] in E.
    - cbn [length] in Hf. rewrite Nat.sub_0_r in Hf. eapply Hf; eauto.
    - destruct (nth_error (o_kids n) a) as [[c|]|] eqn:Ek; try same. destruct (lookup o (a_kids c)) as [m|] eqn:El; [|same].
      destruct (at_node f m h x) as [[m' y] w] eqn:Em. assert (n' = set_kid n a (put c o m')) as -> by congruence.
      assert (Ec : safe_child n a = Ok c) by (unfold safe_child; rewrite Ek; reflexivity). pose proof (okc_child _ _ _ _ O Ec) as Oc. pose proof (safe_child_lt _ _ _ Ec) as Ha.
      apply okn_set; [auto|auto|]. apply okc_put; [auto|]. eapply (IH _ _ _ _ _ (k - 1)); [|exact Em|eapply Oc; eauto].
      cbn [length] in Hf. replace (k - 1 - length h) with (k - S (length h)) by lia. exact Hf.
  Qed.
  Lemma pick_bound h n x n' x' v k : at_node (fun n x => let (a, x) := best_action P n 0 false x in (n, x, a)) n h x = (n', x', v) -> okn k n -> okn k n'.
  Proof. apply at_node_bound. intros m y m' y' w E O. destruct (best_action P m 0 false y). same. Qed.
  Lemma simulations_bound : forall j fuel r x r' x' e k, simulations P j fuel r x = (r', x', e) -> lev (s_horizon P) (k - length (r_node r)) -> okn k (r_root r) -> okn k (r_root r') /\ r_node r' = r_node r.
  Proof.
    induction j as [|j IH]; intros fuel r x r' x' e k E Hl O; cbn [simulations] in E; [assert (r' = r) as -> by congruence; auto|].
    destruct (at_node _ (r_root r) (r_node r) x) as [[root y] v] eqn:Ea.
    assert (O1 : okn k root) by (eapply at_node_bound; [|exact Ea|exact O]; intros m z m' z' w Em; apply (simulate_from_bound _ _ _ _ _ _ _ _ Em Hl)).
    destruct v as [v|e']; [|assert (r' = {| r_root := root; r_history := r_history r; r_node := r_node r; r_last := r_last r |}) as -> by congruence; auto].
    apply IH with (k := k) in E; auto.
  Qed.
  Lemma get_action_bound j fuel r x r' x' v k : get_action P j fuel r x = (r', x', v) -> lev (s_horizon P) (k - length (r_node r)) -> okn k (r_root r) -> okn k (r_root r') /\ r_node r' = r_node r.
  Proof.
    unfold get_action. destruct (simulations P j fuel r x) as [[r1 x1] e1] eqn:Es. intros E Hl O. destruct (simulations_bound _ _ _ _ _ _ _ _ Es Hl O) as [O1 N1].
    destruct e1 as [u|e]; [|assert (r' = r1) as -> by congruence; auto].
    destruct (at_node _ (r_root r1) (r_node r1) x1) as [[root y] a] eqn:Ea. pose proof (pick_bound _ _ _ _ _ _ _ Ea O1) as O2.
    destruct a as [a|e]; [|assert (r' = r1) as -> by congruence; auto]. match type of E with (?z, _, _) = _ => assert (r' = z) as -> by congruence end. auto.
  Qed.
  Lemma step_bound_ ob r x r' x' v k : r_step P ob r x = (r', x', v) -> okn k (r_root r) -> okn k (r_root r').
  Proof.
    unfold r_step. destruct (r_last r) as [a|]; [|intros E; assert (r' = r) as -> by congruence; auto]. destruct (list_index _ ob) as [o|e]; [|intros E; assert (r' = r) as -> by congruence; auto].
    destruct (get_node P (r_root r) (r_history r ++ [(a, o)]) x) as [[root y] e] eqn:Eg. intros E O. pose proof (get_node_bound _ _ _ _ _ _ _ Eg O) as O1.
    destruct e as [u|e]; match type of E with (?z, _, _) = _ => assert (r' = z) as -> by congruence end; auto.
  Qed.
  (** Histories: every level at every node, or the runner at the root *)
  Lemma trace_bound b l r : (forall k, lev (s_horizon P) k) -> trace P b l r -> okn 0 (r_root r).
  Proof.
    intros Hl. induction 1 as [x b x' r Hs Hr|b l r j fuel x r' x' nm T I Ea|b l r j fuel x r' x' e T I Ea|b l r ob o x r' x' T I Es Eo|b l r ob x r' x' e T I Es|b l r T I|b l r fuel action path x root x' v T I Ea].
    - unfold r_init in Hr. rewrite Hs in Hr. cbn [bind] in Hr. assert (r = r_reset (o_new P b)) as -> by congruence. apply okn_new.
    - eapply get_action_bound; eauto.
    - eapply get_action_bound; eauto.
    - eapply step_bound_; eauto.
    - eapply step_bound_; eauto.
    - auto.
    - cbn [r_root]. eapply at_node_bound; [|exact Ea|exact I]. intros m z m' z' w Em. apply (simulate_from_bound _ _ _ _ _ _ _ _ Em). auto.
  Qed.
  Lemma dive_step l ev : deepest l <= deepest (l ++ [ev]) /\ fst (fold_left dive l (0, 0)) <= deepest l.
  Proof.
    unfold deepest. split; [rewrite fold_left_app; cbn [fold_left]; destruct ev as [| [o|] | |]; cbn; lia|].
    induction l as [|ev' l IH] using rev_ind; [cbn; lia|]. rewrite fold_left_app. cbn [fold_left]. destruct ev' as [| [o|] | |]; cbn; lia.
  Qed.
  Lemma trace_dive_bound b l r k D : (forall d, d <= D -> lev (s_horizon P) (k - d)) -> trace P b l r -> ~ In EvExplore l -> deepest l <= D ->
    okn k (r_root r) /\ length (r_node r) = fst (fold_left dive l (0, 0)) /\ r_history r = r_node r.
  Proof.
    intros Hl. assert (AR : forall (l : list event) ev, ~ In EvExplore (l ++ [ev]) -> ~ In EvExplore l) by (intros l0 ev A Hin; apply A; apply in_or_app; auto).
    induction 1 as [x b x' r Hs Hr|b l r j fuel x r' x' nm T I Ea|b l r j fuel x r' x' e T I Ea|b l r ob o x r' x' T I Es Eo|b l r ob x r' x' e T I Es|b l r T I|b l r fuel action path x root x' v T I Ea]; intros A HD.
    1:{ unfold r_init in Hr. rewrite Hs in Hr. cbn [bind] in Hr. assert (r = r_reset (o_new P b)) as -> by congruence. split; [apply okn_new|split; reflexivity]. }
    all: match type of HD with deepest (?k0 ++ [?ev]) <= _ => destruct (dive_step k0 ev) as [D1 D2] end; destruct (I (AR _ _ A) ltac:(lia)) as (O & N & HN); rewrite fold_left_app; cbn [fold_left dive].
    - destruct (get_action_bound _ _ _ _ _ _ _ k Ea) as [O1 N1]; [apply Hl; lia|auto|]. destruct (get_action_keep P _ _ _ _ _ _ _ Ea) as (_ & K1 & K2 & _). split; [auto|]. split; congruence.
    - destruct (get_action_bound _ _ _ _ _ _ _ k Ea) as [O1 N1]; [apply Hl; lia|auto|]. destruct (get_action_keep P _ _ _ _ _ _ _ Ea) as (_ & K1 & K2 & _). split; [auto|]. split; congruence.
    - split; [eapply step_bound_; eauto|]. destruct (step_keep P _ _ _ _ _ _ Es) as (_ & a & o' & _ & _ & _ & K1 & K2 & _). split; [|congruence]. rewrite K2, K1, HN, app_length, N. cbn. lia.
    - split; [eapply step_bound_; eauto|]. destruct (step_keep P _ _ _ _ _ _ Es) as (_ & K1 & K2 & _). split; congruence.
    - split; [auto|]. split; reflexivity.
    - destruct A. apply in_or_app. right. left. reflexivity.
  Qed.
  Lemma okn_valued k n p m : okn k n -> find n p = Some m -> valued (Lo (k - length p)) (Hi (k - length p)) m.
  Proof.
    intros O F. destruct (O _ _ F) as [H1 H2]. split; [apply within_value; auto|]. intros a. unfold action_value. destruct (nth_error (o_kids m) a) as [[c|]|] eqn:E; try apply zero_ok. apply within_value; eauto.
  Qed.
End Bounds.
