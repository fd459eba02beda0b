(** C131: an action that is clearly better is the one returned by the search. *)
From Verif Require Import PyBase PyBaseFacts QBase PomdpModel PomdpSpec PomdpProofs PomdpProofs2 BeliefModel EvalModel PolicyModel PomcpModel PomcpSpec
  PolicySpec PolicyProofs PomcpProofs PomcpProofs2 PomcpProofs3 ValueSpec ValueProofs DomSpec DomProofs Props_Pomdp Props_Belief Props_Pomcp Props_Value.
From Coq Require Import Lia Lqa Field.
Local Open Scope list_scope.
Local Open Scope nat_scope.

(** The interval of one action at one history; that of all rewards elsewhere. *)
Definition same_place (t t' : list (nat * nat)) (a a' : nat) : bool :=
  (if list_eq_dec (fun x y : nat * nat => ltac:(decide equality; apply Nat.eq_dec) : {x = y} + {x <> y}) t t' then true else false) && Nat.eqb a a'.
Lemma same_place_iff t t' a a' : same_place t t' a a' = true <-> t = t' /\ a = a'.
Proof.
  unfold same_place. destruct (list_eq_dec _ t t') as [E|E]; cbn [andb]; [|split; [discriminate|tauto]]. rewrite Nat.eqb_eq. tauto.
Qed.
Lemma pays_place X St B H (P : search X St B H) b lo hi h a q1 q2 : rewards_in P lo hi -> pays P b h a q1 q2 ->
  forall t i, pays P b t i (if same_place t h i a then q1 else lo) (if same_place t h i a then q2 else hi).
Proof.
  intros R Hp t i. destruct (same_place t h i a) eqn:E; [apply same_place_iff in E; destruct E as [-> ->]; exact Hp|].
  intros s x s' o q x' _ Et. apply (R _ _ _ _ _ _ _ Et).
Qed.

(** With a discount below one and rewards from lo <= 0 to hi >= 0: the value of an action whose rewards at the history of its
    node are from q1 to q2 is between q1 + discount * lo / (1 - discount) and q2 + discount * hi / (1 - discount), after any operations. *)
Theorem C131_action : forall X St B H (P : search X St B H) lo hi b l r h n a q1 q2, (0 <= s_discount P < 1)%Q -> (0 <= s_alpha P <= 1)%Q ->
  (lo <= 0 <= hi)%Q -> rewards_in P lo hi -> trace P b l r -> find (r_root r) h = Some n -> 0 < visits n a -> pays P b h a q1 q2 ->
  (q1 + s_discount P * (lo / (1 - s_discount P)) <= action_value n a <= q2 + s_discount P * (hi / (1 - s_discount P)))%Q.
Proof.
  intros X St B H P lo hi b l r h n a q1 q2 Hg Ha Hz HR T F V Hp. set (g := s_discount P) in *.
  assert (Hd : (0 < 1 - g)%Q) by lra.
  assert (E1 : (lo / (1 - g) == lo + g * (lo / (1 - g)))%Q) by (field; lra).
  assert (E2 : (hi / (1 - g) == hi + g * (hi / (1 - g)))%Q) by (field; lra).
  assert (Z1 : (lo / (1 - g) <= 0)%Q) by (apply Qle_shift_div_r; lra).
  assert (Z2 : (0 <= hi / (1 - g))%Q) by (apply Qle_shift_div_l; lra).
  pose proof (pays_place _ _ _ _ _ _ _ _ _ _ _ _ HR Hp) as PP. assert (SP : same_place h h a a = true) by (apply same_place_iff; auto).
  assert (G : good P (fun _ => lo / (1 - g))%Q (fun _ => hi / (1 - g))%Q b (fun t i => if same_place t h i a then q1 else lo) (fun t i => if same_place t h i a then q2 else hi) 0 [] (r_root r)).
  { eapply (trace_worth P (fun _ => lo / (1 - g))%Q (fun _ => hi / (1 - g))%Q (fun _ _ => True) lo hi); eauto; fold g; intros; cbv beta; auto; lra. }
  pose proof (good_value P _ _ _ _ _ _ _ _ _ _ G F V) as K. cbv beta in K. rewrite SP in K. exact K.
Qed.
Print Assumptions C131_action.

(** With a horizon of a number of transitions, any discount, and no exploration from chosen nodes. *)
Theorem C131_horizon : forall X St B H (P : search X St B H) left lo hi b l r h n a q1 q2, (0 <= s_discount P)%Q -> (0 <= s_alpha P <= 1)%Q ->
  (lo <= 0 <= hi)%Q -> rewards_in P lo hi -> counts_down P left -> trace P b l r -> ~ In EvExplore l -> find (r_root r) h = Some n -> 0 < visits n a -> pays P b h a q1 q2 ->
  let k := geometric (s_discount P) (left (s_horizon P) + deepest l - length h - 1) in
  (q1 + s_discount P * (lo * k) <= action_value n a <= q2 + s_discount P * (hi * k))%Q.
Proof.
  intros X St B H P left lo hi b l r h n a q1 q2 Hg Ha Hz HR (C1 & C2 & C3) T NE F V Hp k. subst k.
  set (Lo := fun j => (lo * geometric (s_discount P) j)%Q). set (Hi := fun j => (hi * geometric (s_discount P) j)%Q).
  assert (Z0 : forall j, (Lo j <= 0 <= Hi j)%Q) by (intros j; pose proof (geometric_nonneg _ j Hg); split; [apply scale_neg|apply scale_pos]; auto; apply Hz).
  set (K := left (s_horizon P) + deepest l).
  pose proof (pays_place _ _ _ _ _ _ _ _ _ _ _ _ HR Hp) as PP. assert (SP : same_place h h a a = true) by (apply same_place_iff; auto).
  assert (G : good P Lo Hi b (fun t i => if same_place t h i a then q1 else lo) (fun t i => if same_place t h i a then q2 else hi) K [] (r_root r)).
  { apply (trace_dive_worth P Lo Hi (fun h j => left h <= j) lo hi) with (l := l) (D := deepest l); auto.
    - intros h0 j Hr Hl. assert (left h0 <> 0) by (intros E; apply C1 in E; congruence). destruct j as [|j]; [lia|]. replace (S j - 1) with j by lia. unfold Lo, Hi. cbn [geometric].
      set (gg := geometric (s_discount P) j). split.
      + setoid_replace (lo * (1 + s_discount P * gg))%Q with (lo + s_discount P * (lo * gg))%Q by ring. apply Qle_refl.
      + setoid_replace (hi * (1 + s_discount P * gg))%Q with (hi + s_discount P * (hi * gg))%Q by ring. apply Qle_refl.
    - intros h0 j i s s' o Hr Hl. rewrite C2. lia.
    - intros h0 j Hl. rewrite C3. auto.
    - intros d Hd. unfold K. lia. }
  pose proof (good_value P _ _ _ _ _ _ _ _ _ _ G F V) as Q. cbv beta in Q. rewrite SP in Q. exact Q.
Qed.
Print Assumptions C131_horizon.

(** So with at least as many iterations as actions, an action that pays at least m now where all others pay at most M is returned
    when the difference is more than what the future can make up for. *)
Theorem C131_chosen : forall X St B H (P : search X St B H) lo hi b l r k fuel x r' x' nm best m M, (0 <= s_discount P < 1)%Q -> (0 <= s_alpha P <= 1)%Q ->
  (lo <= 0 <= hi)%Q -> rewards_in P lo hi -> trace P b l r -> s_reached P (s_horizon P) = false -> length (s_actions P) <= k -> get_action P k fuel r x = (r', x', Ok nm) ->
  best < length (s_actions P) -> pays P b (r_history r) best m hi -> (forall a, a < length (s_actions P) -> a <> best -> pays P b (r_history r) a lo M) ->
  (M + s_discount P * (hi / (1 - s_discount P)) < m + s_discount P * (lo / (1 - s_discount P)))%Q ->
  r_last r' = Some best /\ nth_error (s_actions P) best = Some nm.
Proof.
  intros X St B H P lo hi b l r k fuel x r' x' nm best m M Hg Ha Hz HR T Hh Hk E Hb PB PO Gap.
  destruct (C59_best _ _ _ _ P b l r k fuel x r' x' nm T Hh Hk E) as (n & a & F & L & En & Vis & _).
  pose proof (tr_action P _ _ _ _ _ _ _ _ _ T E) as T'. assert (Hl : a < length (s_actions P)) by (apply nth_error_Some; congruence).
  destruct (get_action_keep P _ _ _ _ _ _ _ E) as (_ & EH & _). rewrite EH in F.
  destruct (Nat.eq_dec a best) as [->|Hne]; [auto|]. exfalso.
  pose proof (proj1 (C131_action _ _ _ _ P lo hi b _ _ _ _ best m hi Hg Ha Hz HR T' F (proj1 (Vis _ Hb)) PB)) as K1.
  pose proof (proj2 (C131_action _ _ _ _ P lo hi b _ _ _ _ a lo M Hg Ha Hz HR T' F (proj1 (Vis _ Hl)) (PO _ Hl Hne))) as K2.
  pose proof (proj2 (Vis _ Hb)) as K3. lra.
Qed.
Print Assumptions C131_chosen.

(** The same with a horizon of a number of transitions; when it is one and there was no step, any difference is enough. *)
Theorem C131_chosen_horizon : forall X St B H (P : search X St B H) left lo hi b l r k fuel x r' x' nm best m M, (0 <= s_discount P)%Q -> (0 <= s_alpha P <= 1)%Q ->
  (lo <= 0 <= hi)%Q -> rewards_in P lo hi -> counts_down P left -> trace P b l r -> ~ In EvExplore l -> 0 < left (s_horizon P) -> length (s_actions P) <= k -> get_action P k fuel r x = (r', x', Ok nm) ->
  best < length (s_actions P) -> pays P b (r_history r) best m hi -> (forall a, a < length (s_actions P) -> a <> best -> pays P b (r_history r) a lo M) ->
  (let j := geometric (s_discount P) (left (s_horizon P) + deepest l - length (r_history r) - 1) in M + s_discount P * (hi * j) < m + s_discount P * (lo * j))%Q ->
  r_last r' = Some best /\ nth_error (s_actions P) best = Some nm.
Proof.
  intros X St B H P left lo hi b l r k fuel x r' x' nm best m M Hg Ha Hz HR C T NE Hh Hk E Hb PB PO Gap.
  assert (Hh' : s_reached P (s_horizon P) = false) by (destruct (s_reached P (s_horizon P)) eqn:Er; [apply (proj1 C) in Er; lia|reflexivity]).
  destruct (C59_best _ _ _ _ P b l r k fuel x r' x' nm T Hh' Hk E) as (n & a & F & L & En & Vis & _).
  pose proof (tr_action P _ _ _ _ _ _ _ _ _ T E) as T'. assert (Hl : a < length (s_actions P)) by (apply nth_error_Some; congruence).
  destruct (get_action_keep P _ _ _ _ _ _ _ E) as (_ & EH & _). rewrite EH in F.
  assert (NE' : ~ In EvExplore (l ++ [EvAction (r_last r')])) by (intros J; apply in_app_or in J; destruct J as [J|[J|[]]]; [auto|discriminate]).
  assert (ED : deepest (l ++ [EvAction (r_last r')]) = deepest l) by (unfold deepest; rewrite fold_left_app; cbn; destruct (fold_left dive l (0, 0)); reflexivity).
  destruct (Nat.eq_dec a best) as [->|Hne]; [auto|]. exfalso.
  pose proof (proj1 (C131_horizon _ _ _ _ P left lo hi b _ _ _ _ best m hi Hg Ha Hz HR C T' NE' F (proj1 (Vis _ Hb)) PB)) as K1.
  pose proof (proj2 (C131_horizon _ _ _ _ P left lo hi b _ _ _ _ a lo M Hg Ha Hz HR C T' NE' F (proj1 (Vis _ Hl)) (PO _ Hl Hne))) as K2.
  pose proof (proj2 (Vis _ Hb)) as K3. rewrite ED in K1, K2. cbv zeta in Gap. lra.
Qed.
Print Assumptions C131_chosen_horizon.

(** *** Over a POMDP *)
Lemma sum_n_some n f : (0 < sum_n n f)%Q -> exists i, i < n /\ (0 < f i)%Q.
Proof.
  induction n as [|n IH]; intros Hs; [unfold sum_n in Hs; cbn in Hs; lra|]. rewrite sum_n_S in Hs.
  destruct (Qlt_le_dec 0 (f n)) as [Hf|Hf]; [exists n; auto|]. destruct IH as (i & Hi & Hf'); [lra|exists i; auto].
Qed.
Lemma product_positive x y : (0 <= x)%Q -> (0 <= y)%Q -> (0 < x * y)%Q -> (0 < x /\ 0 < y)%Q.
Proof.
  intros Hx Hy Hp. split.
  - destruct (Qlt_le_dec 0 x) as [K|K]; [auto|]. assert (x == 0)%Q as E by lra. rewrite E in Hp. lra.
  - destruct (Qlt_le_dec 0 y) as [K|K]; [auto|]. assert (y == 0)%Q as E by lra. rewrite E in Hp. lra.
Qed.
Section Exact.
  Variable p : pomdp.
  Variable u : nat -> Q.
  Variable r : nat -> nat.
  Variables (horizon : Z) (exploration : Q) (relative : bool) (bonus : nat -> nat -> Q) (rollout_it : nat) (alpha : Q).
  Let P := exact_search p u r horizon exploration relative bonus rollout_it alpha.
  Hypothesis WS : well_shaped p.
  Hypothesis ST : stochastic p.
  Hypothesis HU : forall i, (0 <= u i < 1)%Q.
  Variable b0 : list Q.

  Lemma update_possible b a o b1 s' : distribution p b -> a < nA p -> o < nO p -> belief_update p (Z.of_nat a) (Z.of_nat o) b = Ok b1 -> s' < nS p -> (0 < nth s' b1 0)%Q ->
    distribution p b1 /\ exists s, s < nS p /\ (0 < nth s b 0)%Q /\ (0 < Tr p a s s')%Q /\ (0 < Ob p a s' o)%Q.
  Proof.
    intros D Ha Ho E Hs Hp. pose proof ST as (T0 & _ & O0 & _). pose proof D as (_ & D0 & _). destruct (C40_bayes p b a o ST D Ha Ho) as [N Y]. destruct (Qeq_dec (prob_obs p b a o) 0) as [Z|Z]; [rewrite (N Z) in E; discriminate|].
    destruct (Y Z) as (nb & E' & D' & V). assert (nb = b1) as -> by congruence. split; [exact D'|]. rewrite (V _ Hs) in Hp.
    assert (J0 : forall i j, i < nS p -> j < nS p -> (0 <= joint p b a i j o)%Q) by (intros i j Hi Hj; unfold joint; apply Qmult_le_0_compat; [apply Qmult_le_0_compat|]; auto).
    assert (E0 : forall j, j < nS p -> (0 <= prob_end p b a j o)%Q) by (intros j Hj; apply sum_n_nonneg; auto).
    assert (O1 : (0 <= prob_obs p b a o)%Q) by (apply sum_n_nonneg; auto).
    assert (O2 : (0 < prob_obs p b a o)%Q) by (destruct (Qlt_le_dec 0 (prob_obs p b a o)); [auto|destruct Z; lra]).
    assert (Q1 : (0 < prob_end p b a s' o)%Q).
    { destruct (Qlt_le_dec 0 (prob_end p b a s' o)) as [K|K]; [auto|]. assert (Ez : (prob_end p b a s' o == 0)%Q) by (pose proof (E0 _ Hs); lra). rewrite Ez in Hp. unfold Qdiv in Hp. rewrite Qmult_0_l in Hp. lra. }
    destruct (sum_n_some _ _ Q1) as (s & Hs0 & Hj). unfold joint in Hj. apply product_positive in Hj; [|apply Qmult_le_0_compat; auto|auto]. destruct Hj as [J1 J2]. apply product_positive in J1; [|auto|auto]. destruct J1 as [J3 J4]. exists s. auto.
  Qed.
  Lemma filters_possible : forall h b b', filters P b h b' -> forall t, distribution p b -> (forall s, s < nS p -> (0 < nth s b 0)%Q -> possible p b0 t s) -> 
    distribution p b' /\ forall s, s < nS p -> (0 < nth s b' 0)%Q -> possible p b0 (t ++ h) s.
  Proof.
    induction 1 as [b|b a o b1 h b2 (x & x' & Hm) F IH]; intros t D I; [rewrite app_nil_r; auto|].
    assert (F1 : filters P b [(a, o)] b1) by (econstructor; [exists x, x'; exact Hm|constructor]).
    pose proof (filters_range p u r horizon exploration relative bonus rollout_it alpha _ _ _ F1) as FR.
    inversion FR as [|q l [Ha Ho] _]; subst. cbn [fst snd] in Ha, Ho. cbn [P exact_search s_succ] in Hm. rewrite C82_successor in Hm.
    assert (Em : belief_update p (Z.of_nat a) (Z.of_nat o) b = Ok b1) by congruence.
    assert (D1 : distribution p b1).
    { destruct (Qeq_dec (prob_obs p b a o) 0) as [Z|Z]; [rewrite (proj1 (C40_bayes p b a o ST D Ha Ho) Z) in Em; discriminate|]. destruct (proj2 (C40_bayes p b a o ST D Ha Ho) Z) as (nb & E' & D' & _). congruence. }
    replace (t ++ (a, o) :: h) with ((t ++ [(a, o)]) ++ h) by (rewrite <- app_assoc; reflexivity). apply IH; [exact D1|].
    intros s' Hs' Hp. destruct (update_possible _ _ _ _ _ D Ha Ho Em Hs' Hp) as (_ & s & K1 & K2 & K3 & K4). apply po_next with s; auto.
  Qed.
  Lemma transition_drawn a s x s' o q x' : s_transition P a s x = (Ok (s', o, q), x') -> a < nA p /\ s < nS p /\ s' < nS p /\ o < nO p /\ (0 < Tr p a s s')%Q /\ (0 < Ob p a s' o)%Q /\ q = at_ (p_R p) [a; s; s'; o].
  Proof.
    intros E. cbn [P exact_search s_transition] in E. unfold draw_transition in E.
    assert (Et : pomdp_sample_transition p (u x) (u (S x)) (Z.of_nat a) (Z.of_nat s) = Ok (s', o, q)) by congruence.
    assert (Ha : a < nA p /\ s < nS p).
    { unfold pomdp_sample_transition in Et. rewrite !axis_nat in Et. fold (nA p) (nS p) in Et. destruct (Nat.ltb_spec a (nA p)); [|discriminate]. destruct (Nat.ltb_spec s (nS p)); [|discriminate]. auto. }
    destruct Ha as [Ha Hs]. apply (C81_sampling_partial p a s WS ST Ha Hs) in Et; [|auto|auto]. destruct Et as (Hs' & Ho & -> & I1 & I2). repeat split; auto; lra.
  Qed.
  Lemma may_be_possible h s : distribution p b0 -> may_be P b0 h s -> s < nS p /\ possible p b0 h s.
  Proof.
    intros D. induction 1 as [h b' s x x' F E|h s a x s' o q x' M [I1 I2] E].
    - destruct (filters_possible _ _ _ F [] D) as [D' I]; [intros; apply po_start; auto|]. cbn [app] in I.
      destruct (sample_exact p u HU b' x D') as (s1 & E1 & Hs & Hp). cbn [P exact_search s_sample] in E. assert (s1 = s) as -> by congruence. auto.
    - apply transition_drawn in E. destruct E as (Ha & Hs & Hs' & Ho & K1 & K2 & _). split; [auto|]. apply po_next with s; auto.
  Qed.
End Exact.

(** Searches with exact beliefs only meet states that have a positive probability given the history, so rewards there are enough:
    for every POMDP, random draws, and parameters of the search. *)
Theorem C131_pomdp : forall p u rnd horizon exploration relative bonus rollout_it alpha lo hi b l r k fuel x r' x' nm best m M,
  well_shaped p -> stochastic p -> (forall i, 0 <= u i < 1)%Q -> distribution p b -> (0 <= p_discount p < 1)%Q -> (0 <= alpha <= 1)%Q -> (lo <= 0 <= hi)%Q ->
  (forall a s s' o, a < nA p -> s < nS p -> s' < nS p -> o < nO p -> (lo <= at_ (p_R p) [a; s; s'; o] <= hi)%Q) ->
  let P := exact_search p u rnd horizon exploration relative bonus rollout_it alpha in
  let may a s s' o := possible p b (r_history r) s /\ s' < nS p /\ o < nO p /\ (0 < Tr p a s s')%Q /\ (0 < Ob p a s' o)%Q in
  trace P b l r -> (0 < horizon)%Z -> length (p_actions p) <= k -> get_action P k fuel r x = (r', x', Ok nm) -> best < length (p_actions p) ->
  (forall s s' o, may best s s' o -> (m <= at_ (p_R p) [best; s; s'; o])%Q) ->
  (forall a s s' o, a < length (p_actions p) -> a <> best -> may a s s' o -> (at_ (p_R p) [a; s; s'; o] <= M)%Q) ->
  (M + p_discount p * (hi / (1 - p_discount p)) < m + p_discount p * (lo / (1 - p_discount p)))%Q ->
  nth_error (p_actions p) best = Some nm.
Proof.
  intros p u rnd horizon exploration relative bonus rollout_it alpha lo hi b l r k fuel x r' x' nm best m M WS ST HU D Hg Ha Hz HR P may T Hh Hk E Hb PB PO Gap.
  destruct (C111_pomdp p u rnd horizon exploration relative bonus rollout_it alpha lo hi WS ST HU HR) as (R & _). fold P in R.
  assert (Hr : s_reached P (s_horizon P) = false) by (cbn; unfold nt_reached; cbn; apply Z.leb_gt; exact Hh).
  apply (C131_chosen _ _ _ _ P lo hi b l r k fuel x r' x' nm best m M Hg Ha Hz R T Hr Hk E Hb); [| |exact Gap].
  - intros s y s' o q y' Mb Et. pose proof (may_be_possible p u rnd horizon exploration relative bonus rollout_it alpha WS ST HU b _ _ D Mb) as [_ Ps].
    split; [|apply (R _ _ _ _ _ _ _ Et)]. apply (transition_drawn p u rnd horizon exploration relative bonus rollout_it alpha WS ST HU) in Et. destruct Et as (_ & _ & K1 & K2 & K3 & K4 & ->). apply PB. unfold may. auto.
  - intros a Hla Hne s y s' o q y' Mb Et. pose proof (may_be_possible p u rnd horizon exploration relative bonus rollout_it alpha WS ST HU b _ _ D Mb) as [_ Ps].
    split; [apply (R _ _ _ _ _ _ _ Et)|]. apply (transition_drawn p u rnd horizon exploration relative bonus rollout_it alpha WS ST HU) in Et. destruct Et as (_ & _ & K1 & K2 & K3 & K4 & ->). apply PO; auto. unfold may. auto.
Qed.
Print Assumptions C131_pomdp.

(** *** With particles *)
Section Particles.
  Variable p : pomdp.
  Variables u v : nat -> Q.
  Variable r : nat -> nat.
  Variables (horizon : Z) (exploration : Q) (relative : bool) (bonus : nat -> nat -> Q) (rollout_it : nat) (alpha : Q) (n : nat).
  Let P := particle_search p u r horizon exploration relative bonus rollout_it alpha v n.
  Hypothesis WS : well_shaped p.
  Hypothesis ST : stochastic p.
  Hypothesis HU : forall i, (0 <= u i < 1)%Q.
  Hypothesis HV : forall i, (0 <= v i < 1)%Q.
  Hypothesis Hn : 0 < n.
  Variable c : list Q.

  Lemma sampled_range a s y q : pomdp_sample_transition p (u y) (v y) (Z.of_nat a) (Z.of_nat s) = Ok q -> a < nA p /\ s < nS p /\ fst (fst q) < nS p /\ snd (fst q) < nO p /\
    (0 < Tr p a s (fst (fst q)))%Q /\ (0 < Ob p a (fst (fst q)) (snd (fst q)))%Q /\ snd q = at_ (p_R p) [a; s; fst (fst q); snd (fst q)].
  Proof.
    intros Et. destruct q as [[s' o] q]. cbn [fst snd].
    assert (Ha : a < nA p /\ s < nS p).
    { unfold pomdp_sample_transition in Et. rewrite !axis_nat in Et. fold (nA p) (nS p) in Et. destruct (Nat.ltb_spec a (nA p)); [|discriminate]. destruct (Nat.ltb_spec s (nS p)); [|discriminate]. auto. }
    destruct Ha as [Ha Hs]. apply (C81_sampling_partial p a s WS ST Ha Hs) in Et; [|auto|auto]. destruct Et as (Hs' & Ho & -> & I1 & I2). repeat split; auto; lra.
  Qed.
  Lemma transition_particles a s x s' o q x' : s_transition P a s x = (Ok (s', o, q), x') -> a < nA p /\ s < nS p /\ s' < nS p /\ o < nO p /\ (0 < Tr p a s s')%Q /\ (0 < Ob p a s' o)%Q /\ q = at_ (p_R p) [a; s; s'; o].
  Proof. intros E. cbn [P particle_search s_transition] in E. unfold particle_transition in E. apply (sampled_range a s (snd x) (s', o, q)). congruence. Qed.
  Lemma particles_possible : forall h b b', filters P b h b' -> forall t, length b = n -> (forall s, In s b -> possible p c t s) -> length b' = n /\ forall s, In s b' -> possible p c (t ++ h) s.
  Proof.
    induction 1 as [b|b a o b1 h b2 (x & x' & Hm) F IH]; intros t L I; [rewrite app_nil_r; auto|]. cbn [P particle_search s_succ] in Hm.
    assert (HC := C42_successor _ (particle_rand r) (particle_step p u v) snd).
    specialize (HC ltac:(unfold particle_rand; intros y i y' Hy; inversion Hy; reflexivity) ltac:(unfold particle_step; intros a0 s y i y' Hy; inversion Hy; reflexivity) n b (Z.of_nat a) (Z.of_nat o) x _ x' L Hn Hm).
    destruct HC as [_ [L1 HC]]. replace (t ++ (a, o) :: h) with ((t ++ [(a, o)]) ++ h) by (rewrite <- app_assoc; reflexivity). apply IH; [exact L1|].
    intros s' Hs'. destruct (HC s' Hs') as (s & y & q & y' & Is & Es). unfold particle_step in Es.
    destruct (pomdp_sample_transition p (u (snd y)) (v (snd y)) (Z.of_nat a) (Z.of_nat s)) as [[[s1 o1] q1]|] eqn:Et; [|discriminate].
    cbn [bind] in Es. assert (s1 = s' /\ o1 = o) as [-> ->] by (split; [congruence|]; apply Nat2Z.inj; congruence). apply sampled_range in Et. cbn [fst snd] in Et. destruct Et as (K1 & K2 & K3 & K4 & K5 & K6 & _). apply po_next with s; auto.
  Qed.
  Lemma may_be_particles b h s : length b = n -> (forall s, In s b -> possible p c [] s) -> may_be P b h s -> possible p c h s.
  Proof.
    intros L I. induction 1 as [h b' s x x' F E|h s a x s' o q x' M IM E].
    - destruct (particles_possible _ _ _ F [] L I) as [_ I']. apply I'. cbn [P particle_search s_sample] in E. unfold particle_sample in E. destruct (choice _ n x) as [[i|e] y]; [|discriminate].
      destruct (nth_error b' i) as [s1|] eqn:En; [|discriminate]. assert (s1 = s) as -> by congruence. eapply nth_error_In; eauto.
    - apply transition_particles in E. destruct E as (Ha & Hs & Hs' & Ho & K1 & K2 & _). apply po_next with s; auto.
  Qed.
End Particles.
Lemma trace_started X St B H (P : search X St B H) b l r : trace P b l r -> exists x x', s_start P x = (Ok b, x').
Proof. induction 1; eauto. Qed.
(** Also with particles: the states met are drawn from the start distribution and follow by the transitions. *)
Theorem C131_particles : forall p u v rnd horizon exploration relative bonus rollout_it alpha n lo hi b l r k fuel x r' x' nm best m M,
  well_shaped p -> stochastic p -> (forall i, 0 <= u i < 1)%Q -> (forall i, 0 <= v i < 1)%Q -> 0 < n -> let start := map (Start p) (seq 0 (nS p)) in distribution p start ->
  (0 <= p_discount p < 1)%Q -> (0 <= alpha <= 1)%Q -> (lo <= 0 <= hi)%Q ->
  (forall a s s' o, a < nA p -> s < nS p -> s' < nS p -> o < nO p -> (lo <= at_ (p_R p) [a; s; s'; o] <= hi)%Q) ->
  let P := particle_search p u rnd horizon exploration relative bonus rollout_it alpha v n in
  let may a s s' o := possible p start (r_history r) s /\ s' < nS p /\ o < nO p /\ (0 < Tr p a s s')%Q /\ (0 < Ob p a s' o)%Q in
  trace P b l r -> (0 < horizon)%Z -> length (p_actions p) <= k -> get_action P k fuel r x = (r', x', Ok nm) -> best < length (p_actions p) ->
  (forall s s' o, may best s s' o -> (m <= at_ (p_R p) [best; s; s'; o])%Q) ->
  (forall a s s' o, a < length (p_actions p) -> a <> best -> may a s s' o -> (at_ (p_R p) [a; s; s'; o] <= M)%Q) ->
  (M + p_discount p * (hi / (1 - p_discount p)) < m + p_discount p * (lo / (1 - p_discount p)))%Q ->
  nth_error (p_actions p) best = Some nm.
Proof.
  intros p u v rnd horizon exploration relative bonus rollout_it alpha n lo hi b l r k fuel x r' x' nm best m M WS ST HU HV Hn start D Hg Ha Hz HR P may T Hh Hk E Hb PB PO Gap.
  assert (TP : forall a s y s' o q y', s_transition P a s y = (Ok (s', o, q), y') -> a < nA p /\ s < nS p /\ s' < nS p /\ o < nO p /\ (0 < Tr p a s s')%Q /\ (0 < Ob p a s' o)%Q /\ q = at_ (p_R p) [a; s; s'; o])
    by (apply (transition_particles p u v rnd horizon exploration relative bonus rollout_it alpha n WS ST HU HV)).
  assert (R : rewards_in P lo hi) by (intros a s y s' o q y' Et; apply TP in Et; destruct Et as (? & ? & ? & ? & _ & _ & ->); auto).
  destruct (trace_started _ _ _ _ _ _ _ _ T) as (y0 & y1 & ES). destruct (C60_start p WS D u rnd horizon exploration relative bonus rollout_it alpha) as [_ CS]. destruct (CS v n y0 b y1 HU ES) as [LB IB].
  assert (IB' : forall s, In s b -> possible p start [] s).
  { intros s Is. destruct (IB s Is) as [K1 K2]. apply po_start; [auto|]. unfold start. rewrite (nth_indep _ 0%Q (Start p 0)) by (rewrite map_length, seq_length; auto). rewrite map_nth, seq_nth by auto. exact K2. }
  pose proof (fun h s => may_be_particles p u v rnd horizon exploration relative bonus rollout_it alpha n WS ST HU HV Hn start b h s LB IB') as MP. fold P in MP.
  assert (Hr : s_reached P (s_horizon P) = false) by (cbn; unfold nt_reached; cbn; apply Z.leb_gt; exact Hh).
  apply (C131_chosen _ _ _ _ P lo hi b l r k fuel x r' x' nm best m M Hg Ha Hz R T Hr Hk E Hb); [| |exact Gap].
  - intros s y s' o q y' Mb Et. split; [|apply (R _ _ _ _ _ _ _ Et)]. apply TP in Et. destruct Et as (_ & _ & K1 & K2 & K3 & K4 & ->). apply PB. unfold may. auto.
  - intros a Hla Hne s y s' o q y' Mb Et. split; [apply (R _ _ _ _ _ _ _ Et)|]. apply TP in Et. destruct Et as (_ & _ & K1 & K2 & K3 & K4 & ->). apply PO; auto. unfold may. auto.
Qed.
Print Assumptions C131_particles.

(** *** A problem in which the state is seen after the first action *)
(** Two states that do not change, start 1/2 each; guessing the state gives 1, else 0; the observation is the state. *)
Definition guess_T : array := ex_arr (l3 [[[1; 0]; [0; 1]]; [[1; 0]; [0; 1]]]%Q).
Definition guess_R : array := {| shape := [2; 2; 2; 2]; at_ := fun idx => match idx with [0; 0; _; _] => 1%Q | [1; 1; _; _] => 1%Q | _ => 0%Q end |}.
Definition guess : pomdp :=
  match mk_pomdp guess_T guess_T guess_R tiger_start (1 # 10) None (Some [NStr "zero"; NStr "one"]) None "reward" true with
  | Ok p => p
  | Err _ => {| p_T := tiger_start; p_O := tiger_start; p_R := tiger_start; p_start := tiger_start; p_discount := 0; p_s := NCount 0; p_a := NCount 0; p_o := NCount 0 |}
  end.
Definition guess_search := exact_search guess ex_u ex_r 3 (1 # 2) true (fun n m => 1 / inject_Z (Z.of_nat m))%Q 1 0.
Definition guess_r0 : runner (list Q) := match fst (r_init guess_search 0) with Ok r => r | Err _ => r_reset (ON avg_new [] []) end.
Definition guess_r1 := fst (fst (get_action guess_search 2 3 guess_r0 0)).
Definition guess_r2 := fst (fst (r_step guess_search (NInt 1) guess_r1 0)).
Lemma guess_stochastic : stochastic guess.
Proof.
  unfold stochastic. change (nS guess) with 2. change (nA guess) with 2. change (nO guess) with 2. repeat split.
  - intros [|[|a]] [|[|s]] [|[|s']] Ha Hs Hs'; try lia; vm_compute; discriminate.
  - intros [|[|a]] [|[|s]] Ha Hs; try lia; vm_compute; reflexivity.
  - intros [|[|a]] [|[|s]] [|[|s']] Ha Hs Hs'; try lia; vm_compute; discriminate.
  - intros [|[|a]] [|[|s]] Ha Hs; try lia; vm_compute; reflexivity.
Qed.
(** Once 1 is observed, "one" is returned whatever the random draws of the search from there are. *)
Example C131_ex : exists l, trace guess_search [1 # 2; 1 # 2]%Q l guess_r2 /\ length l = 2 /\
  forall k fuel x r' x' nm, 2 <= k -> get_action guess_search k fuel guess_r2 x = (r', x', Ok nm) -> nm = NStr "one".
Proof.
  assert (TL : exists l, trace guess_search [1 # 2; 1 # 2]%Q l guess_r2 /\ length l = 2).
  { pose proof (tr_init guess_search 0 [1 # 2; 1 # 2]%Q 0 guess_r0 ltac:(vm_compute; reflexivity) ltac:(vm_compute; reflexivity)) as T0.
    pose proof (fun x' nm => tr_action guess_search _ _ _ 2 3 0 guess_r1 x' nm T0) as T1. specialize (T1 _ _ ltac:(vm_compute; reflexivity)).
    pose proof (fun x' => tr_step guess_search _ _ _ (NInt 1) 1 0 guess_r2 x' T1) as T2. specialize (T2 _ ltac:(vm_compute; reflexivity) ltac:(vm_compute; reflexivity)). eexists. split; [exact T2|reflexivity]. }
  destruct TL as (l & T & TL). exists l. split; [exact T|]. split; [exact TL|].
  intros k fuel x r' x' nm Hk E.
  assert (HP : forall s, possible guess [1 # 2; 1 # 2]%Q (r_history guess_r2) s -> s = 1).
  { intros s Hp. assert (EH : exists a, r_history guess_r2 = [] ++ [(a, 1)]) by (eexists; vm_compute; reflexivity). destruct EH as [a EH]. rewrite EH in Hp.
    inversion Hp as [? ? ? H0|h s0 a0 s1 o0 P1 Ha Hs Ho HT HO H0]. change [(a, 1)] with ([] ++ [(a, 1)]) in H0. apply app_inj_tail in H0. destruct H0 as [_ H0]. assert (o0 = 1) as -> by congruence. subst s1.
    change (nS guess) with 2 in Hs. change (nA guess) with 2 in Ha. destruct a0 as [|[|]], s as [|[|]]; try lia; vm_compute in HO; discriminate. }
  assert (EN : nth_error (p_actions guess) 1 = Some nm).
  { apply (C131_pomdp guess ex_u ex_r 3 (1 # 2) true (fun n m => 1 / inject_Z (Z.of_nat m))%Q 1 0 0 1 [1 # 2; 1 # 2]%Q l guess_r2 k fuel x r' x' nm 1 1 0); auto.
    - repeat split.
    - apply guess_stochastic.
    - apply ex_u_ok.
    - split; [reflexivity|]. split; [|vm_compute; reflexivity]. intros [|[|s]] Hs; change (nS guess) with 2 in Hs; try lia; vm_compute; discriminate.
    - split; vm_compute; congruence.
    - split; vm_compute; congruence.
    - split; vm_compute; congruence.
    - change (nA guess) with 2. change (nS guess) with 2. intros [|[|a]] [|[|s]] s' o Ha Hs _ _; try lia; split; vm_compute; discriminate.
    - lia.
    - intros s s' o (Hp & _). rewrite (HP _ Hp). vm_compute. discriminate.
    - intros [|[|a]] s s' o Ha Hne (Hp & _); [|lia|change (length (p_actions guess)) with 2 in Ha; lia]. rewrite (HP _ Hp). vm_compute. discriminate.
    - vm_compute. reflexivity. }
  vm_compute in EN. congruence.
Qed.

(** The same with four particles. *)
Definition guess_particles := particle_search guess ex_u ex_r 3 (1 # 2) true (fun n m => 1 / inject_Z (Z.of_nat m))%Q 1 0 ex_u 4.
Definition guess_b : list nat := match fst (s_start guess_particles (0, 0)) with Ok b => b | Err _ => [] end.
Definition guess_p0 : runner (list nat) := match fst (r_init guess_particles (0, 0)) with Ok r => r | Err _ => r_reset (ON avg_new [] []) end.
Definition guess_p1 := fst (fst (get_action guess_particles 2 3 guess_p0 (0, 0))).
Definition guess_p2 := fst (fst (r_step guess_particles (NInt 1) guess_p1 (0, 0))).
Example C131_ex_particles : exists l, trace guess_particles guess_b l guess_p2 /\ length l = 2 /\
  forall k fuel x r' x' nm, 2 <= k -> get_action guess_particles k fuel guess_p2 x = (r', x', Ok nm) -> nm = NStr "one".
Proof.
  assert (TL : exists l, trace guess_particles guess_b l guess_p2 /\ length l = 2).
  { pose proof (fun x' => tr_init guess_particles (0, 0) guess_b x' guess_p0) as T0. specialize (T0 _ ltac:(vm_compute; reflexivity) ltac:(vm_compute; reflexivity)).
    pose proof (fun x' nm => tr_action guess_particles _ _ _ 2 3 (0, 0) guess_p1 x' nm T0) as T1. specialize (T1 _ _ ltac:(vm_compute; reflexivity)).
    pose proof (fun x' => tr_step guess_particles _ _ _ (NInt 1) 1 (0, 0) guess_p2 x' T1) as T2. specialize (T2 _ ltac:(vm_compute; reflexivity) ltac:(vm_compute; reflexivity)). eexists. split; [exact T2|reflexivity]. }
  destruct TL as (l & T & TL). exists l. split; [exact T|]. split; [exact TL|].
  intros k fuel x r' x' nm Hk E.
  assert (HP : forall c s, possible guess c (r_history guess_p2) s -> s = 1).
  { intros c s Hp. assert (EH : exists a, r_history guess_p2 = [] ++ [(a, 1)]) by (eexists; vm_compute; reflexivity). destruct EH as [a EH]. rewrite EH in Hp.
    inversion Hp as [? ? ? H0|h s0 a0 s1 o0 P1 Ha Hs Ho HT HO H0]. change [(a, 1)] with ([] ++ [(a, 1)]) in H0. apply app_inj_tail in H0. destruct H0 as [_ H0]. assert (o0 = 1) as -> by congruence. subst s1.
    change (nS guess) with 2 in Hs. change (nA guess) with 2 in Ha. destruct a0 as [|[|]], s as [|[|]]; try lia; vm_compute in HO; discriminate. }
  assert (EN : nth_error (p_actions guess) 1 = Some nm).
  { apply (C131_particles guess ex_u ex_u ex_r 3 (1 # 2) true (fun n m => 1 / inject_Z (Z.of_nat m))%Q 1 0 4 0 1 guess_b l guess_p2 k fuel x r' x' nm 1 1 0); auto.
    - repeat split.
    - apply guess_stochastic.
    - apply ex_u_ok.
    - apply ex_u_ok.
    - split; [reflexivity|]. split; [|vm_compute; reflexivity]. intros [|[|s]] Hs; change (nS guess) with 2 in Hs; try lia; vm_compute; discriminate.
    - split; vm_compute; congruence.
    - split; vm_compute; congruence.
    - split; vm_compute; congruence.
    - change (nA guess) with 2. change (nS guess) with 2. intros [|[|a]] [|[|s]] s' o Ha Hs _ _; try lia; split; vm_compute; discriminate.
    - lia.
    - intros s s' o (Hp & _). rewrite (HP _ _ Hp). vm_compute. discriminate.
    - intros [|[|a]] s s' o Ha Hne (Hp & _); [|lia|change (length (p_actions guess)) with 2 in Ha; lia]. rewrite (HP _ _ Hp). vm_compute. discriminate.
    - vm_compute. reflexivity. }
  vm_compute in EN. congruence.
Qed.
