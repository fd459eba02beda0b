(** C41, C42 and C82: beliefs. *)
From Verif Require Import QBase PyBase PyBaseFacts PomdpModel PomdpSpec PomdpProofs PomdpProofs2 BeliefModel BeliefSpec BeliefProofs Props_Pomdp.
From Coq Require Import Lia Lqa Field.
Local Open Scope nat_scope.

(** *** C41 *)
(** Whatever the sampler does: success gives n_particles particles, all returned by the sampler, and failure
    happens only when the sampler raises, with MaxSamplesReached only at the very first call. *)
Theorem C41_full : forall X (rand : X -> nat * X) (smp : X -> res nat * X) n x r x',
  particle_belief rand n smp x = (r, x') ->
  match r with
  | Ok parts => length parts = n /\ exists found rest y, parts = found ++ rest /\ incl rest found /\ calls smp x found y /\
      (rest <> [] -> found <> [] /\ exists y', smp y = (Err EMaxSamples, y'))
  | Err e => exists found y, calls smp x found y /\ length found < n /\ smp y = (Err e, x') /\ (e = EMaxSamples -> found = [])
  end.
Proof.
  intros X rand smp n x r x' E. unfold particle_belief in E. destruct (populate rand n smp x) as [[parts r1] x1] eqn:E1.
  destruct (populate_spec _ _ _ _ _ _ _ E1) as (l & y & C & I & H). destruct r1 as [[]|e]; inversion E; subst.
  - destruct H as [H1 H2]. split; [auto|]. destruct H2 as [[-> ->]|(H2 & H3 & l2 & -> & I2)].
    + exists parts, [], x'. rewrite app_nil_r. split; [auto|]. split; [intros z []|]. split; [auto|]. intros []. reflexivity.
    + exists l, l2, y. split; [auto|]. split; [auto|]. split; [auto|]. intros _. split; [|auto]. intros ->. cbn in H2. lia.
  - exists l, y. tauto.
Qed.
Print Assumptions C41_full.
Theorem C41_drawn : forall X (rand : X -> nat * X) (smp : X -> res nat * X) n x parts x',
  particle_belief rand n smp x = (Ok parts, x') -> forall s, In s parts -> exists y y', smp y = (Ok s, y').
Proof.
  intros X rand smp n x parts x' E s Hs. destruct (C41_full _ _ _ _ _ _ _ E) as (_ & found & rest & y & -> & I & C & _).
  eapply calls_In; eauto. apply in_app_or in Hs. destruct Hs; auto.
Qed.
Print Assumptions C41_drawn.

Theorem C41_array : forall n parts,
  ((exists i, In i parts /\ n <= i) -> particle_array n parts = Err EIndex) /\
  (Forall (fun i => i < n) parts -> exists b, particle_array n parts = Ok b /\ length b = n /\
     (parts <> [] -> (sumQ b == 1)%Q /\ forall s, s < n -> (nth s b 0 == frequency parts s)%Q /\ (0 <= nth s b 0)%Q /\ ((0 < nth s b 0)%Q <-> In s parts)) /\
     (parts = [] -> forall s, (nth s b 0 == 0)%Q)).
Proof.
  intros n parts. split.
  - intros (i & Hi & Hn). unfold particle_array. destruct (forallb _ _) eqn:E; [|reflexivity]. rewrite forallb_forall in E. specialize (E i Hi). apply Nat.ltb_lt in E. lia.
  - intros HF. unfold particle_array. assert (forallb (fun i => i <? n) parts = true) as ->.
    { apply forallb_forall. rewrite Forall_forall in HF. intros i Hi. apply Nat.ltb_lt. auto. }
    pose proof (count_sum parts n HF) as HC. set (a := map (fun s => inject_Z (Z.of_nat (count_occ Nat.eq_dec parts s))) (seq 0 n)) in *.
    assert (La : length a = n) by (unfold a; rewrite map_length, seq_length; auto).
    eexists. split; [reflexivity|]. split; [rewrite map_length; auto|]. split.
    + intros Hne. assert (HP : (0 < inject_Z (Z.of_nat (length parts)))%Q).
      { change 0%Q with (inject_Z 0). rewrite <- Zlt_Qlt. destruct parts; [congruence|cbn; lia]. }
      destruct (Qeq_bool (sumQ a) 0) eqn:Ez; [apply Qeq_bool_iff in Ez; rewrite HC in Ez; lra|].
      split.
      * unfold sumQ at 1. rewrite sum_map. fold (sumQ a). rewrite sum_div. change (sum_over a (fun x => x)) with (sumQ a). field. rewrite HC. lra.
      * intros s Hs. rewrite nth_map0 by (rewrite La; auto). unfold a at 1 3 5. rewrite !nth_map_seq by auto. rewrite HC. fold (frequency parts s).
        split; [reflexivity|].
        assert (HN : (0 <= inject_Z (Z.of_nat (count_occ Nat.eq_dec parts s)))%Q) by (change 0%Q with (inject_Z 0); rewrite <- Zle_Qle; lia).
        split; [apply Qle_shift_div_l; [auto|]; lra|]. rewrite (count_occ_In Nat.eq_dec). split.
        -- intros H. destruct (count_occ Nat.eq_dec parts s) eqn:Ec; [|lia]. exfalso. unfold frequency in H. rewrite Ec in H.
           assert ((inject_Z (Z.of_nat 0) / inject_Z (Z.of_nat (length parts)) == 0)%Q) by (change (inject_Z (Z.of_nat 0)) with 0%Q; field; lra). lra.
        -- intros H. apply Qlt_shift_div_l; [auto|]. rewrite Qmult_0_l. change 0%Q with (inject_Z 0). rewrite <- Zlt_Qlt. lia.
    + intros ->. intros s. destruct (Nat.lt_ge_cases s n) as [Hs|Hs].
      * rewrite nth_map0 by (rewrite La; auto). unfold a at 1. rewrite nth_map_seq by auto. cbn. reflexivity.
      * rewrite nth_overflow by (rewrite map_length; lia). reflexivity.
Qed.
Print Assumptions C41_array.
(** A sampler that gives 3, then 1, then gives up. *)
Example C41_ex : let smp (x : nat) := match x with 0 => (Ok 3, 1) | 1 => (Ok 1, 2) | _ => (Err EMaxSamples, 2) end in
  fst (particle_belief (fun x => (x, S x)) 5 smp 0) = Ok [3; 1; 3; 1; 3] /\
  (exists b, particle_array 4 [3; 1; 3; 1; 3] = Ok b /\ map Qred b = [0; 2 # 5; 0; 3 # 5]%Q) /\
  fst (particle_belief (fun x => (x, S x)) 5 smp 2) = Err EMaxSamples.
Proof. split; [vm_compute; reflexivity|]. split; [eexists; split; vm_compute; reflexivity|vm_compute; reflexivity]. Qed.

(** *** C42 *)
(** For any model and any world; [cost] is any way of counting the transitions sampled. *)
Theorem C42_successor : forall X (rand : X -> nat * X) (step : Z -> nat -> X -> res (nat * Z * Q) * X) (cost : X -> nat),
  (forall x r x', rand x = (r, x') -> cost x' = cost x) ->
  (forall a s x r x', step a s x = (r, x') -> cost x' = S (cost x)) ->
  forall n parts a o x r x', length parts = n -> 0 < n -> successor rand step n parts a o x = (r, x') ->
  cost x' <= cost x + 100 * n /\
  match r with
  | Ok parts' => length parts' = n /\ forall s', In s' parts' -> exists s y q y', In s parts /\ step a s y = (Ok (s', o, q), y')
  | Err e => (e = EMaxSamples /\ cost x' = cost x + 100 * n) \/ exists s y y', In s parts /\ step a s y = (Err e, y')
  end.
Proof. intros. eapply successor_spec; eauto. Qed.
Print Assumptions C42_successor.

(** The POMDP as the model: draws come from three arbitrary streams; the world is the position in them. *)
Definition pomdp_rand (r : nat -> nat) (x : nat * nat) : nat * (nat * nat) := (r (fst x), (S (fst x), snd x)).
Definition pomdp_step (p : pomdp) (u v : nat -> Q) (a : Z) (s : nat) (x : nat * nat) : res (nat * Z * Q) * (nat * nat) :=
  (do (s', o, q) <- pomdp_sample_transition p (u (snd x)) (v (snd x)) a (Z.of_nat s); Ok (s', Z.of_nat o, q), (fst x, S (snd x))).

Lemma array_distribution p parts b : Forall (fun i => i < nS p) parts -> parts <> [] -> particle_array (nS p) parts = Ok b ->
  distribution p b /\ forall s, s < nS p -> ((0 < nth s b 0)%Q <-> In s parts).
Proof.
  intros HF Hne E. destruct (proj2 (C41_array (nS p) parts) HF) as (b' & E' & L & H & _). rewrite E in E'. assert (b' = b) as -> by congruence.
  destruct (H Hne) as [H1 H2]. split; [|intros s Hs; apply H2; auto]. split; [auto|]. split; [intros s Hs; apply H2; auto|].
  rewrite <- H1. rewrite <- L. unfold sumQ, sum_n. clear. induction b as [|x t IH] using rev_ind; [reflexivity|].
  rewrite app_length, seq_app, !sum_app. cbn [length plus seq]. rewrite !sum_cons. unfold sum_over at 2 4. cbn [fold_right map].
  rewrite (sum_ext _ _ (fun s => nth s t 0%Q)).
  2:{ intros s Hs. apply in_seq in Hs. rewrite app_nth1 by lia. reflexivity. }
  rewrite IH, app_nth2, Nat.sub_diag by lia. reflexivity.
Qed.

(** Every particle has positive probability after a and o under Bayes rule, and an impossible observation
    always ends with MaxSamplesReached. *)
Theorem C42_posterior : forall p r u v n parts b a o x out x', well_shaped p -> stochastic p ->
  (forall i, 0 <= u i < 1)%Q -> (forall i, 0 <= v i < 1)%Q -> a < nA p -> o < nO p ->
  Forall (fun i => i < nS p) parts -> length parts = n -> 0 < n -> particle_array (nS p) parts = Ok b ->
  successor (pomdp_rand r) (pomdp_step p u v) n parts (Z.of_nat a) (Z.of_nat o) x = (out, x') ->
  snd x' <= snd x + 100 * n /\
  match out with
  | Ok parts' => length parts' = n /\ exists nb, belief_update p (Z.of_nat a) (Z.of_nat o) b = Ok nb /\
      forall s', In s' parts' -> s' < nS p /\ (0 < nth s' nb 0)%Q
  | Err e => e = EMaxSamples /\ snd x' = snd x + 100 * n
  end.
Proof.
  intros p r u v n parts b a o x out x' W St Hu Hv Ha Ho HF HL Hn Eb E.
  assert (Hne : parts <> []) by (intros ->; cbn in HL; lia).
  destruct (array_distribution p parts b HF Hne Eb) as [Db Pb].
  assert (HC := C42_successor _ (pomdp_rand r) (pomdp_step p u v) snd).
  specialize (HC ltac:(unfold pomdp_rand; intros y k y' H; inversion H; reflexivity)).
  specialize (HC ltac:(unfold pomdp_step; intros a0 s y k y' H; inversion H; reflexivity) n parts (Z.of_nat a) (Z.of_nat o) x out x' HL Hn E).
  destruct HC as [HC1 HC2]. split; [auto|].
  rewrite Forall_forall in HF. pose proof St as (S1 & S2 & S3 & S4).
  destruct out as [parts'|e].
  - destruct HC2 as [L' HC2]. split; [auto|].
    assert (HP : forall s', In s' parts' -> s' < nS p /\ (0 < prob_end p b a s' o)%Q).
    { intros s' Hs'. destruct (HC2 s' Hs') as (s & y & q & y' & Is & Es). unfold pomdp_step in Es.
      destruct (C81_sampling_partial p a s W St Ha (HF s Is)) as (_ & C & _).
      destruct (pomdp_sample_transition p (u (snd y)) (v (snd y)) (Z.of_nat a) (Z.of_nat s)) as [[[s1 o1] q1]|] eqn:Et; cbn [bind] in Es; [|inversion Es].
      assert (s1 = s') as -> by congruence. assert (o1 = o) as -> by (assert (Z.of_nat o1 = Z.of_nat o) by congruence; lia).
      apply (C _ _ (Hu _) (Hv _)) in Et. destruct Et as (T1 & T2 & _ & T3 & T4). split; [auto|].
      apply Qlt_le_trans with (joint p b a s s' o).
      - unfold joint. assert (0 < nth s b 0)%Q by (apply Pb; auto). assert (0 < Tr p a s s')%Q by lra. assert (0 < Ob p a s' o)%Q by lra.
        repeat apply Qmult_lt_0_compat; auto.
      - unfold prob_end. apply (sum_n_le_mem (nS p) (fun s => joint p b a s s' o)); [|auto]. intros i Hi. apply joint_nonneg; auto. }
    assert (HO : (0 < prob_obs p b a o)%Q).
    { destruct parts' as [|s' t]; [cbn in L'; lia|]. destruct (HP s' (or_introl eq_refl)) as [H1 H2]. eapply Qlt_le_trans; [exact H2|].
      unfold prob_obs. apply (sum_n_le_mem (nS p) (fun s' => prob_end p b a s' o)); [|auto]. intros i Hi. apply prob_end_nonneg; auto. }
    destruct (C40_bayes p b a o St Db Ha Ho) as [_ B]. destruct B as (nb & E1 & _ & V); [lra|].
    exists nb. split; [auto|]. intros s' Hs'. destruct (HP s' Hs') as [H1 H2]. split; [auto|]. rewrite V by auto. apply Qlt_shift_div_l; [auto|]. lra.
  - destruct HC2 as [HC2|(s & y & y' & Is & Es)]; [auto|]. exfalso. unfold pomdp_step in Es.
    destruct (C81_sampling_partial p a s W St Ha (HF s Is)) as (C & _). destruct (C _ _ (Hu (snd y)) (Hv (snd y))) as (s1 & o1 & q1 & Et).
    rewrite Et in Es. cbn [bind] in Es. inversion Es.
Qed.
Print Assumptions C42_posterior.
Theorem C42_impossible : forall p r u v n parts b a o x, well_shaped p -> stochastic p ->
  (forall i, 0 <= u i < 1)%Q -> (forall i, 0 <= v i < 1)%Q -> a < nA p -> o < nO p ->
  Forall (fun i => i < nS p) parts -> length parts = n -> 0 < n -> particle_array (nS p) parts = Ok b ->
  (prob_obs p b a o == 0)%Q ->
  exists x', successor (pomdp_rand r) (pomdp_step p u v) n parts (Z.of_nat a) (Z.of_nat o) x = (Err EMaxSamples, x').
Proof.
  intros p r u v n parts b a o x W St Hu Hv Ha Ho HF HL Hn Eb E0.
  destruct (successor _ _ n parts (Z.of_nat a) (Z.of_nat o) x) as [out x'] eqn:E. exists x'.
  destruct (C42_posterior _ _ _ _ _ _ _ _ _ _ _ _ W St Hu Hv Ha Ho HF HL Hn Eb E) as [_ H]. destruct out as [parts'|e].
  - exfalso. destruct H as (_ & nb & Eu & _). assert (Hne : parts <> []) by (intros ->; cbn in HL; lia).
    destruct (array_distribution p parts b HF Hne Eb) as [Db _]. rewrite (proj1 (C40_bayes p b a o St Db Ha Ho) E0) in Eu. discriminate.
  - destruct H as [-> _]. reflexivity.
Qed.
Print Assumptions C42_impossible.
(** Conversely every state of positive posterior probability can fill the successor. *)
Theorem C42_reachable : forall p n parts b a o s', well_shaped p -> stochastic p -> a < nA p -> o < nO p ->
  Forall (fun i => i < nS p) parts -> length parts = n -> 0 < n -> particle_array (nS p) parts = Ok b ->
  s' < nS p -> (0 < prob_end p b a s' o)%Q ->
  exists k u v, (0 <= u < 1)%Q /\ (0 <= v < 1)%Q /\ forall x,
    fst (successor (pomdp_rand (fun _ => k)) (pomdp_step p (fun _ => u) (fun _ => v)) n parts (Z.of_nat a) (Z.of_nat o) x) = Ok (repeat s' n).
Proof.
  intros p n parts b a o s' W St Ha Ho HF HL Hn Eb Hs' Hp.
  assert (Hne : parts <> []) by (intros ->; cbn in HL; lia).
  destruct (array_distribution p parts b HF Hne Eb) as [Db Pb].
  assert (HJ : exists s, s < nS p /\ (0 < joint p b a s s' o)%Q).
  { unfold prob_end, sum_n in Hp. clear - Hp.
    assert (G : forall l, (forall s, In s l -> s < nS p) -> (0 < sum_over l (fun s => joint p b a s s' o))%Q -> exists s, s < nS p /\ (0 < joint p b a s s' o)%Q).
    { induction l as [|s t IH]; intros Hl H; [cbn in H; lra|]. rewrite sum_cons in H. destruct (Qlt_le_dec 0 (joint p b a s s' o)); [exists s; split; [apply Hl; simpl; auto|auto]|].
      apply IH; [intros; apply Hl; simpl; auto|]. lra. }
    apply (G (seq 0 (nS p))); [|auto]. intros s Hs. apply in_seq in Hs. lia. }
  destruct HJ as (s & Hs & HJ). unfold joint in HJ. pose proof St as (S1 & S2 & S3 & S4). pose proof Db as (_ & B2 & _).
  specialize (S1 a s s' Ha Hs Hs'). specialize (S3 a s' o Ha Hs' Ho). specialize (B2 s Hs).
  assert (HB : (0 < nth s b 0)%Q). { destruct (Qlt_le_dec 0 (nth s b 0%Q)); auto. assert (Z : (nth s b 0 == 0)%Q) by lra. rewrite Z in HJ. lra. }
  assert (HP : (0 < step_prob p a s s' o)%Q).
  { unfold step_prob. destruct (Qlt_le_dec 0 (Tr p a s s' * Ob p a s' o)); auto. assert (Z : (Tr p a s s' * Ob p a s' o == 0)%Q).
    { apply Qle_antisym; [auto|]. apply Qmult_le_0_compat; auto. } rewrite <- Qmult_assoc, Z in HJ. lra. }
  destruct (C81_sampling_partial p a s W St Ha Hs) as (_ & _ & C). destruct (C s' o Hs' Ho HP) as (u & v & Hu & Hv & q & Eq).
  apply Pb in HB; [|auto]. apply (In_nth _ _ 0) in HB. destruct HB as (k & Hk & Ek).
  exists k, u, v. split; [auto|]. split; [auto|]. intros x. unfold successor, particle_belief, populate.
  match goal with |- context [fill n (fun _ => ?f) [] _] => set (smp := f) end.
  assert (HS : forall m y, m < 100 * n -> smp (m, y) = (Ok s', (S m, (S (fst y), S (snd y))))).
  { intros m y Hm. unfold smp. cbn [fst snd]. cbn [successor_call]. destruct (Nat.ltb_spec (100 * n) (S m)); [lia|].
    unfold particle_sample, choice, pomdp_rand. cbn [fst snd]. destruct n as [|n']; [lia|]. rewrite Nat.mod_small by lia.
    rewrite (nth_error_nth' _ 0) by lia. rewrite Ek. unfold pomdp_step. cbn [fst snd]. rewrite Eq. cbn [bind]. rewrite Z.eqb_refl. reflexivity. }
  assert (HFl : forall j m y l, m + j <= 100 * n -> exists z, fill j (fun _ => smp) l (m, y) = (l ++ repeat s' j, Ok tt, z)).
  { induction j as [|j IH]; intros m y l Hm; cbn [fill]; [exists (m, y); rewrite app_nil_r; reflexivity|].
    rewrite HS by lia. destruct (IH (S m) (S (fst y), S (snd y)) (l ++ [s'])) as [z Ez]; [lia|]. exists z. rewrite Ez, <- app_assoc. reflexivity. }
  destruct (HFl n 0 x [] ltac:(lia)) as [z Ez]. rewrite Ez. reflexivity.
Qed.
Print Assumptions C42_reachable.
Example C42_ex : let r (i : nat) := i in let u (i : nat) := (Z.of_nat (i mod 3) # 3)%Q in let v (i : nat) := (Z.of_nat (i mod 7) # 7)%Q in
  fst (successor (pomdp_rand r) (pomdp_step tiger u v) 4 [0; 1; 1; 0] 1 1 (0, 0)) = Ok [0; 1; 0; 1].
Proof. vm_compute. reflexivity. Qed.

(** *** C82: exact beliefs. *)
(** The constructor accepts exactly the vectors that sum to one up to the tolerance, and the successor of a
    belief is accepted whenever the update is possible, for any tables at all. *)
Theorem C82_array_belief : forall l, (about_one (sumQ l) -> array_belief l = Ok l) /\ (~ about_one (sumQ l) -> array_belief l = Err EValue).
Proof.
  intros l. unfold array_belief. pose proof (assert_normal1 (vector l) (length l) eq_refl) as H.
  assert (HS : (sum_n (length l) (fun s => at_ (vector l) [s]) == sumQ l)%Q).
  { cbn [vector at_]. unfold sumQ, sum_n. clear. induction l as [|x t IH] using rev_ind; [reflexivity|].
    rewrite app_length, seq_app, !sum_app. cbn [length plus seq]. rewrite !sum_cons. unfold sum_over at 2 4. cbn [fold_right map].
    rewrite (sum_ext _ _ (fun s => nth s t 0%Q)).
    2:{ intros s Hs. apply in_seq in Hs. rewrite app_nth1 by lia. reflexivity. }
    rewrite IH, app_nth2, Nat.sub_diag by lia. reflexivity. }
  split; intros HA.
  - rewrite (proj2 H); [reflexivity|]. eapply about_one_eq; [symmetry; exact HS|exact HA].
  - destruct (assert_normal_ok (vector l)) as [E|E]; [|rewrite E; reflexivity]. exfalso. apply HA. eapply about_one_eq; [exact HS|]. apply H. exact E.
Qed.
Print Assumptions C82_array_belief.
Theorem C82_successor : forall p a o b, array_successor p a o b = belief_update p a o b.
Proof.
  intros p a o b. unfold array_successor. destruct (belief_update p a o b) as [nb|e] eqn:E; [|reflexivity]. cbn [bind]. apply C82_array_belief.
  unfold belief_update in E. destruct (axis _ a); [|discriminate]. cbn [bind] in E. destruct (negb _); [discriminate|]. destruct (axis _ o); [|discriminate]. cbn [bind] in E.
  match type of E with context [Qeq_bool (sumQ ?x) 0] => set (w := x) in E end. destruct (Qeq_bool (sumQ w) 0) eqn:Ez; [discriminate|]. inversion E; subst.
  assert (HN : ~ (sumQ w == 0)%Q) by (intros H; apply Qeq_bool_iff in H; congruence).
  assert (HS : (sumQ (map (fun x => x / sumQ w)%Q w) == 1)%Q) by (unfold sumQ at 1; rewrite sum_map, sum_div; change (sum_over w (fun x => x)) with (sumQ w); field; exact HN).
  eapply about_one_eq; [symmetry; exact HS|]. unfold about_one. vm_compute. discriminate.
Qed.
Print Assumptions C82_successor.
Example C82_ex : array_belief [1 # 4; 3 # 4]%Q = Ok [1 # 4; 3 # 4]%Q /\ array_belief [1 # 4; 1 # 4]%Q = Err EValue /\
  exists nb, array_successor tiger 0 1 [1 # 4; 3 # 4]%Q = Ok nb /\ map Qred nb = [1 # 18; 17 # 18]%Q.
Proof. split; [vm_compute; reflexivity|]. split; [vm_compute; reflexivity|]. eexists; split; [vm_compute; reflexivity|vm_compute; reflexivity]. Qed.
