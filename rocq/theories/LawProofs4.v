(** A POMDP as the simulator of a particle belief. *)
From Verif Require Import QBase PyBase PyBaseFacts PomdpModel PomdpSpec PomdpProofs PomdpProofs2 BeliefModel BeliefSpec BeliefProofs Props_Pomdp Props_Belief LawSpec LawProofs LawProofs2 LawProofs3.
From Coq Require Import Lia Lqa Field.
Local Open Scope list_scope.
Local Open Scope nat_scope.

Lemma mean_fst {W V} (sp : space W) (sp' : space V) f : is_space sp' -> (mean (pairs sp sp') (fun wv => f (fst wv)) == mean sp f)%Q.
Proof. intros H. rewrite mean_pairs. apply mean_ext. intros q w _. cbn [fst]. apply mean_const. auto. Qed.
Lemma mean_snd {W V} (sp : space W) (sp' : space V) f : is_space sp -> (mean (pairs sp sp') (fun wv => f (snd wv)) == mean sp' f)%Q.
Proof. intros H. rewrite mean_pairs. cbn [snd]. apply mean_const. auto. Qed.
Lemma fair_fst {W V} (sp : space W) (sp' : space V) idx n : is_space sp' -> fair sp idx n -> fair (pairs sp sp') (fun wv => idx (fst wv)) n.
Proof. intros H F j k Hj Hk. rewrite <- (F j k Hj Hk). unfold prob. apply (mean_fst sp sp' (fun w => if Nat.eqb (idx w mod j) k then 1%Q else 0%Q)). auto. Qed.
Lemma pairs_In {W V} (sp : space W) (sp' : space V) q w : In (q, w) (pairs sp sp') -> exists q1 q2, In (q1, fst w) sp /\ In (q2, snd w) sp'.
Proof.
  intros H. apply in_flat_map in H. destruct H as ([q1 w1] & I1 & H). apply in_map_iff in H. destruct H as ([q2 w2] & E & I2). cbn in E.
  assert (w = (w1, w2)) as -> by congruence. eauto.
Qed.

Lemma sum_frequency parts n f : Forall (fun i => i < n) parts -> (sum_over parts f / inject_Z (Z.of_nat (length parts)) == sum_n n (fun s => frequency parts s * f s))%Q.
Proof.
  intros HF. transitivity (sum_n n (fun s => inject_Z (Z.of_nat (count_occ Nat.eq_dec parts s)) * f s) / inject_Z (Z.of_nat (length parts)))%Q.
  - apply Qmult_comp; [|reflexivity]. induction HF as [|x t Hx HF IH].
    + symmetry. apply sum_zero. intros. change (inject_Z (Z.of_nat (count_occ Nat.eq_dec [] x))) with 0%Q. ring.
    + rewrite sum_cons, IH. unfold sum_n. transitivity (sum_over (seq 0 n) (fun s => (if Nat.eqb x s then 1 else 0) * f s) + sum_over (seq 0 n) (fun s => inject_Z (Z.of_nat (count_occ Nat.eq_dec t s)) * f s))%Q.
      * apply Qplus_comp; [|reflexivity]. symmetry. rewrite (sum_single _ _ x).
        -- rewrite Nat.eqb_refl. ring.
        -- apply seq_NoDup.
        -- apply in_seq. lia.
        -- intros y _ Ny. destruct (Nat.eqb_spec x y); [congruence|ring].
      * rewrite <- sum_plus. apply sum_ext. intros y _. cbn [count_occ]. destruct (Nat.eq_dec x y), (Nat.eqb_spec x y); try congruence.
        -- rewrite Nat2Z.inj_succ, <- Z.add_1_r, inject_Z_plus. change (inject_Z 1) with 1%Q. ring.
        -- ring.
  - unfold sum_n. rewrite <- sum_div. apply sum_ext. intros s _. unfold frequency, Qdiv. ring.
Qed.

Section Pomdp.
  Variable p : pomdp.
  Hypothesis Ws : well_shaped p.
  Hypothesis St : stochastic p.
  Context {I U V : Type}.
  Variables (spi : space I) (spu : space U) (spv : space V) (idx : I -> nat) (u : U -> Q) (v : V -> Q).
  Hypothesis Si : is_space spi.
  Hypothesis Su : is_space spu.
  Hypothesis Sv : is_space spv.
  Hypothesis Uu : uniform spu u (model_marks p).
  Hypothesis Uv : uniform spv v (model_marks p).
  Notation sp := (pairs spi (pairs spu spv)).
  Notation out := (pomdp_out p (fun w : I * (U * V) => u (fst (snd w))) (fun w => v (snd (snd w)))).

  Lemma out_law a s s2 o : a < nA p -> s < nS p -> s2 < nS p -> o < nO p ->
    (prob sp (fun w => goes s2 (Z.of_nat o) (out (Z.of_nat a) s w)) == step_prob p a s s2 o)%Q.
  Proof.
    intros Ha Hs Hs2 Ho. set (g := fun r : res (nat * nat * Q) => if goes s2 (Z.of_nat o) (do (s', o', r) <- r; Ok (s', Z.of_nat o', r)) then 1%Q else 0%Q).
    transitivity (mean sp (fun w => (fun y => g (pomdp_sample_transition p (u (fst y)) (v (snd y)) (Z.of_nat a) (Z.of_nat s))) (snd w))); [reflexivity|].
    transitivity (mean (pairs spu spv) (fun y => g (pomdp_sample_transition p (u (fst y)) (v (snd y)) (Z.of_nat a) (Z.of_nat s)))); [apply (mean_snd spi (pairs spu spv) (fun y => g (pomdp_sample_transition p (u (fst y)) (v (snd y)) (Z.of_nat a) (Z.of_nat s)))); auto|].
    rewrite (transition_law p spu spv u v a s Ws St Ha Hs Uu Uv g). unfold sum_n.
    rewrite (sum_single _ _ s2).
    - rewrite (sum_single _ _ o).
      + unfold g. cbn [bind goes]. rewrite Nat.eqb_refl, Z.eqb_refl. cbn [andb]. ring.
      + apply seq_NoDup.
      + apply in_seq. lia.
      + intros o' _ Ne. unfold g. cbn [bind goes]. destruct (Z.eqb_spec (Z.of_nat o') (Z.of_nat o)); [lia|]. rewrite Bool.andb_false_r. ring.
    - apply seq_NoDup.
    - apply in_seq. lia.
    - intros s' _ Ne. apply sum_zero. intros o' _. unfold g. cbn [bind goes]. destruct (Nat.eqb_spec s' s2); [congruence|]. cbn [andb]. ring.
  Qed.
  Lemma out_simulates parts a : a < nA p -> Forall (fun i => i < nS p) parts -> simulates sp out (nS p) parts (Z.of_nat a).
  Proof.
    intros Ha HF q w s Iq Is. rewrite Forall_forall in HF. specialize (HF s Is). destruct (C81_sampling_partial p a s Ws St Ha HF) as (C1 & C2 & _).
    destruct (pairs_In _ _ _ _ Iq) as (q1 & q2 & _ & I2). destruct (pairs_In _ _ _ _ I2) as (q3 & q4 & I3 & I4).
    pose proof (proj1 Uu _ _ I3) as B1. pose proof (proj1 Uv _ _ I4) as B2. destruct (C1 _ _ B1 B2) as (s' & o & r & E). exists s', (Z.of_nat o), r.
    unfold pomdp_out. rewrite E. split; [reflexivity|]. apply C2 in E; tauto.
  Qed.
  Lemma chance_end parts b a o s2 : a < nA p -> o < nO p -> s2 < nS p -> Forall (fun i => i < nS p) parts -> parts <> [] -> particle_array (nS p) parts = Ok b ->
    (chance sp out parts (Z.of_nat a) (Z.of_nat o) s2 == prob_end p b a s2 o)%Q.
  Proof.
    intros Ha Ho Hs2 HF Hne Eb. unfold chance. destruct (proj2 (C41_array (nS p) parts) HF) as (b' & E' & Lb & Hb & _). assert (b' = b) as -> by congruence. destruct (Hb Hne) as [_ Hb2].
    rewrite (sum_ext parts _ (fun s => step_prob p a s s2 o)).
    2:{ intros s Is. rewrite Forall_forall in HF. apply out_law; auto. }
    rewrite (sum_frequency parts (nS p)) by auto. unfold prob_end. apply sum_n_ext. intros s Hs. destruct (Hb2 s Hs) as [E _]. unfold joint. rewrite E. unfold step_prob. ring.
  Qed.
  Lemma chance_obs_obs parts b a o : a < nA p -> o < nO p -> Forall (fun i => i < nS p) parts -> parts <> [] -> particle_array (nS p) parts = Ok b ->
    (chance_obs sp out (nS p) parts (Z.of_nat a) (Z.of_nat o) == prob_obs p b a o)%Q.
  Proof. intros Ha Ho HF Hne Eb. apply sum_n_ext. intros s Hs. apply chance_end; auto. Qed.
End Pomdp.
Lemma pow_comp q r n : (q == r)%Q -> (pow q n == pow r n)%Q.
Proof. intros E. induction n as [|n IH]; [reflexivity|]. cbn [pow]. apply Qmult_comp; auto. Qed.
Lemma pow_nonneg q n : (0 <= q)%Q -> (0 <= pow q n)%Q.
Proof. intros H. induction n as [|n IH]; cbn [pow]; [lra|]. apply Qmult_le_0_compat; auto. Qed.
Lemma pow_le1 q n : (0 <= q <= 1)%Q -> (pow q n <= 1)%Q.
Proof. intros H. induction n as [|n IH]; cbn [pow]; [lra|]. pose proof (pow_nonneg q n (proj1 H)). nra. Qed.
Lemma pow_lt q n : (0 <= q)%Q -> (q < 1)%Q -> 0 < n -> (pow q n < 1)%Q.
Proof. intros H H1 Hn. destruct n as [|n]; [lia|]. cbn [pow]. pose proof (pow_nonneg q n H). pose proof (pow_le1 q n ltac:(lra)). nra. Qed.

Section Outcomes.
  Context {W : Type}.
  Variables (sp : space W) (idx : W -> nat) (out : Z -> nat -> W -> res (nat * Z * Q)) (ns : nat) (parts : list nat) (a o : Z) (N : nat).
  Hypothesis Sp : is_space sp.
  Hypothesis Hne : parts <> [].
  Hypothesis Si : simulates sp out ns parts a.
  Notation n := (length parts).
  Notation max := (100 * n).
  Lemma n_pos : 0 < n.
  Proof. destruct parts; [congruence|cbn; lia]. Qed.
  Definition supported (x : list W) : Prop := forall w, In w x -> exists q, In (q, w) sp.
  Lemma call_ok : forall fuel cnt x r cnt' x', max - cnt < fuel -> cnt <= max -> 2 * (max - cnt) <= length x -> supported x ->
    successor_call (next_index idx) (next_step out) fuel n parts a o max cnt x = (r, cnt', x') ->
    match r with Ok s => s < ns /\ cnt' <= max /\ 2 * (max - cnt') <= length x' /\ supported x' | Err e => e = EMaxSamples end.
  Proof.
    pose proof n_pos as P. induction fuel as [|fuel IH]; intros cnt x r cnt' x' Hf Hc Hl Hs E; [lia|]. cbn [successor_call] in E.
    destruct (Nat.ltb_spec max (S cnt)) as [X|X]; [inversion E; subst; reflexivity|].
    destruct x as [|w [|w2 t]]; [cbn in Hl; lia|cbn in Hl; lia|].
    unfold particle_sample, choice in E. cbn [next_index] in E. destruct n as [|n'] eqn:En; [lia|]. rewrite <- En in *.
    pose proof (Nat.mod_upper_bound (idx w) n ltac:(lia)) as B. rewrite (nth_error_nth' parts 0 B) in E. cbn [next_step] in E.
    destruct (Hs w2 (or_intror (or_introl eq_refl))) as [q Iq]. destruct (Si q w2 (nth (idx w mod n) parts 0) Iq (nth_In _ _ B)) as (s2 & o2 & r2 & Eo & Hs2). rewrite Eo in E.
    assert (St : supported t) by (intros y Iy; apply Hs; cbn; auto). cbn [length] in Hl.
    destruct (Z.eqb o2 o).
    - inversion E; subst. split; [auto|]. split; [lia|]. split; [lia|auto].
    - eapply (IH (S cnt) t r cnt' x'); auto; lia.
  Qed.
  Lemma successor_both q x : 201 * n <= N -> In (q, x) (tapes sp N) -> match fst (successor (next_index idx) (next_step out) n parts a o x) with Ok l => length l = n /\ Forall (fun i => i < ns) l | Err e => e = EMaxSamples end.
  Proof.
    intros HN Ix. pose proof n_pos as P. destruct (tapes_length sp N q x Ix) as [Lx Sx]. unfold successor.
    match goal with |- context [particle_belief ?r n ?s (0, x)] => set (rd := r); set (smp := s); destruct (particle_belief rd n smp (0, x)) as [r1 nx] eqn:Eb end. cbn [fst].
    pose proof (C41_full _ _ _ _ _ _ _ Eb) as C.
    assert (K : forall y l z, calls smp y l z -> fst y <= max /\ 2 * (max - fst y) <= length (snd y) /\ supported (snd y) ->
      Forall (fun i => i < ns) l /\ fst z <= max /\ 2 * (max - fst z) <= length (snd z) /\ supported (snd z)).
    { intros y l z CC. induction CC as [y|[cy xy] s [c2 x2] l z E1 CC IH]; intros (A1 & A2 & A3); [auto|]. unfold smp in E1. cbn [fst snd] in *.
      destruct (successor_call (next_index idx) (next_step out) (S max) n parts a o max cy xy) as [[r2 c3] x3] eqn:Ec. inversion E1; subst.
      apply call_ok in Ec; auto; [|lia]. destruct Ec as (B0 & B1 & B2 & B3). destruct (IH (conj B1 (conj B2 B3))) as (D1 & D2). split; [constructor; auto|auto]. }
    assert (I0 : fst (0, x) <= max /\ 2 * (max - fst (0, x)) <= length (snd (0, x)) /\ supported (snd (0, x))) by (cbn [fst snd]; split; [lia|]; split; [lia|exact Sx]).
    destruct r1 as [l|e].
    - destruct C as (C1 & found & rest & y & -> & I & CC & _). split; [auto|]. destruct (K _ _ _ CC I0) as [F _]. rewrite Forall_forall in *. intros i Ii. apply F. apply in_app_or in Ii. destruct Ii; auto.
    - destruct C as (found & [cy y] & CC & _ & E1 & _). destruct (K _ _ _ CC I0) as (_ & A1 & A2 & A3). unfold smp in E1. cbn [fst snd] in *.
      destruct (successor_call (next_index idx) (next_step out) (S max) n parts a o max cy y) as [[r2 c3] x3] eqn:Ec. inversion E1; subst.
      apply call_ok in Ec; auto; lia.
  Qed.
  Lemma chance_obs_bounds : (0 <= chance_obs sp out ns parts a o <= 1)%Q.
  Proof.
    pose proof (inject_pos n n_pos) as P.
    assert (E : (chance_obs sp out ns parts a o == sum_over parts (fun s => prob sp (fun w => match out a s w with Ok (_, o', _) => Z.eqb o' o | Err _ => false end)) / inject_Z (Z.of_nat n))%Q).
    { unfold chance_obs, chance, sum_n. rewrite sum_div. apply Qmult_comp; [|reflexivity]. rewrite sum_swap. apply sum_ext. intros s Is. unfold prob. rewrite <- (mean_sum sp (seq 0 ns)).
      apply mean_ext. intros q w Iw. destruct (Si q w s Iw Is) as (s2 & o2 & r & Eo & Hs2). rewrite Eo. rewrite (sum_single _ _ s2).
      - cbn [goes]. rewrite Nat.eqb_refl. reflexivity.
      - apply seq_NoDup.
      - apply in_seq. lia.
      - intros y _ Ny. cbn [goes]. destruct (Nat.eqb_spec s2 y); [congruence|reflexivity]. }
    rewrite E. clear E. set (f := fun s => prob sp (fun w => match out a s w with Ok (_, o', _) => Z.eqb o' o | Err _ => false end)).
    assert (B : forall s, (0 <= f s <= 1)%Q) by (intros s; apply prob_bounds; auto).
    assert (C : forall l, (0 <= sum_over l f <= inject_Z (Z.of_nat (length l)))%Q).
    { induction l as [|y t IH]; [split; apply Qle_refl|]. rewrite sum_cons. cbn [length]. rewrite Nat2Z.inj_succ, <- Z.add_1_r, inject_Z_plus. change (inject_Z 1) with 1%Q. specialize (B y). lra. }
    specialize (C parts). split; [apply Qle_shift_div_l; [auto|]; rewrite Qmult_0_l; apply C|apply Qle_shift_div_r; [auto|]; rewrite Qmult_1_l; apply C].
  Qed.
End Outcomes.
