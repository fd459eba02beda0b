(** Expected values of rollouts. *)
From Verif Require Import QBase PyBase PyBaseFacts PomdpModel PomdpSpec PomdpProofs PomdpProofs2 BeliefModel BeliefSpec BeliefProofs EvalModel PomcpModel Props_Pomdp Props_Belief LawSpec LawProofs LawProofs2 LawProofs3 LawProofs4 RolloutSpec.
From Coq Require Import Lia Lqa Field.
Local Open Scope list_scope.
Local Open Scope nat_scope.

Section Rollout.
  Variable p : pomdp.
  Hypothesis Ws : well_shaped p.
  Hypothesis St : stochastic p.
  Hypothesis Na : 0 < nA p.
  Context {I U V B : Type}.
  Variables (spi : space I) (spu : space U) (spv : space V) (idx : I -> nat) (u : U -> Q) (v : V -> Q).
  Hypothesis Si : is_space spi.
  Hypothesis Su : is_space spu.
  Hypothesis Sv : is_space spv.
  Hypothesis Fi : fair spi idx (nA p).
  Hypothesis Uu : uniform spu u (model_marks p).
  Hypothesis Uv : uniform spv v (model_marks p).
  Notation W := (I * (U * V))%type.
  Notation sp := (pairs spi (pairs spu spv)).
  Notation ix := (fun w : W => idx (fst w)).
  Notation u' := (fun w : W => u (fst (snd w))).
  Notation v' := (fun w : W => v (snd (snd w))).
  Variables (start : list W -> res B * list W) (sample : B -> list W -> res nat * list W) (succ : B -> nat -> nat -> list W -> res B * list W).
  Variables (horizon : Z) (exploration : Q) (relative : bool) (bonus : nat -> nat -> Q) (rollout_it : nat) (alpha : Q).
  Notation P := (tape_search p ix u' v' start sample succ horizon exploration relative bonus rollout_it alpha).
  Notation Qn k := (inject_Z (Z.of_nat k)).

  Lemma step_total a s : a < nA p -> s < nS p -> (sum_n (nS p) (fun s' => sum_n (nO p) (fun o => step_prob p a s s' o)) == 1)%Q.
  Proof.
    intros Ha Hs. destruct St as (_ & ST & _ & SO). rewrite <- (ST a s Ha Hs). apply sum_n_ext. intros s' Hs'. unfold step_prob, sum_n. rewrite sum_scale.
    change (sum_over (seq 0 (nO p)) (fun o => Ob p a s' o)) with (sum_n (nO p) (Ob p a s')). rewrite (SO a s' Ha Hs'). ring.
  Qed.
  Lemma law_transition a s (g : res (nat * nat * Q) -> Q) : a < nA p -> s < nS p ->
    (mean sp (fun w => g (pomdp_sample_transition p (u' w) (v' w) (Z.of_nat a) (Z.of_nat s))) ==
     sum_n (nS p) (fun s' => sum_n (nO p) (fun o => step_prob p a s s' o * g (Ok (s', o, at_ (p_R p) [a; s; s'; o])))))%Q.
  Proof.
    intros Ha Hs. transitivity (mean (pairs spu spv) (fun y => g (pomdp_sample_transition p (u (fst y)) (v (snd y)) (Z.of_nat a) (Z.of_nat s)))).
    - apply (mean_snd spi (pairs spu spv) (fun y => g (pomdp_sample_transition p (u (fst y)) (v (snd y)) (Z.of_nat a) (Z.of_nat s)))). auto.
    - apply transition_law; auto.
  Qed.
  Lemma law_action (g : nat -> Q) : (mean sp (fun w => g (ix w mod nA p)) == sum_n (nA p) (fun a => 1 / Qn (nA p) * g a))%Q.
  Proof.
    transitivity (mean spi (fun i => g (idx i mod nA p))); [apply (mean_fst spi (pairs spu spv) (fun i => g (idx i mod nA p))); apply pairs_space; auto|].
    rewrite (mean_index spi (fun i => idx i mod nA p) g (nA p)) by (intros; apply Nat.mod_upper_bound; lia).
    apply sum_n_ext. intros k Hk. rewrite (Fi (nA p) k) by lia. reflexivity.
  Qed.
  (** Affine functions of a total mass of one *)
  Lemma step_affine a s (A C : Q) (f : nat -> nat -> Q) : a < nA p -> s < nS p ->
    (sum_n (nS p) (fun s' => sum_n (nO p) (fun o => step_prob p a s s' o * (A * f s' o + C))) ==
     A * sum_n (nS p) (fun s' => sum_n (nO p) (fun o => step_prob p a s s' o * f s' o)) + C)%Q.
  Proof.
    intros Ha Hs. transitivity (A * sum_n (nS p) (fun s' => sum_n (nO p) (fun o => step_prob p a s s' o * f s' o)) + C * sum_n (nS p) (fun s' => sum_n (nO p) (fun o => step_prob p a s s' o)))%Q.
    - unfold sum_n. rewrite <- !sum_scale, <- sum_plus. apply sum_ext. intros s' _. rewrite <- !sum_scale, <- sum_plus. apply sum_ext. intros o _. ring.
    - rewrite step_total by auto. ring.
  Qed.
  Lemma action_affine (A C : Q) (f : nat -> Q) : (sum_n (nA p) (fun a => 1 / Qn (nA p) * (A * f a + C)) == A * sum_n (nA p) (fun a => 1 / Qn (nA p) * f a) + C)%Q.
  Proof.
    transitivity (A * sum_n (nA p) (fun a => 1 / Qn (nA p) * f a) + sum_n (nA p) (fun _ => 1 / Qn (nA p) * C))%Q.
    - unfold sum_n. rewrite <- sum_scale, <- sum_plus. apply sum_ext. intros; ring.
    - apply Qplus_comp; [reflexivity|]. rewrite <- (law_action (fun _ => C)). apply mean_const. apply pairs_space; [auto|apply pairs_space; auto].
  Qed.

  Lemma choice_tape w t : choice (s_rand P) (n_actions P) (w :: t) = (Ok (ix w mod nA p), t).
  Proof. change (n_actions P) with (nA p). unfold choice. cbn [s_rand tape_search next_index]. destruct (nA p); [lia|reflexivity]. Qed.
  Lemma one_rollout_law : forall n fuel s gamma full M (K : res Q -> list W -> Q) A C, n <= fuel -> s < nS p ->
    (forall x, (mean (tapes sp M) (fun y => K (Ok x) y) == A * x + C)%Q) ->
    (mean (tapes sp (2 * n + M)) (fun x => let r := one_rollout P fuel s (nt_init (Z.of_nat n)) gamma full x in K (fst r) (snd r)) ==
     A * (full + gamma * random_value p n s) + C)%Q.
  Proof.
    induction n as [|n IH]; intros fuel s gamma full M K A C Hf Hs HK.
    - transitivity (mean (tapes sp M) (fun y => K (Ok full) y)); [destruct fuel; reflexivity|]. rewrite HK. cbn [random_value]. ring.
    - destruct fuel as [|fuel]; [lia|]. replace (2 * S n + M) with (S (S (2 * n + M))) by lia. rewrite mean_tapes.
      transitivity (mean sp (fun w => (fun a => (A * (full + gamma * sum_n (nS p) (fun s' => sum_n (nO p) (fun o => step_prob p a s s' o * (at_ (p_R p) [a; s; s'; o] + p_discount p * random_value p n s')))) + C)%Q) (ix w mod nA p))).
      + apply mean_ext. intros q w _. rewrite mean_tapes. set (a := ix w mod nA p). assert (Ha : a < nA p) by (apply Nat.mod_upper_bound; lia).
        set (g := fun t : res (nat * nat * Q) => mean (tapes sp (2 * n + M)) (fun x => match t with Err e => K (Err e) x | Ok (s', o, r) => let y := one_rollout P fuel s' (nt_init (Z.of_nat n)) (gamma * p_discount p) (full + gamma * r) x in K (fst y) (snd y) end)).
        transitivity (mean sp (fun w2 => g (pomdp_sample_transition p (u' w2) (v' w2) (Z.of_nat a) (Z.of_nat s)))).
        * apply mean_ext. intros q2 w2 _. unfold g. apply mean_ext. intros q3 t _. cbn [one_rollout].
          change (s_reached P (nt_init (Z.of_nat (S n)))) with (nt_reached (nt_init (Z.of_nat (S n)))). assert (nt_reached (nt_init (Z.of_nat (S n))) = false) as -> by (unfold nt_reached, nt_init; cbn [nt_n]; apply Z.leb_gt; lia).
          rewrite choice_tape. fold a.
          cbn [s_transition tape_search tape_transition]. destruct (pomdp_sample_transition p (u (fst (snd w2))) (v (snd (snd w2))) (Z.of_nat a) (Z.of_nat s)) as [[[s' o] r]|e]; [|reflexivity].
          cbn [s_decrement tape_search s_discount]. assert (nt_decrement (nt_init (Z.of_nat (S n))) = nt_init (Z.of_nat n)) as -> by (unfold nt_decrement, nt_init; cbn [nt_n]; f_equal; lia).
          reflexivity.
        * rewrite (law_transition a s g Ha Hs).
          transitivity (sum_n (nS p) (fun s' => sum_n (nO p) (fun o => step_prob p a s s' o * (A * gamma * (at_ (p_R p) [a; s; s'; o] + p_discount p * random_value p n s') + (A * full + C)))))%Q.
          -- apply sum_n_ext. intros s' Hs'. apply sum_n_ext. intros o _. apply Qmult_comp; [reflexivity|]. unfold g.
             rewrite (IH fuel s' (gamma * p_discount p)%Q (full + gamma * at_ (p_R p) [a; s; s'; o])%Q M K A C ltac:(lia) Hs' HK). ring.
          -- rewrite (step_affine a s (A * gamma) (A * full + C) (fun s' o => at_ (p_R p) [a; s; s'; o] + p_discount p * random_value p n s')%Q Ha Hs). ring.
      + rewrite (law_action (fun a => A * (full + gamma * sum_n (nS p) (fun s' => sum_n (nO p) (fun o => step_prob p a s s' o * (at_ (p_R p) [a; s; s'; o] + p_discount p * random_value p n s')))) + C)%Q).
        transitivity (sum_n (nA p) (fun a => 1 / Qn (nA p) * (A * gamma * sum_n (nS p) (fun s' => sum_n (nO p) (fun o => step_prob p a s s' o * (at_ (p_R p) [a; s; s'; o] + p_discount p * random_value p n s'))) + (A * full + C))))%Q.
        * apply sum_n_ext. intros a _. ring.
        * rewrite (action_affine (A * gamma) (A * full + C) (fun a => sum_n (nS p) (fun s' => sum_n (nO p) (fun o => step_prob p a s s' o * (at_ (p_R p) [a; s; s'; o] + p_discount p * random_value p n s'))))%Q).
          cbn [random_value]. unfold step_prob. ring.
  Qed.

  (** The law of the states drawn from a belief *)
  Variables (b : B) (pick : W -> res nat) (beta : nat -> Q).
  Hypothesis Pick : forall w t, sample b (w :: t) = (pick w, t).
  Hypothesis Law : forall g : res nat -> Q, (mean sp (fun w => g (pick w)) == sum_n (nS p) (fun s => beta s * g (Ok s)))%Q.
  Lemma beta_total : (sum_n (nS p) beta == 1)%Q.
  Proof.
    transitivity (mean sp (fun w => (fun _ : res nat => 1%Q) (pick w))).
    - rewrite (Law (fun _ => 1%Q)). apply sum_n_ext. intros. ring.
    - apply mean_const. apply pairs_space; [auto|apply pairs_space; auto].
  Qed.
  Lemma beta_affine (A C : Q) (f : nat -> Q) : (sum_n (nS p) (fun s => beta s * (A * f s + C)) == A * sum_n (nS p) (fun s => beta s * f s) + C)%Q.
  Proof.
    transitivity (A * sum_n (nS p) (fun s => beta s * f s) + C * sum_n (nS p) beta)%Q.
    - unfold sum_n. rewrite <- !sum_scale, <- sum_plus. apply sum_ext. intros; ring.
    - rewrite beta_total. ring.
  Qed.
  Lemma rollouts_law n fuel : n <= fuel -> forall k returns M (K : res Q -> list W -> Q) A C,
    (forall x, (mean (tapes sp M) (fun y => K (Ok x) y) == A * x + C)%Q) ->
    (mean (tapes sp (k * S (2 * n) + M)) (fun x => let r := rollouts P k fuel b (nt_init (Z.of_nat n)) returns x in K (fst r) (snd r)) ==
     A * (returns + Qn k * random_from p n beta) + C)%Q.
  Proof.
    intros Hf. induction k as [|k IH]; intros returns M K A C HK.
    - cbn [rollouts fst snd]. change (0 * S (2 * n) + M) with M. rewrite HK. change (Qn 0) with 0%Q. ring.
    - replace (S k * S (2 * n) + M) with (S (2 * n + (k * S (2 * n) + M))) by lia. rewrite mean_tapes.
      set (g := fun r : res nat => mean (tapes sp (2 * n + (k * S (2 * n) + M))) (fun x => match r with Err e => K (Err e) x | Ok s =>
        let y := one_rollout P fuel s (nt_init (Z.of_nat n)) 1 0 x in (fun r t => match r with Err e => K (Err e) t | Ok z => let y := rollouts P k fuel b (nt_init (Z.of_nat n)) (returns + z) t in K (fst y) (snd y) end) (fst y) (snd y) end)).
      transitivity (mean sp (fun w => g (pick w))).
      + apply mean_ext. intros q w _. unfold g. apply mean_ext. intros q2 t _. cbn [rollouts]. cbn [s_sample tape_search]. rewrite Pick. destruct (pick w) as [s|e]; [|reflexivity].
        cbn [s_copy tape_search]. change (nt_copy (nt_init (Z.of_nat n))) with (nt_init (Z.of_nat n)). destruct (one_rollout P fuel s (nt_init (Z.of_nat n)) 1 0 t) as [[z|e] y]; reflexivity.
      + rewrite Law. transitivity (sum_n (nS p) (fun s => beta s * (A * random_value p n s + (A * (returns + Qn k * random_from p n beta) + C))))%Q.
        * apply sum_n_ext. intros s Hs. apply Qmult_comp; [reflexivity|]. unfold g.
          rewrite (one_rollout_law n fuel s 1 0 (k * S (2 * n) + M) (fun r t => match r with Err e => K (Err e) t | Ok z => let y := rollouts P k fuel b (nt_init (Z.of_nat n)) (returns + z) t in K (fst y) (snd y) end) A (A * (returns + Qn k * random_from p n beta) + C)%Q Hf Hs).
          -- ring.
          -- intros x. rewrite (IH (returns + x)%Q M K A C HK). ring.
        * rewrite (beta_affine A (A * (returns + Qn k * random_from p n beta) + C) (random_value p n)). fold (random_from p n beta).
          rewrite Nat2Z.inj_succ, <- Z.add_1_r, inject_Z_plus. change (inject_Z 1) with 1%Q. ring.
  Qed.
End Rollout.
