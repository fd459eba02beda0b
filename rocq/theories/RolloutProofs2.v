(** The first simulation through an action, with exact beliefs. *)
From Verif Require Import QBase PyBase PyBaseFacts PomdpModel PomdpSpec PomdpProofs PomdpProofs2 BeliefModel BeliefSpec BeliefProofs EvalModel PomcpModel Props_Pomdp Props_Belief LawSpec LawProofs LawProofs2 LawProofs3 LawProofs4 RolloutSpec RolloutProofs.
From Coq Require Import Lia Lqa Field.
Local Open Scope list_scope.
Local Open Scope nat_scope.

Lemma sample_law {W} (sp : space W) draw b marks : uniform sp draw marks -> incl (row_marks (fun s => nth s b 0%Q) (length b)) marks ->
  (forall s, s < length b -> (0 <= nth s b 0)%Q) -> (sum_n (length b) (fun s => nth s b 0%Q) == 1)%Q ->
  forall g : res nat -> Q, (mean sp (fun w => g (array_sample b (draw w))) == sum_n (length b) (fun s => nth s b 0 * g (Ok s)))%Q.
Proof.
  intros U I H0 H1 g. rewrite <- (proj2 (choice_law sp draw marks (fun s => nth s b 0%Q) (length b) U I H0 H1) g).
  assert (E : map (fun i => nth i b 0%Q) (seq 0 (length b)) = b).
  { apply nth_ext with (d := 0%Q) (d' := 0%Q); rewrite map_length, seq_length; auto. intros i Hi. apply nth_map_seq. auto. }
  unfold array_sample. rewrite E. reflexivity.
Qed.

Section Node.
  Variable p : pomdp.
  Hypothesis Ws : well_shaped p.
  Hypothesis St : stochastic p.
  Hypothesis Na : 0 < nA p.
  Context {I U V B : Type}.
  Variables (spi : space I) (spu : space U) (spv : space V) (idx : I -> nat) (u : U -> Q) (v : V -> Q).
  Hypothesis Si : is_space spi.
  Hypothesis Su : is_space spu.
  Hypothesis Sv : is_space spv.
  Hypothesis Fi : fair spi idx (nA p).
  Hypothesis Uu : uniform spu u (model_marks p).
  Hypothesis Uv : uniform spv v (model_marks p).
  Notation W := (I * (U * V))%type.
  Notation sp := (pairs spi (pairs spu spv)).
  Notation ix := (fun w : W => idx (fst w)).
  Notation u' := (fun w : W => u (fst (snd w))).
  Notation v' := (fun w : W => v (snd (snd w))).
  Variables (start : list W -> res B * list W) (sample : B -> list W -> res nat * list W) (succ : B -> nat -> nat -> list W -> res B * list W).
  Variables (horizon : Z) (exploration : Q) (relative : bool) (bonus : nat -> nat -> Q) (rollout_it : nat) (alpha : Q).
  Notation P := (tape_search p ix u' v' start sample succ horizon exploration relative bonus rollout_it alpha).
  Notation Qn k := (inject_Z (Z.of_nat k)).
  Variables (m : onode B) (pick : W -> res nat) (beta : nat -> Q).
  Hypothesis Pick : forall w t, sample (o_belief m) (w :: t) = (pick w, t).
  Hypothesis Law : forall g : res nat -> Q, (mean sp (fun w => g (pick w)) == sum_n (nS p) (fun s => beta s * g (Ok s)))%Q.
  Hypothesis Hk : 0 < rollout_it.
  Lemma rollout_node_law n fuel N (K : res Q -> Q) A C : n <= fuel -> rollout_it * S (2 * n) <= N -> (forall x, (K (Ok x) == A * x + C)%Q) ->
    (mean (tapes sp N) (fun x => K (snd (rollout_from_node P fuel m (nt_init (Z.of_nat n)) x))) == A * random_from p n beta + C)%Q.
  Proof.
    intros Hf HN HK. assert (SP : is_space sp) by (apply pairs_space; [auto|apply pairs_space; auto]). unfold rollout_from_node.
    change (s_reached P (nt_init (Z.of_nat n))) with (nt_reached (nt_init (Z.of_nat n))). unfold nt_reached, nt_init at 1. cbn [nt_n].
    destruct n as [|n].
    - transitivity (K (Ok 0%Q)); [apply (mean_const (tapes sp N) (K (Ok 0%Q))); apply tapes_space; auto|]. rewrite HK. assert (random_from p 0 beta == 0)%Q as -> by (apply sum_zero; intros; cbn [random_value]; ring). ring.
    - destruct (Z.leb_spec (Z.of_nat (S n)) 0); [lia|]. change (s_rollouts P) with rollout_it. pose proof (inject_pos rollout_it Hk) as HP.
      set (K' := fun (r : res Q) (_ : list W) => match r with Err e => K (Err e) | Ok r => K (Ok (r / Qn rollout_it)%Q) end).
      replace N with (rollout_it * S (2 * S n) + (N - rollout_it * S (2 * S n))) by lia.
      transitivity (mean (tapes sp (rollout_it * S (2 * S n) + (N - rollout_it * S (2 * S n)))) (fun x => let r := rollouts P rollout_it fuel (o_belief m) (nt_init (Z.of_nat (S n))) 0 x in K' (fst r) (snd r))).
      + apply mean_ext. intros q x _. unfold K'. destruct (rollouts P rollout_it fuel (o_belief m) (nt_init (Z.of_nat (S n))) 0 x) as [[r|e] y]; cbn [fst snd]; [|reflexivity].
        destruct (Nat.eqb_spec rollout_it 0); [lia|]. reflexivity.
      + rewrite (rollouts_law p Ws St Na spi spu spv idx u v Si Su Sv Fi Uu Uv start sample succ horizon exploration relative bonus rollout_it alpha (o_belief m) pick beta Pick Law (S n) fuel Hf
          rollout_it 0%Q (N - rollout_it * S (2 * S n)) K' (A / Qn rollout_it)%Q C).
        * field. lra.
        * intros x. unfold K'. transitivity (K (Ok (x / Qn rollout_it)%Q)); [apply (mean_const (tapes sp (N - rollout_it * S (2 * S n))) (K (Ok (x / Qn rollout_it)%Q))); apply tapes_space; auto|]. rewrite HK. field. lra.
  Qed.
End Node.

Section Bayes.
  Variable p : pomdp.
  Hypothesis St : stochastic p.
  Variables (b : list Q) (a : nat).
  Hypothesis Db : distribution p b.
  Hypothesis Ha : a < nA p.
  Definition triple (f : nat -> nat -> nat -> Q) : Q := sum_n (nS p) (fun s => nth s b 0 * sum_n (nS p) (fun s' => sum_n (nO p) (fun o => step_prob p a s s' o * f s s' o)))%Q.
  Lemma triple_ext f g : (forall s s' o, s < nS p -> s' < nS p -> o < nO p -> ((nth s b 0 * step_prob p a s s' o) * f s s' o == (nth s b 0 * step_prob p a s s' o) * g s s' o)%Q) -> (triple f == triple g)%Q.
  Proof.
    intros H. apply sum_n_ext. intros s Hs. unfold sum_n. rewrite <- !sum_scale. apply sum_ext. intros s' Hs'. rewrite <- !sum_scale. apply sum_ext. intros o Ho.
    apply in_seq in Hs', Ho. rewrite !Qmult_assoc. apply H; lia.
  Qed.
  Lemma triple_plus f g : (triple (fun s s' o => f s s' o + g s s' o) == triple f + triple g)%Q.
  Proof.
    unfold triple, sum_n. rewrite <- sum_plus. apply sum_ext. intros s _. rewrite <- Qmult_plus_distr_r. apply Qmult_comp; [reflexivity|].
    rewrite <- sum_plus. apply sum_ext. intros s' _. rewrite <- sum_plus. apply sum_ext. intros o _. ring.
  Qed.
  Lemma triple_scale c f : (triple (fun s s' o => c * f s s' o) == c * triple f)%Q.
  Proof.
    unfold triple, sum_n. rewrite <- sum_scale. apply sum_ext. intros s _.
    transitivity (nth s b 0 * (c * sum_over (seq 0 (nS p)) (fun s' => sum_over (seq 0 (nO p)) (fun o => step_prob p a s s' o * f s s' o))))%Q; [|ring].
    apply Qmult_comp; [reflexivity|]. rewrite <- sum_scale. apply sum_ext. intros s' _. rewrite <- sum_scale. apply sum_ext. intros o _. ring.
  Qed.
  Lemma triple_obs (f : nat -> nat -> Q) : (triple (fun _ s' o => f s' o) == sum_n (nO p) (fun o => sum_n (nS p) (fun s' => prob_end p b a s' o * f s' o)))%Q.
  Proof.
    unfold triple, prob_end, joint, sum_n.
    transitivity (sum_over (seq 0 (nS p)) (fun s => sum_over (seq 0 (nO p)) (fun o => sum_over (seq 0 (nS p)) (fun s' => nth s b 0 * (step_prob p a s s' o * f s' o)))))%Q.
    - apply sum_ext. intros s _. rewrite sum_swap. rewrite <- sum_scale. apply sum_ext. intros o _. rewrite <- sum_scale. reflexivity.
    - rewrite sum_swap. apply sum_ext. intros o _. rewrite sum_swap. apply sum_ext. intros s' _. rewrite <- sum_scale_r. apply sum_ext. intros s _. unfold step_prob. ring.
  Qed.
  Lemma triple_one : (triple (fun _ _ _ => 1) == 1)%Q.
  Proof.
    destruct Db as (_ & _ & D). rewrite <- D. apply sum_n_ext. intros s Hs.
    transitivity (nth s b 0 * 1)%Q; [|ring]. apply Qmult_comp; [reflexivity|]. rewrite <- (step_total p St a s Ha Hs). apply sum_n_ext. intros s' _. apply sum_n_ext. intros; ring.
  Qed.
  (** Weights of impossible observations *)
  Lemma triple_impossible s s' o : s < nS p -> s' < nS p -> o < nO p -> (prob_obs p b a o == 0)%Q -> (nth s b 0 * step_prob p a s s' o == 0)%Q.
  Proof.
    intros Hs Hs' Ho Z0. destruct St as (T0 & _ & O0 & _). destruct Db as (_ & D0 & _).
    assert (JN : forall t t', t < nS p -> t' < nS p -> (0 <= joint p b a t t' o)%Q) by (intros t t' Ht Ht'; unfold joint; repeat apply Qmult_le_0_compat; auto).
    assert (EN : forall t', t' < nS p -> (0 <= prob_end p b a t' o)%Q) by (intros t' Ht'; apply sum_nonneg; intros t Ht; apply in_seq in Ht; apply JN; lia).
    assert (E1 : (prob_end p b a s' o == 0)%Q).
    { apply (sum_zero_inv (seq 0 (nS p)) (fun s' => prob_end p b a s' o)); [intros t Ht; apply in_seq in Ht; apply EN; lia|exact Z0|apply in_seq; lia]. }
    assert (E2 : (joint p b a s s' o == 0)%Q).
    { apply (sum_zero_inv (seq 0 (nS p)) (fun s => joint p b a s s' o)); [intros t Ht; apply in_seq in Ht; apply JN; lia|exact E1|apply in_seq; lia]. }
    transitivity (joint p b a s s' o); [unfold joint, step_prob; ring|exact E2].
  Qed.
  Lemma posterior_value (V : nat -> Q) o nb : o < nO p -> belief_update p (Z.of_nat a) (Z.of_nat o) b = Ok nb ->
    (prob_obs p b a o * sum_n (nS p) (fun s => nth s nb 0 * V s) == sum_n (nS p) (fun s' => prob_end p b a s' o * V s'))%Q.
  Proof.
    intros Ho E. destruct (Qeq_dec (prob_obs p b a o) 0) as [Z0|Z0].
    - rewrite (proj1 (C40_bayes p b a o St Db Ha Ho) Z0) in E. discriminate.
    - destruct (proj2 (C40_bayes p b a o St Db Ha Ho) Z0) as (nb' & E' & _ & Vn). assert (nb' = nb) as -> by congruence.
      unfold sum_n. rewrite <- sum_scale. apply sum_ext. intros s Hs. apply in_seq in Hs. rewrite (Vn s) by lia. field. auto.
  Qed.
End Bayes.

Section First.
  Variable p : pomdp.
  Hypothesis Ws : well_shaped p.
  Hypothesis St : stochastic p.
  Hypothesis Na : 0 < nA p.
  Context {I U V : Type}.
  Variables (spi : space I) (spu : space U) (spv : space V) (idx : I -> nat) (u : U -> Q) (v : V -> Q) (marks : list Q).
  Hypothesis Si : is_space spi.
  Hypothesis Su : is_space spu.
  Hypothesis Sv : is_space spv.
  Hypothesis Fi : fair spi idx (nA p).
  Hypothesis Uu : uniform spu u marks.
  Hypothesis Uv : uniform spv v (model_marks p).
  Hypothesis Mp : incl (model_marks p) marks.
  Notation W := (I * (U * V))%type.
  Notation sp := (pairs spi (pairs spu spv)).
  Notation ix := (fun w : W => idx (fst w)).
  Notation u' := (fun w : W => u (fst (snd w))).
  Notation v' := (fun w : W => v (snd (snd w))).
  Variables (horizon : Z) (exploration : Q) (relative : bool) (bonus : nat -> nat -> Q) (rollout_it : nat) (alpha : Q).
  Notation P := (exact_tape p ix u' v' horizon exploration relative bonus rollout_it alpha).
  Hypothesis Hk : 0 < rollout_it.
  Lemma uniform_model : uniform spu u (model_marks p).
  Proof. destruct Uu as [U1 U2]. split; [auto|]. intros c Hc. apply U2. auto. Qed.
  Lemma exact_law b : distribution p b -> incl (row_marks (fun s => nth s b 0%Q) (length b)) marks ->
    forall g : res nat -> Q, (mean sp (fun w => g (array_sample b (u' w))) == sum_n (nS p) (fun s => nth s b 0 * g (Ok s)))%Q.
  Proof.
    intros (L & D0 & D1) Mb g. transitivity (mean spu (fun w => g (array_sample b (u w)))).
    - transitivity (mean (pairs spu spv) (fun y => g (array_sample b (u (fst y))))).
      + apply (mean_snd spi (pairs spu spv) (fun y => g (array_sample b (u (fst y))))). auto.
      + apply (mean_fst spu spv (fun y => g (array_sample b (u y)))). auto.
    - rewrite <- L in *. apply (sample_law spu u b marks); auto.
  Qed.
  Variable m : onode (list Q).
  Notation b := (o_belief m).
  Hypothesis Db : distribution p b.
  Hypothesis Mb : incl (row_marks (fun s => nth s b 0%Q) (length b)) marks.

  Lemma rollout_exact n fuel N (K : res Q -> Q) A C : n <= fuel -> rollout_it * S (2 * n) <= N -> (forall x, (K (Ok x) == A * x + C)%Q) ->
    (mean (tapes sp N) (fun x => K (snd (rollout_from_node P fuel m (nt_init (Z.of_nat n)) x))) == A * random_from p n (fun s => nth s b 0%Q) + C)%Q.
  Proof.
    intros Hf HN HK. unfold exact_tape.
    apply (rollout_node_law p Ws St Na spi spu spv idx u v Si Su Sv Fi uniform_model Uv _ _ _ horizon exploration relative bonus rollout_it alpha m (fun w => array_sample b (u' w)) (fun s => nth s b 0%Q)); auto.
    apply exact_law; auto.
  Qed.
End First.

Section Simulate.
  Variable p : pomdp.
  Hypothesis Ws : well_shaped p.
  Hypothesis St : stochastic p.
  Hypothesis Na : 0 < nA p.
  Context {I U V : Type}.
  Variables (spi : space I) (spu : space U) (spv : space V) (idx : I -> nat) (u : U -> Q) (v : V -> Q) (marks : list Q).
  Hypothesis Si : is_space spi.
  Hypothesis Su : is_space spu.
  Hypothesis Sv : is_space spv.
  Hypothesis Fi : fair spi idx (nA p).
  Hypothesis Uu : uniform spu u marks.
  Hypothesis Uv : uniform spv v (model_marks p).
  Hypothesis Mp : incl (model_marks p) marks.
  Notation W := (I * (U * V))%type.
  Notation sp := (pairs spi (pairs spu spv)).
  Notation ix := (fun w : W => idx (fst w)).
  Notation u' := (fun w : W => u (fst (snd w))).
  Notation v' := (fun w : W => v (snd (snd w))).
  Variables (n : nat) (exploration : Q) (relative : bool) (bonus : nat -> nat -> Q) (rollout_it : nat) (alpha : Q).
  Notation P := (exact_tape p ix u' v' (Z.of_nat (S n)) exploration relative bonus rollout_it alpha).
  Hypothesis Hk : 0 < rollout_it.
  Variable m : onode (list Q).
  Notation b := (o_belief m).
  Hypothesis Db : distribution p b.
  Hypothesis Mb : incl (row_marks (fun s => nth s b 0%Q) (length b)) marks.
  Notation beta := (fun s => nth s b 0%Q).
  Notation R a s s' o := (at_ (p_R p) [a; s; s'; o]).

  (** What follows the choice of the action *)
  Definition finish (r : Q) (w : res Q) : res Q := do v <- match w with Err EMaxSamples => Ok 0%Q | v => v end; Ok (r + p_discount p * v)%Q.
  Definition run_action (fuel a s : nat) (x : list W) : res Q := snd (simulate P fuel m s (nt_init (Z.of_nat (S n))) (Some a) x).
  Lemma action_law a fuel N (K : res Q -> Q) A C : n < fuel -> a < nA p -> S (rollout_it * S (2 * n)) <= N ->
    nth_error (o_kids m) a = Some None ->
    (forall o nb, o < nO p -> belief_update p (Z.of_nat a) (Z.of_nat o) b = Ok nb -> incl (row_marks (fun s => nth s nb 0%Q) (length nb)) marks) ->
    (forall x, (K (Ok x) == A * x + C)%Q) ->
    (sum_n (nS p) (fun s => nth s b 0 * mean (tapes sp N) (fun x => K (run_action fuel a s x))) == A * random_after p n beta a + C)%Q.
  Proof.
    intros Hf Ha HN Hc Mn HK. destruct fuel as [|fuel]; [lia|]. destruct N as [|N]; [lia|].
    set (Vo := fun o => match belief_update p (Z.of_nat a) (Z.of_nat o) b with Ok nb => random_from p n (fun s => nth s nb 0%Q) | Err _ => 0%Q end).
    set (g := fun (s : nat) (t : res (nat * nat * Q)) => match t with Err e => K (Err e) | Ok (s', o, r) =>
      match belief_update p (Z.of_nat a) (Z.of_nat o) b with
      | Ok nb => mean (tapes sp N) (fun x => K (finish r (snd (rollout_from_node P fuel (o_new P nb) (nt_init (Z.of_nat n)) x))))
      | Err EMaxSamples => K (Ok (r + p_discount p * 0)%Q)
      | Err e => K (Err e)
      end end).
    assert (SP : is_space sp) by (apply pairs_space; [auto|apply pairs_space; auto]).
    transitivity (triple p b a (fun s s' o => g s (Ok (s', o, R a s s' o)))).
    - unfold triple. apply sum_n_ext. intros s Hs. apply Qmult_comp; [reflexivity|]. rewrite mean_tapes.
      transitivity (mean sp (fun w => g s (pomdp_sample_transition p (u' w) (v' w) (Z.of_nat a) (Z.of_nat s)))).
      + apply mean_ext. intros q w _. unfold run_action. cbn [simulate]. change (s_reached P (nt_init (Z.of_nat (S n)))) with (nt_reached (nt_init (Z.of_nat (S n)))).
        assert (nt_reached (nt_init (Z.of_nat (S n))) = false) as -> by (unfold nt_reached, nt_init; cbn [nt_n]; apply Z.leb_gt; lia).
        unfold safe_child at 1. cbn [bind]. rewrite Hc. cbn [bind]. cbn [s_transition exact_tape tape_search tape_transition].
        destruct (pomdp_sample_transition p (u (fst (snd w))) (v (snd (snd w))) (Z.of_nat a) (Z.of_nat s)) as [[[s' o] r]|e].
        2:{ unfold g. apply (mean_const (tapes sp N) (K (Err e))). apply tapes_space. auto. }
        cbn [s_decrement exact_tape tape_search a_kids a_new lookup]. assert (nt_decrement (nt_init (Z.of_nat (S n))) = nt_init (Z.of_nat n)) as -> by (unfold nt_decrement, nt_init; cbn [nt_n]; f_equal; lia).
        cbn [s_succ exact_tape tape_search]. rewrite C82_successor.
        assert (o_belief (set_kid m a a_new) = b) as -> by (destruct m; reflexivity). unfold g.
        destruct (belief_update p (Z.of_nat a) (Z.of_nat o) b) as [nb|e].
        * apply mean_ext. intros q2 t _. destruct (rollout_from_node P fuel (o_new P nb) (nt_init (Z.of_nat n)) t) as [[m2 y] [z|e]]; cbn [snd bind]; [reflexivity|]. destruct e; reflexivity.
        * destruct e; match goal with |- (_ == K ?r)%Q => apply (mean_const (tapes sp N) (K r)); apply tapes_space; auto end.
      + apply (law_transition p Ws St spi spu spv u v Si (uniform_model p spu u marks Uu Mp) Uv a s (g s) Ha Hs).
    - transitivity (triple p b a (fun s s' o => A * (R a s s' o + p_discount p * Vo o) + C * 1)%Q).
      + refine (triple_ext p b a Ha _ _ _). intros s s' o Hs Hs' Ho. unfold g, Vo. destruct (Qeq_dec (prob_obs p b a o) 0) as [Z0|Z0].
        * rewrite (triple_impossible p St b a Db Ha s s' o Hs Hs' Ho Z0). ring.
        * destruct (proj2 (C40_bayes p b a o St Db Ha Ho) Z0) as (nb & E & Dn & _). rewrite E. apply Qmult_comp; [reflexivity|].
          pose proof (rollout_exact p Ws St Na spi spu spv idx u v marks Si Su Sv Fi Uu Uv Mp (Z.of_nat (S n)) exploration relative bonus rollout_it alpha Hk (o_new P nb) Dn (Mn o nb Ho E) n fuel N
            (fun w => K (finish (R a s s' o) w)) (A * p_discount p)%Q (A * R a s s' o + C)%Q ltac:(lia) ltac:(lia)) as L.
          cbv beta in L. change (o_belief (o_new P nb)) with nb in L. rewrite L; [ring|]. intros x. cbn [finish bind]. rewrite HK. ring.
      + rewrite (triple_plus p b a (fun s s' o => A * (R a s s' o + p_discount p * Vo o))%Q (fun _ _ _ => C * 1)%Q).
        rewrite (triple_scale p b a C (fun _ _ _ => 1%Q)), (triple_one p St b a Db Ha). rewrite (triple_scale p b a A (fun s s' o => R a s s' o + p_discount p * Vo o)%Q).
        apply Qplus_comp; [|ring]. apply Qmult_comp; [reflexivity|].
        transitivity (triple p b a (fun s s' o => R a s s' o + p_discount p * random_value p n s')%Q); [|unfold triple, random_after, step_prob; reflexivity].
        rewrite (triple_plus p b a (fun s s' o => R a s s' o) (fun _ _ o => p_discount p * Vo o)%Q), (triple_plus p b a (fun s s' o => R a s s' o) (fun _ s' _ => p_discount p * random_value p n s')%Q).
        apply Qplus_comp; [reflexivity|].
        rewrite (triple_scale p b a (p_discount p) (fun _ _ o => Vo o)), (triple_scale p b a (p_discount p) (fun _ s' _ => random_value p n s')). apply Qmult_comp; [reflexivity|].
        rewrite (triple_obs p b a (fun _ o => Vo o)), (triple_obs p b a (fun s' _ => random_value p n s')). apply sum_n_ext. intros o Ho.
        destruct (Qeq_dec (prob_obs p b a o) 0) as [Z0|Z0].
        * assert (EZ : forall s', s' < nS p -> (prob_end p b a s' o == 0)%Q).
          { intros s' Hs'. apply sum_zero. intros s Hs. apply in_seq in Hs. transitivity (nth s b 0 * step_prob p a s s' o)%Q; [unfold joint, step_prob; ring|apply (triple_impossible p St b a Db Ha s s' o); auto; lia]. }
          apply sum_n_ext. intros s' Hs'. rewrite (EZ s' Hs'). ring.
        * destruct (proj2 (C40_bayes p b a o St Db Ha Ho) Z0) as (nb & E & Dn & _). rewrite <- (posterior_value p St b a Db Ha (random_value p n) o nb Ho E). unfold Vo. rewrite E.
          fold (random_from p n (fun s => nth s nb 0%Q)). unfold sum_n. rewrite sum_scale_r. reflexivity.
  Qed.
End Simulate.
