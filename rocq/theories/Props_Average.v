(** C127: the average cost of doing a task made of sequences. *)
From Coq Require Import Lia Lqa Qabs.
From Verif Require Import PyBase PyBaseFacts QBase PomdpModel PomdpSpec PomdpProofs HtmModel HtmSpec HtmProofs DagSpec ConvModel NodeModel NodeSpec NameSpec ConvSpec NodeProofs NodeProofs2 NodeProofs3 NodeProofs4 Props_Conv EpiSpec Props_Epi OrderSpec OrderProofs Props_Order StoolModel AverageSpec AverageProofs.
Local Open Scope list_scope.
Local Open Scope nat_scope.

Lemma shares_before who k : shares who (3 * k) = if who k then tell_intention k else ask_intention k.
Proof. unfold shares. rewrite (Nat.mul_comm 3 k), Nat.mod_mul, Nat.div_mul by lia. reflexivity. Qed.
Lemma shares_human who k : shares who (3 * k + 1) = ask_finished k.
Proof. unfold shares. replace (3 * k + 1) with (1 + k * 3) by lia. rewrite Nat.mod_add, Nat.div_add by lia. reflexivity. Qed.
Lemma shares_robot who k : shares who (3 * k + 2) = physical k.
Proof. unfold shares. replace (3 * k + 2) with (2 + k * 3) by lia. rewrite Nat.mod_add, Nat.div_add by lia. reflexivity. Qed.
Lemma skipn_nth {A} (l : list A) k x : nth_error l k = Some x -> skipn k l = x :: skipn (S k) l.
Proof. revert l. induction k as [|k IH]; intros [|y l] H; try discriminate; cbn in *; [congruence|apply IH, H]. Qed.

Lemma forall2_second {A B} (R : A -> B -> Prop) l l' : Forall2 R l l' -> forall k y, nth_error l' k = Some y -> exists x, nth_error l k = Some x /\ R x y.
Proof. induction 1 as [|a b l l' H _ IH]; intros [|k] y Hk; try discriminate; [|apply IH; exact Hk]. cbn in Hk. injection Hk as <-. exists a. auto. Qed.
Lemma forall2_same_length {A B} (R : A -> B -> Prop) l l' : Forall2 R l l' -> length l' = length l.
Proof. induction 1; cbn; congruence. Qed.

Section Average.
  Variables (exp : Q -> Q) (t_ask t_tell : Q) (fl : flags) (t_wait intr end_reward : Q) (root : comb collab) (l : list (action collab)) (solver : bool) (p : pomdp).
  Hypothesis HI : inhabited root.
  Hypothesis HO : in_order root l.
  Hypothesis E : task_to_pomdp exp t_ask t_tell fl t_wait intr end_reward root solver = Ok p.
  Variable who : nat -> bool.
  Variable qs : list collab.
  Hypothesis HQ : Forall2 (fun a q => a_class a = KCollab /\ a_params a = Some q) l qs.
  Hypothesis HF : forall k q, nth_error qs k = Some q -> (0 <= fail_proba q < 1)%Q.
  Hypothesis HH : forall k q, nth_error qs k = Some q -> who k = false -> (0 < finish exp t_ask fl q <= 1)%Q.
  Let V n s := collected p (shares who) (3 * length l) n s.
  Let rr : Q := match subtask_reward fl with Some r => r | None => 0%Q end.

  Section Step.
    Variables (k : nat) (q : collab).
    Hypothesis Hq : nth_error qs k = Some q.
    Lemma facts : exists t, proper t /\ rows t /\ param t k q /\ k < length l /\ nS p = 3 * length l + (if reward_state fl then 2 else 1) /\ nA p = 4 * length l + 1 /\ over t = 3 * length l /\
      (forall a s s', a < nA p -> s < nS p -> (forall x, goes exp t_wait t_ask t_tell fl t a s s' x -> Tr p a s s' = x) /\ ((forall x, ~ goes exp t_wait t_ask t_tell fl t a s s' x) -> Tr p a s s' = 0%Q)) /\
      (forall a s s', a < nA p -> s < nS p -> forall c o, costs t_wait t_ask t_tell intr end_reward fl t a s s' c -> (at_ (p_R p) [a; s; s'; o] == - c)%Q) /\
      (forall a s s' o, a < nA p -> s < nS p -> (at_ (p_R p) [a; s; s'; o] == at_ (p_R p) [a; s; s'; 0%nat])%Q) /\
      (forall a s', a < nA p -> s' < nS p -> (sum_n (nO p) (Ob p a s') == 1)%Q).
    Proof.
      destruct (C67_moves _ _ _ _ _ _ _ _ _ _ HI E) as (t & U & M). pose proof (unfolds_proper root t HI U) as Pt. destruct (unfolds_rows root l HO t U) as [R El].
      destruct (C65_tables _ _ _ _ _ _ _ _ _ _ HI E) as (t' & U' & Es & Ea & _ & _ & _ & HOb & _). assert (t' = t) as -> by (eapply unfolds_unique; eauto). clear U'.
      destruct (C85_costs _ _ _ _ _ _ _ _ _ _ HI E) as (t' & U' & C). assert (t' = t) as -> by (eapply unfolds_unique; eauto). clear U'.
      assert (X : exists a, nth_error l k = Some a /\ a_class a = KCollab /\ a_params a = Some q).
      { exact (forall2_second _ _ _ HQ k q Hq). }
      destruct X as (a & A1 & A2). exists t. split; [exact Pt|]. split; [exact R|]. split; [exists a; rewrite El; auto|]. split; [apply nth_error_Some; congruence|]. rewrite El in *. split; [exact Es|]. split; [exact Ea|].
      split; [unfold over, number; rewrite El; reflexivity|]. split; [exact M|]. split; [intros a0 s s' Ha Hs; apply C; auto|]. split; [|intros a0 s' Ha Hs; apply HOb; auto].
      intros a0 s s' o Ha Hs. destruct (C a0 s s' Ha Hs) as [[c Hc] H]. rewrite (H c o Hc), (H c 0 Hc). reflexivity.
    Qed.
    Ltac nums := unfold before_leaf, human, robot, physical, ask_intention, tell_intention, ask_finished, waiting in *.
    Ltac as_intrinsic a := match goal with |- costs _ _ _ _ _ _ _ _ _ _ (?d + ?i - ?b)%Q => replace (d + i - b)%Q with (d + intrinsic i a - b)%Q by (unfold intrinsic; rewrite (proj2 (Nat.eqb_neq a waiting)) by (nums; lia); reflexivity) end.
    (** An action with two possible outcomes *)
    Lemma two a s s1 s2 n x1 x2 c1 c2 : s <> 3 * length l -> shares who s = a -> a < nA p -> s < nS p -> s1 < nS p -> s2 < nS p -> s1 <> s2 ->
      (Tr p a s s1 == x1)%Q -> (Tr p a s s2 == x2)%Q -> (forall s', s' <> s1 -> s' <> s2 -> (Tr p a s s' == 0)%Q) -> (at_ (p_R p) [a; s; s1; 0%nat] == c1)%Q -> (at_ (p_R p) [a; s; s2; 0%nat] == c2)%Q ->
      (V (S n) s == x1 * (c1 + V n s1) + x2 * (c2 + V n s2))%Q.
    Proof.
      intros D Ea Ha Hs H1 H2 D12 T1 T2 Z R1 R2. destruct facts as (t & _ & _ & _ & _ & _ & _ & _ & _ & _ & RO & OB). unfold V. cbn [collected]. rewrite (proj2 (Nat.eqb_neq _ _) D), Ea.
      rewrite (average_states p a s _ (fun s' => at_ (p_R p) [a; s; s'; 0%nat] + collected p (shares who) (3 * length l) n s')%Q); [|intros s' Hs'; apply OB; auto|intros s' o Hs'; rewrite (RO a s s' o Ha Hs); reflexivity].
      rewrite (sum_n_two (nS p) _ s1 s2 H1 H2 D12); [|intros j _ D1 D2; rewrite (Z j D1 D2); ring]. rewrite T1, T2, R1, R2. reflexivity.
    Qed.
    Lemma bonus_next t : over t = 3 * length l -> bonus fl k (3 * S k) rr.
    Proof. intros _. unfold bonus, rr. destruct (subtask_reward fl); [right; split; [unfold of_leaf; nums; lia|reflexivity]|reflexivity]. Qed.
    Lemma bonus_here s : of_leaf k s -> bonus fl k s 0.
    Proof. intros H. unfold bonus. destruct (subtask_reward fl); auto. Qed.

    Lemma step_robot n : (V (S n) (3 * k + 2) == fail_proba q * V n (3 * k + 2) + (1 - fail_proba q) * V n (3 * S k)%nat + (- (t_rob q + intr) + (1 - fail_proba q) * rr))%Q.
    Proof.
      destruct facts as (t & Pt & R & Pm & Hk & Es & Ea & Eo & M & C & _). assert (Ha : physical k < nA p) by (nums; lia). assert (Hs : 3 * S k < nS p /\ 3 * k + 2 < nS p) by (destruct (reward_state fl); lia).
      destruct (rows_next t k Pt R) as (o & Ho & Po); [rewrite n_leaves_length; destruct Pm as (a & A & _); apply nth_error_Some; congruence|].
      rewrite (two (physical k) (3 * k + 2) (3 * k + 2) (3 * S k) n (fail_proba q) (1 - fail_proba q) (- (t_rob q + intr - 0)) (- (t_rob q + intr - rr))).
      - ring.
      - lia.
      - apply shares_robot.
      - exact Ha.
      - lia.
      - lia.
      - lia.
      - lia.
      - rewrite (proj1 (M (physical k) (3 * k + 2) (3 * k + 2) Ha ltac:(lia)) _ (go_fail _ _ _ _ _ _ _ k q Pm eq_refl)). reflexivity.
      - replace (3 * S k) with (place t o) by (rewrite Po; reflexivity). rewrite (proj1 (M (physical k) (3 * k + 2) (place t o) Ha ltac:(lia)) _ (go_success _ _ _ _ _ _ _ k q o 1 Pm eq_refl Ho)). ring.
      - intros s' D1 D2. rewrite (proj2 (M (physical k) (3 * k + 2) s' Ha ltac:(lia))); [reflexivity|]. intros x G.
        inversion G; subst; nums; try lia; match goal with H : leads t ?k' ?o' _ |- _ => assert (k' = k) as -> by lia; apply (rows_place t k _ _ Pt R) in H; lia end.
      - apply C; [exact Ha|lia|]. apply (co_physical _ _ _ _ _ _ _ _ _ _ k q); auto. apply bonus_here. unfold of_leaf; nums; lia.
      - apply C; [exact Ha|lia|]. apply (co_physical _ _ _ _ _ _ _ _ _ _ k q); auto. apply (bonus_next t Eo).
    Qed.
    Lemma step_human n : (V (S n) (3 * k + 1) == (1 - finish exp t_ask fl q) * V n (3 * k + 1) + (1 - (1 - finish exp t_ask fl q)) * V n (3 * S k)%nat + (- (t_ask + intr) + finish exp t_ask fl q * rr))%Q.
    Proof.
      destruct facts as (t & Pt & R & Pm & Hk & Es & Ea & Eo & M & C & _). assert (Ha : ask_finished k < nA p) by (nums; lia). assert (Hs : 3 * S k < nS p /\ 3 * k + 1 < nS p) by (destruct (reward_state fl); lia).
      destruct (rows_next t k Pt R) as (o & Ho & Po); [rewrite n_leaves_length; destruct Pm as (a & A & _); apply nth_error_Some; congruence|].
      assert (LF : forall o', (exists x, leads t k o' x) -> o' = o).
      { intros o' [x Hx]. pose proof (rows_place t k _ _ Pt R Hx) as P1. pose proof (leads_bound_next t k _ _ Hx) as B1. pose proof (leads_bound_next t k _ _ Ho) as B2. rewrite n_leaves_length in B1, B2.
        assert (number t = length l) by (unfold over in Eo; lia). unfold number in *. destruct o as [j|], o' as [j'|]; cbn [place] in *; unfold over, number in *; nums; [f_equal; lia|specialize (B2 j eq_refl); lia|specialize (B1 j' eq_refl); lia|reflexivity]. }
      rewrite (two (ask_finished k) (3 * k + 1) (3 * k + 1) (3 * S k) n (1 - finish exp t_ask fl q) (finish exp t_ask fl q) (- (t_ask + intr - 0)) (- (t_ask + intr - rr))).
      - ring.
      - lia.
      - apply shares_human.
      - exact Ha.
      - lia.
      - lia.
      - lia.
      - lia.
      - unfold finish. destruct (deterministic fl) eqn:D.
        + rewrite (proj2 (M (ask_finished k) (3 * k + 1) (3 * k + 1) Ha ltac:(lia))); [ring|]. intros x G. inversion G; subst; nums; try lia; try congruence.
          match goal with H : In ?o' ?lo, H' : forall o, In o ?lo <-> _ |- _ => apply H' in H; assert (k0 = k) as -> by lia; apply LF in H; subst; lia end.
        + rewrite (proj1 (M (ask_finished k) (3 * k + 1) (3 * k + 1) Ha ltac:(lia)) _ (go_busy _ _ _ _ _ _ _ k q t_ask D Pm (la_finished _ _ _ _ _ _ Pm))). ring.
      - replace (3 * S k) with (place t o) by (rewrite Po; reflexivity). unfold finish. destruct (deterministic fl) eqn:D.
        + rewrite (proj1 (M (ask_finished k) (3 * k + 1) (place t o) Ha ltac:(lia)) _ (go_asked _ _ _ _ _ _ _ k q [o] o D Pm eq_refl ltac:(constructor; [intros []|constructor]) ltac:(intros o'; split; [intros [<-|[]]; eexists; exact Ho|intros Hx; left; symmetry; apply LF, Hx]) ltac:(left; reflexivity))). reflexivity.
        + rewrite (proj1 (M (ask_finished k) (3 * k + 1) (place t o) Ha ltac:(lia)) _ (go_finished _ _ _ _ _ _ _ k q t_ask o 1 D Pm (la_finished _ _ _ _ _ _ Pm) Ho)). ring.
      - intros s' D1 D2. rewrite (proj2 (M (ask_finished k) (3 * k + 1) s' Ha ltac:(lia))); [reflexivity|]. intros x G.
        inversion G; subst; nums; try lia.
        + match goal with H : leads t ?k' ?o' _ |- _ => assert (k' = k) as -> by lia; apply (rows_place t k _ _ Pt R) in H; lia end.
        + match goal with H : In ?o' ?lo, H' : forall o, In o ?lo <-> _ |- _ => apply H' in H; assert (k0 = k) as -> by lia; apply LF in H; subst; lia end.
      - apply C; [exact Ha|lia|]. as_intrinsic (ask_finished k). apply (co_time _ _ _ _ _ _ _ _ _ _ k q); auto; [unfold of_leaf; nums; lia|nums; lia|econstructor; eauto|apply bonus_here; unfold of_leaf; nums; lia].
      - apply C; [exact Ha|lia|]. as_intrinsic (ask_finished k). apply (co_time _ _ _ _ _ _ _ _ _ _ k q); auto; [unfold of_leaf; nums; lia|nums; lia|econstructor; eauto|apply (bonus_next t Eo)].
    Qed.
    Lemma step_before n : (V (S n) (3 * k) == if who k then V n (3 * k + 2)%nat - (t_tell + intr) else no_proba q * V n (3 * k + 2)%nat + (1 - no_proba q) * V n (3 * k + 1)%nat - (t_ask + intr))%Q.
    Proof.
      destruct facts as (t & Pt & R & Pm & Hk & Es & Ea & Eo & M & C & _). assert (Hs : 3 * k + 2 < nS p) by (destruct (reward_state fl); lia). pose proof (shares_before who k) as Sb. destruct (who k).
      - assert (Ha : tell_intention k < nA p) by (nums; lia). rewrite (two (tell_intention k) (3 * k) (3 * k + 2) (3 * k + 1) n 1 0 (- (t_tell + intr - 0)) (- (t_tell + intr - 0))).
        + ring.
        + lia.
        + exact Sb.
        + exact Ha.
        + lia.
        + lia.
        + lia.
        + lia.
        + rewrite (proj1 (M (tell_intention k) (3 * k) (3 * k + 2) Ha ltac:(lia)) _ (go_told _ _ _ _ _ _ _ k q Pm eq_refl)). reflexivity.
        + rewrite (proj2 (M (tell_intention k) (3 * k) (3 * k + 1) Ha ltac:(lia))); [reflexivity|]. intros x G. inversion G; subst; nums; try lia; unfold over in *; lia.
        + intros s' D1 D2. rewrite (proj2 (M (tell_intention k) (3 * k) s' Ha ltac:(lia))); [reflexivity|]. intros x G. inversion G; subst; nums; try lia; unfold over in *; try lia.
        + apply C; [exact Ha|lia|]. as_intrinsic (tell_intention k). apply (co_time _ _ _ _ _ _ _ _ _ _ k q); auto; [unfold of_leaf; nums; lia|nums; lia|econstructor; eauto|apply bonus_here; unfold of_leaf; nums; lia].
        + apply C; [exact Ha|lia|]. as_intrinsic (tell_intention k). apply (co_time _ _ _ _ _ _ _ _ _ _ k q); auto; [unfold of_leaf; nums; lia|nums; lia|econstructor; eauto|apply bonus_here; unfold of_leaf; nums; lia].
      - assert (Ha : ask_intention k < nA p) by (nums; lia). rewrite (two (ask_intention k) (3 * k) (3 * k + 2) (3 * k + 1) n (no_proba q) (1 - no_proba q) (- (t_ask + intr - 0)) (- (t_ask + intr - 0))).
        + ring.
        + lia.
        + exact Sb.
        + exact Ha.
        + lia.
        + lia.
        + lia.
        + lia.
        + rewrite (proj1 (M (ask_intention k) (3 * k) (3 * k + 2) Ha ltac:(lia)) _ (go_no _ _ _ _ _ _ _ k q Pm eq_refl)). reflexivity.
        + rewrite (proj1 (M (ask_intention k) (3 * k) (3 * k + 1) Ha ltac:(lia)) _ (go_yes _ _ _ _ _ _ _ k q Pm eq_refl)). reflexivity.
        + intros s' D1 D2. rewrite (proj2 (M (ask_intention k) (3 * k) s' Ha ltac:(lia))); [reflexivity|]. intros x G. inversion G; subst; nums; try lia; unfold over in *; try lia.
        + apply C; [exact Ha|lia|]. as_intrinsic (ask_intention k). apply (co_time _ _ _ _ _ _ _ _ _ _ k q); auto; [unfold of_leaf; nums; lia|nums; lia|econstructor; eauto|apply bonus_here; unfold of_leaf; nums; lia].
        + apply C; [exact Ha|lia|]. as_intrinsic (ask_intention k). apply (co_time _ _ _ _ _ _ _ _ _ _ k q); auto; [unfold of_leaf; nums; lia|nums; lia|econstructor; eauto|apply bonus_here; unfold of_leaf; nums; lia].
    Qed.
    Lemma limit v : tends_to (fun n => V n (3 * S k)) v -> tends_to (fun n => V n (3 * k)) (v - action_cost exp t_ask t_tell intr fl (who k) q).
    Proof.
      intros H. pose proof (HF k q Hq) as Hf. assert (HR := tends_attempts _ _ _ _ _ Hf step_robot H).
      unfold action_cost. fold rr. pose proof step_before as SB. destruct (who k) eqn:W.
      - eapply tends_shift; [exact SB|]. eapply tends_ext; [intros n; reflexivity| |apply (tends_add _ (fun _ => (- (t_tell + intr))%Q) _ _ HR (tends_const _))]. unfold robot_cost. field. lra.
      - pose proof (HH k q Hq W) as Hh. assert (HM := tends_attempts _ _ (1 - finish exp t_ask fl q) _ _ ltac:(lra) step_human H).
        eapply tends_shift; [exact SB|]. eapply tends_ext; [intros n; reflexivity| |apply (tends_add _ (fun _ => (- (t_ask + intr))%Q) _ _ (tends_add _ _ _ _ (tends_scale _ _ (no_proba q) HR) (tends_scale _ _ (1 - no_proba q) HM)) (tends_const _))]. unfold robot_cost, human_cost. field. lra.
    Qed.
  End Step.
  Lemma averages : forall m k, k + m = length qs -> tends_to (fun n => V n (3 * k)) (- task_cost (action_cost exp t_ask t_tell intr fl) who k (skipn k qs)).
  Proof.
    assert (EL : length qs = length l) by (eapply forall2_same_length; exact HQ).
    induction m as [|m IH]; intros k Hk.
    - rewrite skipn_all2 by lia. eapply tends_ext; [| |apply (tends_const 0%Q)]; [|reflexivity]. intros [|n]; unfold V; [reflexivity|]. cbn [collected]. replace (3 * k) with (3 * length l) by lia. rewrite Nat.eqb_refl. reflexivity.
    - destruct (nth_error qs k) as [q|] eqn:Hq; [|apply nth_error_None in Hq; lia]. rewrite (skipn_nth qs k q Hq). cbn [task_cost].
      eapply tends_ext; [intros n; reflexivity| |apply (limit k q Hq _ (IH (S k) ltac:(lia)))]. ring.
  Qed.
End Average.

(** However the actions are shared between the robot and the human, the average sum of costs until the end tends to the sum of the
    average costs of the actions. *)
Theorem C127_average : forall exp t_ask t_tell fl t_wait intr end_reward root l qs solver p who,
  inhabited root -> in_order root l -> task_to_pomdp exp t_ask t_tell fl t_wait intr end_reward root solver = Ok p ->
  Forall2 (fun a q => a_class a = KCollab /\ a_params a = Some q) l qs ->
  (forall k q, nth_error qs k = Some q -> (0 <= fail_proba q < 1)%Q) ->
  (forall k q, nth_error qs k = Some q -> who k = false -> (0 < finish exp t_ask fl q <= 1)%Q) ->
  tends_to (fun n => collected p (shares who) (3 * length l) n 0) (- task_cost (action_cost exp t_ask t_tell intr fl) who 0 qs).
Proof.
  intros exp t_ask t_tell fl t_wait intr end_reward root l qs solver p who HI HO E HQ HF HH.
  apply (averages exp t_ask t_tell fl t_wait intr end_reward root l solver p HI HO E who qs HQ HF HH (length qs) 0 eq_refl).
Qed.
Print Assumptions C127_average.

(** The stool, as converted by samples/icra_scenario2pomdp.py, and the chair, as converted by samples/htm2pomdp.py: there the
    interruption cost is taken for the time to tell something, and interruptions cost nothing. *)
Definition decays (exp : Q -> Q) : Prop := forall x, (x < 0)%Q -> (0 <= exp x < 1)%Q.
Lemma params_fine exp t_ask ps : decays exp -> (0 < t_ask)%Q -> Forall (fun q => 0 <= fail_proba q < 1 /\ 0 < t_hum q)%Q ps ->
  (forall k q, nth_error ps k = Some q -> (0 <= fail_proba q < 1)%Q) /\ (forall k q, nth_error ps k = Some q -> (0 < finish exp t_ask script_flags q <= 1)%Q).
Proof.
  intros He Ha HF. rewrite Forall_forall in HF. split; intros k q H; apply nth_error_In, HF in H; [tauto|]. destruct H as [_ H]. unfold finish. cbn [deterministic script_flags].
  assert (X : (- t_ask / t_hum q < 0)%Q) by (apply Qlt_shift_div_r; lra). apply He in X. lra.
Qed.
Theorem C127_stool : forall exp who, decays exp -> exists t l p, stool_task_sequential = Ok t /\ in_order t l /\ map a_name l = stool_steps /\
  Forall2 (fun a q => a_class a = KCollab /\ a_params a = Some q) l stool_params /\ icra_pomdp exp = Ok p /\
  tends_to (fun n => collected p (shares who) 27 n 0) (- task_cost (action_cost exp 2 2 1 script_flags) who 0 stool_params).
Proof.
  intros exp who He. destruct stool_root as (t & l & E & C & I & O & F & N). assert (HQ : Forall2 (fun a q => a_class a = KCollab /\ a_params a = Some q) l stool_params).
  { assert (X : exists t' l', stool_task_sequential = Ok t' /\ in_order t' l' /\ Forall2 (fun a q => a_class a = KCollab /\ a_params a = Some q) l' stool_params).
    { eexists. eexists. split; [reflexivity|]. split; [|].
      - eapply io_seq. repeat (constructor; [first [apply io_leaf|eapply io_seq; repeat (constructor; [first [apply io_leaf|eapply io_seq; repeat (constructor; [apply io_leaf|]); constructor]|]); constructor]|]). constructor.
      - cbn [concat app]. repeat (constructor; [split; reflexivity|]). constructor. }
    destruct X as (t' & l' & E' & O' & X). assert (t' = t) as -> by congruence. assert (l = l') as -> by (apply (C126_executions t l' O' l), (C126_executions t l O l); reflexivity). exact X. }
  destruct (C126_built exp T_ASK T_TELL script_flags T_WAIT C_INTR (1 # 10) t l C I O F) as [p Ep]; [eapply names_distinct; [exact N|cbn; no_dup]|reflexivity|discriminate|].
  exists t, l, p. repeat (split; [assumption|]). split; [unfold icra_pomdp; rewrite E; exact Ep|].
  destruct (params_fine exp 2 stool_params He) as [P1 P2]; [lra|repeat constructor; cbn; lra|]. replace 27 with (3 * length l) by (apply (f_equal (@length _)) in N; rewrite map_length in N; rewrite N; reflexivity).
  eapply (C127_average exp T_ASK T_TELL script_flags T_WAIT C_INTR (1 # 10) t l stool_params true p who); eauto.
Qed.
Print Assumptions C127_stool.
Theorem C127_chair : forall exp who, decays exp -> exists t l p, chair_task = Ok t /\ in_order t l /\ map a_name l = chair_steps /\
  Forall2 (fun a q => a_class a = KCollab /\ a_params a = Some q) l chair_params /\ chair_pomdp exp = Ok p /\
  tends_to (fun n => collected p (shares who) 27 n 0) (- task_cost (action_cost exp 2 1 0 script_flags) who 0 chair_params).
Proof.
  intros exp who He. destruct chair_root as (t & l & E & C & I & O & F & N). assert (HQ : Forall2 (fun a q => a_class a = KCollab /\ a_params a = Some q) l chair_params).
  { assert (X : exists t' l', chair_task = Ok t' /\ in_order t' l' /\ Forall2 (fun a q => a_class a = KCollab /\ a_params a = Some q) l' chair_params).
    { eexists. eexists. split; [reflexivity|]. split; [|].
      - eapply io_seq. repeat (constructor; [first [apply io_leaf|eapply io_seq; repeat (constructor; [first [apply io_leaf|eapply io_seq; repeat (constructor; [apply io_leaf|]); constructor]|]); constructor]|]). constructor.
      - cbn [concat app]. repeat (constructor; [split; reflexivity|]). constructor. }
    destruct X as (t' & l' & E' & O' & X). assert (t' = t) as -> by congruence. assert (l = l') as -> by (apply (C126_executions t l' O' l), (C126_executions t l O l); reflexivity). exact X. }
  destruct (C126_built exp T_COMM C_INTR script_flags T_WAIT 0 (1 # 10) t l C I O F) as [p Ep]; [eapply names_distinct; [exact N|cbn; no_dup]|reflexivity|discriminate|].
  exists t, l, p. repeat (split; [assumption|]). split; [unfold chair_pomdp; rewrite E; exact Ep|].
  destruct (params_fine exp 2 chair_params He) as [P1 P2]; [lra|repeat constructor; cbn; lra|]. replace 27 with (3 * length l) by (apply (f_equal (@length _)) in N; rewrite map_length in N; rewrite N; reflexivity).
  eapply (C127_average exp T_COMM C_INTR script_flags T_WAIT 0 (1 # 10) t l chair_params true p who); eauto.
Qed.
Print Assumptions C127_chair.

(** Alone, the robot needs about 455 units of cost on average for the stool (45043/99, about 454.98). *)
Example C127_ex : (forall exp, task_cost (action_cost exp 2 2 1 script_flags) (fun _ => true) 0 stool_params == 45043 # 99)%Q /\
  decays (fun x => if Qlt_le_dec x 0 then (1 # 2) else 1)%Q.
Proof.
  split; [intros exp; unfold action_cost; vm_compute; reflexivity|]. intros x Hx. destruct (Qlt_le_dec x 0); lra.
Qed.
