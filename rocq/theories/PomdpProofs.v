(** Proofs about the tables of a POMDP. *)
From Verif Require Import QBase PyBase PyBaseFacts PomdpModel PomdpSpec.
From Coq Require Import Lia Lqa Field.
Local Open Scope nat_scope.

(** *** arrays *)
Lemma indices_In sh : forall idx, In idx (indices sh) <-> Forall2 (fun i n => i < n) idx sh.
Proof.
  induction sh as [|n t IH]; intros idx; cbn [indices].
  - split; [intros [<-|[]]; constructor|]. intros H; inversion H; simpl; auto.
  - rewrite in_flat_map. split.
    + intros [i [Hi Hin]]. apply in_map_iff in Hin. destruct Hin as [r [<- Hr]]. apply in_seq in Hi. constructor; [lia|]. apply IH; auto.
    + intros H. inversion H as [|i ? r ? Hi Hr]; subst. exists i. split; [apply in_seq; lia|]. apply in_map, IH; auto.
Qed.

Lemma close_iff x : close_to_one x = true <-> about_one x.
Proof. unfold close_to_one, about_one. apply Qle_bool_iff. Qed.

Lemma assert_normal_ok a : assert_normal a = Ok tt \/ assert_normal a = Err EValue.
Proof. unfold assert_normal. destruct allclose_one; auto. Qed.
Lemma assert_normal1 a n : shape a = [n] -> (assert_normal a = Ok tt <-> about_one (sum_n n (fun s => at_ a [s]))).
Proof.
  intros Hs. unfold assert_normal, allclose_one, sum_last. cbn [shape at_]. rewrite Hs. cbn. rewrite andb_true_r, <- close_iff.
  destruct close_to_one; split; congruence.
Qed.
Lemma assert_normal3 a n1 n2 n3 : shape a = [n1; n2; n3] ->
  (assert_normal a = Ok tt <-> forall i j, i < n1 -> j < n2 -> about_one (sum_n n3 (fun s => at_ a [i; j; s]))).
Proof.
  intros Hs. unfold assert_normal, allclose_one. destruct (forallb _ _) eqn:E.
  - split; [|auto]. intros _ i j Hi Hj. rewrite forallb_forall in E. apply close_iff.
    specialize (E [i; j]). cbn [sum_last shape at_] in E. rewrite Hs in E. cbn [removelast last] in E. apply E. apply indices_In. repeat constructor; auto.
  - split; [discriminate|]. intros H. exfalso. apply not_true_iff_false in E. apply E. apply forallb_forall. intros idx Hin.
    cbn [sum_last shape] in Hin. rewrite Hs in Hin. cbn [removelast] in Hin. apply indices_In in Hin.
    inversion Hin as [|i ? r ? Hi Hr]; subst. inversion Hr as [|j ? r' ? Hj Hr']; subst. inversion Hr'; subst.
    apply close_iff. cbn [sum_last at_]. rewrite Hs. cbn [last app]. auto.
Qed.

Lemma list_nat_eqb_iff a b : list_nat_eqb a b = true <-> a = b.
Proof. unfold list_nat_eqb. destruct (list_eq_dec Nat.eq_dec a b); split; congruence. Qed.
Lemma assert_shape_iff a sh : assert_shape a sh = Ok tt <-> shape a = sh.
Proof. unfold assert_shape. rewrite <- list_nat_eqb_iff. destruct (list_nat_eqb _ _); split; congruence. Qed.
Lemma assert_shape_ok a sh : assert_shape a sh = Ok tt \/ assert_shape a sh = Err EValue.
Proof. unfold assert_shape. destruct list_nat_eqb; auto. Qed.

Lemma name_eqb_iff a b : name_eqb a b = true <-> a = b.
Proof.
  destruct a, b; cbn; try (split; [discriminate|intros H; inversion H]).
  - rewrite Z.eqb_eq. split; congruence.
  - rewrite String.eqb_eq. split; congruence.
Qed.
Lemma no_dup_iff l : no_dup l = true <-> NoDup l.
Proof.
  induction l as [|x t IH]; cbn; [split; [constructor|auto]|]. rewrite andb_true_iff, IH, negb_true_iff. split.
  - intros [H1 H2]. constructor; auto. intros Hin. apply not_true_iff_false in H1. apply H1. apply existsb_exists. exists x. split; auto. apply name_eqb_iff; auto.
  - intros H. inversion H; subst. split; auto. apply not_true_iff_false. intros E. apply existsb_exists in E. destruct E as [y [Y1 Y2]]. apply name_eqb_iff in Y2. congruence.
Qed.

(** *** belief update *)
Lemma axis_nat n i : axis n (Z.of_nat i) = if i <? n then Ok i else Err EIndex.
Proof.
  unfold axis. replace (Z.of_nat i <? 0)%Z with false by (symmetry; apply Z.ltb_ge; lia). cbn [orb].
  replace (Z.of_nat i <? 0)%Z with false by (symmetry; apply Z.ltb_ge; lia). cbn [orb]. rewrite Nat2Z.id.
  destruct (Nat.ltb_spec i n); destruct (Z.leb_spec (Z.of_nat n) (Z.of_nat i)); auto; lia.
Qed.

Lemma sum_n_S n f : (sum_n (S n) f == sum_n n f + f n)%Q.
Proof. unfold sum_n. rewrite seq_S, sum_app. cbn. ring. Qed.
Lemma sum_n_ext n f g : (forall i, i < n -> (f i == g i)%Q) -> (sum_n n f == sum_n n g)%Q.
Proof. intros H. apply sum_ext. intros i Hi. apply in_seq in Hi. apply H; lia. Qed.
Lemma sum_n_nonneg n f : (forall i, i < n -> (0 <= f i)%Q) -> (0 <= sum_n n f)%Q.
Proof. intros H. apply sum_nonneg. intros i Hi. apply in_seq in Hi. apply H; lia. Qed.
Lemma sum_n_zero_inv n f : (forall i, i < n -> (0 <= f i)%Q) -> (sum_n n f == 0)%Q -> forall i, i < n -> (f i == 0)%Q.
Proof. intros H E i Hi. apply (sum_zero_inv (seq 0 n) f); auto; [intros j Hj; apply in_seq in Hj; apply H; lia|apply in_seq; lia]. Qed.
Lemma sum_n_le_mem n f i : (forall i, i < n -> (0 <= f i)%Q) -> i < n -> (f i <= sum_n n f)%Q.
Proof. intros H Hi. apply sum_le_mem; [intros j Hj; apply in_seq in Hj; apply H; lia|apply in_seq; lia]. Qed.
Lemma nth_map_seq (f : nat -> Q) n i : i < n -> nth i (map f (seq 0 n)) 0%Q = f i.
Proof. intros H. rewrite (nth_indep _ _ (f 0)) by (rewrite map_length, seq_length; auto). rewrite map_nth, seq_nth by auto. reflexivity. Qed.
Lemma nth_map0 (f : Q -> Q) l i : i < length l -> nth i (map f l) 0%Q = f (nth i l 0%Q).
Proof. intros H. rewrite (nth_indep _ _ (f 0%Q)) by (rewrite map_length; auto). apply map_nth. Qed.

Section Update.
  Variable p : pomdp.
  Notation N := (nS p).

  Lemma update_unfold b a o : a < nA p -> o < nO p -> length b = N ->
    exists nb s, length nb = N /\ (forall s', s' < N -> (nth s' nb 0 == prob_end p b a s' o)%Q) /\ (s == prob_obs p b a o)%Q /\
      belief_update p (Z.of_nat a) (Z.of_nat o) b = if Qeq_bool s 0 then Err EImpossible else Ok (map (fun x => x / s)%Q nb).
  Proof.
    intros Ha Ho Hb. unfold belief_update. rewrite !axis_nat.
    assert (a <? length (p_actions p) = true) as -> by (apply Nat.ltb_lt; auto). cbn [bind].
    assert (o <? length (p_observations p) = true) as -> by (apply Nat.ltb_lt; auto).
    assert (Nat.eqb (length b) (length (states p)) = true) as -> by (apply Nat.eqb_eq; auto). cbn [bind negb].
    match goal with |- context [sumQ ?x] => exists x, (sumQ x) end.
    assert (HL : forall s', s' < N -> (nth s' (map (fun s' => sum_n (length (states p)) (fun s => nth s b 0 * at_ (p_T p) [a; s; s']) * at_ (p_O p) [a; s'; o]) (seq 0 (length (states p)))) 0 == prob_end p b a s' o)%Q).
    { intros s' Hs. rewrite nth_map_seq by exact Hs. unfold prob_end, sum_n. rewrite <- sum_scale_r. apply sum_ext. intros s Hin. unfold joint, Tr, Ob. ring. }
    split; [rewrite map_length, seq_length; reflexivity|]. split; [exact HL|]. split; [|reflexivity].
    unfold sumQ. rewrite sum_map. unfold prob_obs. apply sum_ext. intros s' Hs. apply in_seq in Hs.
    specialize (HL s' ltac:(unfold nS in *; lia)). rewrite nth_map_seq in HL by (unfold nS in *; lia). exact HL.
  Qed.

  Hypothesis St : stochastic p.
  Lemma joint_nonneg b a s s' o : distribution p b -> a < nA p -> o < nO p -> s < N -> s' < N -> (0 <= joint p b a s s' o)%Q.
  Proof.
    intros (_ & H & _) Ha Ho Hs Hs'. destruct St as (S1 & _ & S3 & _). unfold joint.
    apply Qmult_le_0_compat; [apply Qmult_le_0_compat|]; auto.
  Qed.
  Lemma prob_end_nonneg b a s' o : distribution p b -> a < nA p -> o < nO p -> s' < N -> (0 <= prob_end p b a s' o)%Q.
  Proof. intros. apply sum_n_nonneg. intros. apply joint_nonneg; auto. Qed.
  Lemma prob_obs_nonneg b a o : distribution p b -> a < nA p -> o < nO p -> (0 <= prob_obs p b a o)%Q.
  Proof. intros. apply sum_n_nonneg. intros. apply prob_end_nonneg; auto. Qed.

  Lemma update_bayes b a o : distribution p b -> a < nA p -> o < nO p ->
    ((prob_obs p b a o == 0)%Q -> belief_update p (Z.of_nat a) (Z.of_nat o) b = Err EImpossible) /\
    (~ (prob_obs p b a o == 0)%Q -> exists nb, belief_update p (Z.of_nat a) (Z.of_nat o) b = Ok nb /\ distribution p nb /\
       forall s', s' < N -> (nth s' nb 0 == prob_end p b a s' o / prob_obs p b a o)%Q).
  Proof.
    intros Hb Ha Ho. destruct (update_unfold b a o Ha Ho (proj1 Hb)) as [nb [s (H1 & H2 & H3 & ->)]]. split.
    - intros E. assert (Qeq_bool s 0 = true) as -> by (apply Qeq_bool_iff; rewrite H3; auto). reflexivity.
    - intros E. destruct (Qeq_bool s 0) eqn:Es; [apply Qeq_bool_iff in Es; rewrite H3 in Es; contradiction|].
      exists (map (fun x => x / s)%Q nb). split; [reflexivity|].
      assert (HV : forall s', s' < N -> (nth s' (map (fun x => x / s) nb) 0 == prob_end p b a s' o / prob_obs p b a o)%Q).
      { intros s' Hs. rewrite nth_map0 by (rewrite H1; auto). rewrite H2, H3 by auto. reflexivity. }
      split; [|exact HV]. split; [rewrite map_length; auto|].
      assert (HP : (0 < prob_obs p b a o)%Q) by (pose proof (prob_obs_nonneg b a o Hb Ha Ho); lra). split.
      + intros s' Hs. rewrite HV by auto. apply Qle_shift_div_l; [auto|]. rewrite Qmult_0_l. apply prob_end_nonneg; auto.
      + rewrite (sum_n_ext N _ (fun s' => prob_end p b a s' o / prob_obs p b a o)%Q) by auto. unfold sum_n. rewrite sum_div.
        change (sum_over (seq 0 N) (fun s' => prob_end p b a s' o)) with (prob_obs p b a o). field. lra.
  Qed.

  (** *** Histories *)
  Definition W (s : nat) (h : list (nat * nat)) (e : nat) : Q :=
    sum_over (paths p (length h)) (fun path => if Nat.eqb (last path s) e then path_weight p s h path else 0%Q).
  Lemma last_cons s s' (t : list nat) : last (s' :: t) s = last t s'.
  Proof. revert s s'. induction t as [|x t IH]; intros s s'; [reflexivity|]. change (last (s' :: x :: t) s) with (last (x :: t) s). rewrite IH. symmetry. apply IH. Qed.
  Lemma W_cons s a o h e : (W s ((a, o) :: h) e == sum_n N (fun s' => Tr p a s s' * Ob p a s' o * W s' h e))%Q.
  Proof.
    unfold W at 1. cbn [length paths]. rewrite sum_flat_map. apply sum_ext. intros s' _. rewrite sum_map. unfold W. rewrite <- sum_scale.
    apply sum_ext. intros t _. rewrite last_cons. cbn [path_weight]. destruct (Nat.eqb (last t s') e); ring.
  Qed.
  Lemma history_end_W b h e : (history_end p b h e == sum_n N (fun s => nth s b 0 * W s h e))%Q.
  Proof.
    unfold history_end. apply sum_n_ext. intros s _. unfold W. rewrite <- sum_scale. apply sum_ext. intros t _.
    destruct (Nat.eqb (last t s) e); ring.
  Qed.
  Lemma history_end_cons b a o h e : (history_end p b ((a, o) :: h) e == sum_n N (fun s' => prob_end p b a s' o * W s' h e))%Q.
  Proof.
    rewrite history_end_W. rewrite (sum_n_ext N _ (fun s => sum_n N (fun s' => joint p b a s s' o * W s' h e))%Q).
    2:{ intros s _. rewrite W_cons. unfold sum_n. rewrite <- sum_scale. apply sum_ext. intros s' _. unfold joint. ring. }
    unfold sum_n. rewrite sum_swap. apply sum_ext. intros s' _. rewrite sum_scale_r. reflexivity.
  Qed.
  Lemma history_nil b e : e < N -> (history_end p b [] e == nth e b 0)%Q.
  Proof.
    intros He. rewrite history_end_W. unfold sum_n. rewrite (sum_single _ _ e).
    - unfold W. cbn. rewrite Nat.eqb_refl. ring.
    - apply seq_NoDup.
    - apply in_seq; lia.
    - intros y _ Hy. unfold W. cbn. replace (Nat.eqb y e) with false by (symmetry; apply Nat.eqb_neq; auto). ring.
  Qed.
  Lemma W_nonneg h : Forall (fun ao => fst ao < nA p /\ snd ao < nO p) h -> forall s e, s < N -> (0 <= W s h e)%Q.
  Proof.
    induction 1 as [|[a o] h [Ha Ho] Hh IH]; intros s e Hs.
    - unfold W. cbn. destruct (Nat.eqb s e); lra.
    - rewrite W_cons. apply sum_n_nonneg. intros s' Hs'. destruct St as (S1 & _ & S3 & _).
      apply Qmult_le_0_compat; [apply Qmult_le_0_compat|]; auto.
  Qed.

  Lemma filter_history h : Forall (fun ao => fst ao < nA p /\ snd ao < nO p) h -> forall b, distribution p b ->
    ((history p b h == 0)%Q -> filter_belief p b h = Err EImpossible) /\
    (~ (history p b h == 0)%Q -> exists nb, filter_belief p b h = Ok nb /\ distribution p nb /\
       forall e, e < N -> (nth e nb 0 * history p b h == history_end p b h e)%Q).
  Proof.
    induction 1 as [|[a o] h [Ha Ho] Hh IH]; intros b Hb.
    - assert (E1 : (history p b [] == 1)%Q).
      { unfold history. rewrite (sum_n_ext N _ (fun e => nth e b 0)%Q) by (intros; apply history_nil; auto). apply Hb. }
      split; [intros E; rewrite E1 in E; discriminate|]. intros _. exists b. split; [reflexivity|]. split; [auto|].
      intros e He. rewrite E1, history_nil by auto. ring.
    - cbn [fst snd] in Ha, Ho. destruct (update_bayes b a o Hb Ha Ho) as [U1 U2]. cbn [filter_belief].
      destruct (Qeq_dec (prob_obs p b a o) 0) as [Z0|Z0].
      + rewrite U1 by auto. cbn [bind].
        assert (E0 : (history p b ((a, o) :: h) == 0)%Q).
        { unfold history. apply sum_zero. intros e _. rewrite history_end_cons. apply sum_zero. intros s' Hs'. apply in_seq in Hs'.
          rewrite (sum_n_zero_inv N (fun s' => prob_end p b a s' o) ltac:(intros; apply prob_end_nonneg; auto) Z0 s') by lia. ring. }
        split; [auto|]. intros E; contradiction.
      + destruct (U2 Z0) as [nb (-> & Hnb & HV)]. cbn [bind].
        assert (HE : forall e, (history_end p b ((a, o) :: h) e == prob_obs p b a o * history_end p nb h e)%Q).
        { intros e. rewrite history_end_cons, history_end_W. unfold sum_n. rewrite <- sum_scale. apply sum_ext. intros s' Hs'. apply in_seq in Hs'.
          rewrite HV by lia. field. auto. }
        assert (HH : (history p b ((a, o) :: h) == prob_obs p b a o * history p nb h)%Q).
        { unfold history, sum_n. rewrite <- sum_scale. apply sum_ext. intros e _. apply HE. }
        destruct (IH nb Hnb) as [I1 I2]. split.
        * intros E. apply I1. rewrite HH in E. apply Qmult_integral in E. destruct E; [contradiction|auto].
        * intros E. destruct I2 as [nb' (F1 & F2 & F3)].
          { intros E'. apply E. rewrite HH, E'. ring. }
          exists nb'. split; [auto|]. split; [auto|]. intros e He. rewrite HH, HE, <- F3 by auto. ring.
  Qed.
End Update.
