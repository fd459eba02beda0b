(** Laws of the draws of numpy and of the samples of a POMDP. *)
From Verif Require Import QBase PyBase PyBaseFacts PomdpModel PomdpSpec PomdpProofs PomdpProofs2 BeliefModel BeliefSpec BeliefProofs Props_Pomdp LawSpec LawProofs.
From Coq Require Import Lia Lqa Field.
Local Open Scope list_scope.
Local Open Scope nat_scope.

Lemma below_mark {W} (sp : space W) draw marks c d : uniform sp draw marks -> In c marks -> (d == c)%Q -> (prob sp (fun w => negb (Qle_bool d (draw w))) == d)%Q.
Proof.
  intros [_ U] I E. rewrite <- (U c I) in E. rewrite E. apply prob_ext. intros q w _. f_equal. assert (D : (d == c)%Q) by (rewrite E; apply U; auto). rewrite D. reflexivity.
Qed.

Lemma row_marks_In f n k : k <= n -> In (sum_n k f) (row_marks f n).
Proof. intros H. apply in_map_iff. exists k. split; [auto|]. apply in_seq. lia. Qed.

(** The law of random choice *)
Lemma choice_law {W} (sp : space W) draw marks f n : uniform sp draw marks -> incl (row_marks f n) marks ->
  (forall i, i < n -> (0 <= f i)%Q) -> (sum_n n f == 1)%Q ->
  (forall q w, In (q, w) sp -> exists k, random_choice (map f (seq 0 n)) (draw w) = Ok k /\ k < n) /\
  forall g : res nat -> Q, (mean sp (fun w => g (random_choice (map f (seq 0 n)) (draw w))) == sum_n n (fun k => f k * g (Ok k)))%Q.
Proof.
  intros U I H0 H1.
  assert (T : forall q w, In (q, w) sp -> exists k, random_choice (map f (seq 0 n)) (draw w) = Ok k /\ k < n).
  { intros q w Hq. destruct (choice_exact f n (draw w) H0 H1 (proj1 U q w Hq)) as [[k E] C]. exists k. split; [auto|]. apply C in E. tauto. }
  split; [auto|]. intros g. set (c := fun w => match random_choice (map f (seq 0 n)) (draw w) with Ok k => k | Err _ => 0 end).
  transitivity (mean sp (fun w => g (Ok (c w)))).
  { apply mean_ext. intros q w Hq. unfold c. destruct (T q w Hq) as (k & -> & _). reflexivity. }
  rewrite (mean_index sp c (fun k => g (Ok k)) n).
  2:{ intros q w Hq. unfold c. destruct (T q w Hq) as (k & -> & L). auto. }
  apply sum_n_ext. intros k Hk. apply Qmult_comp; [|reflexivity].
  assert (M1 : (prob sp (fun w => negb (Qle_bool (sum_n k f) (draw w))) == sum_n k f)%Q) by (eapply below_mark; [eauto|apply I, (row_marks_In f n k); lia|reflexivity]).
  assert (M2 : (prob sp (fun w => negb (Qle_bool (sum_n k f + f k) (draw w))) == sum_n k f + f k)%Q) by (eapply below_mark; [eauto|apply I, (row_marks_In f n (S k)); lia|symmetry; apply sum_n_S]).
  transitivity (prob sp (fun w => negb (Qle_bool (sum_n k f + f k) (draw w))) - prob sp (fun w => negb (Qle_bool (sum_n k f) (draw w))))%Q; [|rewrite M1, M2; ring].
  unfold prob. rewrite <- mean_minus. apply mean_ext. intros q w Hq. unfold c. destruct (choice_exact f n (draw w) H0 H1 (proj1 U q w Hq)) as [[i E] C]. rewrite E.
  pose proof (proj1 (C i) E) as [Li Bi]. specialize (H0 k Hk). destruct (Nat.eqb_spec i k) as [->|Ne].
  - assert (Qle_bool (sum_n k f) (draw w) = true) as -> by (apply Qle_bool_iff; lra). destruct (Qle_bool (sum_n k f + f k) (draw w)) eqn:B; [apply Qle_bool_iff in B; lra|]. cbn. ring.
  - assert (NC : ~ (sum_n k f <= draw w < sum_n k f + f k)%Q) by (intros X; apply Ne; assert (random_choice (map f (seq 0 n)) (draw w) = Ok k) by (apply C; auto); congruence).
    destruct (Qle_bool (sum_n k f + f k) (draw w)) eqn:B1; destruct (Qle_bool (sum_n k f) (draw w)) eqn:B2; cbn; try ring; exfalso.
    + apply Qle_bool_iff in B1. assert (B2' : ~ (sum_n k f <= draw w)%Q) by (rewrite <- Qle_bool_iff; congruence). lra.
    + apply Qle_bool_iff in B2. assert (B1' : ~ (sum_n k f + f k <= draw w)%Q) by (rewrite <- Qle_bool_iff; congruence). lra.
Qed.

Lemma sum_n_mono f n : (forall i, i < n -> (0 <= f i)%Q) -> forall k, k <= n -> (0 <= sum_n k f <= sum_n n f)%Q.
Proof.
  intros H k Hk. split; [apply sum_n_nonneg; intros; apply H; lia|].
  induction n as [|n IH]; [assert (k = 0) as -> by lia; lra|]. destruct (Nat.eq_dec k (S n)) as [->|Ne]; [lra|]. rewrite (sum_n_S n f). assert (0 <= f n)%Q by (apply H; lia).
  assert (sum_n k f <= sum_n n f)%Q by (apply IH; [intros; apply H; lia|lia]). lra.
Qed.
Lemma row_marks_bounds f n : (forall i, i < n -> (0 <= f i)%Q) -> (sum_n n f == 1)%Q -> forall c, In c (row_marks f n) -> (0 <= c <= 1)%Q.
Proof. intros H0 H1 c I. apply in_map_iff in I. destruct I as (k & <- & Hk). apply in_seq in Hk. rewrite <- H1. apply sum_n_mono; [auto|lia]. Qed.

(** Marks of a model *)
Definition start_ok (p : pomdp) : Prop := (forall s, s < nS p -> (0 <= Start p s)%Q) /\ (sum_n (nS p) (Start p) == 1)%Q.
Lemma model_marks_bounds p : stochastic p -> start_ok p -> forall c, In c (model_marks p) -> (0 <= c <= 1)%Q.
Proof.
  intros (S1 & S2 & S3 & S4) [I1 I2] c I. apply in_app_or in I. destruct I as [I|I]; [eapply row_marks_bounds; eauto|].
  apply in_flat_map in I. destruct I as (a & Ia & I). apply in_flat_map in I. destruct I as (s & Is & I). apply in_seq in Ia, Is. apply in_app_or in I. destruct I as [I|I].
  - apply (row_marks_bounds (Tr p a s) (nS p)); auto; [intros; apply S1; lia|apply S2; lia].
  - apply (row_marks_bounds (Ob p a s) (nO p)); auto; [intros; apply S3; lia|apply S4; lia].
Qed.
Lemma model_marks_T p a s : a < nA p -> s < nS p -> incl (row_marks (Tr p a s) (nS p)) (model_marks p).
Proof.
  intros Ha Hs c I. apply in_or_app. right. apply in_flat_map. exists a. split; [apply in_seq; lia|]. apply in_flat_map. exists s. split; [apply in_seq; lia|].
  apply in_or_app. auto.
Qed.
Lemma model_marks_O p a s : a < nA p -> s < nS p -> incl (row_marks (Ob p a s) (nO p)) (model_marks p).
Proof.
  intros Ha Hs c I. apply in_or_app. right. apply in_flat_map. exists a. split; [apply in_seq; lia|]. apply in_flat_map. exists s. split; [apply in_seq; lia|].
  apply in_or_app. auto.
Qed.

Lemma sample_unfold p a s u v : well_shaped p -> a < nA p -> s < nS p -> pomdp_sample_transition p u v (Z.of_nat a) (Z.of_nat s) =
  do s' <- random_choice (map (Tr p a s) (seq 0 (nS p))) u; do o <- random_choice (map (Ob p a s') (seq 0 (nO p))) v; Ok (s', o, at_ (p_R p) [a; s; s'; o]).
Proof.
  intros (W1 & W2 & W3 & W4) Ha Hs. unfold pomdp_sample_transition. rewrite !axis_nat. fold (nA p) (nS p).
  assert (a <? nA p = true) as -> by (apply Nat.ltb_lt; auto). assert (s <? nS p = true) as -> by (apply Nat.ltb_lt; auto). cbn [bind].
  rewrite (row3 _ _ _ _ _ _ W2). unfold Tr at 1. destruct (random_choice _ u) as [s'|]; [|reflexivity]. cbn [bind]. rewrite (row3 _ _ _ _ _ _ W3). reflexivity.
Qed.
(** The law of sample_transition *)
Lemma transition_law p {U V} (spu : space U) (spv : space V) u v a s : well_shaped p -> stochastic p -> a < nA p -> s < nS p ->
  uniform spu u (model_marks p) -> uniform spv v (model_marks p) ->
  forall g : res (nat * nat * Q) -> Q,
  (mean (pairs spu spv) (fun uv => g (pomdp_sample_transition p (u (fst uv)) (v (snd uv)) (Z.of_nat a) (Z.of_nat s))) ==
   sum_n (nS p) (fun s' => sum_n (nO p) (fun o => step_prob p a s s' o * g (Ok (s', o, at_ (p_R p) [a; s; s'; o])))))%Q.
Proof.
  intros Ws (S1 & S2 & S3 & S4) Ha Hs Uu Uv g. rewrite mean_pairs.
  set (h := fun r : res nat => match r with
    | Ok s' => mean spv (fun y => g (do o <- random_choice (map (Ob p a s') (seq 0 (nO p))) (v y); Ok (s', o, at_ (p_R p) [a; s; s'; o])))
    | Err e => mean spv (fun _ => g (Err e)) end).
  transitivity (mean spu (fun x => h (random_choice (map (Tr p a s) (seq 0 (nS p))) (u x)))).
  { apply mean_ext. intros q x _. unfold h. destruct (random_choice (map (Tr p a s) (seq 0 (nS p))) (u x)) as [s'|e] eqn:E.
    - apply mean_ext. intros q' y _. cbn [fst snd]. rewrite sample_unfold by auto. rewrite E. reflexivity.
    - apply mean_ext. intros q' y _. cbn [fst snd]. rewrite sample_unfold by auto. rewrite E. reflexivity. }
  rewrite (proj2 (choice_law spu u (model_marks p) (Tr p a s) (nS p) Uu (model_marks_T p a s Ha Hs) ltac:(auto) ltac:(auto))).
  apply sum_n_ext. intros s' Hs'. unfold h.
  set (k := fun r : res nat => g (do o <- r; Ok (s', o, at_ (p_R p) [a; s; s'; o]))).
  transitivity (Tr p a s s' * mean spv (fun y => k (random_choice (map (Ob p a s') (seq 0 (nO p))) (v y))))%Q; [reflexivity|].
  rewrite (proj2 (choice_law spv v (model_marks p) (Ob p a s') (nO p) Uv (model_marks_O p a s' Ha Hs') ltac:(auto) ltac:(auto))).
  unfold sum_n. rewrite <- sum_scale. apply sum_ext. intros o _. unfold k, step_prob. cbn [bind]. ring.
Qed.
