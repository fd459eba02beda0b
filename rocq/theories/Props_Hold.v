(** C77: hold and release. *)
From Coq Require Import Lia Lqa Qround Qpower.
From Verif Require Import PyBase QBase PomdpModel PomdpSpec HoldModel HoldSpec.
Local Open Scope list_scope.
Local Open Scope nat_scope.

Lemma close_one x : (x == 1)%Q -> close_to_one x = true.
Proof. intros E. unfold close_to_one. rewrite E. reflexivity. Qed.

Lemma normal_ok a : (forall idx, In idx (indices (removelast (shape a))) -> (at_ (sum_last a) idx == 1)%Q) -> assert_normal a = Ok tt.
Proof. intros H. unfold assert_normal, allclose_one. replace (forallb _ _) with true; [reflexivity|]. symmetry. apply forallb_forall. intros idx K. apply close_one. apply H. exact K. Qed.

Definition hold_pomdp cw cf cc f : pomdp :=
  {| p_T := array3 3 3 3 (hold_T f); p_O := array3 3 3 3 hold_O; p_R := neg (array4 3 3 3 3 (hold_R cw cf cc)); p_start := array1 3 (fun s => nth s [1; 0; 0]%Q 0%Q); p_discount := 1;
     p_s := NList (map NStr ["zero"; "one"; "final"]%string); p_a := NList (map NStr ["wait"; "physical"; "communicate"]%string); p_o := NList (map NStr ["nothing"; "doing"; "done"]%string) |}.
Lemma hold_ok cw cf cc f solver : hold_and_release_pomdp cw cf cc f solver = if solver then Ok (hold_pomdp cw cf cc f) else Err EImport.
Proof.
  assert (NT : assert_normal (array3 3 3 3 (hold_T f)) = Ok tt).
  { apply normal_ok. intros idx H. cbn in H. repeat (destruct H as [<-|H]; [unfold sum_last, array3, at_, sum_n, hold_T, hold_O, put3, vec, shape; cbn [last app nth Nat.eqb Nat.add seq sum_over orb map fold_right]; ring|]). destruct H. }
  assert (NO : assert_normal (array3 3 3 3 hold_O) = Ok tt).
  { apply normal_ok. intros idx H. cbn in H. repeat (destruct H as [<-|H]; [unfold sum_last, array3, at_, sum_n, hold_T, hold_O, put3, vec, shape; cbn [last app nth Nat.eqb Nat.add seq sum_over orb map fold_right]; ring|]). destruct H. }
  assert (NS : assert_normal (array1 3 (fun s => nth s [1; 0; 0]%Q 0%Q)) = Ok tt) by reflexivity.
  unfold hold_and_release_pomdp, mk_pomdp. cbn [shape array3 array1 array4 String.eqb Ascii.eqb Bool.eqb bind as_list map length]. rewrite NS, NT, NO. destruct solver; reflexivity.
Qed.

(** The POMDP is built for all parameters; its tables have the right shapes and names, and its values are costs. *)
Theorem C77_built : forall cw cf cc f, exists p, hold_and_release_pomdp cw cf cc f true = Ok p /\ well_shaped p /\
  states p = map NStr ["zero"; "one"; "final"]%string /\ p_actions p = map NStr ["wait"; "physical"; "communicate"]%string /\
  p_observations p = map NStr ["nothing"; "doing"; "done"]%string /\ p_discount p = 1%Q /\
  (forall s, s < 3 -> Start p s = if s =? zero then 1%Q else 0%Q) /\
  (forall a s s', a < 3 -> s < 3 -> s' < 3 -> (forall q, hr_moves f a s s' q -> Tr p a s s' = q) /\ ((forall q, ~ hr_moves f a s s' q) -> Tr p a s s' = 0%Q)) /\
  (forall a s o, a < 3 -> s < 3 -> o < 3 -> (hr_observes a s o -> Ob p a s o = 1%Q) /\ (~ hr_observes a s o -> Ob p a s o = 0%Q)) /\
  (forall a s s' o c, a < 3 -> s < 3 -> s' < 3 -> o < 3 -> hr_costs cw cf cc a s c -> at_ (p_R p) [a; s; s'; o] = (- c)%Q) /\
  (forall a s, a < 3 -> s < 3 -> exists c, hr_costs cw cf cc a s c).
Proof.
  intros cw cf cc f. exists (hold_pomdp cw cf cc f). split; [apply hold_ok|].
  split; [repeat split|]. do 4 (split; [reflexivity|]). split; [intros [|[|[|s]]] Hs; [reflexivity..|lia]|]. split; [|split; [|split]].
    + intros a s s' Ha Hs Hs'. split; [intros q H|intros H].
      * destruct H; subst; unfold zero, one, final, physical in *; try (destruct a as [|[|[|a]]]; [..|lia]; reflexivity); try reflexivity. destruct a as [|[|[|a]]]; try lia; reflexivity.
      * destruct s as [|[|[|s]]]; try lia; destruct s' as [|[|[|s']]]; try lia; destruct a as [|[|[|a]]]; try lia; first [reflexivity|exfalso; eapply H; first [apply hm_not_yet|apply hm_finishes|apply hm_robot; reflexivity|apply hm_idle; discriminate|apply hm_over]].
    + intros a s o Ha Hs Ho. split; intros H.
      * destruct H; subst; unfold zero, one, final, wait in *; try (destruct s as [|[|[|s]]]; try lia; reflexivity); destruct a as [|[|[|a]]]; try lia; reflexivity.
      * destruct s as [|[|[|s]]]; try lia; destruct o as [|[|[|o]]]; try lia; destruct a as [|[|[|a]]]; try lia; first [reflexivity|exfalso; apply H; first [apply ho_wait; reflexivity|apply ho_zero; discriminate|apply ho_one; discriminate|apply ho_final; discriminate]].
    + intros a s s' o c Ha Hs Hs' Ho H. destruct H; unfold zero in *; try (destruct s as [|s]; [contradiction|]); reflexivity.
    + intros a s Ha Hs. destruct a as [|[|[|a]]]; [eexists; apply hc_wait| |eexists; apply hc_communicate|lia]. destruct s as [|s]; [eexists; apply hc_failure|exists 0%Q; apply hc_physical; discriminate].
Qed.
Print Assumptions C77_built.

(** The rows are probability distributions exactly when the probability of finishing is one. *)
Theorem C77_stochastic : forall cw cf cc f solver p, hold_and_release_pomdp cw cf cc f solver = Ok p -> (stochastic p <-> (0 <= f <= 1)%Q).
Proof.
  intros cw cf cc f solver p E. rewrite hold_ok in E. destruct solver; [|discriminate]. injection E as <-. unfold stochastic, nA, nS, nO. split.
  - intros (P & _). pose proof (P 0 0 0 ltac:(cbn; lia) ltac:(cbn; lia) ltac:(cbn; lia)) as P0. pose proof (P 0 0 1 ltac:(cbn; lia) ltac:(cbn; lia) ltac:(cbn; lia)) as P1. change (0 <= 1 - f)%Q in P0. change (0 <= f)%Q in P1. lra.
  - intros F. change (length (states (hold_pomdp cw cf cc f))) with 3. change (length (p_actions (hold_pomdp cw cf cc f))) with 3. change (length (p_observations (hold_pomdp cw cf cc f))) with 3.
    split; [|split; [|split]].
    + intros a s s' Ha Hs Hs'. destruct s as [|[|[|s]]]; try lia; destruct s' as [|[|[|s']]]; try lia; destruct a as [|[|[|a]]]; try lia; unfold Tr, hold_pomdp, array3, at_, p_T, hold_T, put3, vec; cbn [nth Nat.eqb]; lra.
    + intros a s Ha Hs. destruct s as [|[|[|s]]]; try lia; destruct a as [|[|[|a]]]; try lia; unfold sum_n, Tr, hold_pomdp, array3, at_, p_T, hold_T, put3, vec; cbn [nth Nat.eqb sum_over seq fold_right]; ring.
    + intros a s o Ha Hs Ho. destruct s as [|[|[|s]]]; try lia; destruct o as [|[|[|o]]]; try lia; destruct a as [|[|[|a]]]; try lia; unfold Ob, hold_pomdp, array3, at_, p_O, hold_O, put3, vec; cbn [nth Nat.eqb orb]; lra.
    + intros a s Ha Hs. destruct s as [|[|[|s]]]; try lia; destruct a as [|[|[|a]]]; try lia; unfold sum_n, Ob, hold_pomdp, array3, at_, p_O, hold_O, put3, vec; cbn [nth Nat.eqb sum_over seq fold_right orb]; ring.
Qed.
Print Assumptions C77_stochastic.
(** Other numbers are accepted as well. *)
Theorem C77_probability_refuted : forall cw cf cc f, ~ (0 <= f <= 1)%Q -> exists p, hold_and_release_pomdp cw cf cc f true = Ok p /\ ~ stochastic p.
Proof. intros cw cf cc f H. exists (hold_pomdp cw cf cc f). split; [apply hold_ok|]. intros S. apply H. apply (C77_stochastic cw cf cc f true _ (hold_ok cw cf cc f true)). exact S. Qed.
Print Assumptions C77_probability_refuted.

(** The final state is never left, and only the physical action in state one reaches it. *)
Theorem C77_final : forall cw cf cc f solver p a s s', hold_and_release_pomdp cw cf cc f solver = Ok p -> a < nA p -> s < nS p -> s' < nS p ->
  ((~ Tr p a final s' == 0)%Q <-> s' = final) /\ (s <> final -> (~ Tr p a s final == 0)%Q <-> s = one /\ a = physical).
Proof.
  intros cw cf cc f solver p a s s' E Ha Hs Hs'. rewrite hold_ok in E. destruct solver; [|discriminate]. injection E as <-. change (a < 3) in Ha. change (s < 3) in Hs. change (s' < 3) in Hs'. unfold final, one, physical. split.
  - destruct s' as [|[|[|s']]]; try lia; destruct a as [|[|[|a]]]; try lia; unfold Tr, hold_pomdp, array3, at_, p_T, hold_T, put3, vec; cbn [nth Nat.eqb]; split; intros H; try discriminate; try reflexivity; exfalso; apply H; reflexivity.
  - intros N. destruct s as [|[|[|s]]]; try lia; destruct a as [|[|[|a]]]; try lia; unfold Tr, hold_pomdp, array3, at_, p_T, hold_T, put3, vec; cbn [nth Nat.eqb]; split; intros H; try discriminate; try (split; reflexivity); try (destruct H; discriminate); exfalso; apply H; reflexivity.
Qed.
Print Assumptions C77_final.

(** Waiting k times from the start: the belief that the human has not finished is (1 - f)^k. *)
Theorem C77_waiting : forall cw cf cc f solver p k, hold_and_release_pomdp cw cf cc f solver = Ok p ->
  exists b0 b1 b2, filter_belief p (map (Start p) [zero; one; final]) (repeat (wait, nothing) k) = Ok [b0; b1; b2] /\ (b0 == (1 - f) ^ Z.of_nat k)%Q /\ (b1 == 1 - (1 - f) ^ Z.of_nat k)%Q /\ (b2 == 0)%Q.
Proof.
  intros cw cf cc f solver p k E. rewrite hold_ok in E. destruct solver; [|discriminate]. injection E as <-.
  assert (G : forall k x0 x1 x2, (x0 + x1 == 1)%Q -> (x2 == 0)%Q -> exists b0 b1 b2, filter_belief (hold_pomdp cw cf cc f) [x0; x1; x2] (repeat (wait, nothing) k) = Ok [b0; b1; b2] /\ (b0 == x0 * (1 - f) ^ Z.of_nat k)%Q /\ (b1 == 1 - b0)%Q /\ (b2 == 0)%Q).
  { clear k. induction k as [|k IH]; intros x0 x1 x2 H1 H2.
    - exists x0, x1, x2. split; [reflexivity|]. split; [cbn; ring|]. split; [lra|auto].
    - cbn [repeat filter_belief]. unfold belief_update. change (length (states (hold_pomdp cw cf cc f))) with 3. change (length (p_actions (hold_pomdp cw cf cc f))) with 3. change (length (p_observations (hold_pomdp cw cf cc f))) with 3. change (axis 3 (Z.of_nat wait)) with (Ok 0). change (axis 3 (Z.of_nat nothing)) with (Ok 0). cbn [bind length Nat.eqb negb seq map].
      set (y0 := (sum_n 3 (fun s => nth s [x0; x1; x2] 0 * at_ (p_T (hold_pomdp cw cf cc f)) [0; s; 0]%nat) * at_ (p_O (hold_pomdp cw cf cc f)) [0; 0; 0]%nat)%Q). set (y1 := (sum_n 3 (fun s => nth s [x0; x1; x2] 0 * at_ (p_T (hold_pomdp cw cf cc f)) [0; s; 1]%nat) * at_ (p_O (hold_pomdp cw cf cc f)) [0; 1; 0]%nat)%Q). set (y2 := (sum_n 3 (fun s => nth s [x0; x1; x2] 0 * at_ (p_T (hold_pomdp cw cf cc f)) [0; s; 2]%nat) * at_ (p_O (hold_pomdp cw cf cc f)) [0; 2; 0]%nat)%Q).
      assert (E0 : (y0 == x0 * (1 - f))%Q) by (unfold y0, sum_n, hold_pomdp, array3, at_, p_T, p_O, hold_T, hold_O, put3, vec; cbn [nth Nat.eqb sum_over seq fold_right orb]; ring).
      assert (E1 : (y1 == x0 * f + x1)%Q) by (unfold y1, sum_n, hold_pomdp, array3, at_, p_T, p_O, hold_T, hold_O, put3, vec; cbn [nth Nat.eqb sum_over seq fold_right orb]; ring).
      assert (E2 : (y2 == x2)%Q) by (unfold y2, sum_n, hold_pomdp, array3, at_, p_T, p_O, hold_T, hold_O, put3, vec; cbn [nth Nat.eqb sum_over seq fold_right orb]; ring).
      assert (ES : (sumQ [y0; y1; y2] == 1)%Q) by (unfold sumQ, sum_over; cbn [fold_right]; rewrite E0, E1, E2; lra).
      destruct (Qeq_bool _ 0) eqn:Z; [apply Qeq_bool_iff in Z; lra|]. set (S := sumQ [y0; y1; y2]) in *.
      destruct (IH (y0 / S) (y1 / S) (y2 / S))%Q as (b0 & b1 & b2 & F & B0 & B1 & B2); [rewrite ES, E0, E1; field_simplify; lra|rewrite ES, E2, H2; reflexivity|]. exists b0, b1, b2. split; [exact F|]. split; [|auto]. rewrite B0, ES, E0. rewrite Nat2Z.inj_succ, <- Z.add_1_r. rewrite Qpower_plus'; [|lia]. change ((1 - f) ^ 1)%Q with (1 - f)%Q. field. }
  destruct (G k 1 0 0)%Q as (b0 & b1 & b2 & F & B0 & B1 & B2); [reflexivity|reflexivity|]. exists b0, b1, b2. split; [exact F|]. split; [rewrite B0; ring|]. split; [rewrite B1, B0; ring|exact B2].
Qed.
Print Assumptions C77_waiting.

(** The default probability, 1/5. *)
Example C77_ex : (exists p, hold_and_release_pomdp 1 10 2 (1 # 5) true = Ok p /\ stochastic p /\ map (Tr p physical zero) [zero; one; final] = [1 - (1 # 5); 1 # 5; 0]%Q /\ at_ (p_R p) [physical; zero; one; doing] = (-10)%Q) /\
  hr_moves (1 # 5) physical one final 1 /\ ~ (0 <= 3 <= 1)%Q.
Proof.
  split; [|split; [apply hm_robot; reflexivity|lra]]. exists (hold_pomdp 1 10 2 (1 # 5)). split; [apply hold_ok|]. split; [|split; reflexivity]. apply (C77_stochastic 1 10 2 (1 # 5) true _ (hold_ok 1 10 2 (1 # 5) true)). lra.
Qed.
