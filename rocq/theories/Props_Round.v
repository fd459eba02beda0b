(** C47: from how many entries on a row of probabilities can be written with a negative number. *)
From Verif Require Import PyBase PyBaseFacts QBase PomdpModel PomdpSpec PomdpProofs PomdpProofs2 Props_Pomdp.
From Coq Require Import Lia Lqa.
Local Open Scope list_scope.
Local Open Scope nat_scope.

Lemma sum_error a : (inject_Z (sumZ (map around5 a)) <= sumQ a * 100000 + inject_Z (Z.of_nat (length a)) / 2)%Q.
Proof.
  induction a as [|x a IH]; [vm_compute; discriminate|]. rewrite sumQ_cons. cbn [map sumZ fold_right length]. fold (sumZ (map around5 a)).
  rewrite inject_Z_plus, Nat2Z.inj_succ, <- Z.add_1_r, inject_Z_plus. change (inject_Z 1) with 1%Q.
  destruct (around_nearest x) as [H _]. apply Qabs_Qle_condition in H.
  assert (D : forall y, ((y + 1) / 2 == y / 2 + (1 # 2))%Q) by (intros; field). rewrite D. lra.
Qed.
Lemma sum_max a M : (forall x, In x a -> around5 x <= M)%Z -> (sumZ (map around5 a) <= Z.of_nat (length a) * M)%Z.
Proof.
  induction a as [|x a IH]; intros H; [reflexivity|]. cbn [map sumZ fold_right length]. fold (sumZ (map around5 a)).
  assert (around5 x <= M)%Z by (apply H; left; reflexivity). assert (sumZ (map around5 a) <= Z.of_nat (length a) * M)%Z by (apply IH; intros; apply H; right; assumption). lia.
Qed.

(** 449 entries of 222.5 + 1/450 units of 0.00001, one of 96.5 + 1/450, and zeros. *)
Definition big : Q := ((445 # 2) + (1 # 450)) / 100000.
Definition small : Q := ((193 # 2) + (1 # 450)) / 100000.
Definition bad_row (z : nat) : list Q := repeat big 449 ++ small :: repeat 0%Q z.
Lemma sumQ_repeat x k : (sumQ (repeat x k) == inject_Z (Z.of_nat k) * x)%Q.
Proof. induction k as [|k IH]; [cbn; ring|]. cbn [repeat]. rewrite sumQ_cons, IH, Nat2Z.inj_succ, <- Z.add_1_r, inject_Z_plus. ring. Qed.
Lemma sumQ_app' a b : (sumQ (a ++ b) == sumQ a + sumQ b)%Q.
Proof. induction a as [|x a IH]; [cbn [app]; change (sumQ []) with 0%Q; ring|]. cbn [app]. rewrite !sumQ_cons, IH. ring. Qed.
Lemma sumZ_repeat x k : sumZ (map around5 (repeat x k)) = (Z.of_nat k * around5 x)%Z.
Proof. induction k as [|k IH]; [reflexivity|]. cbn [repeat map sumZ fold_right]. fold (sumZ (map around5 (repeat x k))). rewrite IH. lia. Qed.
Lemma sumZ_app' a b : sumZ (a ++ b) = (sumZ a + sumZ b)%Z.
Proof. induction a as [|x a IH]; [reflexivity|]. cbn [app sumZ fold_right]. fold (sumZ (a ++ b)) (sumZ a). rewrite IH. lia. Qed.
Lemma around_big : around5 big = 223%Z. Proof. vm_compute. reflexivity. Qed.
Lemma around_small : around5 small = 97%Z. Proof. vm_compute. reflexivity. Qed.
Lemma around_0 : around5 0 = 0%Z. Proof. vm_compute. reflexivity. Qed.

(** Up to 449 entries no negative number is written; for each greater number of entries there are probabilities for which one
    is. *)
Theorem C47_threshold : forall n,
  (n <= 449 <-> forall a l, length a = n -> (forall x, In x a -> 0 <= x)%Q -> (sumQ a == 1)%Q -> dump_1d_array a = Ok l -> forall z, In z l -> (0 <= z)%Z).
Proof.
  intros n. split.
  - intros Hn a l La Hp HS E z Hz. destruct (dump_spec _ _ E) as [k (K1 & K2 & K3 & K4 & K5 & K6)].
    assert (HA : forall x, (0 <= x)%Q -> (0 <= around5 x)%Z).
    { intros x Hx. destruct (around_nearest x) as [H _]. apply Qabs_Qle_condition in H. destruct (Z.lt_ge_cases (around5 x) 0) as [Hl|]; [|auto]. exfalso.
      assert (inject_Z (around5 x) <= -1)%Q by (change (-1)%Q with (inject_Z (-1)); rewrite <- Zle_Qle; lia). lra. }
    apply (In_nth _ _ 0%Z) in Hz. destruct Hz as [i [Hi <-]]. rewrite K2 in Hi.
    destruct (Nat.eq_dec i k) as [->|Hne]; [|rewrite K4 by auto; apply HA; apply Hp; apply nth_In; auto].
    rewrite K5. assert (R1 : around5 (sumQ a) = 100000%Z) by (apply rint_unique; rewrite HS; vm_compute; reflexivity). rewrite R1.
    set (A := around5 (nth k a 0%Q)) in *. pose proof (sum_error a) as S1. rewrite HS, La in S1.
    assert (S2 : (sumZ (map around5 a) <= Z.of_nat (length a) * A)%Z). { apply sum_max. intros x Hx. apply (In_nth _ _ 0%Q) in Hx. destruct Hx as [j [Hj <-]]. apply K6. exact Hj. }
    rewrite La in S2. assert (S3 : (2 * sumZ (map around5 a) <= 200000 + Z.of_nat n)%Z).
    { rewrite Zle_Qle, inject_Z_plus, inject_Z_mult. change (inject_Z 2) with 2%Q. change (inject_Z 200000) with 200000%Q. assert (D : (2 * (inject_Z (Z.of_nat n) / 2) == inject_Z (Z.of_nat n))%Q) by field. lra. }
    set (s := sumZ (map around5 a)) in *. assert (B : (Z.of_nat n <= 449)%Z) by lia. destruct (Z.lt_ge_cases (A + (100000 - s)) 0) as [F|]; [|assumption]. exfalso. assert (A0 : (0 <= A)%Z) by (apply HA, Hp, nth_In; assumption). assert (A1 : (A <= 223)%Z) by lia.
    assert (X : (Z.of_nat n * A <= 449 * A)%Z) by (apply Z.mul_le_mono_nonneg_r; assumption). lia.
  - intros H. destruct (le_lt_dec n 449) as [|G]; [assumption|]. exfalso. set (a := bad_row (n - 450)).
    assert (La : length a = n) by (unfold a, bad_row; rewrite app_length; cbn [length]; rewrite !repeat_length; lia).
    assert (HS : (sumQ a == 1)%Q). { unfold a, bad_row. rewrite sumQ_app', sumQ_cons, !sumQ_repeat. rewrite Qmult_0_r. vm_compute. reflexivity. }
    assert (HP : forall x, In x a -> (0 <= x)%Q). { unfold a, bad_row. intros x Hx. apply in_app_or in Hx. destruct Hx as [Hx|[<-|Hx]]; [apply repeat_spec in Hx; subst x| |apply repeat_spec in Hx; subst x]; vm_compute; discriminate. }
    assert (R1 : around5 (sumQ a) = 100000%Z) by (apply rint_unique; rewrite HS; vm_compute; reflexivity).
    assert (R2 : sumZ (map around5 a) = 100224%Z). { unfold a, bad_row. rewrite map_app, sumZ_app'. cbn [map sumZ fold_right]. fold (sumZ (map around5 (repeat 0%Q (n - 450)))). rewrite !sumZ_repeat, around_big, around_small, around_0. rewrite Z.mul_0_r. reflexivity. }
    assert (M : forall x, In x a -> (around5 x <= 223)%Z). { unfold a, bad_row. intros x I. apply in_app_or in I. destruct I as [I|[I|I]]; [apply repeat_spec in I|symmetry in I|apply repeat_spec in I]; rewrite I, ?around_big, ?around_small, ?around_0; lia. }
    clearbody a. destruct (dump_1d_array a) as [l|] eqn:E.
    2:{ unfold dump_1d_array in E. destruct (argmax_spec (map around5 a)) as [k (Ek & _)]; [|rewrite Ek in E; discriminate]. intros EE. apply map_eq_nil in EE. rewrite EE in La. cbn in La. lia. }
    destruct (dump_spec _ _ E) as [k (K1 & K2 & K3 & K4 & K5 & K6)]. specialize (M _ (nth_In a 0%Q K1)).
    pose proof (H a l La HP HS E (nth k l 0%Z)) as Z. rewrite K5, R1, R2 in Z. assert (I : In (around5 (nth k a 0%Q) + (100000 - 100224))%Z l) by (rewrite <- R1, <- R2, <- K5; apply nth_In; lia). specialize (Z I). lia.
Qed.
Print Assumptions C47_threshold.
(** A row of 450 entries: it has the sum 1 but its rounded entries add up to 1.00224, and the greatest of them is 0.00223. *)
Example C47_threshold_ex : length (bad_row 0) = 450 /\ (sumQ (bad_row 0) == 1)%Q /\ sumZ (map around5 (bad_row 0)) = 100224%Z /\ (around5 big, around5 small) = (223, 97)%Z.
Proof.
  split; [reflexivity|]. split; [unfold bad_row; rewrite sumQ_app', sumQ_cons, !sumQ_repeat; vm_compute; reflexivity|].
  split; [|vm_compute; reflexivity].
  unfold bad_row. rewrite map_app, sumZ_app'. cbn [map sumZ fold_right]. fold (sumZ (map around5 (repeat 0%Q 0))). rewrite !sumZ_repeat, around_big, around_small, around_0. reflexivity.
Qed.
