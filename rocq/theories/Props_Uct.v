(** C119, continued: the exploration term of UCT. *)
From Verif Require Import PyBase QBase StarveSpec.
From Coq Require Import QArith Reals Qreals Lia Lra.
Local Open Scope R_scope.

(** sqrt(log(N) / n), the term of augmented_values: lib/pomcp.py 302-304 *)
Definition uct (N n : nat) : R := sqrt (ln (INR N) / INR n).

Lemma sqrt_ratio x k n : 0 <= x -> 0 < k -> 16 * k <= n -> sqrt (x / n) <= sqrt (x / k) / 4.
Proof.
  intros Hx Hk Hn. replace (sqrt (x / k) / 4) with (sqrt (x / k / (4 * 4))).
  - apply sqrt_le_1_alt. unfold Rdiv. rewrite !Rmult_assoc. apply Rmult_le_compat_l; [lra|]. rewrite <- Rinv_mult. apply Rinv_le_contravar; lra.
  - assert (H0 : 0 <= x / k) by (apply Rmult_le_pos; [lra|left; apply Rinv_0_lt_compat; lra]).
    replace (x / k / (4 * 4)) with ((x / k) * ((/ 4) * (/ 4))) by (field; lra). rewrite sqrt_mult by lra. rewrite sqrt_square by lra. lra.
Qed.

Lemma INR_above x : exists n, x < INR n.
Proof.
  exists (Z.to_nat (up x)). destruct (archimed x) as [A _]. rewrite INR_IZR_INZ. apply (Rlt_le_trans _ (IZR (up x))); [lra|]. apply IZR_le. lia.
Qed.

(** Every rational exploration term that is within eps of it, or within a fifth of it, or within the sum of both,
    explores: this covers rounding to floating-point numbers. *)
Theorem C119_uct : forall (bonus : nat -> nat -> Q) (eps : R), (forall N n, (0 < N)%nat -> (0 < n)%nat -> Rabs (Q2R (bonus N n) - uct N n) <= eps + uct N n / 5) -> explores bonus.
Proof.
  intros bonus eps HB k W. set (e := Rmax 0 eps). set (t := 2 * (Rmax 0 (Q2R W) + 2 * e)).
  assert (He : 0 <= e) by apply Rmax_l. assert (He' : eps <= e) by apply Rmax_r. assert (HW : Q2R W <= Rmax 0 (Q2R W)) by apply Rmax_r. assert (HW0 : 0 <= Rmax 0 (Q2R W)) by apply Rmax_l.
  assert (Ht : 0 <= t) by (unfold t; lra).
  destruct (INR_above (exp (INR k * (t * t)))) as [M HM]. exists (16 * k)%nat, M. intros N j n HN Hj Hk Hn.
  assert (Pk : 0 < INR k) by (apply lt_0_INR; lia). assert (Pj : 0 < INR j) by (apply lt_0_INR; lia). assert (Hjk : INR j <= INR k) by (apply le_INR; lia).
  assert (Hnk : 16 * INR k <= INR n) by (apply le_INR in Hn; rewrite mult_INR in Hn; change (INR 16) with (INR (8 + 8)) in Hn; rewrite plus_INR in Hn; simpl (INR 8) in Hn; lra).
  assert (HNM : exp (INR k * (t * t)) < INR N) by (apply le_INR in HN; lra).
  assert (PN : 0 < INR N) by (pose proof (exp_pos (INR k * (t * t))); lra). assert (PN' : (0 < N)%nat) by (apply INR_lt; simpl; auto).
  assert (HL : INR k * (t * t) <= ln (INR N)) by (rewrite <- (ln_exp (INR k * (t * t))); left; apply ln_increasing; [apply exp_pos|auto]).
  assert (Htt : 0 <= t * t) by (apply Rmult_le_pos; auto). assert (Hkt : 0 <= INR k * (t * t)) by (apply Rmult_le_pos; lra).
  set (s := sqrt (ln (INR N) / INR k)).
  assert (S1 : t <= s). { unfold s. rewrite <- (sqrt_square t Ht). apply sqrt_le_1_alt. apply (Rmult_le_reg_l (INR k)); [auto|]. replace (INR k * (ln (INR N) / INR k)) with (ln (INR N)) by (field; lra). auto. }
  assert (S2 : s <= uct N j). { unfold s, uct. apply sqrt_le_1_alt. unfold Rdiv. apply Rmult_le_compat_l; [lra|]. apply Rinv_le_contravar; auto. }
  assert (S3 : uct N n <= s / 4) by (apply sqrt_ratio; lra). assert (S4 : 0 <= uct N n) by apply sqrt_pos.
  pose proof (HB N j PN' ltac:(lia)) as B1. pose proof (HB N n PN' ltac:(lia)) as B2.
  apply Rle_Qle. rewrite Q2R_plus. unfold Rabs in B1, B2. unfold t in S1. destruct (Rcase_abs _), (Rcase_abs _); lra.
Qed.
Print Assumptions C119_uct.

(** Rounding up to an integer is one. *)
Example C119_uct_ex : let bonus := fun N n => inject_Z (up (uct N n)) in (forall N n, (0 < N)%nat -> (0 < n)%nat -> Rabs (Q2R (bonus N n) - uct N n) <= 1 + uct N n / 5) /\ explores bonus.
Proof.
  intros bonus. assert (A : forall N n, (0 < N)%nat -> (0 < n)%nat -> Rabs (Q2R (bonus N n) - uct N n) <= 1 + uct N n / 5).
  { intros N n _ _. assert (P : 0 <= uct N n) by apply sqrt_pos. destruct (archimed (uct N n)) as [A1 A2]. unfold bonus, Q2R. cbn [inject_Z Qnum Qden]. replace (IZR (up (uct N n)) * / 1) with (IZR (up (uct N n))) by lra.
    unfold Rabs. destruct (Rcase_abs _); lra. }
  split; [exact A|]. exact (C119_uct _ _ A).
Qed.
