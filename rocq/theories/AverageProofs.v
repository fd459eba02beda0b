(** Limits of recursive sequences, and averages with few outcomes: for C127. *)
From Coq Require Import Lia Lqa Qabs.
From Verif Require Import PyBase PyBaseFacts QBase PomdpModel PomdpSpec PomdpProofs ConvModel AverageSpec.
Local Open Scope nat_scope.

Lemma tends_ext x y v w : (forall n, (x n == y n)%Q) -> (v == w)%Q -> tends_to x v -> tends_to y w.
Proof. intros E Ev H eps He. destruct (H eps He) as [N HN]. exists N. intros n Hn. rewrite <- E, <- Ev. auto. Qed.
Lemma tends_shift x y v : (forall n, (x (S n) == y n)%Q) -> tends_to y v -> tends_to x v.
Proof. intros E H eps He. destruct (H eps He) as [N HN]. exists (S N). intros [|n] Hn; [lia|]. rewrite E. apply HN. lia. Qed.
Lemma tends_const v : tends_to (fun _ => v) v.
Proof. intros eps He. exists 0. intros n _. assert (E : (v - v == 0)%Q) by ring. rewrite E. exact He. Qed.
Lemma tends_add x y v w : tends_to x v -> tends_to y w -> tends_to (fun n => x n + y n)%Q (v + w).
Proof.
  intros Hx Hy eps He. destruct (Hx (eps * (1 # 2))%Q) as [N1 H1]; [lra|]. destruct (Hy (eps * (1 # 2))%Q) as [N2 H2]; [lra|]. exists (N1 + N2). intros n Hn.
  specialize (H1 n ltac:(lia)). specialize (H2 n ltac:(lia)). assert (E : (x n + y n - (v + w) == (x n - v) + (y n - w))%Q) by ring. rewrite E. eapply Qle_lt_trans; [apply Qabs_triangle|]. lra.
Qed.
Lemma tends_scale x v c : tends_to x v -> tends_to (fun n => c * x n)%Q (c * v).
Proof.
  intros H eps He. assert (Hc : (0 <= Qabs c)%Q) by apply Qabs_nonneg. destruct (H (eps / (Qabs c + 1))%Q) as [N HN]; [apply Qlt_shift_div_l; lra|]. exists N. intros n Hn. specialize (HN n Hn).
  assert (E : (c * x n - c * v == c * (x n - v))%Q) by ring. rewrite E, Qabs_Qmult. set (d := Qabs (x n - v)) in *. assert (Hd : (0 <= d)%Q) by apply Qabs_nonneg.
  assert (D : (d * (Qabs c + 1) < eps)%Q). { apply (Qmult_lt_r _ _ (Qabs c + 1)) in HN; [|lra]. assert (X : (eps / (Qabs c + 1) * (Qabs c + 1) == eps)%Q) by (field; lra). rewrite X in HN. exact HN. }
  nra.
Qed.
(** Powers, and Bernoulli *)
Fixpoint pw (f : Q) (j : nat) : Q := match j with 0 => 1%Q | S j => (f * pw f j)%Q end.
Lemma power_small f j : (0 <= f <= 1)%Q -> (0 <= pw f j)%Q /\ (pw f j * (1 + inject_Z (Z.of_nat j) * (1 - f)) <= 1)%Q.
Proof.
  intros Hf. induction j as [|j [IH0 IH]]; [change (pw f 0) with 1%Q; change (inject_Z (Z.of_nat 0)) with 0%Q; split; lra|].
  assert (E : (pw f (S j) == f * pw f j)%Q).
  { reflexivity. }
  rewrite E. assert (I : (inject_Z (Z.of_nat (S j)) == inject_Z (Z.of_nat j) + 1)%Q) by (rewrite Nat2Z.inj_succ; unfold Z.succ; rewrite inject_Z_plus; reflexivity). rewrite I.
  set (x := pw f j) in *. assert (Hj : (0 <= inject_Z (Z.of_nat j))%Q) by (change 0%Q with (inject_Z 0); rewrite <- Zle_Qle; lia). set (J := inject_Z (Z.of_nat j)) in *. clearbody x J.
  split; [apply Qmult_le_0_compat; lra|].
  assert (G : (0 <= x * ((J + 1) * ((1 - f) * (1 - f))))%Q) by (repeat apply Qmult_le_0_compat; lra).
  assert (D : (f * x * (1 + (J + 1) * (1 - f)) == x * (1 + J * (1 - f)) - x * ((J + 1) * ((1 - f) * (1 - f))))%Q) by ring. rewrite D. lra.
Qed.
(** Repeated attempts *)
Lemma tends_attempts x y f c v : (0 <= f < 1)%Q -> (forall n, (x (S n) == f * x n + (1 - f) * y n + c)%Q) -> tends_to y v -> tends_to x (v + c / (1 - f)).
Proof.
  intros Hf E H eps He. destruct (H (eps * (1 # 2))%Q) as [M HM]; [lra|]. set (L := (v + c / (1 - f))%Q).
  assert (EL : (L == f * L + (1 - f) * v + c)%Q) by (unfold L; field; lra). clearbody L.
  set (B := Qabs (x M - L)). assert (HB : (0 <= B)%Q) by apply Qabs_nonneg.
  assert (K : forall j, (Qabs (x (M + j)%nat - L) <= pw f j * B + eps * (1 # 2))%Q).
  { induction j as [|j IH]; [rewrite Nat.add_0_r; fold B; change (pw f 0) with 1%Q; lra|]. rewrite Nat.add_succ_r.
    assert (D : (x (S (M + j)%nat) - L == f * (x (M + j)%nat - L) + (1 - f) * (y (M + j)%nat - v))%Q) by (rewrite E, EL at 1; ring). rewrite D. eapply Qle_trans; [apply Qabs_triangle|]. rewrite !Qabs_Qmult.
    rewrite (Qabs_pos f) by lra. rewrite (Qabs_pos (1 - f)) by lra. specialize (HM (M + j)%nat ltac:(lia)).
    assert (P : (pw f (S j) == f * pw f j)%Q). { reflexivity. }
    rewrite P. set (u := Qabs (x (M + j)%nat - L)) in *. set (w := Qabs (y (M + j)%nat - v)) in *. set (z := pw f j) in *. clearbody u w z. clear - Hf HM IH. nra. }
  (* enough attempts *)
  assert (exists j0, forall j, j0 <= j -> (pw f j * B < eps * (1 # 2))%Q) as [j0 HJ].
  { destruct (Qarchimedean (2 * B / (eps * (1 - f)))) as [k Hk]. exists (Pos.to_nat k). intros j Hj. destruct (power_small f j) as [Z0 Z1]; [lra|].
    assert (Hk' : (2 * B < inject_Z (Z.of_nat j) * (eps * (1 - f)))%Q).
    { assert (P0 : (0 < eps * (1 - f))%Q) by nra. apply (Qmult_lt_r _ _ (eps * (1 - f))) in Hk; [|exact P0]. assert (X : (2 * B / (eps * (1 - f)) * (eps * (1 - f)) == 2 * B)%Q) by (field; split; lra). rewrite X in Hk.
      eapply Qlt_le_trans; [exact Hk|]. apply Qmult_le_compat_r; [|lra]. unfold Qle, inject_Z. cbn. lia. }
    assert (Hj0 : (0 <= inject_Z (Z.of_nat j))%Q) by (change 0%Q with (inject_Z 0); rewrite <- Zle_Qle; lia).
    set (z := pw f j) in *. set (J := inject_Z (Z.of_nat j)) in *. clearbody z J. clear - Hf He HB Hk' Hj0 Z0 Z1.
    destruct (Qlt_le_dec (z * B) (eps * (1 # 2))) as [A|A]; [exact A|exfalso]. assert (Hz : (0 < z)%Q) by (destruct (Qlt_le_dec 0 z); [auto|assert (z == 0)%Q by lra; nra]).
    assert (G1 : (z * (2 * B) < z * (J * (eps * (1 - f))))%Q) by (apply Qmult_lt_l; auto). assert (G2 : (eps * (z * (1 + J * (1 - f))) <= eps * 1)%Q) by (apply Qmult_le_l; auto). assert (G3 : (0 < eps * z)%Q) by nra. nra. }
  exists (M + j0). intros n Hn. replace n with (M + (n - M)) by lia. eapply Qle_lt_trans; [apply K|]. specialize (HJ (n - M) ltac:(lia)). lra.
Qed.

(** Sums with one or two terms *)
Lemma sum_n_zero n f : (forall i, i < n -> (f i == 0)%Q) -> (sum_n n f == 0)%Q.
Proof. intros H. apply sum_zero. intros i Hi. apply in_seq in Hi. apply H. lia. Qed.
Lemma sum_n_one n f i : i < n -> (forall j, j < n -> j <> i -> (f j == 0)%Q) -> (sum_n n f == f i)%Q.
Proof.
  intros Hi H. induction n as [|n IH]; [lia|]. rewrite sum_n_S. destruct (Nat.eq_dec i n) as [->|D].
  - rewrite sum_n_zero; [ring|]. intros j Hj. apply H; lia.
  - rewrite IH by (try lia; intros j Hj Hn; apply H; lia). rewrite (H n) by lia. ring.
Qed.
Lemma sum_n_two n f i k : i < n -> k < n -> i <> k -> (forall j, j < n -> j <> i -> j <> k -> (f j == 0)%Q) -> (sum_n n f == f i + f k)%Q.
Proof.
  intros Hi Hk D H. induction n as [|n IH]; [lia|]. rewrite sum_n_S. destruct (Nat.eq_dec i n) as [->|Di]; [|destruct (Nat.eq_dec k n) as [->|Dk]].
  - rewrite (sum_n_one n f k) by (try lia; intros j Hj Hn; apply H; lia). ring.
  - rewrite (sum_n_one n f i) by (try lia; intros j Hj Hn; apply H; lia). ring.
  - rewrite IH by (try lia; intros j Hj Hn Hn'; apply H; lia). rewrite (H n) by lia. ring.
Qed.
Lemma average_states p a s f g : (forall s', s' < nS p -> (sum_n (nO p) (Ob p a s') == 1)%Q) -> (forall s' o, s' < nS p -> (f s' o == g s')%Q) ->
  (average p a s f == sum_n (nS p) (fun s' => Tr p a s s' * g s'))%Q.
Proof.
  intros HO Hf. unfold average. apply sum_n_ext. intros s' Hs. rewrite (sum_n_ext (nO p) _ (fun o => Ob p a s' o * g s')%Q) by (intros o Ho; rewrite Hf by auto; reflexivity).
  unfold sum_n at 1. rewrite sum_scale_r. fold (sum_n (nO p) (fun o => Ob p a s' o)). rewrite (HO s' Hs). ring.
Qed.
