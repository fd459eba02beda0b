(** Calculus of expected values. *)
From Verif Require Import QBase PyBase PyBaseFacts PomdpModel PomdpSpec PomdpProofs PomdpProofs2 BeliefModel BeliefSpec BeliefProofs Props_Pomdp LawSpec.
From Coq Require Import Lia Lqa Field Factorial.
Local Open Scope list_scope.
Local Open Scope nat_scope.

Section Mean.
  Context {W : Type}.
  Implicit Types (sp : space W) (f g : W -> Q).
  Lemma mean_ext sp f g : (forall q w, In (q, w) sp -> (f w == g w)%Q) -> (mean sp f == mean sp g)%Q.
  Proof. intros H. apply sum_ext. intros [q w] Hq. cbn. rewrite (H q w Hq). reflexivity. Qed.
  #[global] Instance mean_Proper sp : Proper (pointwise_relation W Qeq ==> Qeq) (mean sp).
  Proof. intros f g H. apply mean_ext. intros; apply H. Qed.
  Lemma mean_plus sp f g : (mean sp (fun w => f w + g w) == mean sp f + mean sp g)%Q.
  Proof. unfold mean. rewrite <- sum_plus. apply sum_ext. intros; ring. Qed.
  Lemma mean_minus sp f g : (mean sp (fun w => f w - g w) == mean sp f - mean sp g)%Q.
  Proof. unfold mean. rewrite <- sum_minus. apply sum_ext. intros; ring. Qed.
  Lemma mean_scale sp c f : (mean sp (fun w => c * f w) == c * mean sp f)%Q.
  Proof. unfold mean. rewrite <- sum_scale. apply sum_ext. intros; ring. Qed.
  Lemma mean_scale_r sp c f : (mean sp (fun w => f w * c) == mean sp f * c)%Q.
  Proof. unfold mean. rewrite <- sum_scale_r. apply sum_ext. intros; ring. Qed.
  Lemma mean_const sp c : is_space sp -> (mean sp (fun _ => c) == c)%Q.
  Proof. intros [_ H]. unfold mean. rewrite sum_scale_r, H. ring. Qed.
  Lemma mean_sum {A} sp (l : list A) (f : A -> W -> Q) : (mean sp (fun w => sum_over l (fun a => f a w)) == sum_over l (fun a => mean sp (f a)))%Q.
  Proof. unfold mean. rewrite <- sum_swap. apply sum_ext. intros x _. rewrite sum_scale. reflexivity. Qed.
  Lemma mean_le sp f g : is_space sp -> (forall q w, In (q, w) sp -> (f w <= g w)%Q) -> (mean sp f <= mean sp g)%Q.
  Proof. intros [H _] L. apply sum_le. intros [q w] Hq. cbn. rewrite !(Qmult_comm q). apply Qmult_le_compat_r; eauto. Qed.
  Lemma prob_not sp P : is_space sp -> (prob sp (fun w => negb (P w)) == 1 - prob sp P)%Q.
  Proof.
    intros H. unfold prob. rewrite <- (mean_const sp 1 H), <- mean_minus. apply mean_ext. intros q w _. destruct (P w); cbn; ring.
  Qed.
  Lemma prob_bounds sp P : is_space sp -> (0 <= prob sp P <= 1)%Q.
  Proof.
    intros H. unfold prob. split.
    - apply Qle_trans with (mean sp (fun _ => 0%Q)); [rewrite mean_const by auto; lra|]. apply mean_le; [auto|]. intros q w _. destruct (P w); lra.
    - apply Qle_trans with (mean sp (fun _ => 1%Q)); [|rewrite mean_const by auto; lra]. apply mean_le; [auto|]. intros q w _. destruct (P w); lra.
  Qed.
  Lemma prob_ext sp (P R : W -> bool) : (forall q w, In (q, w) sp -> P w = R w) -> (prob sp P == prob sp R)%Q.
  Proof. intros H. apply mean_ext. intros q w Hq. rewrite (H q w Hq). reflexivity. Qed.
End Mean.

Lemma mean_map {W V} (sp : space W) (h : W -> V) (f : V -> Q) : (mean (map (fun qw => (fst qw, h (snd qw))) sp) f == mean sp (fun w => f (h w)))%Q.
Proof. unfold mean. rewrite sum_map. reflexivity. Qed.
Lemma mean_pairs {W V} (sp : space W) (sp' : space V) f : (mean (pairs sp sp') f == mean sp (fun w => mean sp' (fun v => f (w, v))))%Q.
Proof.
  unfold mean, pairs. rewrite sum_flat_map. apply sum_ext. intros [q w] _. rewrite sum_map. cbn [fst snd]. rewrite <- sum_scale. apply sum_ext. intros; ring.
Qed.
Lemma pairs_space {W V} (sp : space W) (sp' : space V) : is_space sp -> is_space sp' -> is_space (pairs sp sp').
Proof.
  intros [H1 H2] [H3 H4]. split.
  - intros q w H. apply in_flat_map in H. destruct H as ([q1 w1] & I1 & H). apply in_map_iff in H. destruct H as ([q2 w2] & E & I2). cbn in E.
    assert (q = (q1 * q2)%Q) as -> by congruence. apply Qmult_le_0_compat; eauto.
  - transitivity (mean (pairs sp sp') (fun _ => 1%Q)); [unfold mean; apply sum_ext; intros; ring|]. rewrite mean_pairs.
    transitivity (mean sp (fun _ => 1%Q)); [apply mean_ext; intros; apply mean_const; split; auto|]. apply mean_const; split; auto.
Qed.
Lemma mean_tapes {W} (sp : space W) N f : (mean (tapes sp (S N)) f == mean sp (fun w => mean (tapes sp N) (fun t => f (w :: t))))%Q.
Proof.
  unfold mean. cbn [tapes]. rewrite sum_flat_map. apply sum_ext. intros [q w] _. rewrite sum_map. cbn [fst snd]. rewrite <- sum_scale. apply sum_ext. intros; ring.
Qed.
Lemma mean_tapes_0 {W} (sp : space W) f : (mean (tapes sp 0) f == f [])%Q.
Proof. unfold mean. cbn. ring. Qed.
Lemma tapes_space {W} (sp : space W) N : is_space sp -> is_space (tapes sp N).
Proof.
  intros Hs. induction N as [|N IH].
  - split; [|cbn; ring]. intros q w [E|[]]. assert (q = 1%Q) as -> by congruence. lra.
  - destruct Hs as [H1 H2]. destruct IH as [H3 H4]. split.
    + intros q w H. cbn [tapes] in H. apply in_flat_map in H. destruct H as ([q1 w1] & I1 & H). apply in_map_iff in H. destruct H as ([q2 w2] & E & I2). cbn in E.
      assert (q = (q1 * q2)%Q) as -> by congruence. apply Qmult_le_0_compat; eauto.
    + transitivity (mean (tapes sp (S N)) (fun _ => 1%Q)); [unfold mean; apply sum_ext; intros; ring|]. rewrite mean_tapes.
      transitivity (mean sp (fun _ => 1%Q)); [apply mean_ext; intros; apply mean_const; split; auto|]. apply mean_const; split; auto.
Qed.
Lemma tapes_length {W} (sp : space W) N : forall q t, In (q, t) (tapes sp N) -> length t = N /\ forall w, In w t -> exists q', In (q', w) sp.
Proof.
  induction N as [|N IH]; intros q t H.
  - destruct H as [E|[]]. assert (t = []) as -> by congruence. split; [auto|intros w []].
  - cbn [tapes] in H. apply in_flat_map in H. destruct H as ([q1 w1] & I1 & H). apply in_map_iff in H. destruct H as ([q2 t2] & E & I2). cbn in E.
    assert (t = w1 :: t2) as -> by congruence. destruct (IH _ _ I2) as [L Hin]. split; [cbn; auto|]. intros w [<-|Hw]; eauto.
Qed.

(** Conditioning on a number *)
Lemma mean_index {W} (sp : space W) (f : W -> nat) (g : nat -> Q) n : (forall q w, In (q, w) sp -> f w < n) ->
  (mean sp (fun w => g (f w)) == sum_n n (fun k => prob sp (fun w => Nat.eqb (f w) k) * g k))%Q.
Proof.
  intros H. transitivity (mean sp (fun w => sum_over (seq 0 n) (fun k => (if Nat.eqb (f w) k then 1%Q else 0%Q) * g k)%Q)).
  - apply mean_ext. intros q w Hq. symmetry. rewrite (sum_single _ _ (f w)).
    + rewrite Nat.eqb_refl. ring.
    + apply seq_NoDup.
    + apply in_seq. specialize (H q w Hq). lia.
    + intros y _ Hy. destruct (Nat.eqb_spec (f w) y); [congruence|ring].
  - rewrite mean_sum. apply sum_ext. intros k _. rewrite mean_scale_r. reflexivity.
Qed.

Lemma sum_n_nth {A} (l : list A) (d : A) (f : A -> Q) : (sum_n (length l) (fun k => f (nth k l d)) == sum_over l f)%Q.
Proof.
  unfold sum_n. induction l as [|x t IH] using rev_ind; [reflexivity|]. rewrite app_length, seq_app, !sum_app. cbn [length plus seq]. rewrite !sum_cons.
  rewrite (sum_ext _ _ (fun k => f (nth k t d))) by (intros k Hk; apply in_seq in Hk; rewrite app_nth1 by lia; reflexivity). rewrite IH.
  rewrite app_nth2, Nat.sub_diag by lia. reflexivity.
Qed.
(** An element drawn among those of a list *)
Lemma mean_fair {W} (sp : space W) idx n (l : list nat) (g : nat -> Q) : is_space sp -> fair sp idx n -> 0 < length l <= n ->
  (mean sp (fun w => g (nth (idx w mod length l) l 0%nat)) == sum_over l g / inject_Z (Z.of_nat (length l)))%Q.
Proof.
  intros Hs Hf Hl. rewrite (mean_index sp (fun w => idx w mod length l) (fun k => g (nth k l 0%nat)) (length l)) by (intros; apply Nat.mod_upper_bound; lia).
  transitivity (sum_n (length l) (fun k => (1 / inject_Z (Z.of_nat (length l))) * g (nth k l 0%nat)))%Q.
  - apply sum_n_ext. intros k Hk. rewrite (Hf (length l) k) by lia. reflexivity.
  - unfold sum_n. rewrite sum_scale. fold (sum_n (length l) (fun k => g (nth k l 0%nat))). rewrite sum_n_nth. unfold Qdiv. ring.
Qed.

(** Existence of uniform draws *)
Lemma inject_pos n : 0 < n -> (0 < inject_Z (Z.of_nat n))%Q.
Proof. intros H. change 0%Q with (inject_Z 0). rewrite <- Zlt_Qlt. lia. Qed.
Lemma grid_space n : 0 < n -> is_space (grid n).
Proof.
  intros Hn. pose proof (inject_pos n Hn) as HP. split.
  - intros q w H. apply in_map_iff in H. destruct H as (k & E & _). assert (q = (1 / inject_Z (Z.of_nat n))%Q) as -> by congruence. apply Qle_shift_div_l; lra.
  - unfold grid. rewrite sum_map. cbn [fst]. rewrite sum_const, seq_length. field. lra.
Qed.
Lemma dice_space n : 0 < n -> is_space (dice n).
Proof.
  intros Hn. pose proof (inject_pos n Hn) as HP. split.
  - intros q w H. apply in_map_iff in H. destruct H as (k & E & _). assert (q = (1 / inject_Z (Z.of_nat n))%Q) as -> by congruence. apply Qle_shift_div_l; lra.
  - unfold dice. rewrite sum_map. cbn [fst]. rewrite sum_const, seq_length. field. lra.
Qed.
Lemma count_below n j : j <= n -> (sum_n n (fun k => if Nat.ltb k j then 1 else 0) == inject_Z (Z.of_nat j))%Q.
Proof.
  intros H. unfold sum_n. replace n with (j + (n - j)) by lia. rewrite seq_app, sum_app.
  rewrite (sum_ext (seq 0 j) _ (fun _ => 1%Q)) by (intros k Hk; apply in_seq in Hk; destruct (Nat.ltb_spec k j); [reflexivity|lia]).
  rewrite (sum_zero (seq (0 + j) (n - j))) by (intros k Hk; apply in_seq in Hk; destruct (Nat.ltb_spec k j); [lia|reflexivity]). rewrite sum_const, seq_length. ring.
Qed.
(** c is one of the marks of the grid *)
Lemma grid_mark n j c : 0 < n -> j <= n -> (c == inject_Z (Z.of_nat j) / inject_Z (Z.of_nat n))%Q -> (prob (grid n) (fun w => negb (Qle_bool c w)) == c)%Q.
Proof.
  intros Hn Hj Hc. pose proof (inject_pos n Hn) as HP. unfold prob, mean, grid. rewrite sum_map. cbn [fst snd].
  transitivity (sum_over (seq 0 n) (fun k => (1 / inject_Z (Z.of_nat n)) * (if Nat.ltb k j then 1 else 0)))%Q.
  - apply sum_ext. intros k _. destruct (Qle_bool c (inject_Z (Z.of_nat k) / inject_Z (Z.of_nat n))) eqn:E.
    + destruct (Nat.ltb_spec k j) as [L|L]; [|reflexivity]. exfalso. apply Qle_bool_iff in E. rewrite Hc in E.
      assert (inject_Z (Z.of_nat j) <= inject_Z (Z.of_nat k))%Q.
      { apply Qmult_le_r with (/ inject_Z (Z.of_nat n))%Q; [apply Qinv_lt_0_compat; auto|exact E]. }
      rewrite <- Zle_Qle in H. lia.
    + destruct (Nat.ltb_spec k j) as [L|L]; [reflexivity|]. exfalso. assert (Qle_bool c (inject_Z (Z.of_nat k) / inject_Z (Z.of_nat n)) = true); [|congruence].
      apply Qle_bool_iff. rewrite Hc. apply Qmult_le_compat_r; [rewrite <- Zle_Qle; lia|]. apply Qlt_le_weak, Qinv_lt_0_compat; auto.
  - rewrite sum_scale. fold (sum_n n (fun k => if Nat.ltb k j then 1%Q else 0%Q)). rewrite count_below by auto. rewrite Hc. field. lra.
Qed.
Lemma grid_uniform marks : (forall c, In c marks -> 0 <= c <= 1)%Q -> exists n, 0 < n /\ forall m, 0 < m -> uniform (grid (m * n)) (fun w => w) marks.
Proof.
  intros H.
  assert (G : forall l, (forall c, In c l -> 0 <= c <= 1)%Q -> exists n, 0 < n /\ forall c, In c l -> exists j, j <= n /\ (c == inject_Z (Z.of_nat j) / inject_Z (Z.of_nat n))%Q).
  { clear. induction l as [|c t IH]; intros H; [exists 1; split; [lia|intros c []]|]. destruct IH as (n & Hn & Hc); [intros; apply H; simpl; auto|].
    set (d := Pos.to_nat (Qden c)). assert (Hd : 0 < d) by (unfold d; lia). pose proof (inject_pos n Hn) as P1. pose proof (inject_pos d Hd) as P2.
    exists (d * n). split; [lia|]. intros c' [<-|Hc'].
    - exists (Z.to_nat (Qnum c) * n). destruct (H c (or_introl eq_refl)) as [L U].
      assert (E : (c == inject_Z (Qnum c) / inject_Z (Z.of_nat d))%Q).
      { unfold d. rewrite positive_nat_Z. destruct c as [x y]. cbn [Qnum Qden]. unfold Qdiv, Qeq, Qmult, Qinv, inject_Z. cbn. lia. }
      assert (HN : (0 <= Qnum c)%Z) by (unfold Qle in L; cbn in L; lia).
      assert (HU : Z.to_nat (Qnum c) <= d). { unfold Qle in U. cbn in U. unfold d. lia. }
      split; [apply Nat.mul_le_mono_r; auto|]. rewrite !Nat2Z.inj_mul, !inject_Z_mult, Z2Nat.id by auto. rewrite E at 1. field. lra.
    - destruct (Hc c' Hc') as (j & Lj & Ej). exists (d * j). split; [apply Nat.mul_le_mono_l; auto|]. rewrite !Nat2Z.inj_mul, !inject_Z_mult. rewrite Ej. field. lra. }
  destruct (G marks H) as (n & Hn & Hc). exists n. split; [auto|]. intros m Hm. split.
  - intros q w Hq. apply in_map_iff in Hq. destruct Hq as (k & E & Hk). apply in_seq in Hk. assert (w = (inject_Z (Z.of_nat k) / inject_Z (Z.of_nat (m * n)))%Q) as -> by congruence.
    assert (HP : (0 < inject_Z (Z.of_nat (m * n)))%Q) by (apply inject_pos; lia). split.
    + apply Qle_shift_div_l; [auto|]. rewrite Qmult_0_l. change 0%Q with (inject_Z 0). rewrite <- Zle_Qle. lia.
    + apply Qlt_shift_div_r; [auto|]. rewrite Qmult_1_l. rewrite <- Zlt_Qlt. lia.
  - intros c Ic. destruct (Hc c Ic) as (j & Lj & Ej). apply (grid_mark _ (m * j)); [lia|apply Nat.mul_le_mono_l; auto|].
    rewrite !Nat2Z.inj_mul, !inject_Z_mult. rewrite Ej. pose proof (inject_pos n Hn). pose proof (inject_pos m Hm). field. lra.
Qed.
(** Existence of fair indices *)
Lemma count_mod j k : 0 < j -> k < j -> forall m, (sum_n (m * j) (fun i => if Nat.eqb (i mod j) k then 1 else 0) == inject_Z (Z.of_nat m))%Q.
Proof.
  intros Hj Hk. induction m as [|m IH]; [reflexivity|]. unfold sum_n in *. replace (S m * j) with (m * j + j) by lia. rewrite seq_app, sum_app, IH.
  rewrite (sum_single _ _ (m * j + k)).
  - rewrite Nat.add_comm, Nat.mod_add, Nat.mod_small, Nat.eqb_refl by lia. rewrite Nat2Z.inj_succ, <- Z.add_1_r, inject_Z_plus. reflexivity.
  - apply seq_NoDup.
  - apply in_seq. lia.
  - intros y Hy Ne. apply in_seq in Hy. destruct (Nat.eqb_spec (y mod j) k) as [E|E]; [|reflexivity]. exfalso. apply Ne.
    assert (E2 : y = m * j + (y - m * j)) by lia. rewrite E2 in E. rewrite Nat.add_comm, Nat.mod_add, Nat.mod_small in E by lia. lia.
Qed.
Lemma fact_multiple n : forall j, 0 < j <= n -> exists m, fact n = m * j.
Proof.
  induction n as [|n IH]; intros j Hj; [lia|]. cbn [fact]. destruct (Nat.eq_dec j (S n)) as [->|Ne]; [exists (fact n); lia|].
  destruct (IH j ltac:(lia)) as [m Em]. exists (S n * m). rewrite <- Nat.mul_assoc, <- Em. cbn. lia.
Qed.
Lemma dice_fair n : fair (dice (fact n)) (fun w => w) n.
Proof.
  intros j k Hj Hk. unfold prob, mean, dice. rewrite sum_map. cbn [fst snd]. rewrite sum_scale. fold (sum_n (fact n) (fun i => if Nat.eqb (i mod j) k then 1%Q else 0%Q)).
  destruct (fact_multiple n j Hj) as [m Em]. rewrite Em, count_mod by lia. pose proof (lt_O_fact n) as Hp. rewrite Em in Hp.
  assert (0 < m) by (destruct m; lia). rewrite Nat2Z.inj_mul, inject_Z_mult. pose proof (inject_pos m H). pose proof (inject_pos j ltac:(lia)). field. lra.
Qed.
