(** Finite sums of rationals.

    Simplification shared by all numerical models: floating point numbers (numpy float64) are
    modelled by exact rationals [Q]; rounding is not modelled. *)
From Coq Require Export QArith Qabs Lqa.
From Verif Require Export PyBase.
Local Open Scope Q_scope.

Definition sum_over {A} (l : list A) (f : A -> Q) : Q := fold_right (fun x acc => f x + acc) 0 l.

(** [np.sum(l)] for a one-dimensional array. *)
Definition sumQ (l : list Q) : Q := sum_over l (fun x => x).

(** Sum of [f i] for [i < n]. *)
Definition sum_n (n : nat) (f : nat -> Q) : Q := sum_over (seq 0 n) f.

Section Sums.
  Context {A : Type}.
  Implicit Types (l : list A) (f g : A -> Q).

  Lemma sum_ext l f g : (forall x, In x l -> f x == g x) -> sum_over l f == sum_over l g.
  Proof.
    induction l as [|x t IH]; intros H; cbn [sum_over fold_right]; [reflexivity|].
    fold (sum_over t f) (sum_over t g). rewrite IH by (intros; apply H; simpl; auto).
    rewrite (H x) by (simpl; auto). reflexivity.
  Qed.
  Lemma sum_cons x l f : sum_over (x :: l) f = f x + sum_over l f.
  Proof. reflexivity. Qed.
  Lemma sum_app l l' f : sum_over (l ++ l') f == sum_over l f + sum_over l' f.
  Proof. induction l as [|x t IH]; cbn [app]; [cbn; ring|]. rewrite !sum_cons, IH. ring. Qed.
  Lemma sum_plus l f g : sum_over l (fun x => f x + g x) == sum_over l f + sum_over l g.
  Proof. induction l as [|x t IH]; [reflexivity|]. rewrite !sum_cons, IH. ring. Qed.
  Lemma sum_minus l f g : sum_over l (fun x => f x - g x) == sum_over l f - sum_over l g.
  Proof. induction l as [|x t IH]; [reflexivity|]. rewrite !sum_cons, IH. ring. Qed.
  Lemma sum_scale l f c : sum_over l (fun x => c * f x) == c * sum_over l f.
  Proof. induction l as [|x t IH]; [cbn; ring|]. rewrite !sum_cons, IH. ring. Qed.
  Lemma sum_scale_r l f c : sum_over l (fun x => f x * c) == sum_over l f * c.
  Proof. induction l as [|x t IH]; [cbn; ring|]. rewrite !sum_cons, IH. ring. Qed.
  Lemma sum_div l f c : sum_over l (fun x => f x / c) == sum_over l f / c.
  Proof. apply sum_scale_r. Qed.
  Lemma sum_zero l f : (forall x, In x l -> f x == 0) -> sum_over l f == 0.
  Proof.
    induction l as [|x t IH]; intros H; [reflexivity|]. rewrite sum_cons, IH by (intros; apply H; simpl; auto).
    rewrite H by (simpl; auto). reflexivity.
  Qed.
  Lemma sum_nonneg l f : (forall x, In x l -> 0 <= f x) -> 0 <= sum_over l f.
  Proof.
    induction l as [|x t IH]; intros H; [cbn; lra|]. rewrite sum_cons.
    assert (0 <= f x) by (apply H; simpl; auto). assert (0 <= sum_over t f) by (apply IH; intros; apply H; simpl; auto). lra.
  Qed.
  Lemma sum_le l f g : (forall x, In x l -> f x <= g x) -> sum_over l f <= sum_over l g.
  Proof.
    induction l as [|x t IH]; intros H; [cbn; lra|]. rewrite !sum_cons.
    assert (f x <= g x) by (apply H; simpl; auto). assert (sum_over t f <= sum_over t g) by (apply IH; intros; apply H; simpl; auto). lra.
  Qed.
  Lemma sum_perm l l' f : Permutation l l' -> sum_over l f == sum_over l' f.
  Proof. induction 1; rewrite ?sum_cons in *; try reflexivity; try lra. Qed.
  Lemma sum_zero_inv l f : (forall x, In x l -> 0 <= f x) -> sum_over l f == 0 -> forall x, In x l -> f x == 0.
  Proof.
    induction l as [|y t IH]; intros H E x Hx; [destruct Hx|]. rewrite sum_cons in E.
    assert (0 <= f y) by (apply H; simpl; auto). assert (Hn : 0 <= sum_over t f) by (apply sum_nonneg; intros; apply H; simpl; auto).
    destruct Hx as [->|Hx]; [lra|]. apply IH; auto; [intros; apply H; simpl; auto|lra].
  Qed.
  Lemma sum_le_mem l f x : (forall y, In y l -> 0 <= f y) -> In x l -> f x <= sum_over l f.
  Proof.
    induction l as [|y t IH]; intros H Hx; [destruct Hx|]. rewrite sum_cons.
    assert (0 <= f y) by (apply H; simpl; auto). assert (Hn : 0 <= sum_over t f) by (apply sum_nonneg; intros; apply H; simpl; auto).
    destruct Hx as [->|Hx]; [lra|]. assert (f x <= sum_over t f) by (apply IH; auto; intros; apply H; simpl; auto). lra.
  Qed.
  Lemma sum_const l c : sum_over l (fun _ => c) == inject_Z (Z.of_nat (length l)) * c.
  Proof.
    induction l as [|x t IH]; [cbn; ring|]. rewrite sum_cons, IH. cbn [length].
    rewrite Nat2Z.inj_succ, <- Z.add_1_r, inject_Z_plus. ring.
  Qed.
  Lemma sum_filter l (p : A -> bool) f : sum_over (filter p l) f == sum_over l (fun x => if p x then f x else 0).
  Proof. induction l as [|x t IH]; [reflexivity|]. cbn [filter]. rewrite sum_cons. destruct (p x); rewrite ?sum_cons, IH; ring. Qed.
  Lemma sum_single l f x : NoDup l -> In x l -> (forall y, In y l -> y <> x -> f y == 0) -> sum_over l f == f x.
  Proof.
    induction l as [|y t IH]; intros Hn Hx H; [destruct Hx|]. inversion Hn; subst. rewrite sum_cons. destruct Hx as [->|Hx].
    - rewrite sum_zero; [ring|]. intros z Hz. apply H; simpl; auto. intros ->; contradiction.
    - rewrite IH; auto; [|intros; apply H; simpl; auto]. rewrite (H y); [ring|simpl; auto|]. intros ->; contradiction.
  Qed.
End Sums.

Lemma sum_map {A B} (l : list A) (h : A -> B) (f : B -> Q) : sum_over (map h l) f = sum_over l (fun x => f (h x)).
Proof. induction l as [|x t IH]; [reflexivity|]. cbn [map]. rewrite !sum_cons, IH. reflexivity. Qed.

Lemma sum_swap {A B} (l : list A) (l' : list B) (f : A -> B -> Q) :
  sum_over l (fun x => sum_over l' (f x)) == sum_over l' (fun y => sum_over l (fun x => f x y)).
Proof.
  induction l as [|x t IH]; [cbn; symmetry; apply sum_zero; reflexivity|].
  rewrite sum_cons, IH, <- sum_plus. apply sum_ext; intros; rewrite sum_cons; reflexivity.
Qed.

Lemma sum_flat_map {A B} (l : list A) (h : A -> list B) (f : B -> Q) :
  sum_over (flat_map h l) f == sum_over l (fun x => sum_over (h x) f).
Proof. induction l as [|x t IH]; [reflexivity|]. cbn [flat_map]. rewrite sum_app, sum_cons, IH. reflexivity. Qed.

#[global] Instance sum_over_Proper {A} (l : list A) : Proper (pointwise_relation A Qeq ==> Qeq) (sum_over l).
Proof. intros f g H; apply sum_ext; intros; apply H. Qed.

(** Sum over a partition of [0, n*m) in n blocks of m. *)
Lemma seq_blocks n m s : seq s (n * m) = flat_map (fun h => seq (s + h * m) m) (seq 0 n).
Proof.
  induction n as [|n IH]; [reflexivity|]. rewrite seq_S, flat_map_app, <- IH. cbn [flat_map plus]. rewrite app_nil_r.
  replace (S n * m)%nat with (n * m + m)%nat by (simpl; lia). apply seq_app.
Qed.
