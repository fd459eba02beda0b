(** Lemmas about the shared encoding of PyBase. *)
From Verif Require Import PyBase.

Lemma bind_ok {A B} (r : res A) (f : A -> res B) b :
  bind r f = Ok b <-> exists a, r = Ok a /\ f a = Ok b.
Proof.
  destruct r as [a|e]; simpl; split.
  - intros E; exists a; auto.
  - intros [a' [E1 E2]]; congruence.
  - discriminate.
  - intros [a' [E1 _]]; discriminate.
Qed.

Section Sets.
  Context {A : Type} `{EqDec A}.

  Lemma mem_In (x : A) l : mem x l = true <-> In x l.
  Proof. unfold mem; destruct (in_dec eq_dec x l); split; intros; auto; try discriminate; contradiction. Qed.

  Lemma mem_not_In (x : A) l : mem x l = false <-> ~ In x l.
  Proof. unfold mem; destruct (in_dec eq_dec x l); split; intros; auto; try discriminate; contradiction. Qed.

  Lemma set_add_In (x y : A) l : In y (set_add x l) <-> y = x \/ In y l.
  Proof.
    unfold set_add; destruct (mem x l) eqn:E.
    - apply mem_In in E; split; [auto|intros [->|]; auto].
    - rewrite in_app_iff; simpl; split; intuition.
  Qed.

  Lemma NoDup_snoc (x : A) l : NoDup l -> ~ In x l -> NoDup (l ++ [x]).
  Proof.
    intros Hl Hx.
    apply Permutation_NoDup with (l := x :: l).
    - apply Permutation_cons_append.
    - constructor; auto.
  Qed.

  Lemma set_add_NoDup (x : A) l : NoDup l -> NoDup (set_add x l).
  Proof.
    unfold set_add; destruct (mem x l) eqn:E; auto.
    intros Hl; apply NoDup_snoc; auto. apply mem_not_In; auto.
  Qed.

  Lemma set_del_In (x y : A) l : In y (set_del x l) <-> y <> x /\ In y l.
  Proof.
    unfold set_del; rewrite filter_In; destruct (eq_dec x y); simpl; split; intuition congruence.
  Qed.

  Lemma set_del_NoDup (x : A) l : NoDup l -> NoDup (set_del x l).
  Proof. apply NoDup_filter. Qed.

  Lemma set_union_In (y : A) b : forall a, In y (set_union a b) <-> In y a \/ In y b.
  Proof.
    unfold set_union; induction b as [|x b IH]; simpl; intros a; [tauto|].
    rewrite IH, set_add_In; intuition.
  Qed.

  Lemma set_union_NoDup (b : list A) : forall a, NoDup a -> NoDup (set_union a b).
  Proof.
    unfold set_union; induction b as [|x b IH]; simpl; intros a Ha; auto.
    apply IH, set_add_NoDup, Ha.
  Qed.

  Lemma set_of_In (y : A) l : In y (set_of l) <-> In y l.
  Proof. unfold set_of; change (In y (set_union [] l) <-> In y l); rewrite set_union_In; simpl; tauto. Qed.

  Lemma set_of_NoDup (l : list A) : NoDup (set_of l).
  Proof. apply (set_union_NoDup l []); constructor. Qed.

  Lemma set_inter_In (y : A) a b : In y (set_inter a b) <-> In y a /\ In y b.
  Proof. unfold set_inter; rewrite filter_In, mem_In; tauto. Qed.

  Lemma set_diff_In (y : A) a b : In y (set_diff a b) <-> In y a /\ ~ In y b.
  Proof. unfold set_diff; rewrite filter_In, negb_true_iff, mem_not_In; tauto. Qed.

  Lemma set_inter_NoDup (a b : list A) : NoDup a -> NoDup (set_inter a b).
  Proof. apply NoDup_filter. Qed.

  Lemma set_diff_NoDup (a b : list A) : NoDup a -> NoDup (set_diff a b).
  Proof. apply NoDup_filter. Qed.

  Lemma set_eqb_spec (a b : list A) : set_eqb a b = true <-> (forall x, In x a <-> In x b).
  Proof.
    unfold set_eqb; rewrite andb_true_iff, !forallb_forall; split.
    - intros [H1 H2] x; split; intros Hx; apply mem_In; auto.
    - intros E; split; intros x Hx; apply mem_In, E, Hx.
  Qed.

  Lemma order_In (ord : list A -> list A) : is_order ord -> forall l x, In x (ord l) <-> In x l.
  Proof.
    intros Ho l x; split; apply Permutation_in; [apply Ho | apply Permutation_sym, Ho].
  Qed.

  Lemma order_NoDup (ord : list A -> list A) : is_order ord -> forall l, NoDup l -> NoDup (ord l).
  Proof. intros Ho l Hl; eapply Permutation_NoDup; [apply Permutation_sym, Ho|exact Hl]. Qed.
End Sets.

Section Dicts.
  Context {K V : Type} `{EqDec K}.

  Lemma lookup_In (k : K) (v : V) d : lookup k d = Some v -> In (k, v) d.
  Proof.
    induction d as [|[k' v'] d IH]; simpl; [discriminate|].
    destruct (eq_dec k k') as [->|]; intros E; [inversion E; auto|auto].
  Qed.

  Lemma lookup_In_iff (k : K) (v : V) d : NoDup (keys d) -> (lookup k d = Some v <-> In (k, v) d).
  Proof.
    intros Hn; split; [apply lookup_In|].
    induction d as [|[k' v'] d IH]; simpl; [tauto|].
    simpl in Hn; inversion Hn as [|? ? Hk Hn']; subst.
    intros [E|Hin].
    - inversion E; subst; destruct (eq_dec k k); congruence.
    - destruct (eq_dec k k') as [->|]; auto.
      exfalso; apply Hk; change k' with (fst (k', v)); apply in_map; auto.
  Qed.

  Lemma lookup_None (k : K) (d : list (K * V)) : lookup k d = None <-> ~ In k (keys d).
  Proof.
    induction d as [|[k' v'] d IH]; simpl; [tauto|].
    destruct (eq_dec k k') as [->|]; [split; [discriminate|tauto]|].
    rewrite IH; intuition.
  Qed.

  Lemma lookup_Some_key (k : K) (d : list (K * V)) : (exists v, lookup k d = Some v) <-> In k (keys d).
  Proof.
    destruct (lookup k d) as [v|] eqn:E.
    - split; [intros _|eauto]. apply lookup_In in E; change k with (fst (k, v)); apply in_map; auto.
    - apply lookup_None in E; split; [intros [v Hv]; discriminate|tauto].
  Qed.

  Lemma lookup_upd_same (k : K) (v : V) d : lookup k (upd k v d) = Some v.
  Proof.
    induction d as [|[k' v'] d IH]; simpl.
    - destruct (eq_dec k k); congruence.
    - destruct (eq_dec k k') as [->|Hn]; simpl.
      + destruct (eq_dec k' k'); congruence.
      + destruct (eq_dec k k'); [congruence|exact IH].
  Qed.

  Lemma lookup_upd_other (k k2 : K) (v : V) d : k2 <> k -> lookup k2 (upd k v d) = lookup k2 d.
  Proof.
    intros Hk; induction d as [|[k' v'] d IH]; simpl.
    - destruct (eq_dec k2 k); congruence.
    - destruct (eq_dec k k') as [->|Hn]; simpl.
      + destruct (eq_dec k2 k'); congruence.
      + destruct (eq_dec k2 k'); auto.
  Qed.

  Lemma keys_upd_In (k k2 : K) (v : V) d : In k2 (keys (upd k v d)) <-> k2 = k \/ In k2 (keys d).
  Proof.
    induction d as [|[k' v'] d IH]; simpl.
    - intuition.
    - destruct (eq_dec k k') as [->|Hn]; simpl; [intuition|].
      unfold keys in IH; rewrite IH; intuition.
  Qed.

  Lemma keys_upd_NoDup (k : K) (v : V) d : NoDup (keys d) -> NoDup (keys (upd k v d)).
  Proof.
    induction d as [|[k' v'] d IH]; simpl; intros Hn.
    - constructor; auto; constructor.
    - inversion Hn as [|? ? Hk Hn']; subst.
      destruct (eq_dec k k') as [->|Hkk]; simpl; constructor; auto.
      intros Hin; apply keys_upd_In in Hin; destruct Hin; auto.
  Qed.
End Dicts.
