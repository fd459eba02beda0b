(** More proofs about the tables: sampling, conversion to lists, randomize and dump. *)
From Verif Require Import QBase PyBase PyBaseFacts PomdpModel PomdpSpec PomdpProofs.
From Coq Require Import Lia Lqa Field.
Local Open Scope nat_scope.

(** *** random choice *)
Lemma sumQ_cons x l : sumQ (x :: l) = (x + sumQ l)%Q.
Proof. reflexivity. Qed.
Lemma sumQ_nonneg l : (forall x, In x l -> 0 <= x)%Q -> (0 <= sumQ l)%Q.
Proof. apply sum_nonneg. Qed.

Section Choice.
  Variables (S u : Q).
  Hypothesis Spos : (0 < S)%Q.
  Notation cnt acc l := (length (filter (fun c => Qle_bool (c / S) u) (cumsum acc l))).
  Lemma le_iff c : Qle_bool (c / S)%Q u = true <-> (c <= u * S)%Q.
  Proof.
    rewrite Qle_bool_iff. split; intros H.
    - assert (c == c / S * S)%Q as -> by (field; lra). apply Qmult_le_compat_r; lra.
    - apply Qle_shift_div_r; auto.
  Qed.
  Lemma cnt_none l : (forall x, In x l -> 0 <= x)%Q -> forall acc, (u * S < acc)%Q -> cnt acc l = 0.
  Proof.
    induction l as [|x t IH]; intros Hn acc Ha; [reflexivity|]. cbn [cumsum filter].
    assert (0 <= x)%Q by (apply Hn; simpl; auto).
    destruct (Qle_bool ((acc + x) / S) u) eqn:E; [apply le_iff in E; lra|]. apply IH; [intros; apply Hn; simpl; auto|lra].
  Qed.
  Lemma cnt_spec l : (forall x, In x l -> 0 <= x)%Q -> forall acc, (acc <= u * S < acc + sumQ l)%Q ->
    cnt acc l < length l /\ (acc + sumQ (firstn (cnt acc l) l) <= u * S < acc + sumQ (firstn (Datatypes.S (cnt acc l)) l))%Q.
  Proof.
    induction l as [|x t IH]; intros Hn acc Ha; [cbn in Ha; lra|]. cbn [cumsum filter].
    assert (0 <= x)%Q by (apply Hn; simpl; auto). rewrite sumQ_cons in Ha.
    destruct (Qle_bool ((acc + x) / S) u) eqn:E.
    - apply le_iff in E. destruct (IH ltac:(intros; apply Hn; simpl; auto) (acc + x)%Q ltac:(lra)) as [I1 I2].
      cbn [length firstn]. cbn [firstn] in I2. destruct t as [|y t']; [cbn in I1; lia|]. rewrite !sumQ_cons in *. split; [lia|lra].
    - assert (u * S < acc + x)%Q by (apply Qnot_le_lt; intros H'; apply le_iff in H'; congruence).
      rewrite cnt_none by (auto; intros; apply Hn; simpl; auto). cbn. split; [lia|]. unfold sumQ. cbn. lra.
  Qed.
End Choice.

Lemma sumQ_firstn_S l k : k < length l -> (sumQ (firstn (S k) l) == sumQ (firstn k l) + nth k l 0)%Q.
Proof.
  revert k. induction l as [|x t IH]; intros k Hk; [cbn in Hk; lia|]. destruct k as [|k]; [unfold sumQ; cbn; ring|].
  cbn [length] in Hk. cbn [firstn nth]. rewrite !sumQ_cons. cbn [firstn] in IH. rewrite IH by lia. ring.
Qed.
Lemma sumQ_firstn_mono l : (forall x, In x l -> 0 <= x)%Q -> forall i j, i <= j -> (sumQ (firstn i l) <= sumQ (firstn j l))%Q.
Proof.
  induction l as [|x t IH]; intros Hn i j Hij; [rewrite !firstn_nil; lra|].
  assert (0 <= x)%Q by (apply Hn; simpl; auto).
  destruct i as [|i].
  - cbn [firstn]. change (sumQ []) with 0%Q. apply sumQ_nonneg. intros y Hy. apply Hn. revert Hy. generalize (x :: t). clear. intros l.
    revert j. induction l as [|z l IH]; intros [|j]; cbn; try tauto. intros [->|H]; eauto.
  - destruct j as [|j]; [lia|]. cbn [firstn]. rewrite !sumQ_cons.
    assert (sumQ (firstn i t) <= sumQ (firstn j t))%Q by (apply IH; [intros; apply Hn; simpl; auto|lia]). lra.
Qed.

(** A draw selects entry k exactly when it falls in the k-th interval. *)
Lemma random_choice_spec p u : (forall x, In x p -> 0 <= x)%Q -> (Qabs (sumQ p - 1) <= 1 # 67108864)%Q -> (0 <= u < 1)%Q ->
  (exists k, random_choice p u = Ok k) /\
  forall k, random_choice p u = Ok k <-> k < length p /\ (sumQ (firstn k p) <= u * sumQ p < sumQ (firstn (S k) p))%Q.
Proof.
  intros Hn Hs Hu. assert (HS : (0 < sumQ p)%Q). { apply Qabs_Qle_condition in Hs. lra. }
  assert (HR : random_choice p u = Ok (length (filter (fun c => Qle_bool (c / sumQ p) u) (cumsum 0 p)))).
  { unfold random_choice. assert (forallb (fun x => Qle_bool 0 x) p = true) as ->.
    { apply forallb_forall. intros x Hx. apply Qle_bool_iff. auto. }
    assert (Qle_bool (Qabs (sumQ p - 1)) (1 # 67108864) = true) as -> by (apply Qle_bool_iff; auto). reflexivity. }
  split; [eauto|]. rewrite HR. intros k.
  assert (HI : (0 <= u * sumQ p < 0 + sumQ p)%Q).
  { split; [apply Qmult_le_0_compat; lra|]. rewrite Qplus_0_l. setoid_replace (sumQ p) with (1 * sumQ p)%Q at 2 by ring. apply Qmult_lt_compat_r; lra. }
  destruct (cnt_spec (sumQ p) u HS p Hn 0 HI) as [C1 C2]. rewrite !Qplus_0_l in C2.
  set (c := length (filter (fun c => Qle_bool (c / sumQ p) u) (cumsum 0 p))) in *. split.
  - intros E. assert (c = k) as <- by congruence. auto.
  - intros [K1 K2]. f_equal. destruct (Nat.lt_trichotomy c k) as [H|[H|H]]; [|auto|]; exfalso.
    + pose proof (sumQ_firstn_mono p Hn (S c) k H). lra.
    + pose proof (sumQ_firstn_mono p Hn (S k) c H). lra.
Qed.

(** *** lists and arrays *)
Lemma nshape_all (l : list nested) shs :
  (fix go l := match l with [] => Ok [] | y :: t => do s <- nshape y; do r <- go t; Ok (s :: r) end) l = Ok shs <->
  Forall2 (fun y s => nshape y = Ok s) l shs.
Proof.
  revert shs. induction l as [|y t IH]; intros shs.
  - split; [intros E; inversion E; constructor|intros H; inversion H; reflexivity].
  - destruct (nshape y) as [s|] eqn:Ey; cbn [bind].
    + match goal with |- (bind ?g _ = _) <-> _ => destruct g as [r|] eqn:Eg end; cbn [bind].
      * split.
        -- intros E. inversion E; subst. constructor; auto. apply IH; auto.
        -- intros H. inversion H as [|? s0 ? r0 H1 H2]; subst. apply IH in H2. congruence.
      * split; [discriminate|]. intros H. inversion H as [|? s0 ? r0 H1 H2]; subst. apply IH in H2. congruence.
    + split; [discriminate|]. intros H. inversion H; congruence.
Qed.
Lemma tolist_shape sh : Forall (fun n => 0 < n) sh -> forall f, nshape (tolist_at sh f) = Ok sh.
Proof.
  induction 1 as [|n t Hn Ht IH]; intros f; [reflexivity|]. cbn [tolist_at nshape].
  assert (E := proj2 (nshape_all (map (fun i => tolist_at t (fun idx => f (i :: idx))) (seq 0 n)) (map (fun _ => t) (seq 0 n)))).
  rewrite E.
  - cbn [bind]. destruct n as [|n]; [lia|]. cbn [seq map length]. rewrite ?map_length, ?seq_length.
    assert (forallb (list_nat_eqb t) (map (fun _ : nat => t) (seq 1 n)) = true) as ->; [|reflexivity].
    apply forallb_forall. intros x Hx. apply in_map_iff in Hx. destruct Hx as [_ [<- _]]. apply list_nat_eqb_iff; auto.
  - clear E Hn. induction (seq 0 n) as [|i l IHl]; cbn [map]; constructor; auto.
Qed.
Lemma tolist_nat sh : forall f idx, In idx (indices sh) -> nat_of (tolist_at sh f) idx = f idx.
Proof.
  induction sh as [|n t IH]; intros f idx Hin; apply indices_In in Hin; inversion Hin as [|i ? r ? Hi Hr]; subst; [reflexivity|].
  cbn [tolist_at nat_of]. rewrite nth_error_map. rewrite (nth_error_nth' _ 0) by (rewrite seq_length; auto). rewrite seq_nth by auto. cbn [option_map plus].
  rewrite IH; [reflexivity|]. apply indices_In; auto.
Qed.
Lemma asarray_tolist a : Forall (fun n => 0 < n) (shape a) -> exists b, asarray (tolist a) = Ok b /\ same_array a b.
Proof.
  intros H. unfold asarray, tolist. rewrite tolist_shape by auto. cbn [bind]. eexists; split; [reflexivity|].
  split; [reflexivity|]. intros idx Hin. cbn [at_]. symmetry. apply tolist_nat; auto.
Qed.

(** *** dump *)
Lemma rint_nearest x : (Qabs (x - inject_Z (rint x)) <= 1 # 2)%Q /\ ((Qabs (x - inject_Z (rint x)) == 1 # 2)%Q -> Z.even (rint x) = true).
Proof.
  unfold rint. pose proof (Qfloor_le x) as H1. pose proof (Qlt_floor x) as H2. rewrite inject_Z_plus in H2.
  set (f := Qfloor x) in *. cbn [inject_Z] in H2. change (inject_Z 1) with 1%Q in *.
  destruct (Qle_bool (1 # 2) (x - inject_Z f)) eqn:E1; cbn [negb].
  - apply Qle_bool_iff in E1. destruct (Qle_bool (x - inject_Z f) (1 # 2)) eqn:E2; cbn [negb].
    + apply Qle_bool_iff in E2. assert (E : (x - inject_Z f == 1 # 2)%Q) by lra.
      destruct (Z.even f) eqn:Ee.
      * split; [|auto]. rewrite E. cbn. lra.
      * rewrite inject_Z_plus. change (inject_Z 1) with 1%Q. split.
        -- apply Qabs_Qle_condition. lra.
        -- intros _. rewrite Z.even_add. rewrite Ee. reflexivity.
    + assert ((1 # 2) < x - inject_Z f)%Q by (apply Qnot_le_lt; intros H; apply Qle_bool_iff in H; congruence).
      rewrite inject_Z_plus. change (inject_Z 1) with 1%Q. split; [apply Qabs_Qle_condition; lra|].
      intros E. exfalso. assert (Qabs (x - (inject_Z f + 1)) < 1 # 2)%Q; [|lra]. apply Qabs_Qlt_condition. lra.
  - assert (x - inject_Z f < 1 # 2)%Q by (apply Qnot_le_lt; intros H; apply Qle_bool_iff in H; congruence).
    split; [apply Qabs_Qle_condition; lra|]. intros E. exfalso. assert (Qabs (x - inject_Z f) < 1 # 2)%Q; [|lra]. apply Qabs_Qlt_condition. lra.
Qed.
Lemma around_nearest x : nearest x (around5 x).
Proof. unfold nearest, around5. apply rint_nearest. Qed.
Lemma rint_unique x z : (Qabs (x - inject_Z z) < 1 # 2)%Q -> rint x = z.
Proof.
  intros H. destruct (rint_nearest x) as [H1 _]. apply Qabs_Qlt_condition in H. apply Qabs_Qle_condition in H1.
  destruct (Z.lt_trichotomy (rint x) z) as [Hl|[He|Hl]]; [|auto|]; exfalso.
  - assert (inject_Z (rint x + 1) <= inject_Z z)%Q by (rewrite <- Zle_Qle; lia). rewrite inject_Z_plus in *. change (inject_Z 1) with 1%Q in *. lra.
  - assert (inject_Z (z + 1) <= inject_Z (rint x))%Q by (rewrite <- Zle_Qle; lia). rewrite inject_Z_plus in *. change (inject_Z 1) with 1%Q in *. lra.
Qed.

Lemma argmax_from_spec l : forall i best v pre, length pre = i -> best < i -> nth best pre 0%Z = v -> (forall x, In x pre -> (x <= v)%Z) ->
  let k := argmax_from i best v l in k < length (pre ++ l) /\ forall x, In x (pre ++ l) -> (x <= nth k (pre ++ l) 0)%Z.
Proof.
  induction l as [|y t IH]; intros i best v pre Hp Hb Hv Hm; cbn [argmax_from].
  - cbn. rewrite app_nil_r. split; [lia|]. intros x Hx. rewrite Hv. auto.
  - destruct (Z.ltb_spec v y) as [H|H].
    + specialize (IH (S i) i y (pre ++ [y])). rewrite <- app_assoc in IH. cbn [app] in IH. apply IH.
      * rewrite app_length. cbn. lia.
      * lia.
      * rewrite app_nth2 by lia. rewrite Hp, Nat.sub_diag. reflexivity.
      * intros x Hx. apply in_app_or in Hx. destruct Hx as [Hx|[<-|[]]]; [|lia]. specialize (Hm x Hx). lia.
    + specialize (IH (S i) best v (pre ++ [y])). rewrite <- app_assoc in IH. cbn [app] in IH. apply IH.
      * rewrite app_length. cbn. lia.
      * lia.
      * rewrite app_nth1 by lia. auto.
      * intros x Hx. apply in_app_or in Hx. destruct Hx as [Hx|[<-|[]]]; [auto|lia].
Qed.
Lemma argmax_spec l : l <> [] -> exists k, argmax l = Ok k /\ k < length l /\ forall x, In x l -> (x <= nth k l 0)%Z.
Proof.
  destruct l as [|x t]; [congruence|]. intros _. eexists; split; [reflexivity|].
  apply (argmax_from_spec t 1 0 x [x]); auto. intros y [<-|[]]. lia.
Qed.

Definition sumZ (l : list Z) : Z := fold_right Z.add 0%Z l.
Lemma sumZ_app l l' : sumZ (l ++ l') = (sumZ l + sumZ l')%Z.
Proof. induction l as [|x t IH]; [reflexivity|]. cbn [app sumZ fold_right]. unfold sumZ in *. cbn. lia. Qed.
Lemma split_at (l : list Z) k : k < length l -> l = firstn k l ++ nth k l 0%Z :: skipn (S k) l.
Proof.
  revert k. induction l as [|x t IH]; intros [|k] Hk; cbn in Hk; try lia; [reflexivity|].
  cbn [firstn nth app]. change (skipn (S (S k)) (x :: t)) with (skipn (S k) t). f_equal. apply IH. lia.
Qed.
Lemma dump_spec a l : dump_1d_array a = Ok l -> exists k,
  k < length a /\ length l = length a /\ sumZ l = around5 (sumQ a) /\
  (forall i, i < length a -> i <> k -> nth i l 0%Z = around5 (nth i a 0%Q)) /\
  nth k l 0%Z = (around5 (nth k a 0%Q) + (around5 (sumQ a) - sumZ (map around5 a)))%Z /\
  (forall i, i < length a -> (around5 (nth i a 0%Q) <= around5 (nth k a 0%Q))%Z).
Proof.
  unfold dump_1d_array. intros E. destruct a as [|x a']; [discriminate|]. set (a := x :: a') in *.
  destruct (argmax_spec (map around5 a)) as [k (Ek & Hk & Hm)]; [discriminate|]. rewrite Ek in E. cbn [bind] in E.
  assert (HN : forall i, i < length a -> nth i (map around5 a) 0%Z = around5 (nth i a 0%Q)).
  { intros i Hi. rewrite (nth_indep _ _ (around5 0)) by (rewrite map_length; auto). apply map_nth. }
  pose proof (split_at _ _ Hk) as Hsp. rewrite map_length in Hk.
  set (tr := map around5 a) in *. assert (Hlt : length tr = length a) by apply map_length.
  assert (El : l = firstn k tr ++ (nth k tr 0%Z + (around5 (sumQ a) - fold_right Z.add 0%Z tr))%Z :: skipn (S k) tr) by congruence.
  assert (Hf : length (firstn k tr) = k) by (apply firstn_length_le; lia).
  assert (Htr : forall i, nth i tr 0%Z = nth i (firstn k tr ++ nth k tr 0%Z :: skipn (S k) tr) 0%Z) by (intros i; rewrite <- Hsp; reflexivity).
  exists k. split; [auto|]. split; [|split; [|split; [|split]]].
  - rewrite El, app_length. cbn [length]. rewrite skipn_length. lia.
  - rewrite El, sumZ_app. assert (HS : sumZ tr = (sumZ (firstn k tr) + (nth k tr 0%Z + sumZ (skipn (S k) tr)))%Z).
    { rewrite Hsp at 1. rewrite sumZ_app. reflexivity. }
    change (fold_right Z.add 0%Z tr) with (sumZ tr). cbn [sumZ fold_right]. fold (sumZ (skipn (S k) tr)). lia.
  - intros i Hi Hne. rewrite El. destruct (Nat.lt_ge_cases i k) as [H|H].
    + rewrite app_nth1 by lia. rewrite <- HN by auto. rewrite (Htr i). rewrite app_nth1 by lia. reflexivity.
    + rewrite app_nth2 by lia. rewrite <- HN by auto. rewrite (Htr i). rewrite app_nth2 by lia. rewrite Hf.
      destruct (i - k) as [|j] eqn:Ej; [lia|]. reflexivity.
  - rewrite El, app_nth2, Hf, Nat.sub_diag by lia. cbn [nth]. rewrite HN by auto. reflexivity.
  - intros i Hi. rewrite <- !HN by auto. apply Hm. apply nth_In. lia.
Qed.
