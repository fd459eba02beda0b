(** Proofs for C75. *)
From Coq Require Import DecimalString DecimalZ DecimalFacts Lia Sorted.
From Verif Require Import PyBase HtmModel HtmSpec NodeModel NodeSpec NodeProofs NameSpec NameProofs BringSpec TowerModel TowerSpec.
Local Open Scope list_scope.
Local Open Scope nat_scope.

(** *** Orders *)
Lemma range_In z k : In k (range z) <-> (0 <= k < z)%Z.
Proof. unfold range. rewrite in_map_iff. split; [intros (i & <- & H); apply in_seq in H; lia|]. intros H. exists (Z.to_nat k). rewrite in_seq. lia. Qed.
Lemma seq_sorted s m : StronglySorted Z.lt (map Z.of_nat (seq s m)).
Proof. revert s. induction m as [|m IH]; intros s; [constructor|]. cbn [seq map]. constructor; [apply IH|]. apply Forall_forall. intros x Hx. apply in_map_iff in Hx. destruct Hx as (i & <- & Hi). apply in_seq in Hi. lia. Qed.
Lemma range_sorted z : StronglySorted Z.lt (range z).
Proof. apply seq_sorted. Qed.
Lemma sorted_precedes (R : Z -> Z -> Prop) l i j : StronglySorted R l -> (forall x y, R x y -> ~ R y x) -> In i l -> In j l -> R i j -> precedes l i j.
Proof.
  intros S A. induction S as [|x l S IH F]; intros Hi Hj H; [destruct Hi|]. assert (i <> j) by (intros ->; apply (A j j); auto). destruct Hi as [->|Hi].
  - destruct Hj as [->|Hj]; [contradiction|]. exists [], l. auto.
  - destruct Hj as [->|Hj]; [rewrite Forall_forall in F; exfalso; apply (A i j); auto|]. destruct (IH Hi Hj H) as (l1 & l2 & -> & K). exists (x :: l1), l2. auto.
Qed.
Lemma precedes_sorted (R : Z -> Z -> Prop) l i j : StronglySorted R l -> precedes l i j -> R i j.
Proof.
  intros S (l1 & l2 & -> & K). induction l1 as [|x l1 IH]; cbn [app] in S; inversion S as [|? ? S1 S2]; subst; auto. rewrite Forall_forall in S2. auto.
Qed.
Lemma sorted_NoDup (R : Z -> Z -> Prop) l : (forall x, ~ R x x) -> StronglySorted R l -> NoDup l.
Proof. intros A S. induction S as [|x l S IH F]; constructor; auto. rewrite Forall_forall in F. intros K. apply (A x). auto. Qed.
Lemma sorted_app (R : Z -> Z -> Prop) l l' : StronglySorted R l -> StronglySorted R l' -> (forall x y, In x l -> In y l' -> R x y) -> StronglySorted R (l ++ l').
Proof. intros S S' H. induction S as [|x l S IH F]; [exact S'|]. cbn [app]. constructor; [apply IH; intros; apply H; auto; right; auto|]. apply Forall_app. split; [auto|]. apply Forall_forall. intros y Hy. apply H; auto. left; auto. Qed.

Definition level (h k : Z) : Z := (k mod h)%Z.
Definition tower (h k : Z) : Z := (k / h)%Z.
Lemma placed_eq h n k t l : placed h n k t l -> tower h k = t /\ level h k = l.
Proof. intros (H1 & H2 & ->). unfold tower, level. split; [rewrite Z.add_comm, Z.div_add by lia; rewrite Z.div_small by lia; lia|rewrite Z.add_comm, Z.mod_add by lia; apply Z.mod_small; lia]. Qed.
Definition level_lt (h i j : Z) : Prop := (level h i < level h j \/ level h i = level h j /\ tower h i < tower h j)%Z.

Lemma h_first_In h n k : In k (h_first h n) <-> is_part h n k.
Proof.
  unfold h_first, is_part. rewrite in_flat_map. split.
  - intros (l & Hl & H). apply in_map_iff in H. destruct H as (i & <- & Hi). rewrite range_In in *. exists i, l. auto.
  - intros (t & l & Ht & Hl & ->). exists l. rewrite range_In. split; [auto|]. apply in_map_iff. exists t. rewrite range_In. auto.
Qed.
Lemma v_first_In h n k : (0 <= h \/ 0 <= n)%Z -> In k (v_first h n) <-> is_part h n k.
Proof.
  intros P. unfold v_first, n_parts, is_part. rewrite range_In. split.
  - intros H. assert (K : (0 < h * n)%Z) by lia. apply Z.lt_0_mul in K. assert (0 < h /\ 0 < n)%Z by lia. exists (k / h)%Z, (k mod h)%Z. pose proof (Z.div_mod k h). pose proof (Z.mod_pos_bound k h). assert (0 <= k / h)%Z by (apply Z.div_pos; lia). assert (k / h < n)%Z by (apply Z.div_lt_upper_bound; lia). lia.
  - intros (t & l & Ht & Hl & ->). assert (t * h <= (n - 1) * h)%Z by (apply Z.mul_le_mono_nonneg_r; lia). assert (0 <= t * h)%Z by (apply Z.mul_nonneg_nonneg; lia). lia.
Qed.
Lemma h_first_sorted h n : StronglySorted (level_lt h) (h_first h n).
Proof.
  unfold h_first, range at 2. assert (G : forall s m, (s + m <= Z.to_nat h) -> StronglySorted (level_lt h) (flat_map (fun l => map (fun i => (i * h + l)%Z) (range n)) (map Z.of_nat (seq s m)))).
  2: apply (G 0 (Z.to_nat h)); lia.
  intros s m. revert s. induction m as [|m IH]; intros s B; [constructor|]. cbn [seq map flat_map]. apply sorted_app; [|apply IH; lia|].
  - pose proof (range_sorted n) as S. assert (P : forall i, In i (range n) -> placed h n (i * h + Z.of_nat s) i (Z.of_nat s)) by (intros i Hi; apply range_In in Hi; repeat split; lia). clear IH. induction S as [|x l S IS F]; [constructor|]. cbn [map]. constructor; [apply IS; intros; apply P; right; auto|]. apply Forall_forall. intros y Hy. apply in_map_iff in Hy. destruct Hy as (i & <- & Hi). rewrite Forall_forall in F. specialize (F i Hi). destruct (placed_eq _ _ _ _ _ (P x (or_introl eq_refl))) as [E1 E2]. destruct (placed_eq _ _ _ _ _ (P i (or_intror Hi))) as [E3 E4]. right. lia.
  - intros x y Hx Hy. apply in_map_iff in Hx. destruct Hx as (i & <- & Hi). apply in_flat_map in Hy. destruct Hy as (l & Hl & Hy). apply in_map_iff in Hl. destruct Hl as (k & <- & Hk). apply in_seq in Hk. apply in_map_iff in Hy. destruct Hy as (j & <- & Hj). apply range_In in Hi, Hj. assert (P1 : placed h n (i * h + Z.of_nat s) i (Z.of_nat s)) by (repeat split; lia). assert (P2 : placed h n (j * h + Z.of_nat k) j (Z.of_nat k)) by (repeat split; lia). apply placed_eq in P1, P2. left. lia.
Qed.
Lemma level_lt_asym h x y : level_lt h x y -> ~ level_lt h y x.
Proof. unfold level_lt. lia. Qed.

(** *** Numerals *)
Lemma str_int_inj i j : str_int i = str_int j -> i = j.
Proof.
  assert (G : forall z, NilZero.int_of_string (str_int z) = Some (Z.to_int z)).
  { intros z. unfold str_int. apply NilZero.isi; destruct z as [|p|p]; cbn; try discriminate; intros K; injection K as K; apply (DecimalPos.Unsigned.to_uint_nonnil _ K). }
  intros E. pose proof (G i) as A. rewrite E, G in A. injection A as A. apply (f_equal Z.of_int) in A. rewrite !DecimalZ.of_to in A. auto.
Qed.
Fixpoint has (c : ascii) (s : string) : Prop := match s with EmptyString => False | String d s => d = c \/ has c s end.
Lemma uint_chars c d : has c (NilEmpty.string_of_uint d) -> In c ["0"; "1"; "2"; "3"; "4"; "5"; "6"; "7"; "8"; "9"]%char.
Proof. induction d; cbn [NilEmpty.string_of_uint has]; [tauto|..]; (intros [<-|H]; [cbn; tauto|auto]). Qed.
Lemma str_chars k c : (0 <= k)%Z -> has c (str_int k) -> In c ["0"; "1"; "2"; "3"; "4"; "5"; "6"; "7"; "8"; "9"]%char.
Proof.
  intros P. unfold str_int. destruct k as [|p|p]; cbn [Z.to_int NilZero.string_of_int]; [cbn; tauto| |lia]. unfold NilZero.string_of_uint. intros H. destruct (Pos.to_uint p); try (apply (uint_chars c) in H; exact H). cbn in H |- *; tauto.
Qed.
Lemma has_app c s s' : has c (s ++ s') <-> has c s \/ has c s'.
Proof. induction s as [|d s IH]; cbn; [tauto|]. rewrite IH. tauto. Qed.
Lemma cut_dash a b x y : ~ has "-" a -> ~ has "-" b -> (a ++ "-" ++ x = b ++ "-" ++ y)%string -> a = b /\ x = y.
Proof.
  revert b. induction a as [|c a IH]; intros [|d b] Ha Hb E; cbn in E.
  - injection E as E. auto.
  - injection E as E1 E2. exfalso. apply Hb. left. auto.
  - injection E as E1 E2. exfalso. apply Ha. left. auto.
  - injection E as E1 E2. cbn in Ha, Hb. destruct (IH b) as [-> ->]; [tauto|tauto|exact E2|]. subst. auto.
Qed.
Lemma dashed_app a b : dashed (a ++ b) = (dashed a ++ dashed b)%string.
Proof. induction a as [|c a IH]; [reflexivity|]. cbn [append dashed]. rewrite IH. reflexivity. Qed.
Lemma dashed_digits s : (forall c, has c s -> In c ["0"; "1"; "2"; "3"; "4"; "5"; "6"; "7"; "8"; "9"]%char) -> dashed s = s.
Proof.
  induction s as [|c s IH]; intros H; [reflexivity|]. cbn [dashed]. rewrite IH by (intros d Hd; apply H; right; auto). f_equal. pose proof (H c (or_introl eq_refl)) as K. cbn in K. repeat (destruct K as [<-|K]; [reflexivity|]). destruct K.
Qed.
Lemma str_no_dash k : (0 <= k)%Z -> ~ has "-" (str_int k).
Proof. intros P H. apply str_chars in H; auto. cbn in H. repeat (destruct H as [H|H]; [discriminate H|]). destruct H. Qed.
Lemma leaf_name_inj i j x y : (0 <= i)%Z -> (0 <= j)%Z -> dashed (str_int i ++ "-" ++ x) = dashed (str_int j ++ "-" ++ y) -> i = j /\ dashed x = dashed y.
Proof.
  intros P P' E. rewrite !dashed_app in E. rewrite !(dashed_digits (str_int _)) in E by (intros c; apply str_chars; auto). destruct (cut_dash _ _ _ _ (str_no_dash i P) (str_no_dash j P') E) as [A B]. apply str_int_inj in A. auto.
Qed.

(** *** Tasks *)
Definition part_action (name : string) (i : Z) : action string :=
  {| a_class := KBring; a_name := (str_int i ++ "-" ++ name)%string; a_agent := "None"; a_params := Some (str_int i) |}.
Definition order_tree (on : list Z * string) : n2p string := NSeq (map (fun i => NLeaf (part_action (snd on) i)) (fst on)).
Definition orders_tree (l : list (list Z * string)) : n2p string := NAlt (map order_tree l).

Lemma order_leaves on : leaves (order_tree on) = map (part_action (snd on)) (fst on).
Proof. destruct on as [o nm]. unfold order_tree. cbn [leaves fst snd]. induction o as [|i o IH]; [reflexivity|]. cbn [map flat_map leaves app]. rewrite IH. reflexivity. Qed.
Lemma orders_leaves l : leaves (orders_tree l) = flat_map (fun on => map (part_action (snd on)) (fst on)) l.
Proof. unfold orders_tree. cbn [leaves]. induction l as [|on l IH]; [reflexivity|]. cbn [map flat_map]. rewrite order_leaves, IH. reflexivity. Qed.

Lemma run_leaves (l : list (action string)) r : run_seq (map (fun a => NLeaf a) l) r <-> r = seq 0 (length l).
Proof.
  revert r. induction l as [|a l IH]; intros r; cbn [map length seq].
  - split; [inversion 1; reflexivity|intros ->; constructor].
  - split.
    + inversion 1 as [|t l' r1 r2 H1 H2]; subst. inversion H1; subst. apply IH in H2. subst. cbn [app count flat_map leaves length]. f_equal. rewrite <- seq_shift. apply map_ext. intros; reflexivity.
    + intros ->. rewrite <- seq_shift. exact (ru_some (NLeaf a) (map (fun a => NLeaf a) l) [0] (seq 0 (length l)) (ru_leaf a) (proj2 (IH _) eq_refl)).
Qed.
Lemma run_order on r : run (order_tree on) r <-> r = seq 0 (length (fst on)).
Proof.
  destruct on as [o nm]. unfold order_tree. cbn [fst snd]. rewrite <- (map_map (part_action nm) (fun a => NLeaf a)). rewrite <- (map_length (part_action nm) o), <- run_leaves. split; [inversion 1; auto|intros; constructor; auto].
Qed.

Lemma Forall2_positions (P : nat -> string -> Prop) (ys : list string) c xs : (forall k x, k < length ys -> P (c + k) x <-> nth_error ys k = Some x) ->
  Forall2 P (map (Nat.add c) (seq 0 (length ys))) xs <-> xs = ys.
Proof.
  revert c xs. induction ys as [|y ys IH]; intros c xs H; cbn [length seq map].
  - split; [inversion 1; reflexivity|intros ->; constructor].
  - assert (E : map (Nat.add c) (seq 1 (length ys)) = map (Nat.add (S c)) (seq 0 (length ys))) by (rewrite <- seq_shift, map_map; apply map_ext; intros; lia). rewrite E. clear E.
    assert (H' : forall k x, k < length ys -> P (S c + k) x <-> nth_error ys k = Some x) by (intros k x Hk; replace (S c + k) with (c + S k) by lia; rewrite H by (cbn; lia); reflexivity).
    assert (H0 : forall x, P (c + 0) x <-> x = y) by (intros x; rewrite H by (cbn; lia); cbn; split; congruence). split.
    + intros F. inversion F as [|? x ? xs1 F1 F2]; subst. apply H0 in F1. apply (IH (S c) xs1 H') in F2. congruence.
    + intros ->. constructor; [apply H0; reflexivity|apply (IH (S c) ys H'); reflexivity].
Qed.
Lemma done_iff l xs : done_by (orders_tree l) xs <-> exists on, In on l /\ xs = map str_int (fst on).
Proof.
  assert (G : forall l1 on l2 c xs, l = l1 ++ on :: l2 -> c = count (map order_tree l1) -> Forall2 (wants (orders_tree l)) (map (Nat.add c) (seq 0 (length (fst on)))) xs <-> xs = map str_int (fst on)).
  { intros l1 on l2 c ys -> ->. rewrite <- (map_length str_int (fst on)). apply Forall2_positions. intros k x Hk. rewrite map_length in Hk. unfold wants. rewrite orders_leaves, flat_map_app. cbn [flat_map].
    assert (EC : count (map order_tree l1) = length (flat_map (fun on => map (part_action (snd on)) (fst on)) l1)) by (rewrite <- orders_leaves; reflexivity). rewrite EC, nth_error_app2 by lia. rewrite Nat.add_comm, Nat.add_sub, nth_error_app1 by (rewrite map_length; auto). rewrite !nth_error_map. destruct (nth_error (fst on) k) as [i|]; cbn [option_map]; [|split; [intros (a & A & _)|]; discriminate].
    split; [intros (a & A & _ & B); injection A as <-; auto|]. intros A. eexists. split; [reflexivity|]. auto. }
  unfold done_by. split.
  - intros (r & R & F). unfold orders_tree in R. inversion R as [| |l1 t l2 r' R' E E2]; subst. symmetry in E. apply map_eq_app in E. destruct E as (m1 & m2 & -> & <- & E). destruct m2 as [|on m2]; [discriminate|]. cbn [map] in E. injection E as <- <-. apply run_order in R'. subst. exists on. split; [apply in_elt|]. apply (G m1 on m2 _ xs eq_refl eq_refl). exact F.
  - intros (on & H & ->). apply in_split in H. destruct H as (m1 & m2 & ->). exists (map (Nat.add (count (map order_tree m1))) (seq 0 (length (fst on)))). split; [|apply (G m1 on m2); reflexivity]. unfold orders_tree. rewrite map_app. cbn [map]. constructor. apply run_order. reflexivity.
Qed.

(** The root that is built. *)
Definition order_comb (on : list Z * string) : comb string := Node Sequential (map (bring_part (Some (snd on))) (fst on)) None None (snd on) false None.
Lemma children_ok l : mapM (fun on => sequential_from_order (fst on) (Some (snd on))) l = Ok (map order_comb l).
Proof. induction l as [|on l IH]; [reflexivity|]. cbn [mapM map]. rewrite IH. reflexivity. Qed.
Lemma task_ok orders names : orders <> [] -> length names = length orders ->
  exists pr, task_from_orders orders (Some names) = Ok (Node Alternative (map order_comb (combine orders names)) None None "Alt" false pr).
Proof.
  intros N L. unfold task_from_orders. rewrite children_ok. cbn [bind mk_comb]. rewrite map_length, combine_length, L, Nat.min_id. unfold alt_proba. destruct orders as [|o orders]; [contradiction|]. cbn [length Nat.eqb bind]. eauto.
Qed.
Lemma order_unfolds l : Forall2 unfolds (map order_comb l) (map order_tree l).
Proof.
  induction l as [|[o nm] l IH]; [constructor|]. cbn [map]. constructor; [|exact IH]. unfold order_comb, order_tree. cbn [fst snd]. constructor. clear. induction o as [|i o IH]; [constructor|]. cbn [map]. constructor; [constructor|exact IH].
Qed.

(** Names. *)
Lemma NoDup_flat_map {A B} (f : A -> list B) l : (forall x, In x l -> NoDup (f x)) -> NoDup l -> (forall x y z, In x l -> In y l -> In z (f x) -> In z (f y) -> x = y) -> NoDup (flat_map f l).
Proof.
  intros H N D. induction N as [|x l Nx N IH]; [constructor|]. cbn [flat_map]. assert (I : NoDup (flat_map f l)) by (apply IH; [intros; apply H; right; auto|intros a b c ? ? ? ?; apply (D a b c); try (right; auto); auto]).
  assert (J : forall z, In z (f x) -> ~ In z (flat_map f l)) by (intros z Hz K; apply in_flat_map in K; destruct K as (y & Hy & K); apply Nx; rewrite (D x y z); auto; [left; auto|right; auto]).
  specialize (H x (or_introl eq_refl)). clear -H I J. induction H as [|z zs Hz H IH]; [exact I|]. cbn [app]. constructor; [rewrite in_app_iff; intros [K|K]; [auto|apply (J z); [left; auto|auto]]|]. apply IH. intros w Hw. apply J. right. auto.
Qed.
Lemma combine_NoDup {A B C} (f : B -> C) (l : list A) (l' : list B) : NoDup (map f l') -> NoDup (combine l l') /\ forall x y, In x (combine l l') -> In y (combine l l') -> f (snd x) = f (snd y) -> x = y.
Proof.
  revert l'. induction l as [|a l IH]; intros [|b l'] N; cbn [combine]; try (split; [constructor|intros ? ? []]; fail). cbn [map] in N. inversion N as [|? ? N1 N2]; subst. destruct (IH l' N2) as [I1 I2].
  assert (K : forall x, In x (combine l l') -> f (snd x) <> f b) by (intros [u v] Hx E; apply N1; cbn in E; rewrite <- E; apply in_map; apply (in_combine_r _ _ _ _ Hx)). split.
  - constructor; [|exact I1]. intros H. apply (K _ H). reflexivity.
  - intros x y [<-|Hx] [<-|Hy] E; auto; [exfalso; apply (K y Hy); auto|exfalso; apply (K x Hx); auto].
Qed.
Lemma tree_names orders names : NoDup (map dashed names) -> (forall o, In o orders -> NoDup o /\ forall i, In i o -> (0 <= i)%Z) -> names_differ (orders_tree (combine orders names)).
Proof.
  intros N H. unfold names_differ. rewrite orders_leaves. destruct (combine_NoDup dashed orders names N) as [C1 C2].
  assert (E : map (fun a => dashed (a_name a)) (flat_map (fun on : list Z * string => map (part_action (snd on)) (fst on)) (combine orders names)) = flat_map (fun on => map (fun i => dashed (str_int i ++ "-" ++ snd on)) (fst on)) (combine orders names)).
  { clear. induction (combine orders names) as [|on l IH]; [reflexivity|]. cbn [flat_map]. rewrite map_app, IH, map_map. reflexivity. }
  rewrite E. assert (HO : forall on, In on (combine orders names) -> NoDup (fst on) /\ forall i, In i (fst on) -> (0 <= i)%Z) by (intros [o nm] K; apply H; apply (in_combine_l _ _ _ _ K)).
  apply NoDup_flat_map; [|exact C1|].
  - intros on K. destruct (HO on K) as [D P]. clear -D P. induction D as [|i o Ni D IH]; [constructor|]. cbn [map]. constructor; [|apply IH; intros; apply P; right; auto]. intros K. apply in_map_iff in K. destruct K as (j & E & Hj). apply leaf_name_inj in E; [|apply P; right; auto|apply P; left; auto]. destruct E as [-> _]. auto.
  - intros x y z Kx Ky Hx Hy. apply in_map_iff in Hx, Hy. destruct Hx as (i & <- & Hi). destruct Hy as (j & Ey & Hj). apply leaf_name_inj in Ey; [|apply (HO y Ky); auto|apply (HO x Kx); auto]. apply C2; auto. symmetry. apply Ey.
Qed.
Lemma default_names m : NoDup (map dashed (map (fun i => str_int (Z.of_nat i)) (seq 0 m))).
Proof.
  rewrite map_map. apply NoDup_nth_error. intros i j Hi E. rewrite map_length, seq_length in Hi. rewrite !nth_error_map in E. rewrite (nth_error_nth' _ 0) in E by (rewrite seq_length; auto). rewrite seq_nth in E by auto. cbn [option_map] in E. destruct (nth_error (seq 0 m) j) as [k|] eqn:Ej; [|discriminate]. pose proof Ej as Lj. assert (j < m) by (rewrite <- (seq_length m 0); apply nth_error_Some; congruence). rewrite (nth_error_nth' _ 0) in Ej by (rewrite seq_length; auto). rewrite seq_nth in Ej by auto. injection Ej as <-. cbn [option_map Nat.add] in E. injection E as E. rewrite !dashed_digits in E by (intros c; apply str_chars; lia). apply str_int_inj in E. lia.
Qed.
