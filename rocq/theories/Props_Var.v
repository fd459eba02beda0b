(** C135: plots of a mean with its deviation. *)
From Verif Require Import PyBase PyBaseFacts QBase PlotModel VarModel VarSpec.
From Coq Require Import String Lia Lqa Field Reals Qreals.
Local Open Scope list_scope.
Local Open Scope nat_scope.

Lemma sum_total l : (sumQ l == total l)%Q.
Proof. induction l as [|x l IH]; [reflexivity|]. cbn. setoid_rewrite <- IH. reflexivity. Qed.
Lemma total_sum l : total l = fold_right Qplus 0%Q l. Proof. reflexivity. Qed.
Lemma size_pos (row : list Q) : row <> [] -> (0 < size_of row)%Q.
Proof. intros N. unfold size_of. change 0%Q with (inject_Z 0). rewrite <- Zlt_Qlt. destruct row; [congruence|cbn [List.length]; lia]. Qed.
Lemma mean_is row : row <> [] -> is_mean row (mean row).
Proof. intros N. pose proof (size_pos row N). unfold is_mean, mean. change (inject_Z (Z.of_nat (Datatypes.length row))) with (size_of row). rewrite <- sum_total. field. lra. Qed.
Lemma mean_unique row m m' : row <> [] -> is_mean row m -> is_mean row m' -> (m == m')%Q.
Proof.
  intros N A B. pose proof (size_pos row N) as Z. unfold is_mean in *. change (inject_Z (Z.of_nat (Datatypes.length row))) with (size_of row) in *.
  assert (K : (m * size_of row == m' * size_of row)%Q) by (rewrite A, B; reflexivity). apply Qmult_inj_r in K; auto. lra.
Qed.
Lemma total_ext {A} (f g : A -> Q) l : (forall x, In x l -> f x == g x)%Q -> (total (map f l) == total (map g l))%Q.
Proof. induction l as [|x l IH]; intros E; [reflexivity|]. cbn. rewrite (E x), IH; [reflexivity|intros; apply E; right; auto|left; auto]. Qed.
Lemma total_nonneg l : (forall x, In x l -> 0 <= x)%Q -> (0 <= total l)%Q.
Proof. induction l as [|x l IH]; intros E; cbn; [lra|]. pose proof (E x (or_introl eq_refl)). assert (0 <= total l)%Q by (apply IH; intros; apply E; right; auto). unfold total in *. lra. Qed.
Lemma sq_nonneg (x : Q) : (0 <= x * x)%Q.
Proof. destruct x as [a b]. unfold Qle. cbn. rewrite Z.mul_1_r. apply Z.square_nonneg. Qed.
Lemma sq_pos (x : Q) : (~ x == 0 -> 0 < x * x)%Q.
Proof. intros N. pose proof (sq_nonneg x). assert (~ 0 == x * x)%Q by (intros K; symmetry in K; apply Qmult_integral in K; destruct K; auto). lra. Qed.
Lemma mean_le row m (f : Q -> Q) c : row <> [] -> is_mean (map f row) m -> (forall y, In y row -> f y <= c)%Q -> (m <= c)%Q.
Proof.
  intros N M L. assert (T : (total (map f row) <= c * size_of row)%Q).
  { clear - L. unfold size_of. induction row as [|x l IH]; [change (inject_Z (Z.of_nat (Datatypes.length (@nil Q)))) with 0%Q; cbn [map total fold_right]; lra|]. pose proof (L x (or_introl eq_refl)) as Hx. assert (K : (total (map f l) <= c * inject_Z (Z.of_nat (Datatypes.length l)))%Q) by (apply IH; intros; apply L; right; auto).
    cbn [List.length map]. rewrite Nat2Z.inj_succ. unfold Z.succ. rewrite inject_Z_plus. change (inject_Z 1) with 1%Q. cbn [total fold_right]. unfold total in K. lra. }
  pose proof (size_pos row N) as P. unfold is_mean in M. rewrite map_length in M. change (inject_Z (Z.of_nat (Datatypes.length row))) with (size_of row) in M. nra.
Qed.
Lemma mean_ge row m (f : Q -> Q) c : row <> [] -> is_mean (map f row) m -> (forall y, In y row -> c <= f y)%Q -> (c <= m)%Q.
Proof.
  intros N M L. assert (T : (c * size_of row <= total (map f row))%Q).
  { clear - L. unfold size_of. induction row as [|x l IH]; [change (inject_Z (Z.of_nat (Datatypes.length (@nil Q)))) with 0%Q; cbn [map total fold_right]; lra|]. pose proof (L x (or_introl eq_refl)) as Hx. assert (K : (c * inject_Z (Z.of_nat (Datatypes.length l)) <= total (map f l))%Q) by (apply IH; intros; apply L; right; auto).
    cbn [List.length map]. rewrite Nat2Z.inj_succ. unfold Z.succ. rewrite inject_Z_plus. change (inject_Z 1) with 1%Q. cbn [total fold_right]. unfold total in K. lra. }
  pose proof (size_pos row N) as P. unfold is_mean in M. rewrite map_length in M. change (inject_Z (Z.of_nat (Datatypes.length row))) with (size_of row) in M. nra.
Qed.
Lemma variance_is row : row <> [] -> is_mean (map (fun y => (y - mean row) * (y - mean row))%Q row) (variance row).
Proof. intros N. apply mean_is. destruct row; [congruence|discriminate]. Qed.
Lemma variance_nonneg row : row <> [] -> (0 <= variance row)%Q.
Proof. intros N. apply (mean_ge row _ (fun y => (y - mean row) * (y - mean row))%Q); auto; [apply variance_is; auto|]. intros. apply sq_nonneg. Qed.
Lemma Q2R_nonneg q : (0 <= q)%Q -> (0 <= Q2R q)%R.
Proof. intros H. apply Qle_Rle in H. replace (Q2R 0) with 0%R in H by (unfold Q2R; cbn; field). exact H. Qed.
Lemma std_is row : row <> [] -> is_deviation row (std row).
Proof.
  intros N. split; [apply sqrt_pos|]. exists (mean row), (variance row). split; [apply mean_is; auto|]. split; [apply variance_is; auto|].
  apply sqrt_sqrt, Q2R_nonneg, variance_nonneg; auto.
Qed.
Lemma combine_nth {A B} : forall (l : list A) (l' : list B) i a b, nth_error l i = Some a -> nth_error l' i = Some b -> nth_error (combine l l') i = Some (a, b).
Proof. induction l as [|x l IH]; intros l' [|i] a b E F; destruct l' as [|y l']; try discriminate; cbn in *; [congruence|apply IH; auto]. Qed.

(** What is drawn.  Every row of y has samples; x is given with one abscissa for each row, or is 0, 1, 2...  The curve goes
    through the means, at the abscissas in order.  There are bars exactly when var is asked with the style 'bar' or 'both', and
    a filled area exactly when it is asked with 'fill' or 'both': the bars have the standard deviation above and under the
    curve, and the area goes from the mean minus it to the mean plus it, at the same abscissas and in the color of the curve.
    Of the axis, the top and right spines are hidden; the other spines, the ticks and the labels are shown as before. *)
Theorem C135_drawn : forall cycle j y x color var style, (forall row, In row y -> row <> []) ->
  (forall l, x = Some l -> List.length l = List.length y) ->
  exists d, plot_var cycle j y x color var style = Ok d /\
    List.length (curve d) = List.length y /\
    (line_color d = match color with Some c => c | None => cycle end) /\
    (bars d <> None <-> var = true /\ (style = "bar" \/ style = "both")%string) /\
    (area d <> None <-> var = true /\ (style = "fill" \/ style = "both")%string) /\
    (forall l, bars d = Some l -> List.length l = List.length y) /\
    (forall l c, area d = Some (l, c) -> List.length l = List.length y /\ c = line_color d) /\
    (forall i row, nth_error y i = Some row -> exists t m s, nth_error (curve d) i = Some (t, m) /\ is_mean row m /\ is_deviation row s /\
       match x with None => t = inject_Z (Z.of_nat i) | Some l => nth_error l i = Some t end /\
       (forall l, bars d = Some l -> nth_error l i = Some s) /\
       (forall l c, area d = Some (l, c) -> nth_error l i = Some (t, (Q2R m - s)%R, (Q2R m + s)%R))) /\
    (visible (axis d) "top" = false /\ visible (axis d) "right" = false /\ visible (axis d) "left" = visible j "left" /\ visible (axis d) "bottom" = visible j "bottom")%string /\
    no_x_ticks (axis d) = no_x_ticks j /\ no_y_ticks (axis d) = no_y_ticks j /\ no_x_labels (axis d) = no_x_labels j /\ no_y_labels (axis d) = no_y_labels j.
Proof.
  intros cycle j y x color var style N X. unfold plot_var.
  set (xs := match x with None => _ | Some x => x end).
  assert (LX : List.length xs = List.length y) by (unfold xs; destruct x as [l|]; [apply X; auto|rewrite map_length, seq_length; reflexivity]).
  rewrite map_length, LX, Nat.eqb_refl. cbn [negb].
  set (jj := remove_chartjunk _ _ _ _ _). vm_compute in jj. subst jj. cbn [bind].
  eexists. split; [reflexivity|]. cbn [curve line_color bars area axis].
  split; [rewrite combine_length, map_length; lia|]. split; [reflexivity|].
  assert (M : forall l, mem_str style l = true <-> In style l).
  { intros l. unfold mem_str. rewrite existsb_exists. split; [intros (z & Hz & E); apply String.eqb_eq in E; subst; auto|intros H; exists style; split; auto; apply String.eqb_refl]. }
  split. { destruct var; cbn [andb]; [|split; [congruence|intros [? _]; discriminate]].
    specialize (M ["bar"; "both"]%string). destruct (mem_str style _); cbn in M; split; try discriminate; try congruence; intros H; [split; auto; destruct (proj1 M eq_refl) as [|[|[]]]; auto|].
    exfalso. destruct H as [_ H]. assert (false = true); [apply M; intuition|discriminate]. }
  split. { destruct var; cbn [andb]; [|split; [congruence|intros [? _]; discriminate]].
    specialize (M ["fill"; "both"]%string). destruct (mem_str style _); cbn in M; split; try discriminate; try congruence; intros H; [split; auto; destruct (proj1 M eq_refl) as [|[|[]]]; auto|].
    exfalso. destruct H as [_ H]. assert (false = true); [apply M; intuition|discriminate]. }
  clear M.
  split. { intros l. destruct (var && _); [|discriminate]. intros E. assert (l = map std y) as -> by congruence. apply map_length. }
  split. { intros l c. destruct (var && _); [|discriminate]. intros E. injection E as <- <-. split; [rewrite map_length, !combine_length, !map_length; lia|reflexivity]. }
  split.
  { intros i row Hr. pose proof (N row (nth_error_In _ _ Hr)) as Nr.
    assert (Hx : exists t, nth_error xs i = Some t). { destruct (nth_error xs i) as [t|] eqn:E; [eauto|]. apply nth_error_None in E. assert (i < List.length y) by (apply nth_error_Some; congruence). lia. }
    destruct Hx as [t Ht]. pose proof (map_nth_error mean i y Hr) as Hm. pose proof (map_nth_error std i y Hr) as Hs.
    exists t, (mean row), (std row). split; [apply combine_nth; auto|]. split; [apply mean_is; auto|]. split; [apply std_is; auto|].
    split. { unfold xs in Ht. destruct x as [l|]; [exact Ht|]. assert (L : i < List.length y) by (apply nth_error_Some; congruence).
      rewrite (map_nth_error (fun i => inject_Z (Z.of_nat i)) i _ (d := i)) in Ht; [congruence|]. rewrite (nth_error_nth' _ 0) by (rewrite seq_length; auto). rewrite seq_nth by auto. reflexivity. }
    split. { intros l. destruct (var && _); [|discriminate]. intros E. assert (l = map std y) as -> by congruence. exact Hs. }
    intros l c. destruct (var && _); [|discriminate]. intros E. injection E as <- _.
    rewrite (map_nth_error _ i _ (d := (t, (mean row, std row)))); [reflexivity|]. apply combine_nth; auto. apply combine_nth; auto. }
  destruct j as [vi th [|] [|] gr xl yl]; cbn; repeat split; reflexivity.
Qed.
Print Assumptions C135_drawn.

(** Abscissas in another number than the rows are a ValueError. *)
Theorem C135_lengths : forall cycle j y l color var style, List.length l <> List.length y -> plot_var cycle j y (Some l) color var style = Err EValue.
Proof. intros. unfold plot_var. rewrite map_length. apply Nat.eqb_neq in H. rewrite H. reflexivity. Qed.
Print Assumptions C135_lengths.

(** What the deviation shows of the samples: it is the only one; it is 0 exactly when all samples of the row are equal; the mean
    is between the samples; and some sample is in the filled area while some sample is outside or at its limit. *)
Theorem C135_deviation : forall row m s, row <> [] -> is_mean row m -> is_deviation row s ->
  (forall s', is_deviation row s' -> s' = s) /\
  (s = 0%R <-> forall y y', In y row -> In y' row -> (y == y')%Q) /\
  ((exists y, In y row /\ (y <= m)%Q) /\ (exists y, In y row /\ (m <= y)%Q)) /\
  (exists y, In y row /\ (Q2R m - s <= Q2R y <= Q2R m + s)%R) /\
  (exists y, In y row /\ (Q2R y <= Q2R m - s \/ Q2R m + s <= Q2R y)%R).
Proof.
  intros row m s N Hm (Ps & m0 & v & Hm0 & Hv & Es).
  assert (E0 : (m0 == m)%Q) by (eapply mean_unique; eauto).
  assert (Hv' : is_mean (map (fun y => (y - m) * (y - m))%Q row) v).
  { unfold is_mean in *. rewrite map_length in *. rewrite Hv. apply total_ext. intros y _. rewrite E0. reflexivity. }
  clear Hv Hm0.
  assert (Z2 : (0 <= v)%Q) by (eapply mean_ge; eauto; cbv beta; intros; apply sq_nonneg).
  assert (FIN : forall (P : Q -> Prop), (forall y, P y \/ ~ P y) -> (exists y, In y row /\ P y) \/ (forall y, In y row -> ~ P y)).
  { intros P D. clear - D. induction row as [|x l IH]; [right; intros ? []|]. destruct (D x) as [H|H]; [left; exists x; split; [left; auto|auto]|].
    destruct IH as [(y & I & H')|H']; [left; exists y; split; [right; auto|auto]|right; intros y [<-|I]; auto]. }
  assert (SQ : forall y, Q2R ((y - m) * (y - m)) = ((Q2R y - Q2R m) * (Q2R y - Q2R m))%R) by (intros; rewrite Q2R_mult, Q2R_minus; reflexivity).
  split. { intros s' (Ps' & m1 & v1 & Hm1 & Hv1 & Es').
    assert (E1 : (m1 == m)%Q) by (eapply mean_unique; eauto).
    assert (Hv1' : is_mean (map (fun y => (y - m) * (y - m))%Q row) v1). { unfold is_mean in *. rewrite map_length in *. rewrite Hv1. apply total_ext. intros y _. rewrite E1. reflexivity. }
    assert (Ev : (v1 == v)%Q). { eapply mean_unique; [|exact Hv1'|exact Hv']. destruct row; [congruence|discriminate]. }
    apply Qeq_eqR in Ev. assert (K : (s' * s' = s * s)%R) by congruence. apply Rsqr_inj; auto. }
  split.
  { split.
    - intros -> y y' Hy Hy'. assert (V0 : (v == 0)%Q). { apply eqR_Qeq. rewrite <- Es. unfold Q2R; cbn. field. }
      assert (A : forall z, In z row -> (z == m)%Q).
      { intros z Hz. destruct (FIN (fun z => ~ z == m)%Q) as [(w & Hw & Nw)|K].
        - intros w. destruct (Qeq_dec w m); [right|left]; auto.
        - exfalso. assert (P : (0 < (w - m) * (w - m))%Q) by (apply sq_pos; lra).
          assert (T : ((w - m) * (w - m) <= total (map (fun y => (y - m) * (y - m)) row))%Q).
          { clear - Hw. induction row as [|x l IH]; [destruct Hw|]. cbn. assert (0 <= total (map (fun y => (y - m) * (y - m)) l))%Q by (apply total_nonneg; intros q Hq; apply in_map_iff in Hq; destruct Hq as (? & <- & _); apply sq_nonneg).
            pose proof (sq_nonneg (x - m)). fold (total (map (fun y => (y - m) * (y - m))%Q l)). destruct Hw as [<-|Hw]; [lra|]. specialize (IH Hw). lra. }
          unfold is_mean in Hv'. rewrite V0 in Hv'. lra.
        - destruct (Qeq_dec z m); auto. destruct (K z Hz); auto. }
      rewrite (A y), (A y') by auto. reflexivity.
    - intros K. destruct row as [|x l]; [congruence|]. set (row := x :: l) in *.
      assert (X : (m == x)%Q). { apply Qle_antisym; [apply (mean_le row _ (fun y => y)); auto; [rewrite map_id; auto|]|apply (mean_ge row _ (fun y => y)); auto; [rewrite map_id; auto|]]; intros y Hy; rewrite (K y x); auto; try (left; reflexivity); lra. }
      assert (V0 : (v == 0)%Q). { apply Qle_antisym; auto. apply (mean_le row _ (fun y => (y - m) * (y - m))%Q); auto. intros y Hy. rewrite (K y x), X; auto; [|left; reflexivity]. ring_simplify. lra. }
      apply Qeq_eqR in V0. rewrite <- Es in V0. replace (Q2R 0) with 0%R in V0 by (unfold Q2R; cbn; field). destruct (Rmult_integral _ _ V0); auto. }
  split.
  { assert (HI : is_mean (map (fun y => y) row) m) by (rewrite map_id; auto). split.
    - destruct (FIN (fun y => y <= m)%Q) as [H|H]; auto; [intros y; destruct (Qlt_le_dec m y); [right; lra|left; auto]|]. exfalso.
      (* all above the mean *)
      assert (S' : (0 < total (map (fun y => y - m) row))%Q).
      { clear - H N. destruct row as [|x l]; [congruence|]. cbn. assert (0 < x - m)%Q by (pose proof (H x (or_introl eq_refl)); lra).
        assert (0 <= total (map (fun y => y - m) l))%Q by (apply total_nonneg; intros q Hq; apply in_map_iff in Hq; destruct Hq as (z & <- & Hz); pose proof (H z (or_intror Hz)); lra). unfold total in *. lra. }
      assert (D : (total (map (fun y => y - m) row) == total row - m * inject_Z (Z.of_nat (List.length row)))%Q).
      { clear. induction row as [|x l IH]; [cbn; ring|]. cbn [map List.length]. rewrite Nat2Z.inj_succ. unfold Z.succ. rewrite inject_Z_plus. change (inject_Z 1) with 1%Q. cbn [total fold_right]. unfold total in IH. rewrite IH. ring. }
      unfold is_mean in Hm. lra.
    - destruct (FIN (fun y => m <= y)%Q) as [H|H]; auto; [intros y; destruct (Qlt_le_dec y m); [right; lra|left; auto]|]. exfalso.
      assert (S' : (0 < total (map (fun y => m - y) row))%Q).
      { clear - H N. destruct row as [|x l]; [congruence|]. cbn. assert (0 < m - x)%Q by (pose proof (H x (or_introl eq_refl)); lra).
        assert (0 <= total (map (fun y => m - y) l))%Q by (apply total_nonneg; intros q Hq; apply in_map_iff in Hq; destruct Hq as (z & <- & Hz); pose proof (H z (or_intror Hz)); lra). unfold total in *. lra. }
      assert (D : (total (map (fun y => m - y) row) == m * inject_Z (Z.of_nat (List.length row)) - total row)%Q).
      { clear. induction row as [|x l IH]; [cbn; ring|]. cbn [map List.length]. rewrite Nat2Z.inj_succ. unfold Z.succ. rewrite inject_Z_plus. change (inject_Z 1) with 1%Q. cbn [total fold_right]. unfold total in IH. rewrite IH. ring. }
      unfold is_mean in Hm. lra. }
  assert (NEAR : exists y, In y row /\ ((y - m) * (y - m) <= v)%Q).
  { destruct (FIN (fun y => (y - m) * (y - m) <= v)%Q) as [H|H]; auto; [intros y; destruct (Qlt_le_dec v ((y - m) * (y - m))); [right; lra|left; auto]|]. exfalso.
    assert (S' : (0 < total (map (fun y => (y - m) * (y - m) - v) row))%Q).
    { clear - H N. destruct row as [|x l]; [congruence|]. cbn. assert (0 < (x - m) * (x - m) - v)%Q by (pose proof (H x (or_introl eq_refl)); lra).
      assert (0 <= total (map (fun y => (y - m) * (y - m) - v) l))%Q by (apply total_nonneg; intros q Hq; apply in_map_iff in Hq; destruct Hq as (z & <- & Hz); pose proof (H z (or_intror Hz)); lra). unfold total in *. lra. }
    assert (D : (total (map (fun y => (y - m) * (y - m) - v) row) == total (map (fun y => (y - m) * (y - m)) row) - v * inject_Z (Z.of_nat (List.length row)))%Q).
    { clear. induction row as [|x l IH]; [cbn; ring|]. cbn [map List.length]. rewrite Nat2Z.inj_succ. unfold Z.succ. rewrite inject_Z_plus. change (inject_Z 1) with 1%Q. cbn [total fold_right]. unfold total in IH. rewrite IH. ring. }
    unfold is_mean in Hv'. rewrite map_length in Hv'. lra. }
  assert (FAR : exists y, In y row /\ (v <= (y - m) * (y - m))%Q).
  { destruct (FIN (fun y => v <= (y - m) * (y - m))%Q) as [H|H]; auto; [intros y; destruct (Qlt_le_dec ((y - m) * (y - m)) v); [right; lra|left; auto]|]. exfalso.
    assert (S' : (0 < total (map (fun y => v - (y - m) * (y - m)) row))%Q).
    { clear - H N. destruct row as [|x l]; [congruence|]. cbn. assert (0 < v - (x - m) * (x - m))%Q by (pose proof (H x (or_introl eq_refl)); lra).
      assert (0 <= total (map (fun y => v - (y - m) * (y - m)) l))%Q by (apply total_nonneg; intros q Hq; apply in_map_iff in Hq; destruct Hq as (z & <- & Hz); pose proof (H z (or_intror Hz)); lra). unfold total in *. lra. }
    assert (D : (total (map (fun y => v - (y - m) * (y - m)) row) == v * inject_Z (Z.of_nat (List.length row)) - total (map (fun y => (y - m) * (y - m)) row))%Q).
    { clear. induction row as [|x l IH]; [cbn; ring|]. cbn [map List.length]. rewrite Nat2Z.inj_succ. unfold Z.succ. rewrite inject_Z_plus. change (inject_Z 1) with 1%Q. cbn [total fold_right]. unfold total in IH. rewrite IH. ring. }
    unfold is_mean in Hv'. rewrite map_length in Hv'. lra. }
  split.
  - destruct NEAR as (y & Hy & L). exists y. split; auto. apply Qle_Rle in L. rewrite SQ, <- Es in L.
    pose proof (Rsqr_incr_0_var (Rabs (Q2R y - Q2R m)) s) as K. rewrite <- Rsqr_abs in K. specialize (K L Ps).
    pose proof (Rle_abs (Q2R y - Q2R m)). pose proof (Rle_abs (- (Q2R y - Q2R m))). rewrite Rabs_Ropp in H0. split; Lra.lra.
  - destruct FAR as (y & Hy & L). exists y. split; auto. apply Qle_Rle in L. rewrite SQ, <- Es in L.
    pose proof (Rsqr_incr_0_var s (Rabs (Q2R y - Q2R m))) as K. rewrite <- Rsqr_abs in K. specialize (K L (Rabs_pos _)).
    destruct (Rcase_abs (Q2R y - Q2R m)) as [C|C]; [left; rewrite Rabs_left in K by auto|right; rewrite Rabs_right in K by auto]; Lra.lra.
Qed.
Print Assumptions C135_deviation.

(** Meshes.  The whole table is shown, with label k of x in the middle of column k and label k of y in the middle of row k; without
    labels, or with an empty list, none are set.  The color map is the one given, otherwise red when no number is negative, else
    blue when none is positive, else blue reversed.  No spines and no ticks are left. *)
Theorem C135_mesh : forall j x columns given xl yl,
  (forall l, xl = Some l -> l <> [] -> List.length l = columns) -> (forall l, yl = Some l -> l <> [] -> List.length l = List.length x) ->
  exists d, pcolormesh j x columns given xl yl = Ok d /\
    (m_xlim d = (0, inject_Z (Z.of_nat columns)) /\ m_ylim d = (0, inject_Z (Z.of_nat (List.length x))))%Q /\
    ((xl = None \/ xl = Some [] -> m_xlabels d = None) /\ (yl = None \/ yl = Some [] -> m_ylabels d = None)) /\
    (forall l, xl = Some l -> l <> [] -> exists t, m_xlabels d = Some t /\ map snd t = l /\
       forall k q s, nth_error t k = Some (q, s) -> (q == inject_Z (Z.of_nat k) + (1 # 2))%Q /\ k < columns) /\
    (forall l, yl = Some l -> l <> [] -> exists t, m_ylabels d = Some t /\ map snd t = l /\
       forall k q s, nth_error t k = Some (q, s) -> (q == inject_Z (Z.of_nat k) + (1 # 2))%Q /\ k < List.length x) /\
    (forall c, given = Some c -> m_cmap d = c) /\
    (given = None -> match m_cmap d with
       | Reds => forall row v, In row x -> In v row -> (0 <= v)%Q
       | Blues => (exists row v, In row x /\ In v row /\ (v < 0)%Q) /\ forall row v, In row x -> In v row -> (v <= 0)%Q
       | Blues_r => (exists row v, In row x /\ In v row /\ (v < 0)%Q) /\ exists row v, In row x /\ In v row /\ (0 < v)%Q
       end) /\
    (forall s, In s ["top"; "right"; "bottom"; "left"]%string -> visible (m_axis d) s = false) /\
    no_x_ticks (m_axis d) = true /\ no_y_ticks (m_axis d) = true.
Proof.
  intros j x columns given xl yl HX HY. unfold pcolormesh.
  set (jj := remove_chartjunk _ _ _ _ _). vm_compute in jj. subst jj. cbn [bind].
  eexists. split; [reflexivity|]. cbn [m_cmap m_xlabels m_ylabels m_xlim m_ylim m_axis].
  assert (PL : forall n l, l <> [] -> List.length l = n -> exists t, place n (Some l) = Some t /\ map snd t = l /\
             forall k q s, nth_error t k = Some (q, s) -> (q == inject_Z (Z.of_nat k) + (1 # 2))%Q /\ k < n).
  { intros n l Nl Ll. exists (combine (middles n) l). split; [destruct l; [congruence|reflexivity]|].
    assert (Lm : List.length (middles n) = n) by (unfold middles; rewrite map_length, seq_length; reflexivity). split.
    - assert (K : List.length (middles n) = List.length l) by lia. clear - K. revert K. generalize (middles n). induction l as [|y l IH]; intros [|z t] K; cbn in *; try discriminate; [reflexivity|]. rewrite IH; [reflexivity|lia].
    - intros k q s E. assert (B : k < n). { assert (L : k < List.length (combine (middles n) l)) by (apply nth_error_Some; congruence). rewrite combine_length in L. lia. }
      split; [|exact B]. assert (Em : nth_error (middles n) k = Some ((1 # 2) + inject_Z (Z.of_nat k))%Q).
      { unfold middles. rewrite (map_nth_error _ k _ (d := k)); [reflexivity|]. rewrite (nth_error_nth' _ 0) by (rewrite seq_length; auto). rewrite seq_nth by auto. reflexivity. }
      assert (C : exists b, nth_error l k = Some b) by (destruct (nth_error l k) eqn:El; [eauto|apply nth_error_None in El; lia]). destruct C as [b Cb].
      rewrite (combine_nth _ _ _ _ _ Em Cb) in E. assert (q = ((1 # 2) + inject_Z (Z.of_nat k))%Q) as -> by congruence. ring. }
  split; [split; reflexivity|]. split; [split; intros [-> | ->]; reflexivity|].
  split; [intros l -> Nl; apply PL; auto|]. split; [intros l -> Nl; apply PL; auto|].
  split; [intros c ->; reflexivity|].
  split.
  { intros ->. unfold cmap_from_data.
    assert (IN : forall v, In v (List.concat x) <-> exists row, In row x /\ In v row) by (intros; rewrite in_concat; reflexivity).
    assert (SOME : forall f, forallb f (List.concat x) = false -> exists row v, In row x /\ In v row /\ f v = false).
    { intros f E. assert (K : exists v, In v (List.concat x) /\ f v = false). { revert E. generalize (List.concat x). induction l as [|v l IH]; cbn; [discriminate|]. destruct (f v) eqn:Ef; cbn; [intros E; destruct (IH E) as (w & ? & ?); eauto|eauto]. }
      destruct K as (v & Hv & Ef). apply IN in Hv. destruct Hv as (row & ? & ?). eauto. }
    destruct (forallb (Qle_bool 0) (List.concat x)) eqn:E1.
    - intros row v Hr Hv. rewrite forallb_forall in E1. apply Qle_bool_iff, E1, IN. eauto.
    - destruct (SOME _ E1) as (row & v & Hr & Hv & F).
      assert (NEG : exists row v, In row x /\ In v row /\ (v < 0)%Q). { exists row, v. split; auto. split; auto. apply Qnot_le_lt. intros K. apply Qle_bool_iff in K. congruence. }
      destruct (forallb (fun v => Qle_bool v 0) (List.concat x)) eqn:E2; split; auto.
      + intros r w Hr' Hw. rewrite forallb_forall in E2. apply Qle_bool_iff, E2, IN. eauto.
      + destruct (SOME _ E2) as (r & w & Hr' & Hw & F2). exists r, w. split; auto. split; auto. apply Qnot_le_lt. intros K. apply Qle_bool_iff in K. congruence. }
  destruct j as [vi th [|] [|] gr xlb ylb]; cbn; (split; [intros s [<-|[<-|[<-|[<-|[]]]]]; reflexivity|split; reflexivity]).
Qed.
Print Assumptions C135_mesh.

(** Two rows with two samples each, drawn with bars and area: the deviations are 1 and 2. *)
Definition ex_axis : junk := {| visible := fun _ => true; thin := fun _ => false; no_x_ticks := false; no_y_ticks := false; grid_of := None; no_x_labels := false; no_y_labels := false |}.
Definition ex_rows : list (list Q) := [[1; 3]; [6; 2]]%Q.
Example C135_ex : exists d, plot_var "blue" ex_axis ex_rows (Some [5; 10]%Q) None true "both" = Ok d /\
  List.length (curve d) = 2 /\ line_color d = "blue"%string /\ bars d <> None /\ area d <> None /\ is_mean [6; 2]%Q 4 /\ is_deviation [6; 2]%Q 2.
Proof.
  destruct (C135_drawn "blue" ex_axis ex_rows (Some [5; 10]%Q) None true "both") as (d & E & L & C & B & F & _).
  - intros row [<-|[<-|[]]]; discriminate.
  - intros l H. assert (l = [5; 10]%Q) as -> by congruence. reflexivity.
  - exists d. split; [exact E|]. split; [exact L|]. split; [exact C|]. split; [apply B; auto|]. split; [apply F; auto|]. split; [reflexivity|].
    split; [Lra.lra|]. exists 4%Q, 4%Q. split; [reflexivity|]. split; [reflexivity|]. unfold Q2R; cbn. Lra.lra.
Qed.
Example C135_ex_mesh : exists d, pcolormesh ex_axis [[1; -(2)]; [3; 0]; [5; 1]]%Q 2 None (Some ["a"; "b"]%string) (Some []) = Ok d /\
  m_cmap d = Blues_r /\ m_xlabels d = Some [((1 # 2) + 0, "a"%string); ((1 # 2) + 1, "b"%string)]%Q /\ m_ylabels d = None /\ m_ylim d = (0, 3)%Q.
Proof. eexists. split; [reflexivity|]. repeat split. Qed.
