(** C124: plots of values and beliefs, and the axes. *)
From Verif Require Import PyBase PyBaseFacts QBase TowerModel PlotModel PlotSpec.
From Coq Require Import String Ascii Lia Lqa Field.
Local Open Scope list_scope.
Local Open Scope nat_scope.

Lemma least_ok : forall l x, In (least_of x l) (x :: l) /\ forall v, In v (x :: l) -> (least_of x l <= v)%Q.
Proof.
  induction l as [|y l IH]; intros x; cbn [least_of]; [split; [left; reflexivity|]; intros v [<-|[]]; lra|].
  destruct (Qle_bool x y) eqn:E.
  - apply Qle_bool_iff in E. destruct (IH x) as [I1 I2]. split; [destruct I1 as [I|I]; cbn; auto|]. pose proof (I2 x (or_introl eq_refl)) as Hx. intros v [<-|[<-|I]]; [exact Hx|lra|apply I2; right; exact I].
  - assert (L : (y < x)%Q) by (apply Qnot_le_lt; intros K; apply Qle_bool_iff in K; congruence). destruct (IH y) as [I1 I2]. split; [destruct I1 as [I|I]; cbn; auto|].
    pose proof (I2 y (or_introl eq_refl)) as Hy. intros v [<-|[<-|I]]; [lra|exact Hy|apply I2; right; exact I].
Qed.
Lemma greatest_ok : forall l x, In (greatest_of x l) (x :: l) /\ forall v, In v (x :: l) -> (v <= greatest_of x l)%Q.
Proof.
  induction l as [|y l IH]; intros x; cbn [greatest_of]; [split; [left; reflexivity|]; intros v [<-|[]]; lra|].
  destruct (Qle_bool x y) eqn:E.
  - apply Qle_bool_iff in E. destruct (IH y) as [I1 I2]. split; [destruct I1 as [I|I]; cbn; auto|]. pose proof (I2 y (or_introl eq_refl)) as Hy. intros v [<-|[<-|I]]; [lra|exact Hy|apply I2; right; exact I].
  - assert (L : (y < x)%Q) by (apply Qnot_le_lt; intros K; apply Qle_bool_iff in K; congruence). destruct (IH x) as [I1 I2]. split; [destruct I1 as [I|I]; cbn; auto|].
    pose proof (I2 x (or_introl eq_refl)) as Hx. intros v [<-|[<-|I]]; [exact Hx|lra|apply I2; right; exact I].
Qed.
Lemma min_ok l m : np_min l = Ok m -> In m l /\ forall v, In v l -> (m <= v)%Q.
Proof. destruct l as [|x l]; [discriminate|]. cbn [np_min]. intros E. assert (m = least_of x l) as -> by congruence. apply least_ok. Qed.
Lemma max_ok l m : np_max l = Ok m -> In m l /\ forall v, In v l -> (v <= m)%Q.
Proof. destruct l as [|x l]; [discriminate|]. cbn [np_max]. intros E. assert (m = greatest_of x l) as -> by congruence. apply greatest_ok. Qed.
Lemma somewhere_concat values v : somewhere values v <-> In v (List.concat values).
Proof. rewrite in_concat. split; intros (row & A & B); exists row; auto. Qed.
Lemma least_min values m : np_min (List.concat values) = Ok m -> is_least values m.
Proof. intros E. apply min_ok in E. destruct E as [E1 E2]. split; [apply somewhere_concat; auto|]. intros v Hv. apply E2, somewhere_concat. auto. Qed.
Lemma least_unique values m m' : is_least values m -> is_least values m' -> (m == m')%Q.
Proof. intros [A1 A2] [B1 B2]. apply Qle_antisym; [apply A2|apply B2]; auto. Qed.
Lemma tops : forall b, (forall row, In row b -> row <> []) -> exists top, mapM np_max b = Ok top /\ Forall2 (fun row t => np_max row = Ok t) b top.
Proof.
  induction b as [|row b IH]; intros N; [exists []; split; [reflexivity|constructor]|]. destruct IH as (top & E & F); [intros r Hr; apply N; right; auto|].
  destruct (np_max row) as [t|e] eqn:Er; [|destruct row as [|x row]; [destruct (N [] (or_introl eq_refl)); reflexivity|discriminate]].
  exists (t :: top). cbn [mapM]. rewrite Er, E. split; [reflexivity|constructor; auto].
Qed.
Lemma combine_nth {A B} : forall (l : list A) (l' : list B) i a b, nth_error l i = Some a -> nth_error l' i = Some b -> nth_error (combine l l') i = Some (a, b).
Proof. induction l as [|x l IH]; intros l' [|i] a b E F; destruct l' as [|y l']; try discriminate; cbn in *; [congruence|apply IH; auto]. Qed.
Lemma Forall2_at {A B} (R : A -> B -> Prop) l l' : Forall2 R l l' -> forall i a, nth_error l i = Some a -> exists b, nth_error l' i = Some b /\ R a b.
Proof. induction 1 as [|x y l l' H F IH]; intros [|i] a E; cbn in *; try discriminate; [exists y; split; [reflexivity|congruence]|auto]. Qed.

(** The drawing of a table of values.  A row with a value above the least of all values is drawn from 0 to 1 in proportion,
    where 0 is the least of all values and 1 the greatest of the row; a row with only the least of all values is drawn with
    nothing but NaN. *)
Theorem C124_values : forall values width, table values width -> exists b, normalised values = Ok b /\ List.length b = List.length values /\
  forall i row, nth_error values i = Some row -> exists drow, nth_error b i = Some drow /\ List.length drow = width /\
    (bottom values row -> forall x, In x drow -> x = NaN) /\
    (~ bottom values row -> forall m t, is_least values m -> is_top row t -> (m < t)%Q /\
       forall j v, nth_error row j = Some v -> exists x, nth_error drow j = Some x /\ drawn m t v x).
Proof.
  intros values width (NE & W & L). unfold normalised.
  assert (RN : forall row, In row values -> row <> []) by (intros row Hr ->; apply L in Hr; cbn in Hr; lia).
  destruct (np_min (List.concat values)) as [m|e] eqn:Em.
  2:{ exfalso. destruct values as [|row values]; [congruence|]. destruct row as [|x row]; [apply (RN [] (or_introl eq_refl)); reflexivity|]. cbn in Em. discriminate. }
  pose proof (least_min _ _ Em) as Hm. cbn [bind]. set (bb := map (map (fun v => (v - m)%Q)) values).
  destruct (tops bb) as (top & Et & Ft). { intros row Hr. unfold bb in Hr. apply in_map_iff in Hr. destruct Hr as (r & <- & Hr). destruct r; [destruct (RN [] Hr); reflexivity|discriminate]. }
  rewrite Et. cbn [bind]. eexists. split; [reflexivity|]. assert (Lt : List.length bb = List.length top) by (clear - Ft; induction Ft; cbn; congruence).
  split; [rewrite map_length, combine_length, <- Lt; unfold bb; rewrite map_length; lia|].
  intros i row Ei. assert (Eb : nth_error bb i = Some (map (fun v => (v - m)%Q) row)) by (unfold bb; rewrite nth_error_map, Ei; reflexivity).
  destruct (Forall2_at _ _ _ Ft _ _ Eb) as (tt_ & Ett & Hmax). exists (map (fun v => divide v tt_) (map (fun v => (v - m)%Q) row)).
  split; [rewrite nth_error_map, (combine_nth _ _ _ _ _ Eb Ett); reflexivity|]. pose proof (nth_error_In _ _ Ei) as Hrow.
  split; [rewrite !map_length; apply L; auto|]. apply max_ok in Hmax. destruct Hmax as [M1 M2]. apply in_map_iff in M1. destruct M1 as (tv & Etv & Htv).
  assert (Hge : forall v, In v row -> (m <= v)%Q) by (intros v Hv; apply Hm; exists row; auto).
  assert (Hle : forall v, In v row -> (v <= tv)%Q) by (intros v Hv; assert ((v - m <= tt_)%Q) by (apply M2, in_map_iff; eauto); subst tt_; lra).
  split.
  - intros B x Hx. rewrite map_map in Hx. apply in_map_iff in Hx. destruct Hx as (v & <- & Hv). unfold divide. subst tt_.
    pose proof (B m tv Hm Htv) as B1. pose proof (B m v Hm Hv) as B2.
    replace (Qeq_bool (tv - m) 0) with true by (symmetry; apply Qeq_bool_iff; lra). replace (Qeq_bool (v - m) 0) with true by (symmetry; apply Qeq_bool_iff; lra). reflexivity.
  - intros NB m' t' Hm' [T1 T2]. pose proof (least_unique _ _ _ Hm Hm') as Em'. assert (Et' : (t' == tv)%Q) by (apply Qle_antisym; auto).
    assert (Lt' : (m < tv)%Q).
    { destruct (Qlt_le_dec m tv) as [|K]; [auto|]. exfalso. apply NB. intros m2 v Hm2 Hv. pose proof (least_unique _ _ _ Hm Hm2). specialize (Hge v Hv). specialize (Hle v Hv). lra. }
    split; [lra|]. intros j v Ej. exists (divide (v - m) tt_). split; [rewrite !nth_error_map, Ej; reflexivity|]. subst tt_. unfold divide.
    destruct (Qeq_bool (tv - m) 0) eqn:Ez; [apply Qeq_bool_iff in Ez; lra|]. pose proof (nth_error_In _ _ Ej) as Hv. specialize (Hge v Hv). specialize (Hle v Hv).
    eexists. split; [reflexivity|]. split; [rewrite Et', <- Em'; field; lra|]. split; [apply Qle_shift_div_l; lra|apply Qle_shift_div_r; lra].
Qed.
Print Assumptions C124_values.

Lemma bottom_dec values row : (exists m, is_least values m) -> bottom values row \/ ~ bottom values row.
Proof.
  intros [m Hm]. destruct (forallb (fun v => Qeq_bool v m) row) eqn:E.
  - left. intros m' v Hm' Hv. rewrite forallb_forall in E. apply E, Qeq_bool_iff in Hv. rewrite Hv. eapply least_unique; eauto.
  - right. intros B. assert (X : forallb (fun v => Qeq_bool v m) row = true) by (apply forallb_forall; intros v Hv; apply Qeq_bool_iff; apply (B m v); auto). congruence.
Qed.
Lemma table_least values width : table values width -> exists m, is_least values m.
Proof.
  intros (NE & W & L). destruct values as [|row values]; [congruence|]. destruct row as [|x row]; [specialize (L [] (or_introl eq_refl)); cbn in L; lia|].
  exists (least_of x (row ++ List.concat values)). apply least_min. reflexivity.
Qed.
(** NaN is drawn exactly if a row has only the least of all values.  With one state it always is. *)
Theorem C124_nan : forall values width b, table values width -> normalised values = Ok b ->
  ((exists drow, In drow b /\ In NaN drow) <-> exists row, In row values /\ bottom values row) /\
  (width = 1 -> In [NaN] b).
Proof.
  intros values width b T E. destruct (C124_values values width T) as (b' & E' & Lb & Hb). assert (b' = b) as -> by congruence. destruct (table_least _ _ T) as [m Hm].
  assert (Back : forall i row, nth_error values i = Some row -> bottom values row -> exists drow, nth_error b i = Some drow /\ drow <> [] /\ List.length drow = width /\ forall x, In x drow -> x = NaN).
  { intros i row Ei B. destruct (Hb i row Ei) as (drow & Ed & Ld & B1 & _). exists drow. split; [auto|]. split; [|auto]. destruct drow; [destruct T as (_ & W & _); cbn in Ld; lia|discriminate]. }
  split; [split|].
  - intros (drow & Hd & Hn). apply In_nth_error in Hd. destruct Hd as [i Ei]. assert (exists row, nth_error values i = Some row) as [row Er].
    { destruct (nth_error values i) eqn:F; [eauto|]. apply nth_error_None in F. assert (i < List.length b) by (apply nth_error_Some; congruence). lia. }
    destruct (Hb i row Er) as (drow' & Ed & Ld & _ & B2). assert (drow' = drow) as -> by congruence. exists row. split; [eapply nth_error_In; eauto|].
    destruct (bottom_dec values row) as [|NB]; [eauto|auto|]. exfalso. apply In_nth_error in Hn. destruct Hn as [j Ej].
    assert (Hr : List.length row = width) by (apply T; eapply nth_error_In; eauto). assert (j < width) by (rewrite <- Ld; apply nth_error_Some; congruence).
    destruct (nth_error row j) as [v|] eqn:Ev; [|apply nth_error_None in Ev; lia].
    assert (exists t, is_top row t) as [t Ht]. { destruct row as [|y row]; [cbn in Hr; lia|]. exists (greatest_of y row). apply greatest_ok. }
    destruct (proj2 (B2 NB m t Hm Ht) j v Ev) as (x & Ex & q & -> & _). congruence.
  - intros (row & Hr & B). apply In_nth_error in Hr. destruct Hr as [i Ei]. destruct (Back i row Ei B) as (drow & Ed & Nd & _ & A). exists drow. split; [eapply nth_error_In; eauto|].
    destruct drow as [|x drow]; [congruence|]. rewrite <- (A x (or_introl eq_refl)). left. reflexivity.
  - intros W1. destruct Hm as [(row & Hr & Hin) Hle]. assert (Lr : List.length row = 1) by (rewrite <- W1; apply T; auto). destruct row as [|y [|z row]]; try discriminate Lr. destruct Hin as [->|[]].
    pose proof Hr as Hr'. apply In_nth_error in Hr. destruct Hr as [i Ei]. assert (B : bottom values [m]). { intros m' v Hm' [<-|[]]. eapply least_unique; [|exact Hm']. split; [exists [m]; split; [auto|left; auto]|auto]. }
    destruct (Back i [m] Ei B) as (drow & Ed & _ & Ld & A). rewrite W1 in Ld. destruct drow as [|x [|x' drow]]; try discriminate Ld. rewrite (A x (or_introl eq_refl)) in Ed. eapply nth_error_In; eauto.
Qed.
Print Assumptions C124_nan.

(** Labels: there must be as many as columns and rows (numbers if none are given); the i-th label is in the middle of the i-th
    cell, that goes from i to i + 1, and all cells are in the limits. *)
Theorem C124_labels : forall n k states rows, let xs := match states with Some l => l | None => numbered k end in let ys := match rows with Some l => l | None => numbered n end in
  (is_ok (plot_beliefs n k states rows) = true <-> List.length xs = k /\ List.length ys = n) /\
  forall a, plot_beliefs n k states rows = Ok a ->
    x_labels a = xs /\ y_labels a = ys /\ x_lim a = (0, inject_Z (Z.of_nat k))%Q /\ y_lim a = (0, inject_Z (Z.of_nat n))%Q /\
    (List.length (x_ticks a) = k /\ forall i, i < k -> (inject_Z (Z.of_nat i) + (1 # 2) == nth i (x_ticks a) 0)%Q) /\
    (List.length (y_ticks a) = n /\ forall i, i < n -> (inject_Z (Z.of_nat i) + (1 # 2) == nth i (y_ticks a) 0)%Q).
Proof.
  intros n k states rows xs ys. unfold plot_beliefs. fold xs ys.
  assert (Mid : forall z, List.length (middles z) = z /\ forall i, i < z -> (inject_Z (Z.of_nat i) + (1 # 2) == nth i (middles z) 0)%Q).
  { intros z. unfold middles. split; [rewrite map_length, seq_length; reflexivity|]. intros i Hi.
    rewrite (nth_indep _ 0%Q ((1 # 2) + inject_Z (Z.of_nat 0))%Q) by (rewrite map_length, seq_length; auto). rewrite (map_nth (fun i => (1 # 2) + inject_Z (Z.of_nat i))%Q), seq_nth by auto. cbn [Nat.add]. ring. }
  destruct (Nat.eqb_spec (List.length xs) k) as [Ex|Ex]; cbn [negb].
  - destruct (Nat.eqb_spec (List.length ys) n) as [Ey|Ey]; cbn [negb is_ok]; (split; [split; [auto; discriminate|]|]).
    + auto.
    + intros a Ea. match type of Ea with Ok ?z = _ => assert (a = z) as -> by congruence end. cbn. repeat (split; [reflexivity|]). split; apply Mid.
    + intros [_ K]. congruence.
    + discriminate.
  - cbn [is_ok]. split; [split; [discriminate|intros [K _]; congruence]|discriminate].
Qed.
Print Assumptions C124_labels.

(** plot_values succeeds exactly if there are as many states as columns and as many actions as rows, and some value. *)
Theorem C124_plot : forall values width states actions,
  (table values width -> is_ok (plot_values values width states actions) = true <-> List.length states = width /\ List.length actions = List.length values) /\
  ((forall row, In row values -> row = []) -> plot_values values width states actions = Err EValue).
Proof.
  intros values width states actions. unfold plot_values. split.
  - intros T. destruct (C124_values _ _ T) as (b & -> & _). cbn [bind].
    assert (L : List.length (row_labels actions) = List.length actions) by (unfold row_labels; rewrite map_length, combine_length, seq_length; lia).
    pose proof (proj1 (C124_labels (List.length values) width (Some states) (Some (row_labels actions)))) as K. cbv beta iota zeta in K. rewrite L in K. rewrite <- K.
    destruct (plot_beliefs _ _ _ _) as [a|e]; reflexivity.
  - intros N. assert (E : List.concat values = []) by (induction values as [|row values IH]; [reflexivity|]; cbn; rewrite (N row (or_introl eq_refl)); apply IH; intros r Hr; apply N; right; auto).
    unfold normalised. rewrite E. reflexivity.
Qed.
Print Assumptions C124_plot.

(** get_n_colors: n different places of the map, in increasing order, from 0 to less than 1. *)
Theorem C124_colors : forall n, List.length (n_colors n) = n /\ (forall i, i < n -> (0 <= nth i (n_colors n) 0 < 1)%Q) /\ (forall i j, i < j -> j < n -> (nth i (n_colors n) 0 < nth j (n_colors n) 0)%Q).
Proof.
  intros n. unfold n_colors. split; [rewrite map_length, seq_length; reflexivity|].
  assert (At : forall i, i < n -> nth i (map (fun i => (inject_Z (Z.of_nat i) / inject_Z (Z.of_nat n))%Q) (seq 0 n)) 0%Q = (inject_Z (Z.of_nat i) / inject_Z (Z.of_nat n))%Q).
  { intros i Hi. rewrite (nth_indep _ 0%Q ((fun i => (inject_Z (Z.of_nat i) / inject_Z (Z.of_nat n))%Q) 0)) by (rewrite map_length, seq_length; auto). rewrite (map_nth (fun i => (inject_Z (Z.of_nat i) / inject_Z (Z.of_nat n))%Q)), seq_nth by auto. reflexivity. }
  assert (Mono : forall i j, i < j -> (inject_Z (Z.of_nat i) < inject_Z (Z.of_nat j))%Q) by (intros i j H; rewrite <- Zlt_Qlt; lia).
  split.
  - intros i Hi. rewrite At by auto. assert (P : (0 < inject_Z (Z.of_nat n))%Q) by (change 0%Q with (inject_Z (Z.of_nat 0)); apply Mono; lia).
    split; [apply Qle_shift_div_l; [auto|]; rewrite Qmult_0_l; change 0%Q with (inject_Z 0); rewrite <- Zle_Qle; lia|]. apply Qlt_shift_div_r; [auto|]. rewrite Qmult_1_l. auto.
  - intros i j Hij Hj. rewrite !At by lia. assert (P : (0 < inject_Z (Z.of_nat n))%Q) by (change 0%Q with (inject_Z (Z.of_nat 0)); apply Mono; lia).
    unfold Qdiv. apply Qmult_lt_compat_r; [apply Qinv_lt_0_compat; auto|auto].
Qed.
Print Assumptions C124_colors.

(** The map of colors: Reds when nothing is below 0, Blues when nothing is above 0 and something is below, else both. *)
Theorem C124_cmap : forall x, match cmap_from_data x with
  | Reds => forall v, In v x -> (0 <= v)%Q
  | Blues => (forall v, In v x -> (v <= 0)%Q) /\ exists v, In v x /\ (v < 0)%Q
  | Blues_r => (exists v, In v x /\ (0 < v)%Q) /\ exists v, In v x /\ (v < 0)%Q end.
Proof.
  intros x. unfold cmap_from_data.
  assert (A : forall f, forallb f x = false -> exists v, In v x /\ f v = false). { intros f. induction x as [|y x IH]; [discriminate|]. cbn [forallb]. destruct (f y) eqn:E; cbn [andb]; [intros K; destruct (IH K) as (v & I & F); exists v; split; [right; auto|auto]|exists y; split; [left; auto|auto]]. }
  destruct (forallb (Qle_bool 0) x) eqn:E1; [intros v Hv; rewrite forallb_forall in E1; apply Qle_bool_iff, E1; auto|]. apply A in E1. destruct E1 as (v & Hv & E1).
  assert (N : (v < 0)%Q) by (apply Qnot_le_lt; intros K; apply Qle_bool_iff in K; congruence).
  destruct (forallb (fun v => Qle_bool v 0) x) eqn:E2.
  - split; [|eauto]. intros w Hw. rewrite forallb_forall in E2. apply Qle_bool_iff. apply (E2 w Hw).
  - apply A in E2. destruct E2 as (w & Hw & E2). split; [|eauto]. exists w. split; [auto|]. apply Qnot_le_lt. intros K. apply Qle_bool_iff in K. congruence.
Qed.
Print Assumptions C124_cmap.

Lemma mem_str_iff x l : mem_str x l = true <-> In x l.
Proof. unfold mem_str. rewrite existsb_exists. split; [intros (y & Hy & E); apply String.eqb_eq in E; congruence|]. intros H. exists x. split; [auto|apply String.eqb_refl]. Qed.
Lemma hide_ok : forall spines j, (forall s, In s spines -> In s all_spines) -> exists j', hide j spines = (j', Ok tt) /\ thin j' = thin j /\ no_x_ticks j' = no_x_ticks j /\ no_y_ticks j' = no_y_ticks j /\
  grid_of j' = grid_of j /\ no_x_labels j' = no_x_labels j /\ no_y_labels j' = no_y_labels j /\ forall s, visible j' s = true <-> visible j s = true /\ ~ In s spines.
Proof.
  induction spines as [|s spines IH]; intros j K; cbn [hide].
  - exists j. repeat (split; [reflexivity|]). intros t. split; [intros H; split; [auto|intros []]|intros [H _]; auto].
  - rewrite (proj2 (mem_str_iff s all_spines)) by (apply K; left; auto).
    edestruct IH as (j' & E & A1 & A2 & A3 & A4 & A5 & A6 & V); [intros t Ht; apply K; right; auto|]. exists j'. split; [exact E|]. repeat (split; [assumption|]).
    intros t. rewrite V. cbn [visible In]. destruct (String.eqb_spec t s) as [->|N]; split.
    + intros [D _]. discriminate.
    + intros [_ D]. destruct D. auto.
    + intros [D1 D2]. split; [auto|]. intros [D|D]; [congruence|auto].
    + intros [D1 D2]. auto.
Qed.

(** remove_chartjunk without ticklabels: it hides the spines given, makes the others thin, removes the ticks named, and sets the
    grid; everything else is left as it was. *)
Theorem C124_junk : forall j spines grid ticks, (forall s, In s spines -> In s all_spines) -> (forall g x, grid = Some g -> In x g -> x = "x"%string \/ x = "y"%string) ->
  exists j', remove_chartjunk j spines grid ticks None = (j', Ok tt) /\
    (forall s, visible j' s = true <-> visible j s = true /\ ~ In s spines) /\
    (forall s, thin j' s = true <-> thin j s = true \/ (In s all_spines /\ ~ In s spines)) /\
    (no_x_ticks j' = true <-> no_x_ticks j = true \/ exists l, ticks = Some l /\ In "x"%string l) /\
    (no_y_ticks j' = true <-> no_y_ticks j = true \/ exists l, ticks = Some l /\ In "y"%string l) /\
    grid_of j' = match grid with Some g => Some g | None => grid_of j end /\ no_x_labels j' = no_x_labels j /\ no_y_labels j' = no_y_labels j.
Proof.
  intros j spines grid ticks KS KG. destruct (hide_ok spines j KS) as (j1 & E & A1 & A2 & A3 & A4 & A5 & A6 & V). unfold remove_chartjunk. rewrite E.
  assert (Has : forall x, match ticks with None => false | Some l => mem_str x l end = true <-> exists l, ticks = Some l /\ In x l).
  { intros x. destruct ticks as [l|]; [rewrite mem_str_iff; split; [eauto|intros (l' & El & Hl); congruence]|]. split; [discriminate|intros (l & El & _); discriminate]. }
  assert (Thin : forall s, (if mem_str s all_spines && negb (mem_str s spines) then true else thin j s) = true <-> thin j s = true \/ (In s all_spines /\ ~ In s spines)).
  { intros s. rewrite <- !mem_str_iff. destruct (mem_str s all_spines), (mem_str s spines); cbn [andb negb]; intuition congruence. }
  destruct grid as [g|].
  - rewrite (proj2 (forallb_forall _ g)) by (intros x Hx; apply mem_str_iff; destruct (KG g x eq_refl Hx) as [->| ->]; [left|right; left]; reflexivity).
    eexists. split; [reflexivity|]. cbn [visible thin no_x_ticks no_y_ticks grid_of no_x_labels no_y_labels]. rewrite A1, A2, A3. split; [exact V|]. split; [exact Thin|]. rewrite !orb_true_iff, !Has. repeat (split; [reflexivity|]). auto.
  - eexists. split; [reflexivity|]. cbn [visible thin no_x_ticks no_y_ticks grid_of no_x_labels no_y_labels]. rewrite A1, A2, A3. split; [exact V|]. split; [exact Thin|]. rewrite !orb_true_iff, !Has. repeat (split; [reflexivity|]). auto.
Qed.
Print Assumptions C124_junk.

(** With ticklabels it never succeeds, and never removes a label: a TypeError is raised, when the rest is done. *)
Theorem C124_ticklabels_refuted : forall j spines grid ticks labels, exists e, snd (remove_chartjunk j spines grid ticks (Some labels)) = Err e /\
  fst (remove_chartjunk j spines grid ticks (Some labels)) = fst (remove_chartjunk j spines grid ticks None) /\
  (snd (remove_chartjunk j spines grid ticks None) = Ok tt -> e = EType).
Proof.
  intros j spines grid ticks labels. unfold remove_chartjunk. destruct (hide j spines) as [j1 [u|e]]; [|exists e; split; [reflexivity|split; [reflexivity|discriminate]]].
  destruct grid as [g|]; [|exists EType; auto]. destruct (forallb _ g); [exists EType; auto|exists EAssert; split; [reflexivity|split; [reflexivity|discriminate]]].
Qed.
Print Assumptions C124_ticklabels_refuted.

(** Three rows, the last only with the least value; two rows with one state; spines as for boxplot. *)
Example C124_ex : table [[1; 3]; [2; 0]; [0; 0]]%Q 2 /\ bottom [[1; 3]; [2; 0]; [0; 0]]%Q [0; 0]%Q /\ ~ bottom [[1; 3]; [2; 0]; [0; 0]]%Q [1; 3]%Q /\
  table [[5]; [7]]%Q 1 /\ is_ok (plot_values [[1; 3]; [2; 0]]%Q 2 ["a"; "b"]%string ["wait"; "get"]%string) = true /\
  (forall s, In s ["top"; "right"; "bottom"]%string -> In s all_spines).
Proof.
  assert (T : table [[1; 3]; [2; 0]; [0; 0]]%Q 2) by (split; [discriminate|split; [lia|]]; intros row [<-|[<-|[<-|[]]]]; reflexivity).
  assert (L : is_least [[1; 3]; [2; 0]; [0; 0]]%Q 0) by (apply least_min; reflexivity).
  split; [exact T|]. split; [intros m v Hm [<-|[<-|[]]]; eapply least_unique; eauto|]. split; [intros B; specialize (B 0%Q 3%Q L ltac:(cbn; auto)); discriminate|].
  split; [split; [discriminate|split; [lia|]]; intros row [<-|[<-|[]]]; reflexivity|]. split; [reflexivity|]. intros s [<-|[<-|[<-|[]]]]; cbn; auto.
Qed.
