(** Proofs for C74. *)
From Coq Require Import Lia Lqa.
From Verif Require Import PyBase PyBaseFacts ActionModel ActionSpec ActionProofs SnapModel SnapSpec.
Local Open Scope list_scope.
Local Open Scope nat_scope.

Lemma np_index_iff n i k : np_index n i = Ok k <-> designates n i k.
Proof.
  unfold np_index, designates. destruct (Z.leb_spec 0 i), (Z.ltb_spec i n), (Z.leb_spec (- n) i), (Z.ltb_spec i 0); cbn [andb]; split; intros K; try discriminate; try lia; try (injection K as <-; lia); try (f_equal; lia).
Qed.
Lemma np_index_err n i e : np_index n i = Err e -> e = EIndex.
Proof. unfold np_index. destruct (_ && _); [discriminate|]. destruct (_ && _); congruence. Qed.
Lemma designates_fun n i k k' : designates n i k -> designates n i k' -> k = k'.
Proof. intros H H'. apply np_index_iff in H, H'. congruence. Qed.
Lemma put_ok rows cols t id loc i x y o : takes rows cols id loc i x y o ->
  put rows cols t id loc = Ok (fun i' x' y' o' => if (i' =? i) && (x' =? x) && (y' =? y) && (o' =? o) then 1%Q else t i' x' y' o').
Proof.
  destruct loc as [[lx ly] lo]. intros (H1 & H2 & H3 & H4). apply np_index_iff in H1, H2, H3, H4. unfold put. change (Z.of_nat n_parts) with 20%Z. change (Z.of_nat n_orientations) with 4%Z. rewrite H1, H2, H3, H4. reflexivity.
Qed.
Lemma put_cases rows cols t id loc : (exists i x y o, takes rows cols id loc i x y o) \/ (~ on_board rows cols id loc /\ put rows cols t id loc = Err EIndex).
Proof.
  destruct loc as [[lx ly] lo]. unfold on_board, put. cbn [takes]. change (Z.of_nat n_parts) with 20%Z. change (Z.of_nat n_orientations) with 4%Z.
  destruct (np_index 20 id) as [i|e1] eqn:E1; [|right; pose proof (np_index_err _ _ _ E1) as ->; split; [|reflexivity]; intros (i & x & y & o & H & _); apply np_index_iff in H; congruence].
  destruct (np_index rows lx) as [x|e1] eqn:E2; [|right; pose proof (np_index_err _ _ _ E2) as ->; split; [|reflexivity]; intros (i' & x & y & o & _ & H & _); apply np_index_iff in H; congruence].
  destruct (np_index cols ly) as [y|e1] eqn:E3; [|right; pose proof (np_index_err _ _ _ E3) as ->; split; [|reflexivity]; intros (i' & x' & y & o & _ & _ & H & _); apply np_index_iff in H; congruence].
  destruct (np_index 4 lo) as [o|e1] eqn:E4; [|right; pose proof (np_index_err _ _ _ E4) as ->; split; [|reflexivity]; intros (i' & x' & y' & o & _ & _ & _ & H); apply np_index_iff in H; congruence].
  left. exists i, x, y, o. rewrite <- !np_index_iff. auto.
Qed.
Lemma takes_fun rows cols id loc i x y o i' x' y' o' : takes rows cols id loc i x y o -> takes rows cols id loc i' x' y' o' -> i = i' /\ x = x' /\ y = y' /\ o = o'.
Proof. destruct loc as [[lx ly] lo]. intros (H1 & H2 & H3 & H4) (K1 & K2 & K3 & K4). repeat split; eapply designates_fun; eauto. Qed.
Lemma takes_range rows cols id loc i x y o : takes rows cols id loc i x y o -> i < 20 /\ x < Z.to_nat rows /\ y < Z.to_nat cols /\ o < 4.
Proof. destruct loc as [[lx ly] lo]. unfold takes, designates. intros (H1 & H2 & H3 & H4). lia. Qed.
Lemma same4 i x y o i' x' y' o' : (i' =? i) && (x' =? x) && (y' =? y) && (o' =? o) = true <-> i' = i /\ x' = x /\ y' = y /\ o' = o.
Proof. rewrite !andb_true_iff, !Nat.eqb_eq. tauto. Qed.

Lemma takes_dec rows cols (l : list (location * part)) i x y o :
  (exists loc p, In (loc, p) l /\ takes rows cols (p_id p) loc i x y o) \/ ~ (exists loc p, In (loc, p) l /\ takes rows cols (p_id p) loc i x y o).
Proof.
  induction l as [|[loc p] l IH]; [right; intros (a & b & [] & _)|]. destruct IH as [(a & b & K & T)|N]; [left; exists a, b; split; [right|]; auto|].
  destruct (put_cases rows cols (fun _ _ _ _ => 0%Q) (p_id p) loc) as [(i' & x' & y' & o' & T)|[K _]].
  - destruct ((i' =? i) && (x' =? x) && (y' =? y) && (o' =? o)) eqn:E; [apply same4 in E; destruct E as (-> & -> & -> & ->); left; exists loc, p; split; [left|]; auto|].
    right. intros (a & b & [K|K] & T'); [|apply N; eauto]. injection K as -> ->. destruct (takes_fun _ _ _ _ _ _ _ _ _ _ _ _ T T') as (-> & -> & -> & ->). rewrite !Nat.eqb_refl in E. discriminate.
  - right. intros (a & b & [Q|Q] & T'); [|apply N; eauto]. injection Q as -> ->. apply K. exists i, x, y, o. auto.
Qed.

Section Fold.
  Variables rows cols : Z.
  Let step := fun (t : tensor4) (lp : location * part) => put rows cols t (p_id (snd lp)) (fst lp).
  Definition some_takes (l : list (location * part)) (i x y o : nat) : Prop := exists loc p, In (loc, p) l /\ takes rows cols (p_id p) loc i x y o.
  Lemma fold_ok l : forall t, (forall loc p, In (loc, p) l -> on_board rows cols (p_id p) loc) -> exists t', foldM step l t = Ok t' /\
    forall i x y o, (some_takes l i x y o -> t' i x y o = 1%Q) /\ (~ some_takes l i x y o -> t' i x y o = t i x y o).
  Proof.
    induction l as [|[loc p] l IH]; intros t H; [exists t; split; [reflexivity|]; intros i x y o; split; [intros (a & b & [] & _)|auto]|].
    destruct (H loc p (or_introl eq_refl)) as (i0 & x0 & y0 & o0 & T). cbn [foldM]. unfold step at 1. cbn [fst snd]. rewrite (put_ok _ _ _ _ _ _ _ _ _ T). cbn [bind]. edestruct (IH (fun i' x' y' o' => if (i' =? i0) && (x' =? x0) && (y' =? y0) && (o' =? o0) then 1%Q else t i' x' y' o')) as (t' & E & G); [intros a b K; apply H; right; auto|]. exists t'. split; [exact E|].
    intros i x y o. destruct (G i x y o) as [G1 G2]. split.
    - intros (a & b & [K|K] & T').
      + injection K as -> ->. destruct (takes_fun _ _ _ _ _ _ _ _ _ _ _ _ T T') as (-> & -> & -> & ->).
        destruct (takes_dec rows cols l i x y o) as [D|D]; [auto|]. rewrite (G2 D), !Nat.eqb_refl. reflexivity.
      + apply G1. exists a, b. auto.
    - intros N. rewrite G2 by (intros (a & b & K & T'); apply N; exists a, b; split; [right|]; auto). destruct ((i =? i0) && _ && _ && _) eqn:D; [|reflexivity]. apply same4 in D. destruct D as (-> & -> & -> & ->). exfalso. apply N. exists loc, p. split; [left|]; auto.
  Qed.
  Lemma fold_err l : forall t, (exists loc p, In (loc, p) l /\ ~ on_board rows cols (p_id p) loc) -> foldM step l t = Err EIndex.
  Proof.
    induction l as [|[loc p] l IH]; intros t (a & b & K & N); [destruct K|]. cbn [foldM]. unfold step at 1. cbn [fst snd]. destruct (put_cases rows cols t (p_id p) loc) as [(i & x & y & o & T)|[_ ->]]; [|reflexivity].
    rewrite (put_ok _ _ _ _ _ _ _ _ _ T). cbn [bind]. apply IH. destruct K as [K|K]; [injection K as -> ->; exfalso; apply N; exists i, x, y, o; auto|]. eauto.
  Qed.
End Fold.

Lemma nth_blocks {B} (f : nat -> list B) w n k r : (forall x, length (f x) = w) -> k < n -> r < w -> nth_error (flat_map f (seq 0 n)) (w * k + r) = nth_error (f k) r.
Proof.
  intros H. assert (G : forall m s k, k < m -> r < w -> nth_error (flat_map f (seq s m)) (w * k + r) = nth_error (f (s + k)) r).
  { induction m as [|m IH]; intros s j Hj Hr; [lia|]. cbn [seq flat_map]. destruct j as [|j].
    - rewrite Nat.mul_0_r, !Nat.add_0_r. cbn [Nat.add]. rewrite nth_error_app1 by (rewrite H; auto). reflexivity.
    - rewrite nth_error_app2 by (rewrite H; nia). rewrite H. replace (w * S j + r - w) with (w * j + r) by nia. rewrite IH by lia. f_equal. f_equal. lia. }
  intros Hk Hr. apply (G n 0 k Hk Hr).
Qed.
Lemma blocks_length {B} (f : nat -> list B) w n : (forall x, length (f x) = w) -> forall s, length (flat_map f (seq s n)) = w * n.
Proof. intros H. induction n as [|n IH]; intros s; cbn [seq flat_map length]; [lia|]. rewrite app_length, H, IH. lia. Qed.
Section Flat.
  Variables rows cols : Z.
  Let R := Z.to_nat rows.
  Let C := Z.to_nat cols.
  Variable t : tensor4.
  Lemma f1_length i x y : length (map (fun o => t i x y o) (seq 0 n_orientations)) = 4.
  Proof. reflexivity. Qed.
  Lemma f2_length i x : length (flat_map (fun y => map (fun o => t i x y o) (seq 0 n_orientations)) (seq 0 C)) = 4 * C.
  Proof. apply blocks_length. intros y. apply f1_length. Qed.
  Lemma f3_length i : length (flat_map (fun x => flat_map (fun y => map (fun o => t i x y o) (seq 0 n_orientations)) (seq 0 C)) (seq 0 R)) = 4 * C * R.
  Proof. apply blocks_length. intros x. apply f2_length. Qed.
  Lemma flatten_length : length (flatten rows cols t) = size rows cols.
  Proof. unfold flatten, size. fold R C. rewrite (blocks_length _ (4 * C * R)) by apply f3_length. unfold n_parts. lia. Qed.
  Lemma flatten_nth i x y o : i < 20 -> x < R -> y < C -> o < 4 -> nth_error (flatten rows cols t) (cell_number rows cols i x y o) = Some (t i x y o).
  Proof.
    intros Hi Hx Hy Ho. unfold flatten, cell_number. fold R C. replace (o + 4 * (y + C * (x + R * i))) with (4 * C * R * i + (4 * C * x + (4 * y + o))) by lia.
    rewrite nth_blocks; [|apply f3_length|exact Hi|nia]. rewrite nth_blocks; [|intros; apply f2_length|exact Hx|nia]. rewrite nth_blocks; [|intros; apply f1_length|exact Hy|exact Ho]. rewrite nth_error_map, nth_error_nth' with (d := 0) by (rewrite seq_length; exact Ho). rewrite seq_nth by exact Ho. reflexivity.
  Qed.
  Lemma cell_exists j : j < size rows cols -> exists i x y o, i < 20 /\ x < R /\ y < C /\ o < 4 /\ j = cell_number rows cols i x y o.
  Proof.
    unfold size, cell_number. fold R C. intros H. assert (HR : R <> 0) by (intros E; rewrite E in H; lia). assert (HC : C <> 0) by (intros E; rewrite E in H; lia).
    exists (j / 4 / C / R), (j / 4 / C mod R), (j / 4 mod C), (j mod 4). pose proof (Nat.div_mod j 4 ltac:(lia)). pose proof (Nat.div_mod (j / 4) C HC). pose proof (Nat.div_mod (j / 4 / C) R HR).
    split; [|split; [apply Nat.mod_upper_bound; auto|split; [apply Nat.mod_upper_bound; auto|split; [apply Nat.mod_upper_bound; lia|]]]].
    - apply Nat.div_lt_upper_bound; auto. apply Nat.div_lt_upper_bound; auto. apply Nat.div_lt_upper_bound; [lia|]. nia.
    - rewrite (Nat.add_comm (_ mod R)). rewrite <- H2. rewrite (Nat.add_comm (_ mod C)), <- H1. lia.
  Qed.
End Flat.

Lemma zeros_ok rows cols : (0 <= rows)%Z -> (0 <= cols)%Z -> zeros rows cols = Ok (fun _ _ _ _ => 0%Q).
Proof. intros H1 H2. unfold zeros. destruct (Z.ltb_spec rows 0), (Z.ltb_spec cols 0); try lia. reflexivity. Qed.
Lemma features_ok s : valid s -> exists t, features s = Ok t /\ forall i x y o, (occupied s i x y o -> t i x y o = 1%Q) /\ (~ occupied s i x y o -> t i x y o = 0%Q).
Proof.
  intros (H1 & H2 & H3). unfold features. rewrite zeros_ok by auto. cbn [bind]. destruct (fold_ok (s_rows s) (s_cols s) (s_parts s) (fun _ _ _ _ => 0%Q) H3) as (t & E & G). exists t. split; [exact E|]. exact G.
Qed.
Lemma features_err s : (0 <= s_rows s)%Z -> (0 <= s_cols s)%Z -> (exists loc p, In (loc, p) (s_parts s) /\ ~ on_board (s_rows s) (s_cols s) (p_id p) loc) -> features s = Err EIndex.
Proof. intros H1 H2 H3. unfold features. rewrite zeros_ok by auto. cbn [bind]. apply fold_err. auto. Qed.

Lemma vals_float l : vals (float_array l) = l.
Proof. unfold vals, float_array. cbn. rewrite map_map. cbn. apply map_id. Qed.
Section Presence.
  Variables rows cols : Z.
  Hypothesis Hr : (0 <= rows)%Z.
  Hypothesis Hc : (0 <= cols)%Z.
  Variable p : part.
  Variable loc : location.
  Variables i x y o : nat.
  Hypothesis T : takes rows cols (p_id p) loc i x y o.
  Let one : tensor4 := fun i' x' y' o' => if (i' =? i) && (x' =? x) && (y' =? y) && (o' =? o) then 1%Q else 0%Q.
  Let value (b : bool) : tensor4 := if b then one else fun _ _ _ _ => 0%Q.
  Lemma presence_eq b : presence (rows, cols) p loc b = Ok (CMask Presence (float_array (flatten rows cols one)) (float_array (flatten rows cols (value b)))).
  Proof.
    unfold presence. rewrite zeros_ok by auto. cbn [bind]. rewrite (put_ok _ _ _ _ _ _ _ _ _ T). cbn [bind].
    transitivity (new_cond Presence (float_array (flatten rows cols one)) (float_array (flatten rows cols (value b)))); [destruct b; reflexivity|].
    apply new_cond_iff; [unfold float_array; cbn [a_cells]; rewrite !map_length, !flatten_length; reflexivity|]. intros j m v Hm Hv N. rewrite !vals_float in *. assert (Hj : j < size rows cols) by (rewrite <- (flatten_length rows cols one); apply nth_error_Some; congruence).
    destruct (cell_exists rows cols j Hj) as (i' & x' & y' & o' & R1 & R2 & R3 & R4 & ->). rewrite flatten_nth in Hm, Hv by auto. injection Hm as <-. injection Hv as <-. unfold value. destruct b; [|reflexivity]. unfold one in *. destruct ((i' =? i) && _ && _ && _); [exfalso; apply N; reflexivity|reflexivity].
  Qed.
  Lemma presence_fits b : exists c, presence (rows, cols) p loc b = Ok c /\ fits (size rows cols) c.
  Proof.
    eexists. split; [apply presence_eq|]. apply (fits_mask _ Presence (float_array (flatten rows cols one)) (float_array (flatten rows cols (value b)))).
    - unfold float_array; cbn [a_cells]. rewrite map_length. apply flatten_length.
    - unfold float_array; cbn [a_cells]. rewrite map_length. apply flatten_length.
    - intros q Hq. rewrite vals_float in Hq. apply In_nth_error in Hq. destruct Hq as [j Hj]. assert (Hs : j < size rows cols) by (rewrite <- (flatten_length rows cols one); apply nth_error_Some; congruence). destruct (cell_exists rows cols j Hs) as (i' & x' & y' & o' & R1 & R2 & R3 & R4 & ->). rewrite flatten_nth in Hj by auto. injection Hj as <-. unfold one. destruct (_ && _); [right|left]; reflexivity.
    - pose proof (presence_eq b) as E. unfold presence in E. rewrite zeros_ok in E by auto. cbn [bind] in E. rewrite (put_ok _ _ _ _ _ _ _ _ _ T) in E. cbn [bind] in E. destruct b; exact E.
  Qed.
  Lemma presence_meets b f : length f = size rows cols -> (agrees (float_array (flatten rows cols one)) (float_array (flatten rows cols (value b))) f <-> exists q, nth_error f (cell_number rows cols i x y o) = Some q /\ (q == if b then 1 else 0)%Q).
  Proof.
    intros L. destruct (takes_range _ _ _ _ _ _ _ _ T) as (R1 & R2 & R3 & R4). unfold agrees. rewrite !vals_float. split.
    - intros H. assert (Hj : cell_number rows cols i x y o < length f) by (rewrite L, <- (flatten_length rows cols one); apply nth_error_Some; rewrite flatten_nth by auto; discriminate). destruct (nth_error f (cell_number rows cols i x y o)) as [q|] eqn:E; [|apply nth_error_None in E; lia]. exists q. split; [reflexivity|].
      specialize (H _ _ _ _ (flatten_nth rows cols one i x y o R1 R2 R3 R4) (flatten_nth rows cols (value b) i x y o R1 R2 R3 R4) E). rewrite H by (unfold one; rewrite !Nat.eqb_refl; reflexivity). unfold value, one. destruct b; [rewrite !Nat.eqb_refl|]; reflexivity.
    - intros (q & E & Q) j m v g Hm Hv Hg M. assert (Hj : j < size rows cols) by (rewrite <- (flatten_length rows cols one); apply nth_error_Some; congruence). destruct (cell_exists rows cols j Hj) as (i' & x' & y' & o' & S1 & S2 & S3 & S4 & ->). rewrite flatten_nth in Hm, Hv by auto. injection Hm as <-. injection Hv as <-. unfold one in M. destruct ((i' =? i) && (x' =? x) && (y' =? y) && (o' =? o)) eqn:D; [|vm_compute in M; discriminate]. apply same4 in D. destruct D as (-> & -> & -> & ->). assert (g = q) as -> by congruence. rewrite Q. unfold value, one. destruct b; [rewrite !Nat.eqb_refl|]; reflexivity.
  Qed.
End Presence.
Lemma presence_err rows cols p loc b : (0 <= rows)%Z -> (0 <= cols)%Z -> ~ on_board rows cols (p_id p) loc -> presence (rows, cols) p loc b = Err EIndex.
Proof.
  intros Hr Hc N. unfold presence. rewrite zeros_ok by auto. cbn [bind]. destruct (put_cases rows cols (fun _ _ _ _ => 0%Q) (p_id p) loc) as [K|[_ ->]]; [contradiction|reflexivity].
Qed.
Lemma get_features_ok s : valid s -> exists f, get_features s = Ok f /\ length f = size (s_rows s) (s_cols s) /\
  forall i x y o, i < 20 -> x < Z.to_nat (s_rows s) -> y < Z.to_nat (s_cols s) -> o < 4 ->
    exists q, nth_error f (cell_number (s_rows s) (s_cols s) i x y o) = Some q /\ (occupied s i x y o -> q = 1%Q) /\ (~ occupied s i x y o -> q = 0%Q).
Proof.
  intros V. destruct (features_ok s V) as (t & E & G). unfold get_features. rewrite E. cbn [bind]. eexists. split; [reflexivity|]. split; [apply flatten_length|]. intros i x y o H1 H2 H3 H4. rewrite flatten_nth by auto. exists (t i x y o). split; [reflexivity|]. apply G.
Qed.
Lemma place_ok show mismatch rows cols p loc before after :
  on_board rows cols (p_id p) loc -> valid before -> valid after -> s_rows before = rows -> s_cols before = cols -> s_rows after = rows -> s_cols after = cols ->
  exists a b, place show (rows, cols) p loc = Ok a /\ act_check mismatch a before after = Ok b /\ (b = true <-> ~ present before (p_id p) loc /\ present after (p_id p) loc).
Proof.
  intros (i & x & y & o & T) Vb Va B1 B2 A1 A2. destruct Vb as (Hr & Hc & Vb'). assert (Vb : valid before) by (repeat split; auto). rewrite B1 in Hr. rewrite B2 in Hc. clear Vb'.
  destruct (presence_fits rows cols Hr Hc p loc i x y o T false) as (pre & E1 & F1). destruct (presence_fits rows cols Hr Hc p loc i x y o T true) as (post & E2 & F2). unfold place. destruct loc as [[lx ly] lo]. rewrite E1, E2. cbn [bind].
  assert (HT := T). destruct HT as (_ & _ & _ & HO). apply np_index_iff in HO. change (Z.of_nat (length orientation_names)) with 4%Z. rewrite HO. cbn [bind].
  destruct (get_features_ok before Vb) as (fb & Eb & Lb & Gb). destruct (get_features_ok after Va) as (fa & Ea & La & Ga). rewrite B1, B2 in *. rewrite A1, A2 in *. destruct (takes_range _ _ _ _ _ _ _ _ T) as (R1 & R2 & R3 & R4).
  destruct (Gb i x y o R1 R2 R3 R4) as (qb & Nb & Ob1 & Ob2). destruct (Ga i x y o R1 R2 R3 R4) as (qa & Na & Oa1 & Oa2).
  destruct (check_iff mismatch _ _ fb F1 Lb) as (b1 & C1 & M1). destruct (check_iff mismatch _ _ fa F2 La) as (b2 & C2 & M2).
  rewrite (presence_eq rows cols Hr Hc p _ i x y o T) in E1, E2. injection E1 as <-. injection E2 as <-. cbn [meets] in M1, M2. pose proof (presence_meets rows cols p _ i x y o T false fb Lb) as P1. pose proof (presence_meets rows cols p _ i x y o T true fa La) as P2. cbn [negb] in *.
  assert (Pb : forall s, s_rows s = rows -> s_cols s = cols -> (present s (p_id p) (lx, ly, lo) <-> occupied s i x y o)).
  { intros s S1 S2. unfold present. rewrite S1, S2. split; [intros (i' & x' & y' & o' & T' & O); destruct (takes_fun _ _ _ _ _ _ _ _ _ _ _ _ T T') as (-> & -> & -> & ->); auto|]. intros O. exists i, x, y, o. auto. }
  eexists. exists (if b1 then b2 else false). split; [reflexivity|]. unfold act_check, prepost_check. rewrite Eb, Ea. cbn [bind]. rewrite C1. cbn [bind]. split; [destruct b1; [rewrite C2|]; reflexivity|].
  assert (X1 : b1 = true <-> ~ occupied before i x y o).
  { rewrite M1, P1, Nb. split; [intros (q & Q1 & Q2) O; injection Q1 as <-; rewrite (Ob1 O) in Q2; discriminate|]. intros O. exists qb. split; [reflexivity|]. rewrite (Ob2 O). reflexivity. }
  assert (X2 : b2 = true <-> occupied after i x y o).
  { rewrite M2, P2, Na. split.
    - intros (q & Q1 & Q2). injection Q1 as <-. destruct b2; [|exfalso; assert (K : false = true) by (apply M2, P2; exists qa; auto); discriminate].
      assert (D := takes_dec rows cols (s_parts after) i x y o). rewrite <- A1, <- A2 in D. destruct D as [D|D]; auto. rewrite (Oa2 D) in Q2. discriminate.
    - intros O. exists qa. split; [reflexivity|]. rewrite (Oa1 O). reflexivity. }
  rewrite (Pb before B1 B2), (Pb after A1 A2), <- X1, <- X2. destruct b1, b2; intuition congruence.
Qed.
