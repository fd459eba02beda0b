(** Proofs for C107 and C108. *)
From Coq Require Import Ascii String DecimalString Qabs Lia Lqa ZArith DecimalFacts DecimalPos DecimalZ.
From Verif Require Import PyBase QBase CodecModel CodecSpec CodecProofs Props_Codec SuppModel EvalModel EvalSpec EvalProofs TrajModel TrajSpec.
From Verif Require TowerProofs.
Local Open Scope list_scope.
Local Open Scope nat_scope.

(** *** Names of states *)
Lemma spaces_repeat n : repeat_char " " n = spaces n.
Proof. induction n as [|n IH]; [reflexivity|]. cbn. rewrite IH. reflexivity. Qed.
Lemma bits_join (g : nat -> Z) (l : list bool) : forall k, (forall i b, nth_error l i = Some b -> g (k + i) = Z.b2z b) ->
  join "" (map (fun i => str_int (g i)) (seq k (length l))) = bit_text l.
Proof.
  unfold join. induction l as [|b l IH]; intros k H; [reflexivity|]. cbn [length seq map].
  pose proof (H 0 b eq_refl) as H0. rewrite Nat.add_0_r in H0.
  assert (E : String.concat "" (map (fun i => str_int (g i)) (seq (S k) (length l))) = bit_text l).
  { apply IH. intros i c Hc. rewrite <- (H (S i) c Hc). f_equal. lia. }
  assert (C : forall x (ys : list string), String.concat "" (x :: ys) = (x ++ String.concat "" ys)%string).
  { intros x ys. destruct ys; [|reflexivity]. cbn [String.concat]. induction x as [|c x IHx]; [reflexivity|]. cbn. rewrite <- IHx. reflexivity. }
  rewrite C, E, H0. destruct b; reflexivity.
Qed.

(** The length of a numeral *)
Lemma acc_bounds d : forall acc, (Z.pos acc * 10 ^ Z.of_nat (Decimal.nb_digits d) <= Z.pos (Pos.of_uint_acc d acc) < (Z.pos acc + 1) * 10 ^ Z.of_nat (Decimal.nb_digits d))%Z.
Proof.
  induction d; intros acc; cbn [Pos.of_uint_acc Decimal.nb_digits]; [cbn; lia|..];
    rewrite Nat2Z.inj_succ, Z.pow_succ_r by lia;
    match goal with |- context [Pos.of_uint_acc d ?a] => specialize (IHd a) end;
    (assert (0 < 10 ^ Z.of_nat (Decimal.nb_digits d))%Z by (apply Z.pow_pos_nonneg; lia)); nia.
Qed.
Lemma pos_bounds p : (10 ^ (Z.of_nat (Decimal.nb_digits (Pos.to_uint p)) - 1) <= Z.pos p < 10 ^ Z.of_nat (Decimal.nb_digits (Pos.to_uint p)))%Z.
Proof.
  pose proof (Unsigned.of_to p) as E. pose proof (Unsigned.to_of (Pos.to_uint p)) as F. rewrite E in F. cbn [N.to_uint] in F.
  set (d := Pos.to_uint p) in *. clearbody d.
  destruct d; cbn [Pos.of_uint] in E; try discriminate E.
  { exfalso. unfold Decimal.unorm in F. destruct (Decimal.nzhead (Decimal.D0 d)) eqn:G; try discriminate F; [|exact (nzhead_nonzero _ _ G)]. injection F as ->. discriminate E. }
  all: injection E as <-; cbn [Decimal.nb_digits];
    match goal with |- context [Pos.of_uint_acc ?d ?a] => pose proof (acc_bounds d a);
      rewrite Nat2Z.inj_succ, Z.pow_succ_r by lia; replace (Z.succ (Z.of_nat (Decimal.nb_digits d)) - 1)%Z with (Z.of_nat (Decimal.nb_digits d)) by lia;
      assert (0 < 10 ^ Z.of_nat (Decimal.nb_digits d))%Z by (apply Z.pow_pos_nonneg; lia); nia end.
Qed.
Lemma uint_length d : String.length (NilEmpty.string_of_uint d) = Decimal.nb_digits d.
Proof. induction d; cbn; auto. Qed.
Lemma numeral_pos p : String.length (numeral (Z.pos p)) = Decimal.nb_digits (Pos.to_uint p) /\ 1 <= Decimal.nb_digits (Pos.to_uint p).
Proof.
  assert (N : Pos.to_uint p <> Decimal.Nil) by (intros K; apply (Unsigned.to_uint_nonnil _ K)).
  unfold numeral. cbn [Z.to_int NilZero.string_of_int]. unfold NilZero.string_of_uint. rewrite <- uint_length.
  destruct (Pos.to_uint p); [contradiction|..]; cbn; split; auto; lia.
Qed.
Lemma numeral_length i j : (0 <= i <= j)%Z -> String.length (numeral i) <= String.length (numeral j).
Proof.
  intros H. destruct j as [|j|j]; [|destruct i as [|i|i]|]; try lia.
  - replace i with 0%Z by lia. auto.
  - destruct (numeral_pos j) as [-> L]. exact L.
  - destruct (numeral_pos i) as [-> Li]. destruct (numeral_pos j) as [-> Lj]. pose proof (pos_bounds i) as A. pose proof (pos_bounds j) as B.
    destruct (Nat.le_gt_cases (Decimal.nb_digits (Pos.to_uint i)) (Decimal.nb_digits (Pos.to_uint j))) as [|K]; [auto|].
    exfalso. assert (10 ^ Z.of_nat (Decimal.nb_digits (Pos.to_uint j)) <= 10 ^ (Z.of_nat (Decimal.nb_digits (Pos.to_uint i)) - 1))%Z by (apply Z.pow_le_mono_r; lia). lia.
Qed.

Lemma mk_n_states nh np nb no s : n_states (mk_sstate nh np nb no s) = (nh * 2 ^ Z.of_nat (no + nb + np))%Z.
Proof. unfold n_states; cbn. f_equal. lia. Qed.
Lemma names_text nh np nb no f : features_of nh np nb no f ->
  names (nh * 2 ^ Z.of_nat (no + nb + np)) f (state_text (mk_sstate nh np nb no (encode f))).
Proof.
  intros Hf. pose proof (encode_range _ _ _ _ _ Hf) as R. set (n := (nh * 2 ^ Z.of_nat (no + nb + np))%Z) in *.
  destruct (shows_encode nh np nb no (mk_sstate nh np nb no (encode f)) f (mk_sized _ _ _ _ _) Hf eq_refl) as (S1 & S2 & S3 & S4).
  pose proof Hf as (F1 & F2 & F3 & F4). unfold state_text. rewrite mk_n_states. fold n. rewrite S1.
  assert (L : String.length (numeral (encode f)) <= String.length (numeral (n - 1))) by (apply numeral_length; lia).
  exists (String.length (numeral (n - 1)) - String.length (numeral (encode f))). split; [lia|].
  cbn [shift_htm shift_pref shift_body mk_sstate st].
  replace (no + nb + np - (no + nb)) with (length (f_prefs f)) by lia. replace (no + nb - no) with (length (f_body f)) by lia. rewrite <- F4.
  rewrite (bits_join (has_preference _) (f_prefs f) 0), (bits_join (has_body_feature _) (f_body f) 0), (bits_join (has_object _) (f_objs f) 0); [|intros i b Hb; cbn; auto..].
  - unfold align_right. rewrite spaces_repeat. change (str_int ?z) with (numeral z). clear.
    assert (A : forall a b c : string, ((a ++ b) ++ c)%string = (a ++ (b ++ c))%string) by (induction a; cbn; congruence). cbn [append]. f_equal. rewrite A. reflexivity.
  - rewrite <- F4 in S4. apply S4; auto.
  - rewrite <- F4 in S3. apply S3; auto.
  - rewrite <- F4 in S2. apply S2; auto.
Qed.
Lemma names_number n f g t : (0 <= encode f)%Z -> (0 <= encode g)%Z -> names n f t -> names n g t -> encode f = encode g.
Proof.
  intros Pf Pg (k & _ & E) (k' & _ & E'). rewrite E in E'. clear E. injection E' as E.
  assert (G : forall k k' x y u v, (0 <= x)%Z -> (0 <= y)%Z -> (spaces k ++ numeral x ++ ": " ++ u = spaces k' ++ numeral y ++ ": " ++ v)%string -> x = y); [|exact (G k k' _ _ _ _ Pf Pg E)].
  clear. assert (D : forall x c s, (0 <= x)%Z -> numeral x = String c s -> In c ["0"; "1"; "2"; "3"; "4"; "5"; "6"; "7"; "8"; "9"]%char).
  { intros x c s P E. apply (TowerProofs.str_chars x c P). change (TowerModel.str_int x) with (numeral x). rewrite E. left. auto. }
  assert (N : forall x, (0 <= x)%Z -> exists c s, numeral x = String c s).
  { intros x P. destruct (numeral x) eqn:E; [|eauto]. pose proof (numeral_length 0 x ltac:(lia)) as L. rewrite E in L. cbn in L. lia. }
  induction k as [|k IH]; intros [|k'] x y u v Px Py E; cbn [spaces append] in E.
  - assert (C : forall a b u v, (forall c, TowerProofs.has c a -> In c ["0"; "1"; "2"; "3"; "4"; "5"; "6"; "7"; "8"; "9"]%char) -> (forall c, TowerProofs.has c b -> In c ["0"; "1"; "2"; "3"; "4"; "5"; "6"; "7"; "8"; "9"]%char) ->
      (a ++ String ":" u = b ++ String ":" v)%string -> a = b).
    { clear. induction a as [|c a IH]; intros [|d b] u v Ha Hb E; cbn in E; [auto| | |].
      - exfalso. injection E as E _. specialize (Hb d (or_introl eq_refl)). subst d. cbn in Hb. repeat (destruct Hb as [Hb|Hb]; [discriminate Hb|]). destruct Hb.
      - exfalso. injection E as E _. specialize (Ha c (or_introl eq_refl)). subst c. cbn in Ha. repeat (destruct Ha as [Ha|Ha]; [discriminate Ha|]). destruct Ha.
      - injection E as -> E. f_equal. apply (IH b u v); auto; intros e He; [apply Ha|apply Hb]; right; auto. }
    apply TowerProofs.str_int_inj. apply (C _ _ _ _) in E; [exact E| |]; intros c Hc; [exact (TowerProofs.str_chars x c Px Hc)|exact (TowerProofs.str_chars y c Py Hc)].
  - destruct (N x Px) as (c & s & Ec). rewrite Ec in E. cbn in E. injection E as -> _. pose proof (D x _ _ Px Ec) as K. cbn in K. repeat (destruct K as [K|K]; [discriminate K|]). destruct K.
  - destruct (N y Py) as (c & s & Ec). rewrite Ec in E. cbn in E. injection E as <- _. pose proof (D y _ _ Py Ec) as K. cbn in K. repeat (destruct K as [K|K]; [discriminate K|]). destruct K.
  - injection E as E. exact (IH k' x y u v Px Py E).
Qed.

(** *** Numbers *)
Lemma closest_Z q n : closest q n <-> let d := Zpos (Qden q) in (- d <= 2 * Qnum q - 2 * n * d <= d)%Z /\ ((Z.abs (2 * Qnum q - 2 * n * d) = d)%Z -> Z.Even n).
Proof.
  destruct q as [a d]. unfold closest. cbn [Qnum Qden]. cbv zeta.
  assert (H : (Qabs ((a # d) - inject_Z n) == Z.abs (2 * a - 2 * n * Zpos d) # (2 * d))%Q).
  { unfold Qeq, Qabs, Qminus, Qplus, Qopp, inject_Z; cbn [Qnum Qden]. rewrite Pos.mul_1_r, !Pos2Z.inj_mul, Z.mul_1_r. replace (2 * a - 2 * n * Z.pos d)%Z with (2 * (a + - n * Z.pos d))%Z by lia. rewrite Z.abs_mul. change (Z.abs 2) with 2%Z. nia. }
  rewrite H. unfold Qle, Qeq. cbn [Qnum Qden]. rewrite Pos2Z.inj_mul. split; intros [A B]; (split; [lia|]); intros K; apply B; lia.
Qed.
Lemma round_closest q : closest q (round q).
Proof.
  apply closest_Z. destruct q as [a d]. unfold round. cbn [Qnum Qden]. cbv zeta.
  pose proof (Z.div_mod a (Zpos d) ltac:(lia)) as E. pose proof (Z.mod_pos_bound a (Zpos d) ltac:(lia)) as B.
  set (f := (a / Z.pos d)%Z) in *. set (r := (a mod Z.pos d)%Z) in *. clearbody f r.
  destruct (Z.compare_spec (2 * r) (Z.pos d)) as [C|C|C].
  - destruct (Z.even f) eqn:V.
    + split; [lia|]. intros _. apply Z.even_spec. exact V.
    + split; [lia|]. intros _. apply Z.even_spec. rewrite Z.even_add, V. reflexivity.
  - split; [lia|]. intros K. lia.
  - split; [lia|]. intros K. lia.
Qed.
Lemma closest_unique q n n' : closest q n -> closest q n' -> n = n'.
Proof.
  rewrite !closest_Z. destruct q as [a d]. cbn [Qnum Qden]. cbv zeta. intros [A A'] [B B'].
  destruct (Z.eq_dec n n') as [|N]; [auto|]. exfalso.
  assert (K : (n' = n + 1 /\ 2 * a - 2 * n * Z.pos d = Z.pos d /\ 2 * a - 2 * n' * Z.pos d = - Z.pos d \/ n = n' + 1 /\ 2 * a - 2 * n' * Z.pos d = Z.pos d /\ 2 * a - 2 * n * Z.pos d = - Z.pos d)%Z) by nia.
  assert (E : Z.Even n) by (apply A'; lia). assert (E' : Z.Even n') by (apply B'; lia). destruct E as [x E], E' as [y E']. lia.
Qed.
Lemma closest_eq q q' n : (q == q')%Q -> closest q n -> closest q' n.
Proof. unfold closest. intros E [A B]. rewrite E in A, B. auto. Qed.
Lemma Qle_bool_dec x {A} (u v : A) : (if Qle_bool 0 x then u else v) = (if Qlt_le_dec x 0 then v else u).
Proof. destruct (Qlt_le_dec x 0) as [L|L], (Qle_bool 0 x) eqn:E; auto; exfalso; [apply Qle_bool_iff in E; lra|]. apply Qle_bool_iff in L. congruence. Qed.
Lemma abs_bool x : ((if Qle_bool 0 x then x else - x) == Qabs x)%Q.
Proof. rewrite Qle_bool_dec. destruct (Qlt_le_dec x 0) as [L|L]; [rewrite Qabs_neg by lra|rewrite Qabs_pos by lra]; reflexivity. Qed.
Lemma round_nonneg q : (0 <= q)%Q -> (0 <= round q)%Z.
Proof. intros H. pose proof (proj1 (closest_Z _ _) (round_closest q)) as [A _]. generalize dependent (round q). intros n A. destruct q as [a d]. unfold Qle in H. cbn [Qnum Qden] in *. destruct (Z_le_gt_dec 0 n) as [|G]; [auto|]. exfalso. assert (n * Z.pos d <= -1 * Z.pos d)%Z by (apply Z.mul_le_mono_nonneg_r; lia). lia. Qed.
Lemma one_decimal_spec x : decimal x (one_decimal x).
Proof.
  set (n := round (10 * (if Qle_bool 0 x then x else - x))%Q).
  assert (P : (0 <= n)%Z) by (apply round_nonneg; rewrite abs_bool; pose proof (Qabs_nonneg x); lra).
  exists (n / 10)%Z, (n mod 10)%Z. split; [apply Z.div_pos; lia|]. split; [apply Z.mod_pos_bound; lia|]. split.
  - rewrite <- Z.div_mod by lia. apply (closest_eq (10 * (if Qle_bool 0 x then x else - x))%Q); [rewrite abs_bool; reflexivity|apply round_closest].
  - unfold one_decimal. fold n. rewrite Qle_bool_dec. reflexivity.
Qed.
Lemma decimal_unique x x' t t' : (x == x')%Q -> decimal x t -> decimal x' t' -> t = t'.
Proof.
  intros E (d & u & D1 & D2 & D3 & ->) (d' & u' & D1' & D2' & D3' & ->).
  assert (K : (10 * d + u = 10 * d' + u')%Z) by (eapply closest_unique; [exact D3|eapply closest_eq; [|exact D3']; rewrite E; reflexivity]).
  assert (d = d' /\ u = u') as [-> ->] by lia. destruct (Qlt_le_dec x 0), (Qlt_le_dec x' 0); try reflexivity; lra.
Qed.
Lemma decimal_cons x t : decimal x t -> exists c s, t = String c s.
Proof.
  intros (d & u & P & _ & _ & ->). destruct (Qlt_le_dec x 0); cbn [append]; [eauto|]. destruct (numeral d) eqn:E; cbn; [|eauto].
  eauto.
Qed.
Lemma format_p_shown x : shown x (format_p x).
Proof.
  pose proof (one_decimal_spec x) as D. unfold format_p. destruct (String.eqb_spec (one_decimal x) "1.0") as [E|E].
  - left. rewrite <- E. auto.
  - right. destruct (decimal_cons _ _ D) as (c & s & K). exists c. rewrite K in *. auto.
Qed.
Lemma shown_unique x x' t t' : (x == x')%Q -> shown x t -> shown x' t' -> t = t'.
Proof.
  intros E [[D ->]|(c & D & N)] [[D' ->]|(c' & D' & N')]; [reflexivity|exfalso; apply N'; symmetry; eapply decimal_unique; eauto|exfalso; apply N; eapply decimal_unique; eauto|].
  assert (K : String c t = String c' t') by (eapply decimal_unique; eauto). injection K; auto.
Qed.
Lemma join_spaced l : spaced l (join " " l).
Proof. induction l as [|t [|u l] IH]; [constructor|constructor|]. exact (spaced_more t u l _ IH). Qed.
Lemma format_belief_shown b : exists ts, Forall2 shown b ts /\ spaced ts (format_belief_array b).
Proof. exists (map format_p b). split; [|apply join_spaced]. induction b; constructor; auto using format_p_shown. Qed.
(** A probability *)
Lemma shown_probability x t : (0 <= x <= 1)%Q -> shown x t -> exists d, (0 <= d <= 10)%Z /\ closest (10 * x) d /\ t = tenth_text d.
Proof.
  intros [L U] S. set (d := round (10 * x)%Q).
  assert (C : closest (10 * x) d) by apply round_closest.
  assert (R : (0 <= d <= 10)%Z).
  { split; [apply round_nonneg; lra|]. destruct (proj1 (closest_Z _ _) C) as [A _]. clearbody d. destruct x as [a k]. unfold Qle, Qmult in *. cbn [Qnum Qden] in *. rewrite Pos.mul_1_l in A. destruct (Z_le_gt_dec d 10) as [|G]; [auto|]. exfalso. assert (11 * Z.pos k <= d * Z.pos k)%Z by (apply Z.mul_le_mono_nonneg_r; lia). lia. }
  exists d. split; [auto|]. split; [auto|]. apply (shown_unique x x); [reflexivity|auto|].
  assert (D : decimal x (numeral (d / 10) ++ "." ++ numeral (d mod 10))).
  { exists (d / 10)%Z, (d mod 10)%Z. split; [apply Z.div_pos; lia|]. split; [apply Z.mod_pos_bound; lia|]. split; [|destruct (Qlt_le_dec x 0); [lra|reflexivity]]. rewrite <- Z.div_mod by lia. apply (closest_eq (10 * x)); [rewrite Qabs_pos by lra; reflexivity|auto]. }
  unfold tenth_text. destruct (Z.eqb_spec d 10) as [->|N]; [left; auto|]. right. exists "0"%char. assert (E : (d / 10 = 0)%Z) by (apply Z.div_small; lia). assert (E' : (d mod 10 = d)%Z) by (apply Z.mod_small; lia). rewrite E, E' in D. split; [exact D|]. discriminate.
Qed.

(** *** Trajectories *)
Lemma n_htm_nonneg m : (0 <= n_htm_states m)%Z.
Proof. unfold n_htm_states. lia. Qed.
Section Loop.
  Context {P : Type}.
  Variable cf : config.
  Variable m : spomdp.
  Variable em : emodel Z.
  Variable pol : epolicy P.
  Variable belief : P -> res (list Q).
  Definition ended (s : Z) : Prop := htm (mk_sstate (n_htm_states m) (cf_preferences cf) 1 (length (objects m)) s) = (n_htm_states m - 1)%Z.

  Lemma final_ended s : model_is_final cf m s = true <-> ended s.
  Proof. unfold model_is_final, is_final, int_to_state, ended. apply Z.eqb_eq. Qed.
  Lemma not_final s : model_is_final cf m s = false <-> ~ ended s.
  Proof. rewrite <- final_ended. destruct (model_is_final cf m s); split; congruence. Qed.
  Lemma named_text s : named cf m s (state_text (int_to_state cf m s)).
  Proof.
    intros R. rewrite mk_n_states in R. destruct (encode_exists _ _ _ _ _ R) as (f & Hf & ->). exists f. split; [auto|]. split; [auto|]. rewrite mk_n_states. apply names_text. auto.
  Qed.

  Lemma belief_line_ok p b : belief_line cf m belief p = Ok b -> exists array, belief p = Ok array /\ tells cf m array b.
  Proof.
    unfold belief_line. destruct (belief p) as [array|e] eqn:Eb; [|discriminate]. cbn [bind]. intros E. exists array. split; [auto|].
    pose proof (C30_quotient (n_htm_states m) (cf_preferences cf) 1 (length (objects m)) 0 array (n_htm_nonneg m)) as [H1 H2].
    pose proof (C31_preferences_partial (n_htm_states m) (cf_preferences cf) 1 (length (objects m)) 0 array (n_htm_nonneg m)) as [H3 H4].
    unfold int_to_state in E. destruct (Z.eq_dec (Z.of_nat (length array)) (n_states (mk_sstate (n_htm_states m) (cf_preferences cf) 1 (length (objects m)) 0))) as [L|L].
    - destruct (H1 L) as (q & E1 & L1 & M1 & _). destruct (H3 L) as (q2 & E2 & L2 & M2). rewrite E1 in E. cbn [bind] in E. rewrite E2 in E. cbn [bind] in E.
      destruct q2 as [|v q2]; cbn [bind] in E; [discriminate|]. injection E as <-.
      destruct (format_belief_shown q) as (ts & T1 & T2). exists q, ts, (format_belief_array q), v. split; [auto|]. split; [auto|]. split; [cbn in L2; lia|]. split; [auto|]. split; [auto|]. split; [auto|]. split; [auto|].
      rewrite (M2 0 v eq_refl). rewrite Nat.sub_0_r. reflexivity.
    - rewrite (H2 L) in E. discriminate.
  Qed.
  Lemma belief_line_err p e : belief_line cf m belief p = Err e ->
    belief p = Err e \/ exists array, belief p = Ok array /\
      (Z.of_nat (length array) <> n_states (mk_sstate (n_htm_states m) (cf_preferences cf) 1 (length (objects m)) 0) /\ e = EAssert \/
       Z.of_nat (length array) = n_states (mk_sstate (n_htm_states m) (cf_preferences cf) 1 (length (objects m)) 0) /\ cf_preferences cf = 0 /\ e = EIndex).
  Proof.
    unfold belief_line. destruct (belief p) as [array|e'] eqn:Eb; [|intros E; left; injection E as ->; reflexivity]. cbn [bind]. intros E. right. exists array. split; [auto|].
    pose proof (C30_quotient (n_htm_states m) (cf_preferences cf) 1 (length (objects m)) 0 array (n_htm_nonneg m)) as [H1 H2].
    pose proof (C31_preferences_partial (n_htm_states m) (cf_preferences cf) 1 (length (objects m)) 0 array (n_htm_nonneg m)) as [H3 H4].
    unfold int_to_state in E. destruct (Z.eq_dec (Z.of_nat (length array)) (n_states (mk_sstate (n_htm_states m) (cf_preferences cf) 1 (length (objects m)) 0))) as [L|L].
    - destruct (H1 L) as (q & E1 & L1 & M1 & _). destruct (H3 L) as (q2 & E2 & L2 & M2). rewrite E1 in E. cbn [bind] in E. rewrite E2 in E. cbn [bind] in E.
      destruct q2 as [|v q2]; cbn [bind] in E; [|discriminate]. injection E as <-. right. cbn in L2. auto.
    - rewrite (H2 L) in E. injection E as <-. auto.
  Qed.
  Lemma belief_line_total p array b : belief p = Ok array -> tells cf m array b -> exists b', belief_line cf m belief p = Ok b'.
  Proof.
    intros Eb (q & ts & t & v & _ & L & N & _). destruct (belief_line cf m belief p) as [b'|e] eqn:E; [eauto|]. exfalso.
    apply belief_line_err in E. destruct E as [E|(array' & E & [[K _]|[_ [K _]]])]; congruence.
  Qed.

  Lemma traj_ok fuel : forall k p s R log log' q T, traj_loop cf m em pol belief fuel k p s R log = (log', q, Ok T) ->
    exists l es z, written cf m em pol belief k p s l es q z /\ ended z /\ length l <= fuel /\ log' = log ++ es /\ T = fold_left Qplus (map s_reward l) R.
  Proof.
    induction fuel as [|fuel IH]; intros k p s R log log' q T E; cbn [traj_loop] in E.
    - destruct (model_is_final cf m s) eqn:F; [|discriminate]. injection E as <- <- <-. exists [], [], s. split; [constructor|]. split; [apply final_ended; auto|]. split; [auto|]. rewrite app_nil_r. auto.
    - destruct (model_is_final cf m s) eqn:F.
      { injection E as <- <- <-. exists [], [], s. split; [constructor|]. split; [apply final_ended; auto|]. split; [cbn; lia|]. rewrite app_nil_r. auto. }
      destruct (ep_action pol p) as [[a p1]|] eqn:Ea; [|discriminate].
      destruct (index_of String.eqb a (em_actions em)) as [i|] eqn:Ei; [|discriminate].
      destruct (em_transition em k i s) as [[[s' o] r]|] eqn:Et; [|discriminate].
      destruct (nth_error (em_observations em) o) as [ob|] eqn:Eo; [|discriminate].
      destruct (ep_step pol p1 ob) as [p2|] eqn:Ep; [|discriminate].
      destruct (belief_line cf m belief p2) as [b|] eqn:Eb; [|discriminate].
      apply IH in E. destruct E as (l & es & z & W & Z1 & L & -> & ->). apply belief_line_ok in Eb. destruct Eb as (array & B1 & B2). apply index_of_str in Ei. destruct Ei as [I1 I2].
      exists ((i, s', o, r) :: l), (Turn (state_text (int_to_state cf m s)) a (state_text (int_to_state cf m s')) ob r :: b :: es), z. split; [|split; [auto|split; [cbn; lia|split; [rewrite <- !app_assoc; reflexivity|reflexivity]]]].
      econstructor; [apply not_final; auto|exists p1; eauto 8|apply named_text|apply named_text|exact B1|exact B2|exact W].
  Qed.
  Lemma traj_err fuel : forall k p s R log log' q e, traj_loop cf m em pol belief fuel k p s R log = (log', q, Err e) ->
    exists l es p1 z extra, written cf m em pol belief k p s l es p1 z /\ ~ ended z /\ log' = log ++ es ++ extra /\
      (length l = fuel /\ q = p1 /\ extra = [] /\ e = EFuel \/
       length l < fuel /\ stuck cf m em pol belief (k + length l) p1 z extra q e).
  Proof.
    induction fuel as [|fuel IH]; intros k p s R log log' q e E; cbn [traj_loop] in E.
    - destruct (model_is_final cf m s) eqn:F; [discriminate|]. injection E as <- <- <-. exists [], [], p, s, []. split; [constructor|]. split; [apply not_final; auto|]. split; [rewrite !app_nil_r; auto|]. left. auto.
    - destruct (model_is_final cf m s) eqn:F; [discriminate|].
      assert (G : forall extra q e, stuck cf m em pol belief k p s extra q e -> exists l es p1 z extra', written cf m em pol belief k p s l es p1 z /\ ~ ended z /\ log ++ extra = log ++ es ++ extra' /\
        (length l = S fuel /\ q = p1 /\ extra' = [] /\ e = EFuel \/ length l < S fuel /\ stuck cf m em pol belief (k + length l) p1 z extra' q e)).
      { intros extra q' e' K. exists [], [], p, s, extra. split; [constructor|]. split; [apply not_final; auto|]. split; [auto|]. right. split; [cbn; lia|]. rewrite Nat.add_0_r. auto. }
      destruct (ep_action pol p) as [[a p1]|e0] eqn:Ea; [|injection E as <- <- <-; specialize (G [] p e0); rewrite app_nil_r in G; apply G; constructor; auto].
      destruct (index_of String.eqb a (em_actions em)) as [i|] eqn:Ei; [|injection E as <- <- <-; specialize (G [] p1 EValue); rewrite app_nil_r in G; apply G; apply (stuck_unknown _ _ _ _ _ _ _ _ a); auto; intros K; destruct (index_of_In _ _ K); congruence].
      apply index_of_str in Ei. destruct Ei as [I1 I2].
      destruct (em_transition em k i s) as [[[s' o] r]|e0] eqn:Et; [|injection E as <- <- <-; specialize (G [] p1 e0); rewrite app_nil_r in G; apply G; eapply stuck_transition; eauto].
      destruct (nth_error (em_observations em) o) as [ob|] eqn:Eo; [|injection E as <- <- <-; specialize (G [] p1 EIndex); rewrite app_nil_r in G; apply G; eapply stuck_observation; eauto; apply nth_error_None; auto].
      destruct (ep_step pol p1 ob) as [p2|e0] eqn:Ep; [|injection E as <- <- <-; specialize (G [] p1 e0); rewrite app_nil_r in G; apply G; eapply stuck_step; eauto].
      assert (Tn : turn em pol k p s a i s' o ob r p2) by (exists p1; auto 8).
      destruct (belief_line cf m belief p2) as [b|e0] eqn:Eb.
      + apply IH in E. destruct E as (l & es & q1 & z & extra & W & Z1 & -> & C). apply belief_line_ok in Eb. destruct Eb as (array & B1 & B2).
        exists ((i, s', o, r) :: l), (Turn (state_text (int_to_state cf m s)) a (state_text (int_to_state cf m s')) ob r :: b :: es), q1, z, extra.
        split; [econstructor; [apply not_final; auto|exact Tn|apply named_text|apply named_text|exact B1|exact B2|exact W]|]. split; [auto|]. split; [rewrite <- !app_assoc; reflexivity|].
        destruct C as [(C1 & C2)|[C1 C2]]; [left; cbn; auto|right]. split; [cbn; lia|]. cbn [length]. rewrite Nat.add_succ_r. exact C2.
      + injection E as <- <- <-. apply G. eapply stuck_belief; [exact Tn|apply named_text|apply named_text|]. apply belief_line_err. auto.
  Qed.
  Lemma traj_total fuel : forall k p s l es q z R log, written cf m em pol belief k p s l es q z -> ended z -> length l <= fuel ->
    exists log' T, traj_loop cf m em pol belief fuel k p s R log = (log', q, Ok T).
  Proof.
    induction fuel as [|fuel IH]; intros k p s l es q z R log W Z1 L.
    - inversion W; subst; [|cbn in L; lia]. cbn [traj_loop]. apply final_ended in Z1. rewrite Z1. eauto.
    - inversion W as [|k0 p0 s0 a i s' o ob r p2 array t t' b l0 es0 q0 z0 F (p1 & T1 & T2 & T3 & T4 & T5 & T6) N1 N2 B1 B2 W']; subst.
      + cbn [traj_loop]. apply final_ended in Z1. rewrite Z1. eauto.
      + cbn [traj_loop]. apply not_final in F. rewrite F, T1. rewrite (proj2 (index_of_str _ _ _) (conj T2 T3)), T4, T5, T6. destruct (belief_line_total _ _ _ B1 B2) as (b' & ->). eapply IH; eauto. cbn in L. lia.
  Qed.
  Lemma written_trace k p s l es q z : written cf m em pol belief k p s l es q z -> trace em pol k p s l q /\ rewards es = map s_reward l /\ z = last (map s_state l) s.
  Proof.
    induction 1 as [|k p s a i s' o ob r p2 array t t' b l es q z F (p1 & T1 & T2 & T3 & T4 & T5 & T6) N1 N2 B1 B2 W (IH1 & IH2 & IH3)]; [repeat split; constructor|].
    split; [econstructor; eauto|]. destruct B2 as (q' & ts & tt & v & -> & _). cbn. split; [f_equal; exact IH2|]. subst z. cbn. clear. revert s. induction l as [|x l IHl]; intros s; [reflexivity|]. destruct l; [reflexivity|]. exact (IHl s).
  Qed.
  Lemma eval_same n : forall k p s l es q z fuel hs ha ho hr ret, written cf m em pol belief k p s l es q z -> ended z -> (Z.of_nat (length l) <= n)%Z -> n = Z.of_nat fuel -> l <> [] ->
    exists rec, eval_loop (model_is_final cf m) em pol 1 fuel k {| fo_n := n; fo_final := false |} p s hs ha ho hr ret = Ok (rec, q) /\ r_rewards rec = rev hr ++ map s_reward l /\ r_states rec = rev hs ++ s :: map s_state l.
  Proof.
    intros k p s l es q z fuel hs ha ho hr ret W. revert n fuel hs ha ho hr ret.
    induction W as [|k p s a i s' o ob r p2 array t t' b l es q z F (p1 & T1 & T2 & T3 & T4 & T5 & T6) N1 N2 B1 B2 W IH]; intros n fuel hs ha ho hr ret Z1 L -> N; [congruence|].
    destruct fuel as [|fuel]; [cbn in L; lia|]. cbn [eval_loop]. unfold fo_reached. cbn [fo_n fo_final]. destruct (Z.leb_spec (Z.of_nat (S fuel)) 0); [lia|]. cbn [orb].
    rewrite T1. cbn [bind]. rewrite (proj2 (index_of_str _ _ _) (conj T2 T3)). cbn [bind]. rewrite T4. cbn [bind]. rewrite T5. cbn [bind]. rewrite T6. cbn [bind]. unfold fo_decrement. cbn [fo_n].
    replace (Z.of_nat (S fuel) - 1)%Z with (Z.of_nat fuel) by lia.
    destruct l as [|x l].
    - inversion W; subst. rewrite (proj2 (final_ended _) Z1). assert (E : forall fuel, eval_loop (model_is_final cf m) em pol 1 fuel (S k) {| fo_n := Z.of_nat fuel; fo_final := true |} q z (s :: hs) (i :: ha) (o :: ho) (r :: hr) (r + 1 * ret) = Ok ({| r_return := r + 1 * ret; r_states := rev (z :: s :: hs); r_actions := rev (i :: ha); r_observations := rev (o :: ho); r_rewards := rev (r :: hr) |}, q)) by (intros [|f]; cbn [eval_loop]; unfold fo_reached; cbn [fo_n fo_final]; rewrite orb_true_r; reflexivity).
      rewrite E. eexists. split; [reflexivity|]. cbn. rewrite <- app_assoc. auto.
    - assert (F' : model_is_final cf m s' = false) by (inversion W; subst; apply not_final; auto). rewrite F'.
      destruct (IH (Z.of_nat fuel) fuel (s :: hs) (i :: ha) (o :: ho) (r :: hr) (r + 1 * ret)%Q Z1 ltac:(cbn [length] in *; lia) eq_refl ltac:(discriminate)) as (rec & E & R1 & R2).
      exists rec. split; [exact E|]. rewrite R1, R2. cbn [rev map]. rewrite <- !app_assoc. auto.
  Qed.
End Loop.
