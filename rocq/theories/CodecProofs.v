(** Proofs about the encoding of supportive states (C28 to C31). *)
From Verif Require Import QBase CodecModel CodecSpec.

Section Bits.
  Local Open Scope Z_scope.

  Definition enc (l : list bool) (h : Z) : Z := bits_value l + h * 2 ^ Z.of_nat (length l).

  Lemma pow_S n : 2 ^ Z.of_nat (S n) = 2 * 2 ^ Z.of_nat n.
  Proof. rewrite Nat2Z.inj_succ, Z.pow_succ_r by lia. reflexivity. Qed.
  Lemma pow_pos n : 0 < 2 ^ Z.of_nat n.
  Proof. apply Z.pow_pos_nonneg; lia. Qed.

  Lemma enc_cons b t h : enc (b :: t) h = 2 * enc t h + Z.b2z b.
  Proof. unfold enc. cbn [bits_value length]. rewrite pow_S. ring. Qed.

  Lemma bits_range l : 0 <= bits_value l < 2 ^ Z.of_nat (length l).
  Proof.
    induction l as [|b t IH]; [simpl; lia|]. cbn [bits_value length]. rewrite pow_S. destruct b; cbn [Z.b2z]; lia.
  Qed.

  Lemma enc_testbit l h i b : nth_error l i = Some b -> Z.testbit (enc l h) (Z.of_nat i) = b.
  Proof.
    revert i; induction l as [|c t IH]; intros [|i] E; try discriminate.
    - inversion E; subst. rewrite enc_cons. apply Z.testbit_0_r.
    - rewrite enc_cons, Nat2Z.inj_succ, Z.testbit_succ_r by lia. apply IH; auto.
  Qed.

  Lemma shiftr_bit a i : (Z.shiftr a (Z.of_nat i) mod 2 = Z.b2z (Z.testbit a (Z.of_nat i)))%Z.
  Proof. rewrite Z.testbit_spec' by lia. rewrite Z.shiftr_div_pow2 by lia. reflexivity. Qed.

  Lemma enc_htm l h : Z.shiftr (enc l h) (Z.of_nat (length l)) = h.
  Proof.
    rewrite Z.shiftr_div_pow2 by lia. unfold enc. pose proof (bits_range l). pose proof (pow_pos (length l)).
    rewrite Z.div_add by lia. rewrite Z.div_small by lia. lia.
  Qed.

  Lemma replace_length {A} i (x : A) l : length (replace i x l) = length l.
  Proof. revert i; induction l as [|y t IH]; intros [|i]; cbn [replace length]; auto. Qed.
  Lemma replace_app_l {A} i (x : A) l l' : (i < length l)%nat -> replace i x (l ++ l') = replace i x l ++ l'.
  Proof.
    revert i; induction l as [|y t IH]; intros [|i] H; cbn [replace length app] in *; auto; try lia. f_equal; apply IH; lia.
  Qed.
  Lemma replace_app_r {A} i (x : A) l l' : replace (length l + i) x (l ++ l') = l ++ replace i x l'.
  Proof. induction l as [|y t IH]; cbn [replace length app Nat.add]; auto. f_equal; auto. Qed.
  Lemma replace_nth {A} i (x : A) l j : nth_error (replace i x l) j = if Nat.eqb i j then (if Nat.ltb j (length l) then Some x else None) else nth_error l j.
  Proof.
    revert i j; induction l as [|y t IH]; intros i j.
    - destruct i, j; cbn; try reflexivity; destruct (Nat.eqb i j); reflexivity.
    - destruct i as [|i], j as [|j]; cbn [replace nth_error]; auto. rewrite IH. cbn [Nat.eqb length]. reflexivity.
  Qed.

  Lemma enc_replace l h i b c : nth_error l i = Some c ->
    enc (replace i b l) h = enc l h + (Z.shiftl (Z.b2z b) (Z.of_nat i) - Z.shiftl (Z.b2z c) (Z.of_nat i)).
  Proof.
    revert i; induction l as [|y t IH]; intros [|i] E; try discriminate.
    - inversion E; subst. cbn [replace]. rewrite !enc_cons. cbn [Z.of_nat]. rewrite !Z.shiftl_0_r. lia.
    - cbn [replace]. rewrite !enc_cons, (IH i E). rewrite !Z.shiftl_mul_pow2 by lia. rewrite pow_S. ring.
  Qed.

  Lemma enc_surj n s : 0 <= s -> exists l h, length l = n /\ 0 <= h /\ s = enc l h.
  Proof.
    revert s; induction n as [|n IH]; intros s Hs.
    - exists [], s. split; [reflexivity|]. split; [auto|]. unfold enc. cbn [bits_value length Z.of_nat Z.pow]. lia.
    - destruct (IH (s / 2)) as [l [h [Hl [Hh E]]]]; [apply Z.div_pos; lia|].
      exists (Z.odd s :: l), h. split; [cbn [length]; auto|]. split; [auto|].
      rewrite enc_cons, <- E. rewrite (Z.div_mod s 2) at 1 by lia. rewrite <- Z.bit0_mod. rewrite Z.bit0_odd. reflexivity.
  Qed.

  Lemma enc_range l h nh : 0 <= h < nh -> 0 <= enc l h < nh * 2 ^ Z.of_nat (length l).
  Proof. unfold enc. intros H. pose proof (bits_range l). pose proof (pow_pos (length l)). nia. Qed.
  Lemma enc_range_inv l h nh : enc l h < nh * 2 ^ Z.of_nat (length l) -> h < nh.
  Proof. unfold enc. intros H. pose proof (bits_range l). pose proof (pow_pos (length l)). nia. Qed.
End Bits.

(** A state object of a model with the given sizes. *)
Definition sized (nh : Z) (np nb no : nat) (x : sstate) : Prop :=
  shift_body x = no /\ shift_pref x = (no + nb)%nat /\ shift_htm x = (no + nb + np)%nat /\ final_htm x = (nh - 1)%Z.

Definition bits (f : features) : list bool := f_objs f ++ f_body f ++ f_prefs f.

Lemma encode_enc f : encode f = enc (bits f) (f_htm f).
Proof. unfold encode, enc, bits. rewrite !app_length. do 4 f_equal. lia. Qed.

Lemma bits_length nh np nb no f : features_of nh np nb no f -> length (bits f) = (no + nb + np)%nat.
Proof. intros (H1 & H2 & H3 & H4). unfold bits. rewrite !app_length. lia. Qed.

Lemma bits_nth nh np nb no f : features_of nh np nb no f ->
  (forall i b, nth_error (f_objs f) i = Some b -> nth_error (bits f) i = Some b) /\
  (forall i b, nth_error (f_body f) i = Some b -> nth_error (bits f) (no + i) = Some b) /\
  (forall i b, nth_error (f_prefs f) i = Some b -> nth_error (bits f) (no + nb + i) = Some b).
Proof.
  intros (H1 & H2 & H3 & H4). unfold bits. split; [|split]; intros i b E;
    assert (Hi := proj1 (nth_error_Some _ i) ltac:(rewrite E; discriminate)).
  - rewrite nth_error_app1; auto.
  - rewrite nth_error_app2 by lia. rewrite nth_error_app1 by lia. replace (no + i - length (f_objs f))%nat with i by lia; auto.
  - rewrite nth_error_app2 by lia. rewrite nth_error_app2 by lia. replace (no + nb + i - length (f_objs f) - length (f_body f))%nat with i by lia; auto.
Qed.

Lemma get_bit_enc x l h i b : st x = enc l h -> nth_error l i = Some b -> get_bit x i = Z.b2z b.
Proof. intros E H. unfold get_bit. rewrite shiftr_bit, E. f_equal. eapply enc_testbit; eauto. Qed.

Lemma shows_encode nh np nb no x f : sized nh np nb no x -> features_of nh np nb no f -> st x = encode f -> shows_features x f.
Proof.
  intros (S1 & S2 & S3 & S4) Hf E. rewrite encode_enc in E.
  destruct (bits_nth _ _ _ _ _ Hf) as (B1 & B2 & B3). pose proof (bits_length _ _ _ _ _ Hf) as HL.
  split; [|split; [|split]].
  - unfold htm. rewrite E, S3, <- HL. apply enc_htm.
  - intros i b Hi. unfold has_preference. rewrite S2. eapply get_bit_enc; eauto.
  - intros i b Hi. unfold has_body_feature. rewrite S1. eapply get_bit_enc; eauto.
  - intros i b Hi. unfold has_object. eapply get_bit_enc; eauto.
Qed.

Lemma encode_exists nh np nb no s : (0 <= s < nh * 2 ^ Z.of_nat (no + nb + np))%Z ->
  exists f, features_of nh np nb no f /\ s = encode f.
Proof.
  intros [H1 H2]. destruct (enc_surj (no + nb + np) s H1) as [l [h [Hl [Hh E]]]].
  exists {| f_htm := h; f_objs := firstn no l; f_body := firstn nb (skipn no l); f_prefs := skipn nb (skipn no l) |}.
  split.
  - unfold features_of; cbn. rewrite !firstn_length, !skipn_length. split; [|lia]. split; auto.
    subst s. rewrite <- Hl in H2. eapply enc_range_inv; eauto.
  - rewrite encode_enc. unfold bits; cbn. rewrite !firstn_skipn. auto.
Qed.

Lemma encode_range nh np nb no f : features_of nh np nb no f -> (0 <= encode f < nh * 2 ^ Z.of_nat (no + nb + np))%Z.
Proof. intros Hf. rewrite encode_enc, <- (bits_length _ _ _ _ _ Hf). apply enc_range. apply Hf. Qed.

Lemma list_ext {A} (l l' : list A) : length l = length l' -> (forall i b, nth_error l i = Some b -> nth_error l' i = Some b) -> l = l'.
Proof.
  revert l'; induction l as [|x t IH]; intros [|y t'] HL H; simpl in HL; try discriminate; auto.
  assert (E := H 0%nat x eq_refl). inversion E; subst. f_equal. apply IH; [lia|]. intros i b Hi. apply (H (S i)); auto.
Qed.

Lemma b2z_inj a b : Z.b2z a = Z.b2z b -> a = b.
Proof. destruct a, b; simpl; congruence. Qed.

Lemma shows_inj nh np nb no x f g : features_of nh np nb no f -> features_of nh np nb no g ->
  shows_features x f -> shows_features x g -> f = g.
Proof.
  intros (F1 & F2 & F3 & F4) (G1 & G2 & G3 & G4) (A1 & A2 & A3 & A4) (B1 & B2 & B3 & B4).
  assert (HE : forall (l l' : list bool) (get : nat -> Z), length l = length l' ->
     (forall i b, nth_error l i = Some b -> get i = Z.b2z b) -> (forall i b, nth_error l' i = Some b -> get i = Z.b2z b) -> l = l').
  { intros l l' get HL H1 H2. apply list_ext; auto. intros i b Hi.
    assert (Hlt := proj1 (nth_error_Some _ i) ltac:(rewrite Hi; discriminate)).
    destruct (nth_error l' i) as [c|] eqn:E; [|apply nth_error_None in E; lia].
    f_equal. apply b2z_inj. rewrite <- (H1 _ _ Hi), <- (H2 _ _ E). reflexivity. }
  destruct f as [fh fp fb fo], g as [gh gp gb go]; cbn in *. f_equal.
  - congruence.
  - apply (HE _ _ (has_preference x)); auto; congruence.
  - apply (HE _ _ (has_body_feature x)); auto; congruence.
  - apply (HE _ _ (has_object x)); auto; congruence.
Qed.

Lemma set_bit_enc x l h i b : st x = enc l h -> (i < length l)%nat -> st (set_bit x i (Z.b2z b)) = enc (replace i b l) h.
Proof.
  intros E Hi. destruct (nth_error l i) as [c|] eqn:Ec; [|apply nth_error_None in Ec; lia].
  rewrite (enc_replace _ _ _ _ _ Ec), <- E. unfold set_bit, with_s; cbn [st]. rewrite (get_bit_enc _ _ _ _ _ E Ec). reflexivity.
Qed.


Section Setters.
  Variables (nh : Z) (np nb no : nat).
  Variables (x : sstate) (f : features).
  Hypothesis Hx : sized nh np nb no x.
  Hypothesis Hf : features_of nh np nb no f.
  Hypothesis E : st x = encode f.

  Lemma set_preference_spec i b : (i < np)%nat ->
    st (set_preference x i (Z.b2z b)) = encode (upd_prefs f (replace i b (f_prefs f))).
  Proof.
    intros Hi. destruct Hx as (S1 & S2 & S3 & S4). rewrite encode_enc in *. cbn [upd_prefs f_htm]. unfold set_preference. rewrite S2.
    rewrite (set_bit_enc _ _ _ _ _ E); [|rewrite (bits_length _ _ _ _ _ Hf); lia]. f_equal.
    destruct Hf as (F1 & F2 & F3 & F4). unfold bits, upd_prefs; cbn.
    rewrite app_assoc. replace (no + nb)%nat with (length (f_objs f ++ f_body f)) by (rewrite app_length; lia).
    rewrite replace_app_r. rewrite app_assoc. reflexivity.
  Qed.
  Lemma set_body_feature_spec i b : (i < nb)%nat ->
    st (set_body_feature x i (Z.b2z b)) = encode (upd_body f (replace i b (f_body f))).
  Proof.
    intros Hi. destruct Hx as (S1 & S2 & S3 & S4). rewrite encode_enc in *. cbn [upd_body f_htm]. unfold set_body_feature. rewrite S1.
    rewrite (set_bit_enc _ _ _ _ _ E); [|rewrite (bits_length _ _ _ _ _ Hf); lia]. f_equal.
    destruct Hf as (F1 & F2 & F3 & F4). unfold bits, upd_body; cbn.
    replace no with (length (f_objs f)) by lia. rewrite replace_app_r, replace_app_l by lia. reflexivity.
  Qed.
  Lemma set_object_spec i b : (i < no)%nat ->
    st (set_object x i (Z.b2z b)) = encode (upd_objs f (replace i b (f_objs f))).
  Proof.
    intros Hi. rewrite encode_enc in *. cbn [upd_objs f_htm]. unfold set_object.
    rewrite (set_bit_enc _ _ _ _ _ E); [|rewrite (bits_length _ _ _ _ _ Hf); lia]. f_equal.
    destruct Hf as (F1 & F2 & F3 & F4). unfold bits, upd_objs; cbn. rewrite replace_app_l by lia. reflexivity.
  Qed.
  Lemma set_htm_spec n : st (set_htm x n) = encode (upd_htm f n).
  Proof.
    destruct (shows_encode _ _ _ _ _ _ Hx Hf E) as [Hh _]. destruct Hx as (S1 & S2 & S3 & S4).
    rewrite encode_enc in *. unfold set_htm, with_s; cbn [st]. rewrite Hh, E, S3. unfold enc. cbn [upd_htm f_htm].
    change (bits (upd_htm f n)) with (bits f). rewrite (bits_length _ _ _ _ _ Hf). rewrite !Z.shiftl_mul_pow2 by lia. lia.
  Qed.
End Setters.

(** *** Random changes *)
Lemma sized_with nh np nb no x s : sized nh np nb no x -> sized nh np nb no (with_s x s).
Proof. auto. Qed.

Lemma replace_split {A} i (a : A) l : (i < length l)%nat -> replace i a l = firstn i l ++ a :: skipn (S i) l.
Proof.
  revert i; induction l as [|y t IH]; intros [|i] H; simpl in H; try lia; [reflexivity|].
  change (y :: replace i a t = y :: firstn i t ++ a :: skipn (S i) t). f_equal. apply IH; lia.
Qed.

Lemma flip_step (d : bool) (t l : list bool) i b : nth_error l i = Some b ->
  firstn (S i) (if d then replace i (negb b) l else l) ++ flip t (skipn (S i) (if d then replace i (negb b) l else l))
  = firstn i l ++ flip (d :: t) (skipn i l).
Proof.
  intros E. assert (Hi := proj1 (nth_error_Some l i) ltac:(rewrite E; discriminate)).
  assert (Hs : skipn i l = b :: skipn (S i) l).
  { clear Hi. revert i E; induction l as [|y u IH]; intros [|i] E; try discriminate; cbn in *; [congruence|]. apply IH; auto. }
  assert (Hl : (if d then replace i (negb b) l else l) = firstn i l ++ xorb d b :: skipn (S i) l).
  { destruct d; [rewrite replace_split by auto; destruct b; reflexivity|]. rewrite <- (firstn_skipn i l) at 1. rewrite Hs. destruct b; reflexivity. }
  rewrite Hl. assert (Hfl : length (firstn i l) = i) by (rewrite firstn_length; lia).
  replace (firstn (S i) (firstn i l ++ xorb d b :: skipn (S i) l)) with (firstn i l ++ [xorb d b]).
  2:{ rewrite firstn_app, Hfl. replace (S i - i)%nat with 1%nat by lia. rewrite firstn_firstn. replace (Nat.min (S i) i) with i by lia. reflexivity. }
  replace (skipn (S i) (firstn i l ++ xorb d b :: skipn (S i) l)) with (skipn (S i) l).
  2:{ rewrite skipn_app, Hfl. replace (S i - i)%nat with 1%nat by lia. rewrite (skipn_all2 (firstn i l)) by lia. reflexivity. }
  rewrite Hs. unfold flip. cbn [combine map fst snd]. rewrite <- app_assoc. reflexivity.
Qed.

Lemma one_minus b : (1 - Z.b2z b)%Z = Z.b2z (negb b).
Proof. destruct b; reflexivity. Qed.

Lemma flip_objects nh np nb no draws : forall i x f, sized nh np nb no x -> features_of nh np nb no f -> st x = encode f ->
  (i + length draws = no)%nat ->
  let x' := flip_drawn set_bit get_bit i draws x in
  sized nh np nb no x' /\ st x' = encode (upd_objs f (firstn i (f_objs f) ++ flip draws (skipn i (f_objs f)))).
Proof.
  induction draws as [|d t IH]; intros i x f Hx Hf E Hi; cbn [flip_drawn].
  - split; auto. cbn in Hi. rewrite E. f_equal. destruct Hf as (F1 & F2 & F3 & F4). destruct f as [fh fp fb fo]; unfold upd_objs; cbn in *. f_equal.
    rewrite firstn_all2 by lia. cbn. rewrite app_nil_r. reflexivity.
  - cbn [length] in Hi. assert (Hlen : length (f_objs f) = no) by apply Hf.
    destruct (nth_error (f_objs f) i) as [b|] eqn:Eb; [|apply nth_error_None in Eb; lia].
    assert (Hg : get_bit x i = Z.b2z b) by (apply (shows_encode _ _ _ _ _ _ Hx Hf E); auto).
    set (objs := if d then replace i (negb b) (f_objs f) else f_objs f).
    destruct (IH (S i) (if d then set_bit x i (1 - get_bit x i)%Z else x) (upd_objs f objs)) as [I1 I2].
    + destruct d; auto.
    + destruct Hf as (F1 & F2 & F3 & F4). unfold features_of; cbn. subst objs; destruct d; rewrite ?replace_length; auto.
    + subst objs; destruct d.
      * rewrite Hg, one_minus. apply (set_object_spec nh np nb no x f Hf E); lia.
      * rewrite E. destruct f; reflexivity.
    + lia.
    + split; [exact I1|]. rewrite I2. cbn [upd_objs f_objs f_htm f_prefs f_body]. unfold upd_objs. cbn [f_objs f_htm f_prefs f_body].
      f_equal. f_equal. apply flip_step; auto.
Qed.

Lemma flip_prefs nh np nb no draws : forall i x f, sized nh np nb no x -> features_of nh np nb no f -> st x = encode f ->
  (i + length draws = np)%nat ->
  let x' := flip_drawn set_preference has_preference i draws x in
  sized nh np nb no x' /\ st x' = encode (upd_prefs f (firstn i (f_prefs f) ++ flip draws (skipn i (f_prefs f)))).
Proof.
  induction draws as [|d t IH]; intros i x f Hx Hf E Hi; cbn [flip_drawn].
  - split; auto. cbn in Hi. rewrite E. f_equal. destruct Hf as (F1 & F2 & F3 & F4). destruct f as [fh fp fb fo]; unfold upd_prefs; cbn in *. f_equal.
    rewrite firstn_all2 by lia. cbn. rewrite app_nil_r. reflexivity.
  - cbn [length] in Hi. assert (Hlen : length (f_prefs f) = np) by apply Hf.
    destruct (nth_error (f_prefs f) i) as [b|] eqn:Eb; [|apply nth_error_None in Eb; lia].
    assert (Hg : has_preference x i = Z.b2z b) by (apply (proj1 (proj2 (shows_encode _ _ _ _ _ _ Hx Hf E))); auto).
    set (prefs := if d then replace i (negb b) (f_prefs f) else f_prefs f).
    destruct (IH (S i) (if d then set_preference x i (1 - has_preference x i)%Z else x) (upd_prefs f prefs)) as [I1 I2].
    + destruct d; auto.
    + destruct Hf as (F1 & F2 & F3 & F4). unfold features_of; cbn. subst prefs; destruct d; rewrite ?replace_length; auto.
    + subst prefs; destruct d.
      * rewrite Hg, one_minus. apply (set_preference_spec nh np nb no x f Hx Hf E); lia.
      * rewrite E. destruct f; reflexivity.
    + lia.
    + split; [exact I1|]. rewrite I2. unfold upd_prefs. cbn [f_objs f_htm f_prefs f_body].
      f_equal. f_equal. apply flip_step; auto.
Qed.

(** *** Beliefs *)
Local Open Scope Q_scope.

Lemma firstn_skipn_nth (arr : list Q) : forall k n, (k + n <= length arr)%nat ->
  firstn n (skipn k arr) = map (fun s => nth s arr 0) (seq k n).
Proof.
  induction arr as [|x t IH]; intros k n H; cbn [length] in H.
  - assert (k = 0%nat /\ n = 0%nat) as [-> ->] by lia. reflexivity.
  - destruct k as [|k].
    + destruct n as [|n]; [reflexivity|]. cbn [skipn firstn seq map nth]. f_equal.
      rewrite <- seq_shift, map_map. cbn [nth]. rewrite <- (IH 0%nat n) by lia. reflexivity.
    + cbn [skipn]. rewrite IH by lia. rewrite <- seq_shift, map_map. reflexivity.
Qed.

Lemma sumQ_map l : sumQ l = sum_over l (fun x => x).
Proof. reflexivity. Qed.

Lemma mass_blocks arr nh n p : length arr = (nh * n)%nat ->
  mass arr p == sum_n nh (fun h => sum_n n (fun l => if p (Z.of_nat (h * n + l)) then nth (h * n + l) arr 0 else 0)).
Proof.
  intros HL. unfold mass. rewrite HL, sum_filter, seq_blocks, sum_flat_map. apply sum_ext. intros h _.
  unfold sum_n. cbn [Nat.add]. replace (seq (h * n) n) with (map (fun l => (h * n + l)%nat) (seq 0 n)).
  - rewrite sum_map. reflexivity.
  - assert (G : forall n a k, map (fun l => (a + l)%nat) (seq k n) = seq (a + k) n).
    { clear. induction n as [|n IH]; intros a k; [reflexivity|]. cbn [seq map]. f_equal. rewrite IH. f_equal. lia. }
    rewrite G. f_equal. lia.
Qed.

Lemma pow_nat_Z k : Z.of_nat (2 ^ k) = (2 ^ Z.of_nat k)%Z.
Proof. rewrite Nat2Z.inj_pow. reflexivity. Qed.

Lemma htm_block nh np nb no x h l : sized nh np nb no x -> (l < 2 ^ shift_htm x)%nat ->
  htm (with_s x (Z.of_nat (h * 2 ^ shift_htm x + l))) = Z.of_nat h.
Proof.
  intros Hx Hl. unfold htm. cbn [with_s st shift_htm]. rewrite Z.shiftr_div_pow2 by lia.
  rewrite Nat2Z.inj_add, Nat2Z.inj_mul, pow_nat_Z. pose proof (pow_pos (shift_htm x)).
  apply inj_lt in Hl. rewrite pow_nat_Z in Hl. rewrite Z.div_add_l by lia. rewrite Z.div_small by lia. lia.
Qed.

Lemma quotient_spec nh np nb no x arr q : sized nh np nb no x -> belief_quotient x arr = Ok q ->
  length q = Z.to_nat nh /\
  (forall h v, nth_error q h = Some v -> v == mass arr (fun s => Z.eqb (htm (with_s x s)) (Z.of_nat h))) /\
  sumQ q == sumQ arr.
Proof.
  intros Hx E. unfold belief_quotient in E. set (n := (2 ^ shift_htm x)%nat) in *.
  assert (Hn : Z.to_nat (n_htm x) = Z.to_nat nh) by (destruct Hx as (_ & _ & _ & H); unfold n_htm; rewrite H; f_equal; lia).
  rewrite Hn in E. set (k := Z.to_nat nh) in *. destruct (Nat.eqb_spec (length arr) (k * n)) as [HL|]; [|discriminate].
  assert (q = map (fun h => sumQ (firstn n (skipn (h * n) arr))) (seq 0 k)) as -> by congruence. clear E.
  assert (Hrow : forall h, (h < k)%nat -> sumQ (firstn n (skipn (h * n) arr)) == sum_n n (fun l => nth (h * n + l) arr 0)).
  { intros h Hh. rewrite firstn_skipn_nth by nia. unfold sumQ. rewrite sum_map. unfold sum_n.
    replace (seq (h * n) n) with (map (fun l => (h * n + l)%nat) (seq 0 n)).
    - rewrite sum_map. reflexivity.
    - assert (G : forall n a k, map (fun l => (a + l)%nat) (seq k n) = seq (a + k) n).
      { clear. induction n as [|n IH]; intros a k; [reflexivity|]. cbn [seq map]. f_equal. rewrite IH. f_equal. lia. }
      rewrite G. f_equal. lia. }
  split; [rewrite map_length, seq_length; reflexivity|]. split.
  - intros h v Hv. assert (Hh : (h < k)%nat).
    { assert (H := proj1 (nth_error_Some _ h) ltac:(rewrite Hv; discriminate)). rewrite map_length, seq_length in H. auto. }
    assert (Hv' : nth_error (map (fun h => sumQ (firstn n (skipn (h * n) arr))) (seq 0 k)) h = Some (sumQ (firstn n (skipn (h * n) arr)))).
    { erewrite map_nth_error; [reflexivity|]. rewrite (nth_error_nth' _ 0%nat) by (rewrite seq_length; auto). rewrite seq_nth by auto. reflexivity. }
    assert (v = sumQ (firstn n (skipn (h * n) arr))) as -> by congruence.
    rewrite Hrow by auto. rewrite (mass_blocks arr k n) by auto. unfold sum_n at 2.
    rewrite (sum_single (seq 0 k) _ h).
    + unfold sum_n. apply sum_ext. intros l Hl. apply in_seq in Hl. rewrite (htm_block _ _ _ _ _ _ _ Hx) by (fold n; lia). rewrite Z.eqb_refl. reflexivity.
    + apply seq_NoDup.
    + apply in_seq; lia.
    + intros h' _ Hne. apply sum_zero. intros l Hl. apply in_seq in Hl. rewrite (htm_block _ _ _ _ _ _ _ Hx) by (fold n; lia).
      destruct (Z.eqb_spec (Z.of_nat h') (Z.of_nat h)); [lia|reflexivity].
  - unfold sumQ at 1. rewrite sum_map.
    assert (Harr : sumQ arr == mass arr (fun _ => true)).
    { unfold mass. rewrite sum_filter. unfold sumQ. rewrite <- (firstn_all arr) at 1.
      change (firstn (length arr) arr) with (firstn (length arr) (skipn 0 arr)). rewrite firstn_skipn_nth by lia. rewrite sum_map. reflexivity. }
    rewrite Harr, (mass_blocks arr k n) by auto. unfold sum_n at 1. apply sum_ext. intros h Hh. apply in_seq in Hh. apply Hrow; lia.
Qed.

Lemma pref_block nh np nb no x h j l i : sized nh np nb no x -> (l < 2 ^ shift_pref x)%nat -> (j < 2 ^ np)%nat -> (i < np)%nat ->
  has_preference (with_s x (Z.of_nat ((h * 2 ^ np + j) * 2 ^ shift_pref x + l))) i = Z.b2z (Nat.odd (j / 2 ^ i)).
Proof.
  intros Hx Hl Hj Hi. unfold has_preference, get_bit. cbn [with_s st shift_pref].
  rewrite Z.shiftr_div_pow2 by lia. replace (Z.of_nat (shift_pref x + i)) with (Z.of_nat (shift_pref x) + Z.of_nat i)%Z by lia. rewrite Z.pow_add_r by lia.
  rewrite <- !pow_nat_Z. rewrite <- Nat2Z.inj_mul, <- Nat2Z.inj_div.
  change 2%Z with (Z.of_nat 2). rewrite <- Nat2Z.inj_mod.
  rewrite <- Nat.div_div by (apply Nat.pow_nonzero; lia).
  rewrite Nat.div_add_l by (apply Nat.pow_nonzero; lia). rewrite (Nat.div_small l) by lia. rewrite Nat.add_0_r.
  assert (Hp : (2 ^ np = 2 * 2 ^ (np - 1 - i) * 2 ^ i)%nat).
  { rewrite <- Nat.pow_succ_r', <- Nat.pow_add_r. f_equal. lia. }
  rewrite Hp at 1. rewrite (Nat.mul_assoc h). rewrite Nat.div_add_l by (apply Nat.pow_nonzero; lia).
  replace (h * (2 * 2 ^ (np - 1 - i)))%nat with (h * 2 ^ (np - 1 - i) * 2)%nat by ring.
  rewrite Nat.add_comm, Nat.mod_add by lia.
  rewrite <- Nat.bit0_mod, Nat.bit0_odd. destruct (Nat.odd (j / 2 ^ i)); reflexivity.
Qed.

Lemma preferences_spec nh np nb no x arr q : sized nh np nb no x -> belief_preferences x arr = Ok q ->
  length q = np /\
  forall i v, nth_error q i = Some v -> v == mass arr (fun s => Z.eqb (has_preference (with_s x s) (np - 1 - i)) 1).
Proof.
  intros Hx E. unfold belief_preferences in E.
  assert (Hnp : n_preferences x = np) by (destruct Hx as (_ & H1 & H2 & _); unfold n_preferences; lia). rewrite Hnp in E.
  assert (Hn : Z.to_nat (n_htm x) = Z.to_nat nh) by (destruct Hx as (_ & _ & _ & H); unfold n_htm; rewrite H; f_equal; lia).
  rewrite Hn in E. set (k := Z.to_nat nh) in *. set (n := (2 ^ shift_pref x)%nat) in *.
  destruct (Nat.eqb_spec (length arr) (k * 2 ^ np * n)) as [HL|]; [|discriminate].
  match type of E with Ok ?X = Ok q => assert (q = X) as -> by congruence end. clear E.
  split; [rewrite map_length, seq_length; reflexivity|].
  intros i v Hv.
  assert (Hi : (i < np)%nat).
  { assert (H := proj1 (nth_error_Some _ i) ltac:(rewrite Hv; discriminate)). rewrite map_length, seq_length in H. auto. }
  erewrite map_nth_error in Hv; [|rewrite (nth_error_nth' _ 0%nat) by (rewrite seq_length; auto); rewrite seq_nth by auto; reflexivity].
  cbn [Nat.add] in Hv.
  match type of Hv with Some ?X = Some v => assert (v = X) as -> by congruence end. clear Hv.
  set (m := (np - 1 - i)%nat).
  assert (HL' : length arr = (k * (2 ^ np * n))%nat) by lia.
  rewrite (mass_blocks arr k (2 ^ np * n)) by auto.
  rewrite sum_filter. unfold sum_n at 1.
  transitivity (sum_over (seq 0 (2 ^ np)) (fun j => sum_over (seq 0 k) (fun h => if Nat.odd (j / 2 ^ m) then sum_n n (fun l => nth ((h * 2 ^ np + j) * n + l) arr 0) else 0))).
  { apply sum_ext. intros j _. destruct (Nat.odd (j / 2 ^ m)); [reflexivity|]. symmetry; apply sum_zero; reflexivity. }
  rewrite sum_swap. unfold sum_n at 2. apply sum_ext. intros h _.
  unfold sum_n at 2. rewrite seq_blocks, sum_flat_map. apply sum_ext. intros j Hj. apply in_seq in Hj.
  cbn [Nat.add]. replace (seq (j * n) n) with (map (fun l => (j * n + l)%nat) (seq 0 n)).
  2:{ assert (G : forall n a k, map (fun l => (a + l)%nat) (seq k n) = seq (a + k) n).
      { clear. induction n as [|n IH]; intros a k; [reflexivity|]. cbn [seq map]. f_equal. rewrite IH. f_equal. lia. }
      rewrite G. f_equal. lia. }
  rewrite sum_map.
  transitivity (sum_over (seq 0 n) (fun l => if Nat.odd (j / 2 ^ m) then nth ((h * 2 ^ np + j) * n + l) arr 0 else 0)).
  { destruct (Nat.odd (j / 2 ^ m)); [reflexivity|]. symmetry; apply sum_zero; reflexivity. }
  apply sum_ext. intros l Hl. apply in_seq in Hl.
  replace (h * (2 ^ np * n) + (j * n + l))%nat with ((h * 2 ^ np + j) * n + l)%nat by ring.
  rewrite (pref_block _ _ _ _ _ _ _ _ _ Hx) by (fold n; subst m; lia).
  destruct (Nat.odd (j / 2 ^ m)); reflexivity.
Qed.

(** Indicator of one state. *)
Definition point (len s0 : nat) : list Q := map (fun s => if Nat.eqb s s0 then 1 else 0) (seq 0 len).

Lemma point_nth len s0 s : (s < len)%nat -> nth s (point len s0) 0 = if Nat.eqb s s0 then 1 else 0.
Proof.
  intros H. unfold point. set (g := fun s => if Nat.eqb s s0 then 1 else 0).
  rewrite (nth_indep _ 0 (g 0%nat)) by (rewrite map_length, seq_length; auto).
  rewrite map_nth, seq_nth by auto. reflexivity.
Qed.

Lemma mass_point len s0 p : (s0 < len)%nat -> mass (point len s0) p == if p (Z.of_nat s0) then 1 else 0.
Proof.
  intros H. unfold mass. assert (HL : length (point len s0) = len) by (unfold point; rewrite map_length, seq_length; auto).
  rewrite HL, sum_filter. rewrite (sum_single (seq 0 len) _ s0); [| apply seq_NoDup | apply in_seq; lia |].
  - destruct (p (Z.of_nat s0)); [|reflexivity]. rewrite point_nth by auto. rewrite Nat.eqb_refl. reflexivity.
  - intros y Hy Hne. destruct (p (Z.of_nat y)); [|reflexivity]. apply in_seq in Hy.
    rewrite point_nth by lia. destruct (Nat.eqb_spec y s0); [contradiction|reflexivity].
Qed.
