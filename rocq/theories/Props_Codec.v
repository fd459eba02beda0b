(** C28 to C31: supportive states as integers. *)
From Verif Require Import QBase CodecModel CodecSpec CodecProofs.

Lemma mk_sized nh np nb no s : sized nh np nb no (mk_sstate nh np nb no s).
Proof. repeat split. Qed.

Lemma mk_eta nh np nb no x : sized nh np nb no x -> x = mk_sstate nh np nb no (st x).
Proof. intros (H1 & H2 & H3 & H4). destruct x; cbn in *. subst. reflexivity. Qed.

(** *** C28 *)
Theorem C28_decode : forall nh np nb no s, (0 <= s < n_states (mk_sstate nh np nb no s))%Z ->
  exists f, (features_of nh np nb no f /\ shows_features (mk_sstate nh np nb no s) f) /\
            forall g, features_of nh np nb no g /\ shows_features (mk_sstate nh np nb no s) g -> g = f.
Proof.
  intros nh np nb no s Hs. assert (Hs' : (0 <= s < nh * 2 ^ Z.of_nat (no + nb + np))%Z).
  { unfold n_states in Hs; cbn [final_htm shift_htm mk_sstate] in Hs. replace (nh - 1 + 1)%Z with nh in Hs by lia. auto. }
  destruct (encode_exists nh np nb no s Hs') as [f [Hf E]]. exists f. split.
  - split; auto. eapply shows_encode; eauto. apply mk_sized.
  - intros g [Hg Hsh]. eapply shows_inj; eauto. eapply shows_encode; eauto. apply mk_sized.
Qed.
Print Assumptions C28_decode.

Theorem C28_encode : forall nh np nb no f, features_of nh np nb no f ->
  exists s, (0 <= s < n_states (mk_sstate nh np nb no s))%Z /\ shows_features (mk_sstate nh np nb no s) f /\
    forall s', (0 <= s' < n_states (mk_sstate nh np nb no s'))%Z -> shows_features (mk_sstate nh np nb no s') f -> s' = s.
Proof.
  intros nh np nb no f Hf. exists (encode f).
  assert (Hn : forall s, n_states (mk_sstate nh np nb no s) = (nh * 2 ^ Z.of_nat (no + nb + np))%Z).
  { intros s. unfold n_states; cbn. f_equal. lia. }
  split; [rewrite Hn; apply encode_range; auto|]. split; [eapply shows_encode; eauto; apply mk_sized|].
  intros s' Hs' Hsh. rewrite Hn in Hs'. destruct (encode_exists nh np nb no s' Hs') as [g [Hg E]].
  assert (Hsg : shows_features (mk_sstate nh np nb no s') g) by (eapply shows_encode; eauto; apply mk_sized).
  rewrite E. f_equal. eapply shows_inj; eauto.
Qed.
Print Assumptions C28_encode.

(** Setting a feature changes that feature to the value and no other feature, keeps the sizes and the
    range. *)
Definition now_shows nh np nb no (x' : sstate) (f' : features) : Prop :=
  x' = mk_sstate nh np nb no (st x') /\ (0 <= st x' < n_states x')%Z /\ shows_features x' f'.

Lemma now_shows_encode nh np nb no x' f' : sized nh np nb no x' -> features_of nh np nb no f' -> st x' = encode f' ->
  now_shows nh np nb no x' f'.
Proof.
  intros Hx Hf E. split; [apply mk_eta; auto|]. split; [|eapply shows_encode; eauto].
  assert (Hn : n_states x' = (nh * 2 ^ Z.of_nat (no + nb + np))%Z).
  { destruct Hx as (H1 & H2 & H3 & H4). unfold n_states. rewrite H3, H4. f_equal. lia. }
  rewrite Hn, E. apply encode_range; auto.
Qed.

Theorem C28_setters : forall nh np nb no s f, features_of nh np nb no f ->
  (0 <= s < n_states (mk_sstate nh np nb no s))%Z -> shows_features (mk_sstate nh np nb no s) f ->
  let x := mk_sstate nh np nb no s in
  (forall i b, (i < np)%nat -> now_shows nh np nb no (set_preference x i (Z.b2z b)) (upd_prefs f (replace i b (f_prefs f)))) /\
  (forall i b, (i < nb)%nat -> now_shows nh np nb no (set_body_feature x i (Z.b2z b)) (upd_body f (replace i b (f_body f)))) /\
  (forall i b, (i < no)%nat -> now_shows nh np nb no (set_object x i (Z.b2z b)) (upd_objs f (replace i b (f_objs f)))) /\
  (forall h, (0 <= h < nh)%Z -> now_shows nh np nb no (set_htm x h) (upd_htm f h)) /\
  (forall draws, length draws = no -> now_shows nh np nb no (random_object_changes draws x) (upd_objs f (flip draws (f_objs f)))) /\
  (forall draws, length draws = np -> now_shows nh np nb no (random_preference_changes draws x) (upd_prefs f (flip draws (f_prefs f)))).
Proof.
  intros nh np nb no s f Hf Hs Hsh x.
  assert (Hx : sized nh np nb no x) by apply mk_sized.
  assert (E : st x = encode f).
  { assert (Hs' : (0 <= s < nh * 2 ^ Z.of_nat (no + nb + np))%Z).
    { unfold n_states in Hs; cbn [final_htm shift_htm mk_sstate] in Hs. replace (nh - 1 + 1)%Z with nh in Hs by lia. auto. }
    destruct (encode_exists nh np nb no s Hs') as [g [Hg E]]. cbn [x mk_sstate st]. rewrite E. f_equal.
    eapply shows_inj; eauto. eapply shows_encode; eauto. }
  assert (HF := Hf). destruct HF as (F1 & F2 & F3 & F4).
  split; [|split; [|split; [|split; [|split]]]].
  - intros i b Hi. apply now_shows_encode; [apply sized_with; auto| |eapply set_preference_spec; eauto].
    repeat split; cbn; rewrite ?replace_length; auto; lia.
  - intros i b Hi. apply now_shows_encode; [apply sized_with; auto| |eapply set_body_feature_spec; eauto].
    repeat split; cbn; rewrite ?replace_length; auto; lia.
  - intros i b Hi. apply now_shows_encode; [apply sized_with; auto| |eapply set_object_spec; eauto].
    repeat split; cbn; rewrite ?replace_length; auto; lia.
  - intros h Hh. apply now_shows_encode; [apply sized_with; auto| |eapply set_htm_spec; eauto].
    repeat split; cbn; auto; lia.
  - intros draws Hd. destruct (flip_objects nh np nb no draws 0 x f Hx Hf E Hd) as [I1 I2].
    apply now_shows_encode; [exact I1| |exact I2]. repeat split; cbn; auto; try lia.
    unfold flip. rewrite map_length, combine_length. lia.
  - intros draws Hd. destruct (flip_prefs nh np nb no draws 0 x f Hx Hf E Hd) as [I1 I2].
    apply now_shows_encode; [exact I1| |exact I2]. repeat split; cbn; auto; try lia.
    unfold flip. rewrite map_length, combine_length. lia.
Qed.
Print Assumptions C28_setters.

Example C28_ex : features_of 5 2 1 3 {| f_htm := 3; f_prefs := [true; false]; f_body := [false]; f_objs := [true; false; true] |} /\
  shows_features (mk_sstate 5 2 1 3 213) {| f_htm := 3; f_prefs := [true; false]; f_body := [false]; f_objs := [true; false; true] |} /\
  n_states (mk_sstate 5 2 1 3 213) = 320%Z.
Proof.
  split; [repeat split; cbn; lia|]. split; [|reflexivity].
  repeat split; intros i b E; do 3 (destruct i as [|i]; [cbn in E; inversion E; reflexivity|]); destruct i; discriminate.
Qed.

(** *** C29: false, the copy has one HTM state more. *)
Theorem C29_copy_refuted : forall nh np nb no s, (0 < nh)%Z ->
  let x := mk_sstate nh np nb no s in
  n_states (copy_state x) <> n_states x /\ (is_final x = true -> is_final (copy_state x) = false).
Proof.
  intros nh np nb no s Hn x. unfold copy_state, n_states, is_final, htm, n_htm, n_preferences, n_body_features, n_objects.
  cbn [x mk_sstate shift_body shift_pref shift_htm final_htm st].
  replace (no + (no + nb - no))%nat with (no + nb)%nat by lia.
  replace (no + nb + (no + nb + np - (no + nb)))%nat with (no + nb + np)%nat by lia.
  pose proof (pow_pos (no + nb + np)). split; [nia|].
  intros E. apply Z.eqb_eq in E. apply Z.eqb_neq. lia.
Qed.
Print Assumptions C29_copy_refuted.
Example C29_refuted_ex : is_final (mk_sstate 2 1 0 1 5) = true /\ is_final (copy_state (mk_sstate 2 1 0 1 5)) = false.
Proof. split; reflexivity. Qed.

Theorem C29_copy_partial : forall nh np nb no s f, features_of nh np nb no f ->
  let x := mk_sstate nh np nb no s in
  (shows_features x f <-> shows_features (copy_state x) f) /\ st (copy_state x) = s /\
  n_preferences (copy_state x) = np /\ n_body_features (copy_state x) = nb /\ n_objects (copy_state x) = no.
Proof.
  intros nh np nb no s f Hf x.
  assert (E : copy_state x = mk_sstate (nh + 1) np nb no s).
  { unfold copy_state, n_htm, n_preferences, n_body_features, n_objects. cbn [x mk_sstate shift_body shift_pref shift_htm final_htm st].
    f_equal; lia. }
  rewrite E. split; [reflexivity|]. split; [reflexivity|]. unfold n_preferences, n_body_features, n_objects; cbn. lia.
Qed.
Print Assumptions C29_copy_partial.

(** *** C30 *)
Theorem C30_quotient : forall nh np nb no s array, (0 <= nh)%Z ->
  let x := mk_sstate nh np nb no s in
  (Z.of_nat (length array) = n_states x ->
     exists q, belief_quotient x array = Ok q /\ length q = Z.to_nat nh /\
       (forall h v, nth_error q h = Some v -> (v == mass array (fun s' => Z.eqb (htm (mk_sstate nh np nb no s')) (Z.of_nat h)))%Q) /\
       (sumQ q == sumQ array)%Q) /\
  (Z.of_nat (length array) <> n_states x -> belief_quotient x array = Err EAssert).
Proof.
  intros nh np nb no s array Hn x.
  assert (HL : Z.of_nat (length array) = n_states x <-> length array = (Z.to_nat (n_htm x) * 2 ^ shift_htm x)%nat).
  { unfold n_states. change (final_htm x + 1)%Z with (n_htm x). rewrite <- pow_nat_Z.
    assert (0 <= n_htm x)%Z by (unfold n_htm; cbn; lia). split; nia. }
  split; intros H.
  - apply HL in H. assert (E : exists q, belief_quotient x array = Ok q).
    { unfold belief_quotient. rewrite <- H, Nat.eqb_refl. eauto. }
    destruct E as [q E]. exists q. split; auto. exact (quotient_spec _ _ _ _ _ _ _ (mk_sized nh np nb no s) E).
  - unfold belief_quotient. destruct (Nat.eqb_spec (length array) (Z.to_nat (n_htm x) * 2 ^ shift_htm x)) as [E|E]; [|reflexivity].
    exfalso; apply H, HL; auto.
Qed.
Print Assumptions C30_quotient.
Example C30_ex : exists q, belief_quotient (mk_sstate 2 1 0 1 0) [1#8; 1#8; 0; 1#4; 0; 1#2; 0; 0]%Q = Ok q /\ Forall2 Qeq q [1#2; 1#2]%Q.
Proof. eexists; split; [vm_compute; reflexivity|]. repeat constructor. Qed.

(** *** C31: the result is in reverse order. *)
Theorem C31_preferences_partial : forall nh np nb no s array, (0 <= nh)%Z ->
  let x := mk_sstate nh np nb no s in
  (Z.of_nat (length array) = n_states x ->
     exists q, belief_preferences x array = Ok q /\ length q = np /\
       forall i v, nth_error q i = Some v ->
         (v == mass array (fun s' => Z.eqb (has_preference (mk_sstate nh np nb no s') (np - 1 - i)) 1))%Q) /\
  (Z.of_nat (length array) <> n_states x -> belief_preferences x array = Err EAssert).
Proof.
  intros nh np nb no s array Hn x.
  assert (Hp : n_preferences x = np) by (unfold n_preferences; cbn; lia).
  assert (HL : Z.of_nat (length array) = n_states x <-> length array = (Z.to_nat (n_htm x) * 2 ^ n_preferences x * 2 ^ shift_pref x)%nat).
  { unfold n_states. change (final_htm x + 1)%Z with (n_htm x). rewrite <- pow_nat_Z.
    assert (E : (2 ^ shift_htm x = 2 ^ n_preferences x * 2 ^ shift_pref x)%nat).
    { rewrite <- Nat.pow_add_r. f_equal. rewrite Hp. cbn. lia. }
    rewrite E. assert (0 <= n_htm x)%Z by (unfold n_htm; cbn; lia). split; nia. }
  split; intros H.
  - apply HL in H. assert (E : exists q, belief_preferences x array = Ok q).
    { unfold belief_preferences. rewrite <- H, Nat.eqb_refl. eauto. }
    destruct E as [q E]. exists q. split; auto. exact (preferences_spec _ _ _ _ _ _ _ (mk_sized nh np nb no s) E).
  - unfold belief_preferences. destruct (Nat.eqb_spec (length array) (Z.to_nat (n_htm x) * 2 ^ n_preferences x * 2 ^ shift_pref x)) as [E|E]; [|reflexivity].
    exfalso; apply H, HL; auto.
Qed.
Print Assumptions C31_preferences_partial.

(** For every model with at least two preferences, and every preference that is not the middle one, some
    belief shows a wrong marginal: the point belief on the state that has only this preference. *)
Theorem C31_preferences_refuted : forall nh np nb no s i, (0 < nh)%Z -> (i < np)%nat -> i <> (np - 1 - i)%nat ->
  let x := mk_sstate nh np nb no s in
  exists array q v, Z.of_nat (length array) = n_states x /\ belief_preferences x array = Ok q /\ nth_error q i = Some v /\
    ~ (v == mass array (fun s' => Z.eqb (has_preference (mk_sstate nh np nb no s') i) 1))%Q.
Proof.
  intros nh np nb no s i Hn Hi Hne x.
  set (f := {| f_htm := 0; f_prefs := replace i true (repeat false np); f_body := repeat false nb; f_objs := repeat false no |}).
  assert (Hf : features_of nh np nb no f) by (repeat split; cbn; rewrite ?replace_length, ?repeat_length; lia).
  set (len := Z.to_nat (n_states x)). set (s0 := Z.to_nat (encode f)).
  assert (Hns : n_states x = (nh * 2 ^ Z.of_nat (no + nb + np))%Z) by (unfold n_states; cbn; f_equal; lia).
  pose proof (encode_range _ _ _ _ _ Hf) as Hr.
  assert (Hs0 : (s0 < len)%nat) by (unfold s0, len; rewrite Hns; lia).
  assert (Hlen : Z.of_nat (length (point len s0)) = n_states x).
  { unfold point. rewrite map_length, seq_length. unfold len. rewrite Z2Nat.id; [auto|]. rewrite Hns. lia. }
  destruct (proj1 (C31_preferences_partial nh np nb no s (point len s0) ltac:(lia)) Hlen) as [q [E [HL Hq]]].
  destruct (nth_error q i) as [v|] eqn:Ev; [|apply nth_error_None in Ev; lia].
  exists (point len s0), q, v. split; [auto|]. split; [auto|]. split; [auto|].
  rewrite (Hq i v Ev), !mass_point by auto.
  assert (Hsh : shows_features (mk_sstate nh np nb no (Z.of_nat s0)) f).
  { eapply shows_encode; [apply mk_sized|exact Hf|]. cbn. unfold s0. lia. }
  destruct Hsh as (_ & Hp & _).
  rewrite (Hp i true), (Hp (np - 1 - i)%nat false).
  - cbn. unfold Qeq; cbn. lia.
  - cbn [f f_prefs]. rewrite replace_nth. destruct (Nat.eqb_spec i (np - 1 - i)); [contradiction|].
    rewrite (nth_error_nth' _ false) by (rewrite repeat_length; lia). rewrite nth_repeat. reflexivity.
  - cbn [f f_prefs]. rewrite replace_nth, Nat.eqb_refl, repeat_length. destruct (Nat.ltb_spec i np); [reflexivity|lia].
Qed.
Print Assumptions C31_preferences_refuted.
Example C31_ex : exists q, belief_preferences (mk_sstate 1 2 0 0 0) [0; 1; 0; 0]%Q = Ok q /\ Forall2 Qeq q [0; 1]%Q.
Proof. eexists; split; [vm_compute; reflexivity|]. repeat constructor. Qed.
