(** Proofs about one step of the simulation. *)
From Verif Require Import QBase PyBase PyBaseFacts HtmModel HtmSpec HtmProofs DagModel DagSpec DagProofs CodecModel CodecSpec CodecProofs SuppModel SuppSpec SuppProofs.
From Coq Require Import Lia.
Import HtmSpec.
Local Open Scope nat_scope.

Section Rep.
  Variable cf : config.
  Variable m : spomdp.
  Variables (nodes : list stree) (succs : list (list nat)) (init : list nat) (ps : list sparams).
  Hypothesis B : built m nodes succs init ps.

  Definition feat (w : world) : features :=
    {| f_htm := stage_index m (w_stage w); f_prefs := w_prefs w; f_body := [w_holding w]; f_objs := map (w_has w) (objects m) |}.
  Definition good (w : world) : Prop :=
    (forall i, w_stage w = Doing i -> i < length (htm_nodes m)) /\ length (w_prefs w) = cf_preferences cf.
  Definition siz (x : sstate) : Prop := sized (n_htm_states m) (cf_preferences cf) 1 (length (objects m)) x.
  Definition Rep (x : sstate) (w : world) : Prop := siz x /\ good w /\ st x = encode (feat w).

  Lemma good_features w : good w -> features_of (n_htm_states m) (cf_preferences cf) 1 (length (objects m)) (feat w).
  Proof.
    intros [G1 G2]. unfold features_of, feat; cbn. rewrite map_length. split; [|auto].
    unfold n_htm_states. destruct (w_stage w) as [i| |]; cbn; [specialize (G1 i eq_refl)|unfold htm_clean|unfold htm_final]; lia.
  Qed.

  Lemma model_n_states_eq : model_n_states cf m = (n_htm_states m * 2 ^ Z.of_nat (length (objects m) + 1 + cf_preferences cf))%Z.
  Proof. unfold model_n_states. do 3 f_equal. lia. Qed.

  Lemma siz_int s : siz (int_to_state cf m s).
  Proof. unfold siz, int_to_state, sized, mk_sstate; cbn. auto. Qed.
  Lemma siz_eq x : siz x -> x = int_to_state cf m (st x).
  Proof. intros (H1 & H2 & H3 & H4). destruct x; cbn in *. subst. reflexivity. Qed.

  Lemma rep_shows x w : Rep x w -> shows_features x (feat w).
  Proof. intros (H1 & H2 & H3). eapply shows_encode; eauto. apply good_features; auto. Qed.
  Lemma rep_htm x w : Rep x w -> htm x = stage_index m (w_stage w).
  Proof. intros H. apply (rep_shows _ _ H). Qed.
  Lemma rep_pref x w : 1 <= cf_preferences cf -> Rep x w -> has_preference x 0 = Z.b2z (wants_hold w).
  Proof.
    intros Hc H. assert (G := proj2 (proj1 (proj2 H))). apply (proj1 (proj2 (rep_shows _ _ H))). unfold wants_hold. apply nth_error_nth'.
    unfold feat; cbn. lia.
  Qed.
  Lemma rep_obj x w i o : Rep x w -> nth_error (objects m) i = Some o -> has_object x i = Z.b2z (w_has w o).
  Proof. intros H E. apply (proj2 (proj2 (proj2 (rep_shows _ _ H)))). unfold feat; cbn. rewrite nth_error_map, E. reflexivity. Qed.
  Lemma rep_final x w : Rep x w -> is_final x = match w_stage w with Finished => true | _ => false end.
  Proof.
    intros H. unfold is_final. rewrite (rep_htm _ _ H). destruct H as ((_ & _ & _ & Hf) & [G _] & _). rewrite Hf. unfold n_htm_states.
    destruct (w_stage w) as [i| |] eqn:E; cbn [stage_index]; unfold htm_clean, htm_final;
      [specialize (G i eq_refl); apply Z.eqb_neq|apply Z.eqb_neq|apply Z.eqb_eq]; lia.
  Qed.
  Lemma rep_clean x w : Rep x w -> Z.eqb (htm x) (htm_clean m) = match w_stage w with Cleaning => true | _ => false end.
  Proof.
    intros H. rewrite (rep_htm _ _ H). destruct H as (_ & [G _] & _).
    destruct (w_stage w) as [i| |] eqn:E; cbn [stage_index]; unfold htm_clean, htm_final;
      [specialize (G i eq_refl); apply Z.eqb_neq|apply Z.eqb_eq|apply Z.eqb_neq]; lia.
  Qed.
  Lemma rep_int x w : Rep x w -> Rep (int_to_state cf m (st x)) w.
  Proof. intros H. rewrite <- siz_eq; [auto|apply H]. Qed.

  Lemma reads_rep s w : reads cf m s w <-> Rep (int_to_state cf m s) w.
  Proof.
    split.
    - intros (R1 & R2 & R3 & R4 & R5 & R6 & R7). split; [apply siz_int|]. assert (G : good w) by (split; auto). split; [auto|].
      rewrite model_n_states_eq in R1. destruct (encode_exists _ _ _ _ _ R1) as [f [Hf E]].
      change (st (int_to_state cf m s)) with s. rewrite E. f_equal. eapply shows_inj; [exact Hf|apply good_features; auto| |].
      + eapply (shows_encode _ _ _ _ (int_to_state cf m s)); [apply siz_int|exact Hf|exact E].
      + split; [exact R2|]. split; [exact R5|]. split.
        * intros [|[|i]] b Hi; cbn in Hi; try discriminate. inversion Hi; subst. exact R6.
        * intros i b Hi. cbn in Hi. rewrite nth_error_map in Hi. destruct (nth_error (objects m) i) as [o|] eqn:Eo; [|discriminate].
          cbn in Hi. inversion Hi; subst. auto.
    - intros H. assert (Hr := rep_shows _ _ H). destruct Hr as (S1 & S2 & S3 & S4). destruct H as (H1 & [G1 G2] & H3).
      unfold reads. change (st (int_to_state cf m s)) with s in H3. split; [rewrite H3, model_n_states_eq; apply encode_range, good_features; split; auto|].
      split; [exact S1|]. split; [auto|]. split; [auto|]. split; [exact S2|]. split; [apply S3; reflexivity|].
      intros i o Ho. apply S4. cbn. rewrite nth_error_map, Ho. reflexivity.
  Qed.

  Lemma reads_st x w : Rep x w -> reads cf m (st x) w.
  Proof. intros H. apply reads_rep, rep_int; auto. Qed.

  Lemma stage_exists h : (0 <= h < n_htm_states m)%Z -> exists g, stage_index m g = h /\ (forall i, g = Doing i -> i < length (htm_nodes m)).
  Proof.
    unfold n_htm_states. intros H. destruct (Z.eq_dec h (htm_clean m)) as [->|H1]; [exists Cleaning; split; [reflexivity|discriminate]|].
    destruct (Z.eq_dec h (htm_final m)) as [->|H2]; [exists Finished; split; [reflexivity|discriminate]|].
    unfold htm_clean in H1. unfold htm_final in H2. exists (Doing (Z.to_nat h)). cbn. split; [lia|]. intros i E. inversion E; lia.
  Qed.

  Lemma reads_exists s : (0 <= s < model_n_states cf m)%Z -> exists w, reads cf m s w.
  Proof.
    intros Hs. rewrite model_n_states_eq in Hs. destruct (encode_exists _ _ _ _ _ Hs) as [f [Hf E]].
    destruct Hf as (F1 & F2 & F3 & F4). destruct (stage_exists _ F1) as [g [Eg Hg]].
    destruct f as [fh fp fb fo]; cbn in *. destruct fb as [|b [|]]; try discriminate.
    exists {| w_stage := g; w_prefs := fp; w_holding := b;
              w_has := fun o => match index_of String.eqb o (objects m) with Some i => nth i fo false | None => false end |}.
    apply reads_rep. split; [apply siz_int|]. split; [split; auto|]. change (st (int_to_state cf m s)) with s. rewrite E. f_equal.
    unfold feat; cbn. rewrite Eg. f_equal. apply list_ext; [rewrite map_length; auto|].
    intros i c Hi. rewrite nth_error_map. assert (Hlt : i < length (objects m)) by (rewrite <- F4; apply nth_error_Some; congruence).
    destruct (nth_error (objects m) i) as [o|] eqn:Eo; [|apply nth_error_None in Eo; lia]. cbn.
    destruct (index_of String.eqb o (objects m)) as [k|] eqn:Ek.
    - apply (index_of_eqb_Some _ seqb_iff) in Ek. assert (k = i) as ->.
      { pose proof (b_nodup _ _ _ _ _ B) as Hn. rewrite NoDup_nth_error in Hn. apply Hn; [apply nth_error_Some; congruence|congruence]. }
      f_equal. apply nth_error_nth; auto.
    - apply (index_of_eqb_None _ seqb_iff) in Ek. exfalso. apply Ek. eapply nth_error_In; eauto.
  Qed.

  (** Two worlds read from the same state agree. *)
  Lemma reads_same s w w' : reads cf m s w -> reads cf m s w' -> same_world (objects m) w w'.
  Proof.
    intros H H'. apply reads_rep in H. apply reads_rep in H'.
    assert (E : feat w = feat w').
    { eapply (shows_inj _ _ _ _ (int_to_state cf m s)); [apply good_features, H|apply good_features, H'|apply rep_shows, H|apply rep_shows, H']. }
    unfold feat in E. injection E as E1 E2 E3 E4. split; [|split; [auto|split; [auto|]]].
    - destruct H as (_ & [G _] & _). destruct H' as (_ & [G' _] & _).
      destruct (w_stage w) as [i| |], (w_stage w') as [j| |]; cbn in E1; unfold htm_clean, htm_final in E1;
        try specialize (G _ eq_refl); try specialize (G' _ eq_refl); try reflexivity; try lia. f_equal. lia.
    - intros o Ho. apply In_nth_error in Ho. destruct Ho as [i Hi].
      assert (E5 := f_equal (fun l => nth_error l i) E4). cbn in E5. rewrite !nth_error_map, Hi in E5. cbn in E5. congruence.
  Qed.

  Lemma rep_ext x w w' : Rep x w -> same_world (objects m) w w' -> Rep x w'.
  Proof.
    intros (H1 & [G1 G2] & H3) (S1 & S2 & S3 & S4). split; [auto|]. split; [split; [intros i Hi; apply G1; congruence|congruence]|]. rewrite H3. f_equal.
    unfold feat. rewrite S1, S2, S3. f_equal. apply map_ext_in; auto.
  Qed.

  Lemma replace_map (h : string -> bool) o b i : forall l, NoDup l -> nth_error l i = Some o ->
    replace i b (map h l) = map (fun o' => if String.eqb o' o then b else h o') l.
  Proof.
    revert i. intros i l; revert i; induction l as [|y t IH]; intros [|i] Hn E; try discriminate; inversion Hn; subst.
    - cbn in E. inversion E; subst. cbn. rewrite String.eqb_refl. f_equal. apply map_ext_in. intros a Ha.
      destruct (String.eqb_spec a o); [subst; contradiction|reflexivity].
    - cbn in E. cbn. destruct (String.eqb_spec y o) as [->|]; [exfalso; apply nth_error_In in E; contradiction|].
      f_equal. apply IH; auto.
  Qed.

  Lemma rep_set_obj x w i o b : Rep x w -> nth_error (objects m) i = Some o -> Rep (set_object x i (Z.b2z b)) (with_object w o b).
  Proof.
    intros (H1 & H2 & H3) E. split; [apply sized_with, H1|]. split; [exact H2|].
    rewrite (set_object_spec _ _ _ _ _ _ (good_features _ H2) H3); [|apply nth_error_Some; congruence].
    f_equal. unfold upd_objs, feat; cbn. f_equal. apply replace_map; auto. apply (b_nodup _ _ _ _ _ B).
  Qed.
  Lemma rep_set_htm x w g : Rep x w -> (forall i, g = Doing i -> i < length (htm_nodes m)) -> Rep (set_htm x (stage_index m g)) (with_stage w g).
  Proof.
    intros (H1 & H2 & H3) Hg. split; [apply sized_with, H1|]. split; [split; [exact Hg|exact (proj2 H2)]|].
    rewrite (set_htm_spec _ _ _ _ _ _ H1 (good_features _ H2) H3). reflexivity.
  Qed.

  Definition with_prefs (w : world) (l : list bool) : world :=
    {| w_stage := w_stage w; w_prefs := l; w_holding := w_holding w; w_has := w_has w |}.
  Definition with_has (w : world) (h : string -> bool) : world :=
    {| w_stage := w_stage w; w_prefs := w_prefs w; w_holding := w_holding w; w_has := h |}.

  Definition flip_has (d : nat -> bool) (h : string -> bool) (o : string) : bool :=
    match index_of String.eqb o (objects m) with Some i => xorb (d i) (h o) | None => h o end.

  Lemma flip_map (d : nat -> bool) h : flip (map d (seq 0 (length (objects m)))) (map h (objects m)) = map (flip_has d h) (objects m).
  Proof.
    unfold flip. apply list_ext.
    - rewrite !map_length, combine_length, !map_length, seq_length. lia.
    - intros i b E. rewrite nth_error_map in E |- *.
      assert (HC : forall {A C} (l : list A) (l' : list C) k, nth_error (combine l l') k = match nth_error l k, nth_error l' k with Some a, Some c => Some (a, c) | _, _ => None end).
      { intros A C l. induction l as [|a l IH]; intros l' [|k]; cbn; auto; destruct l'; cbn; auto. destruct (nth_error l k); reflexivity. }
      rewrite HC, !nth_error_map in E. destruct (nth_error (objects m) i) as [o|] eqn:Eo.
      + assert (Hi : i < length (objects m)) by (apply nth_error_Some; congruence).
        replace (nth_error (seq 0 (length (objects m))) i) with (Some i) in E.
        * cbn in E. inversion E; subst. cbn. f_equal. unfold flip_has.
          destruct (index_of String.eqb o (objects m)) as [k|] eqn:Ek.
          -- apply (index_of_eqb_Some _ seqb_iff) in Ek. pose proof (b_nodup _ _ _ _ _ B) as Hn. rewrite NoDup_nth_error in Hn.
             rewrite (Hn i k); [reflexivity|auto|congruence].
          -- apply (index_of_eqb_None _ seqb_iff) in Ek. exfalso; apply Ek. eapply nth_error_In; eauto.
        * symmetry. rewrite (nth_error_nth' _ 0) by (rewrite seq_length; auto). rewrite seq_nth; auto.
      + cbn in E. destruct (option_map d (nth_error (seq 0 (length (objects m))) i)); discriminate.
  Qed.

  Lemma rep_random_obj x w d : Rep x w ->
    Rep (random_object_changes (map d (seq 0 (length (objects m)))) x) (with_has w (flip_has d (w_has w))).
  Proof.
    intros (H1 & H2 & H3).
    destruct (flip_objects _ _ _ _ (map d (seq 0 (length (objects m)))) 0 x _ H1 (good_features _ H2) H3) as [I1 I2].
    { rewrite map_length, seq_length. reflexivity. }
    split; [exact I1|]. split; [exact H2|]. unfold random_object_changes. rewrite I2. f_equal.
    unfold upd_objs, feat; cbn [f_htm f_prefs f_body f_objs firstn skipn app with_has w_stage w_prefs w_holding w_has]. f_equal. apply flip_map.
  Qed.
  Lemma rep_random_pref x w d : Rep x w ->
    Rep (random_preference_changes (map d (seq 0 (cf_preferences cf))) x) (with_prefs w (flip (map d (seq 0 (cf_preferences cf))) (w_prefs w))).
  Proof.
    intros (H1 & H2 & H3).
    destruct (flip_prefs _ _ _ _ (map d (seq 0 (cf_preferences cf))) 0 x _ H1 (good_features _ H2) H3) as [I1 I2].
    { rewrite map_length, seq_length. reflexivity. }
    split; [exact I1|]. split; [|unfold random_preference_changes; rewrite I2; f_equal].
    split; [exact (proj1 H2)|]. cbn. unfold flip. rewrite map_length, combine_length, map_length, seq_length, (proj2 H2). lia.
  Qed.

  (** ** Conditions *)
  Local Open Scope Q_scope.

  Lemma has0 x w i o : Rep x w -> nth_error (objects m) i = Some o -> Z.eqb (has_object x i) 0 = negb (w_has w o).
  Proof. intros H E. rewrite (rep_obj _ _ _ _ H E). destruct (w_has w o); reflexivity. Qed.

  Lemma missing_S n h : missing_cost cf ((if h : bool then 0 else 1) + n) == (if negb h then cost_get cf else 0) + missing_cost cf n.
  Proof. unfold missing_cost. destruct h; cbn [negb Nat.add]; [ring|]. rewrite Nat2Z.inj_succ. unfold Z.succ. rewrite inject_Z_plus. ring. Qed.

  Lemma update_sound d cs : forall k pcs x w, Forall2 (linked (objects m)) cs pcs -> Rep x w ->
    exists h' n, Rep (fst (update_for_conditions cf d k cs x)) (with_has w h') /\
                 meets pcs (w_has w) h' n /\ snd (update_for_conditions cf d k cs x) == - missing_cost cf n.
  Proof.
    induction cs as [|[c i] t IH]; intros k pcs x w HF Hr; inversion HF; subst.
    - exists (w_has w), 0%nat. split; [destruct w; exact Hr|]. split; [constructor|]. cbn. unfold missing_cost. ring.
    - match goal with H : linked _ _ ?y |- _ => destruct y as [c' o]; destruct H as [E1 E2]; cbn in E1, E2; subst c' end.
      cbn [update_for_conditions].
      set (x1 := match c with CConsumes => set_object x i 0 | CSome => set_object x i (if d_consume d k then 0 else 1) | CUses => set_object x i 1 | COther => x end).
      assert (Hx1 : exists b, Rep x1 (with_object w o b) /\ (c = CConsumes -> b = false) /\ (c = CUses -> b = true) /\ (c = COther -> b = w_has w o)).
      { destruct c; unfold x1.
        - exists false. split; [exact (rep_set_obj x w i o false Hr E2)|]. repeat split; auto; discriminate.
        - exists true. split; [exact (rep_set_obj x w i o true Hr E2)|]. repeat split; auto; discriminate.
        - exists (negb (d_consume d k)). split; [|repeat split; auto; discriminate].
          replace (if d_consume d k then 0%Z else 1%Z) with (Z.b2z (negb (d_consume d k))) by (destruct (d_consume d k); reflexivity).
          exact (rep_set_obj x w i o _ Hr E2).
        - exists (w_has w o). split; [|repeat split; auto; discriminate]. eapply rep_ext; [exact Hr|].
          repeat split; auto. intros o' _. cbn. destruct (String.eqb_spec o' o); congruence. }
      destruct Hx1 as [b (Hx1 & C1 & C2 & C3)].
      match goal with H : Forall2 _ t ?l |- _ => destruct (IH (S k) l x1 _ H Hx1) as [h' [n (I1 & I2 & I3)]] end.
      destruct (update_for_conditions cf d (S k) t x1) as [x'' r'] eqn:Eu. cbn [fst snd] in *.
      exists h', ((if w_has w o then 0 else 1) + n)%nat. split; [exact I1|]. split.
      + apply meets_cons with (h1 := w_has (with_object w o b)); auto; cbn.
        * intros o' Ho. destruct (String.eqb_spec o' o); [contradiction|reflexivity].
        * rewrite String.eqb_refl; auto.
        * rewrite String.eqb_refl; auto.
        * rewrite String.eqb_refl; auto.
      + rewrite I3, missing_S, (has0 _ _ _ _ Hr E2). destruct (w_has w o); cbn [negb]; ring.
  Qed.

  Lemma update_complete pcs h h' n : meets pcs h h' n -> forall cs k x w, Forall2 (linked (objects m)) cs pcs -> Rep x w ->
    (forall o, w_has w o = h o) ->
    exists dc, forall d, (forall j, (k <= j)%nat -> d_consume d j = dc j) ->
      Rep (fst (update_for_conditions cf d k cs x)) (with_has w h') /\
      snd (update_for_conditions cf d k cs x) == - missing_cost cf n.
  Proof.
    induction 1 as [h|c o t h h1 h' n H1 H2 H3 H4 H5 IH]; intros cs k x w HF Hr Hh; inversion HF; subst.
    - exists (fun _ => true). intros d _. cbn. split; [|unfold missing_cost; ring].
      eapply rep_ext; [exact Hr|]. repeat split; auto; cbn; auto.
    - match goal with H : linked _ ?y _ |- _ => destruct y as [c' i]; destruct H as [E1 E2]; cbn in E1, E2; subst c' end.
      assert (Hx1 : Rep (set_object x i (Z.b2z (h1 o))) (with_has w h1)).
      { eapply rep_ext; [exact (rep_set_obj x w i o (h1 o) Hr E2)|]. repeat split; auto. intros o' _. cbn.
        destruct (String.eqb_spec o' o); [congruence|]. rewrite H1; auto. }
      match goal with H : Forall2 _ ?l t |- _ => destruct (IH l (S k) _ _ H Hx1 ltac:(reflexivity)) as [dc Hdc] end.
      exists (fun j => if Nat.eqb j k then negb (h1 o) else dc j). intros d Hd.
      cbn [update_for_conditions].
      assert (Ed : d_consume d k = negb (h1 o)) by (rewrite Hd by lia; rewrite Nat.eqb_refl; reflexivity).
      set (x1 := match c with CConsumes => set_object x i 0 | CSome => set_object x i (if d_consume d k then 0 else 1) | CUses => set_object x i 1 | COther => x end).
      destruct (Hdc d) as [I1 I2].
      { intros j Hj. rewrite Hd by lia. destruct (Nat.eqb_spec j k); [lia|reflexivity]. }
      assert (Ex : x1 = set_object x i (Z.b2z (h1 o))).
      { unfold x1. destruct c.
        - rewrite H2; auto.
        - rewrite H3; auto.
        - rewrite Ed. destruct (h1 o); reflexivity.
        - rewrite H4, <- Hh by auto. rewrite <- (rep_obj _ _ _ _ Hr E2).
          unfold set_object, set_bit, has_object, with_s. destruct x; cbn. f_equal. lia. }
      rewrite Ex. destruct (update_for_conditions cf d (S k) _ _) as [x'' r'] eqn:Eu. cbn [fst snd] in *.
      split; [exact I1|]. rewrite I2, missing_S, (has0 _ _ _ _ Hr E2), Hh. destruct (h o); cbn [negb]; ring.
  Qed.
End Rep.
