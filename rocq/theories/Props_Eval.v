(** C39, C70, C71: horizons and evaluation. *)
From Verif Require Import QBase PyBase PyBaseFacts HtmModel DagModel CodecModel SuppModel SuppSpec SuppProofs SuppProofs2 SuppProofs3 SuppProofs4 Props_Supp EvalModel EvalSpec EvalProofs.
From Coq Require Import Lia Lqa Qpower.
Local Open Scope nat_scope.

(** *** C39 *)
Theorem C39_transitions : forall (St : Type) n (hist : list (St * St)),
  nt_reached (fold_left (fun h _ => nt_decrement h) hist (nt_init n)) = true <-> (n <= Z.of_nat (length hist))%Z.
Proof.
  intros St n hist. unfold nt_init. revert n. induction hist as [|x hist IH]; intros n; cbn [fold_left length].
  - unfold nt_reached. cbn. apply Z.leb_le.
  - unfold nt_decrement at 2. cbn. rewrite IH. lia.
Qed.
Print Assumptions C39_transitions.

Theorem C39_htm : forall (St : Type) (htm_of : St -> Z) (final : St -> bool) n hist,
  ht_reached (fold_left (fun h ss => ht_decrement htm_of final h (fst ss) (snd ss)) hist (ht_init n)) = true <->
  (n <= Z.of_nat (count_changes htm_of hist))%Z \/ exists s s', In (s, s') hist /\ final s' = true.
Proof.
  intros St htm_of final n hist. unfold ht_init. revert n. induction hist as [|[s s'] hist IH]; intros n; cbn [fold_left count_changes fst snd].
  - unfold ht_reached. cbn. rewrite Z.leb_le. split; [auto|]. intros [H|[s [s' [[] _]]]]; auto.
  - unfold ht_decrement at 2. cbn [ht_n]. rewrite IH. destruct (final s') eqn:Ef.
    + split; [|intros _; left; lia]. intros _. right. exists s, s'. simpl; auto.
    + split.
      * intros [H|[u [u' [H1 H2]]]]; [|right; exists u, u'; simpl; auto]. left. destruct (Z.eqb (htm_of s) (htm_of s')); cbn in *; lia.
      * intros [H|[u [u' [[H1|H1] H2]]]]; [|congruence|right; eauto]. left. destruct (Z.eqb (htm_of s) (htm_of s')); cbn in *; lia.
Qed.
Print Assumptions C39_htm.

Theorem C39_finished : forall (St : Type) (final : St -> bool) n (hist : list (St * St)),
  fo_reached (fold_left (fun h ss => fo_decrement final h (fst ss) (snd ss)) hist (fo_init n)) = true <->
  (n <= Z.of_nat (length hist))%Z \/ exists hist0 s s', hist = hist0 ++ [(s, s')] /\ final s' = true.
Proof.
  intros St final n hist. revert n. induction hist as [|[s s'] hist IH] using rev_ind; intros n.
  - cbn. unfold fo_reached. cbn. rewrite orb_false_r, Z.leb_le. split; [auto|]. intros [H|[h [s [s' [H _]]]]]; [auto|]. destruct h; discriminate.
  - rewrite fold_left_app. cbn [fold_left fst snd]. unfold fo_reached, fo_decrement. cbn [fo_n fo_final]. rewrite orb_true_iff, Z.leb_le.
    assert (HN : forall h n, fo_n (fold_left (fun h ss => fo_decrement final h (fst ss) (snd ss)) h {| fo_n := n; fo_final := false |}) = (n - Z.of_nat (length h))%Z).
    { clear. intros h n. generalize false as b. revert n. induction h as [|x h IH]; intros n b; cbn [fold_left length]; [cbn; lia|]. unfold fo_decrement at 2. cbn [fo_n]. rewrite IH. lia. }
    unfold fo_init. unfold fo_decrement in HN. rewrite HN, app_length. cbn [length]. split.
    + intros [H|H]; [left; lia|right; eauto].
    + intros [H|[h [u [u' [E H]]]]]; [left; lia|]. apply app_inj_tail in E. destruct E as [_ E]. inversion E; subst. auto.
Qed.
Print Assumptions C39_finished.

(** Copies: the two counting horizons. *)
Theorem C39_copy_counting : forall (St : Type) (htm_of : St -> Z) (final : St -> bool) (hist : list (St * St)),
  (forall h, nt_reached (fold_left (fun h _ => nt_decrement h) hist (nt_copy h)) = nt_reached (fold_left (fun h _ => nt_decrement h) hist h)) /\
  (forall h, ht_reached (fold_left (fun h ss => ht_decrement htm_of final h (fst ss) (snd ss)) hist (ht_copy h)) =
             ht_reached (fold_left (fun h ss => ht_decrement htm_of final h (fst ss) (snd ss)) hist h)).
Proof. intros. split; intros [n]; reflexivity. Qed.
Print Assumptions C39_copy_counting.

(** The copy of a finished-or-n horizon that has seen a final state is not reached any more. *)
Theorem C39_copy_refuted : forall (St : Type) (final : St -> bool) n (hist : list (St * St)) s s',
  final s' = true -> (Z.of_nat (length hist) + 1 < n)%Z ->
  let h := fold_left (fun h ss => fo_decrement final h (fst ss) (snd ss)) (hist ++ [(s, s')]) (fo_init n) in
  fo_reached h = true /\ fo_reached (fo_copy h) = false.
Proof.
  intros St final n hist s s' Hf Hn h. split; [apply C39_finished; right; exists hist, s, s'; auto|].
  assert (HN : forall l n b, fo_n (fold_left (fun h ss => fo_decrement final h (fst ss) (snd ss)) l {| fo_n := n; fo_final := b |}) = (n - Z.of_nat (length l))%Z).
  { clear. induction l as [|x l IH]; intros n b; cbn [fold_left length]; [cbn; lia|]. unfold fo_decrement at 2. cbn [fo_n]. rewrite IH. lia. }
  unfold fo_reached, fo_copy. subst h. cbn [fo_n fo_final fo_init].
  rewrite (HN _ n false : fo_n (fold_left _ _ (fo_init n)) = _), app_length. cbn [length]. rewrite orb_false_r. apply Z.leb_gt. lia.
Qed.
Print Assumptions C39_copy_refuted.
(** It behaves as the original when the last state was not final, and in all cases after one more transition. *)
Theorem C39_copy_partial : forall (St : Type) (final : St -> bool) (hist : list (St * St)) h,
  hist <> [] \/ fo_final h = false ->
  fo_reached (fold_left (fun h ss => fo_decrement final h (fst ss) (snd ss)) hist (fo_copy h)) =
  fo_reached (fold_left (fun h ss => fo_decrement final h (fst ss) (snd ss)) hist h).
Proof.
  intros St final [|x hist] [n b] H; [|reflexivity]. destruct H as [H|H]; [congruence|]. cbn in *. subst b. reflexivity.
Qed.
Print Assumptions C39_copy_partial.
Example C39_ex : let hist := [(0, 1); (1, 1); (1, 2)]%Z in
  count_changes (fun s => s) hist = 2 /\
  fo_reached (fold_left (fun h ss => fo_decrement (Z.eqb 2) h (fst ss) (snd ss)) hist (fo_init 9)) = true.
Proof. vm_compute. auto. Qed.

(** *** C70 *)
Theorem C70_record : forall (St P : Type) (final : St -> bool) (m : emodel St) (pol : epolicy P) p max_horizon discount rec q,
  simulate_one_evaluation final m pol p max_horizon discount = Ok (rec, q) ->
  exists p0 s0 l, ep_reset pol p = Ok p0 /\ em_start m = Ok s0 /\ trace m pol 0 p0 s0 l q /\
    r_states rec = s0 :: map s_state l /\ r_actions rec = map s_action l /\
    r_observations rec = map s_observation l /\ r_rewards rec = map s_reward l /\
    (Z.of_nat (length l) <= Z.max 0 max_horizon)%Z /\
    (forall l1 x l2, l = l1 ++ x :: l2 -> l2 <> [] -> final (s_state x) = false) /\
    (length l = Z.to_nat max_horizon \/ exists l1 x, l = l1 ++ [x] /\ final (s_state x) = true).
Proof.
  intros St P final m pol p max_horizon discount rec q E. unfold simulate_one_evaluation in E.
  destruct (ep_reset pol p) as [p0|] eqn:Ep; [|discriminate]. cbn [bind] in E.
  destruct (em_start m) as [s0|] eqn:Es; [|discriminate]. cbn [bind] in E.
  apply loop_spec in E; [|reflexivity]. destruct E as [l (T & H1 & H2 & H3 & H4 & H5 & H6 & H7 & H8)].
  exists p0, s0, l. cbn in *. auto 12.
Qed.
Print Assumptions C70_record.

(** The simulation always ends: it returns a record whenever the policy and the model never raise. *)
Theorem C70_total : forall (St P : Type) (final : St -> bool) (m : emodel St) (pol : epolicy P) (Inv : P -> Prop) (Good : St -> Prop) p p0 s0 max_horizon discount,
  (forall p, Inv p -> exists nm p1, ep_action pol p = Ok (nm, p1) /\ In nm (em_actions m) /\
    forall ob, In ob (em_observations m) -> exists p2, ep_step pol p1 ob = Ok p2 /\ Inv p2) ->
  (forall k a s, Good s -> a < length (em_actions m) ->
    exists s' o r, em_transition m k a s = Ok (s', o, r) /\ o < length (em_observations m) /\ Good s') ->
  ep_reset pol p = Ok p0 -> Inv p0 -> em_start m = Ok s0 -> Good s0 ->
  exists rec q, simulate_one_evaluation final m pol p max_horizon discount = Ok (rec, q).
Proof.
  intros St P final m pol Inv Good p p0 s0 max_horizon discount H1 H2 E1 I1 E2 G2. unfold simulate_one_evaluation. rewrite E1, E2. cbn [bind].
  eapply loop_total; eauto.
Qed.
Print Assumptions C70_total.

(** Evaluating a policy on a supportive model always ends, at the first final state or after max_horizon
    transitions, and no state before the last is final. *)
Theorem C70_supportive : forall cf ordn t m disc d0 ds (P : Type) (pol : epolicy P) (Inv : P -> Prop) p p0 max_horizon discount,
  is_order ordn -> mk_supportive ordn t = Ok m -> 1 <= cf_preferences cf ->
  (forall p, Inv p -> exists nm p1, ep_action pol p = Ok (nm, p1) /\ In nm (actions m) /\
    forall ob, In ob observations -> exists p2, ep_step pol p1 ob = Ok p2 /\ Inv p2) ->
  ep_reset pol p = Ok p0 -> Inv p0 ->
  exists rec q, simulate_one_evaluation (model_is_final cf m) (supportive_model cf m disc d0 ds) pol p max_horizon discount = Ok (rec, q) /\
    (forall k s, nth_error (r_states rec) k = Some s -> k < length (r_actions rec) -> model_is_final cf m s = false) /\
    (length (r_actions rec) = Z.to_nat max_horizon \/
     exists s, nth_error (r_states rec) (length (r_actions rec)) = Some s /\ model_is_final cf m s = true).
Proof.
  intros cf ordn t m disc d0 ds P pol Inv p p0 max_horizon discount Ho E Hc Hpol Ep Ip.
  destruct (mk_facts _ _ _ Ho E) as [nodes [succs [init [ps (Ed & B & D)]]]].
  destruct (C38_start cf ordn t m _ _ _ Ho E Ed) as [HS _]. destruct (HS d0) as [s0 [w0 [i (S1 & S2 & S3 & S4 & S5)]]].
  destruct (C33_total cf ordn t m Ho E Hc) as [HT _]. destruct (C32_names ordn t m Ho E) as (HN & _).
  assert (G : forall k a s, (0 <= s < model_n_states cf m)%Z -> a < length (em_actions (supportive_model cf m disc d0 ds)) ->
    exists s' o r, em_transition (supportive_model cf m disc d0 ds) k a s = Ok (s', o, r) /\
      o < length (em_observations (supportive_model cf m disc d0 ds)) /\ (0 <= s' < model_n_states cf m)%Z).
  { intros k a s Hs Ha. destruct (HT (ds k) true (Z.of_nat a) s Hs) as [s' [o [r (X1 & X2 & X3)]]].
    - rewrite HN. change (em_actions (supportive_model cf m disc d0 ds)) with (actions m) in Ha. lia.
    - exists s', o, r. auto. }
  destruct (C70_total Z P (model_is_final cf m) (supportive_model cf m disc d0 ds) pol Inv (fun s => (0 <= s < model_n_states cf m)%Z)
             p p0 s0 max_horizon discount Hpol G Ep Ip S1 (proj1 S2)) as [rec [q Er]].
  exists rec, q. split; [exact Er|]. apply C70_record in Er.
  destruct Er as [p0' [s0' [l (R1 & R2 & R3 & R4 & R5 & R6 & R7 & R8 & R9 & R10)]]].
  assert (s0' = s0) as -> by (cbn in R2; congruence).
  assert (F0 : model_is_final cf m s0 = false).
  { apply reads_rep in S2. unfold model_is_final. rewrite (rep_final _ _ _ _ S2), S4. reflexivity. }
  rewrite R4, R5, map_length. split.
  - intros [|k] s Hk Hlt; cbn in Hk; [congruence|]. rewrite nth_error_map in Hk. destruct (nth_error l k) as [x|] eqn:Ek; [|discriminate].
    assert (s_state x = s) as <- by (cbn in Hk; congruence). destruct (nth_error_split _ _ Ek) as [l1 [l2 [El Hlen]]].
    apply (R9 l1 x l2 El). intros ->. rewrite El, app_length in Hlt. cbn in Hlt. lia.
  - destruct R10 as [R10|[l1 [x [El Hx]]]]; [auto|]. right. exists (s_state x). split; [|auto]. subst l. rewrite app_length, Nat.add_1_r. cbn [nth_error].
    rewrite nth_error_map, nth_error_app2, Nat.sub_diag by lia. reflexivity.
Qed.
Print Assumptions C70_supportive.

(** A scripted policy on the example of Props_Supp. *)
Definition ex_policy : epolicy (list string) :=
  {| ep_reset := fun _ => Ok ["hold H"; "wait"; "wait"]%string;
     ep_action := fun p => match p with [] => Ok ("wait"%string, []) | a :: t => Ok (a, t) end;
     ep_step := fun p _ => Ok p |}.
Example C70_ex : exists rec q, simulate_one_evaluation (model_is_final default_config ex_model)
    (supportive_model default_config ex_model (9 # 10) ex_draws (fun _ => ex_draws)) ex_policy [] 10 true = Ok (rec, q) /\
  length (r_actions rec) = 3 /\ r_actions rec = [1; 0; 0] /\ map (fun r => Qred r) (r_rewards rec) = [-22; 10; 85]%Q.
Proof. eexists; eexists. split; [vm_compute; reflexivity|]. vm_compute. auto. Qed.

(** *** C71 *)
Theorem C71_return_partial : forall (St P : Type) (final : St -> bool) (m : emodel St) (pol : epolicy P) p max_horizon discount rec q,
  simulate_one_evaluation final m pol p max_horizon discount = Ok (rec, q) ->
  let gamma := if discount then em_discount m else 1%Q in
  (* what is returned discounts the rewards in reverse order *)
  (r_return rec == discounted gamma (rev (r_rewards rec)))%Q /\
  (* without discount it is the sum of the rewards *)
  (discount = false -> (r_return rec == discounted 1 (r_rewards rec))%Q).
Proof.
  intros St P final m pol p max_horizon discount rec q E gamma. unfold simulate_one_evaluation in E.
  destruct (ep_reset pol p) as [p0|] eqn:Ep; [|discriminate]. cbn [bind] in E.
  destruct (em_start m) as [s0|] eqn:Es; [|discriminate]. cbn [bind] in E.
  apply loop_spec in E; [|reflexivity]. destruct E as [l (_ & _ & _ & _ & H4 & H5 & _)].
  assert (HR : (r_return rec == discounted gamma (rev (r_rewards rec)))%Q).
  { rewrite H5, fold_return. fold gamma. cbn in H4. rewrite H4. ring. }
  split; [exact HR|]. intros ->. rewrite HR. unfold gamma. clear.
  induction (r_rewards rec) as [|r l' IH]; [reflexivity|]. cbn [rev discounted]. rewrite discounted_app, IH.
  rewrite Qpower_1. ring.
Qed.
Print Assumptions C71_return_partial.

Theorem C71_return_refuted : exists (P : Type) (pol : epolicy P) p rec q,
  simulate_one_evaluation (model_is_final default_config ex_model)
    (supportive_model default_config ex_model (9 # 10) ex_draws (fun _ => ex_draws)) pol p 10 true = Ok (rec, q) /\
  ~ (r_return rec == discounted (9 # 10) (r_rewards rec))%Q.
Proof.
  exists (list string), ex_policy, []. eexists; eexists. split; [vm_compute; reflexivity|]. vm_compute. discriminate.
Qed.
Print Assumptions C71_return_refuted.
