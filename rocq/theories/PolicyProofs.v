(** Proofs for C50 to C55. *)
From Verif Require Import PyBase PyBaseFacts QBase PomdpModel PomdpSpec PomdpProofs PomdpProofs2 SuppModel PolicyModel PolicySpec Props_Pomdp.
From Coq Require Import Lia Lqa.
Local Open Scope list_scope.
Local Open Scope nat_scope.

Lemma combine_sum (f : Q -> Q -> Q) : forall u v, length u = length v ->
  (sumQ (map (fun xy => f (fst xy) (snd xy)) (combine u v)) == sum_n (length u) (fun i => f (nth i u 0) (nth i v 0)))%Q.
Proof.
  intros u. induction u as [|x u IH] using rev_ind; intros v Hl; [reflexivity|].
  destruct v as [|y v _] using rev_ind; [rewrite app_length in Hl; cbn in Hl; lia|]. rewrite !app_length in Hl. cbn in Hl.
  assert (HC : forall (a b : list Q) x y, length a = length b -> combine (a ++ [x]) (b ++ [y]) = combine a b ++ [(x, y)]).
  { clear. induction a as [|p a IHa]; intros [|q b] x y H; try discriminate; [reflexivity|]. cbn. rewrite IHa by (cbn in H; lia). reflexivity. }
  rewrite HC by lia. rewrite map_app. unfold sumQ. rewrite sum_app. cbn [map fst snd]. rewrite sum_cons. unfold sum_over at 2. cbn [fold_right map].
  rewrite app_length. cbn [length]. rewrite Nat.add_1_r, sum_n_S. change (sum_over (map (fun xy => f (fst xy) (snd xy)) (combine u v)) (fun z => z)) with (sumQ (map (fun xy => f (fst xy) (snd xy)) (combine u v))).
  rewrite IH by lia. rewrite (sum_n_ext (length u) (fun i => f (nth i (u ++ [x]) 0) (nth i (v ++ [y]) 0))%Q (fun i => f (nth i u 0) (nth i v 0))%Q).
  2:{ intros i Hi. rewrite !app_nth1 by lia. reflexivity. }
  rewrite (app_nth2 u), (app_nth2 v) by lia. replace (length u - length v) with 0 by lia. rewrite Nat.sub_diag. cbn [nth]. ring.
Qed.
Lemma dot_scalar r b : length r = length b -> (dot r b == scalar r b)%Q.
Proof. intros H. unfold dot, scalar. rewrite (combine_sum Qmult) by auto. rewrite H. reflexivity. Qed.
Lemma sq_dist_distance u v : length u = length v -> (sq_dist u v == distance2 u v)%Q.
Proof. intros H. unfold sq_dist, distance2. apply (combine_sum (fun x y => (x - y) * (x - y))%Q). auto. Qed.

Lemma argmaxQ_from_spec l : forall i bst v pre, length pre = i -> bst < i -> nth bst pre 0%Q = v ->
  (forall m, m < i -> (nth m pre 0 <= v)%Q) -> (forall m, m < bst -> (nth m pre 0 < v)%Q) ->
  let k := argmaxQ_from i bst v l in let all := pre ++ l in
  k < length all /\ (forall m, m < length all -> (nth m all 0 <= nth k all 0)%Q) /\ (forall m, m < k -> (nth m all 0 < nth k all 0)%Q).
Proof.
  induction l as [|y t IH]; intros i bst v pre Hp Hb Hv Hm Hf; cbn [argmaxQ_from].
  - cbn. rewrite app_nil_r. split; [lia|]. split; intros m H; rewrite Hv; [apply Hm; lia|apply Hf; auto].
  - replace (pre ++ y :: t) with ((pre ++ [y]) ++ t) by (rewrite <- app_assoc; reflexivity).
    destruct (Qle_bool y v) eqn:E.
    + apply Qle_bool_iff in E. apply IH; [rewrite app_length; cbn; lia|lia|rewrite app_nth1 by lia; auto| |].
      * intros m H. destruct (Nat.eq_dec m i) as [->|Hne]; [rewrite app_nth2 by lia; replace (i - length pre) with 0 by lia; cbn; auto|rewrite app_nth1 by lia; apply Hm; lia].
      * intros m H. rewrite app_nth1 by lia. auto.
    + assert (E' : (v < y)%Q) by (destruct (Qlt_le_dec v y); [auto|]; apply Qle_bool_iff in q; congruence).
      apply IH; [rewrite app_length; cbn; lia|lia|rewrite app_nth2 by lia; replace (i - length pre) with 0 by lia; reflexivity| |].
      * intros m H. destruct (Nat.eq_dec m i) as [->|Hne]; [rewrite app_nth2 by lia; replace (i - length pre) with 0 by lia; cbn; lra|]. rewrite app_nth1 by lia. specialize (Hm m). assert (m < i) by lia. specialize (Hm H0). lra.
      * intros m H. rewrite app_nth1 by lia. assert (H0 : m < i) by lia. specialize (Hm m H0). lra.
Qed.
Lemma argmaxQ_spec l : l <> [] -> exists k, argmaxQ l = Ok k /\ k < length l /\ (forall m, m < length l -> (nth m l 0 <= nth k l 0)%Q) /\ (forall m, m < k -> (nth m l 0 < nth k l 0)%Q).
Proof.
  destruct l as [|x t]; [congruence|]. intros _. eexists; split; [reflexivity|].
  apply (argmaxQ_from_spec t 1 0 x [x]); auto; intros m H; [|lia]. replace m with 0 by lia. cbn. lra.
Qed.
Lemma argminQ_from_spec l : forall i bst v pre, length pre = i -> bst < i -> nth bst pre 0%Q = v -> (forall m, m < i -> (v <= nth m pre 0)%Q) ->
  let k := argminQ_from i bst v l in let all := pre ++ l in k < length all /\ (forall m, m < length all -> (nth k all 0 <= nth m all 0)%Q).
Proof.
  induction l as [|y t IH]; intros i bst v pre Hp Hb Hv Hm; cbn [argminQ_from].
  - cbn. rewrite app_nil_r. split; [lia|]. intros m H; rewrite Hv; apply Hm; lia.
  - replace (pre ++ y :: t) with ((pre ++ [y]) ++ t) by (rewrite <- app_assoc; reflexivity).
    destruct (Qle_bool v y) eqn:E.
    + apply Qle_bool_iff in E. apply IH; [rewrite app_length; cbn; lia|lia|rewrite app_nth1 by lia; auto|].
      intros m H. destruct (Nat.eq_dec m i) as [->|Hne]; [rewrite app_nth2 by lia; replace (i - length pre) with 0 by lia; cbn; auto|rewrite app_nth1 by lia; apply Hm; lia].
    + assert (E' : (y < v)%Q) by (destruct (Qlt_le_dec y v); [auto|]; apply Qle_bool_iff in q; congruence).
      apply IH; [rewrite app_length; cbn; lia|lia|rewrite app_nth2 by lia; replace (i - length pre) with 0 by lia; reflexivity|].
      intros m H. destruct (Nat.eq_dec m i) as [->|Hne]; [rewrite app_nth2 by lia; replace (i - length pre) with 0 by lia; cbn; lra|]. rewrite app_nth1 by lia. assert (H0 : m < i) by lia. specialize (Hm m H0). lra.
Qed.

Lemma nth_dot values b m : m < length values -> nth m (map (fun r => dot r b) values) 0%Q = dot (nth m values []) b.
Proof. intros H. rewrite (nth_indep _ _ (dot [] b)) by (rewrite map_length; auto). apply (map_nth (fun r => dot r b)). Qed.
Lemma best_unique values b n m : best values b n -> best values b m -> n = m.
Proof.
  intros (A1 & A2 & A3) (B1 & B2 & B3). destruct (Nat.lt_trichotomy n m) as [H|[H|H]]; [|auto|]; exfalso.
  - specialize (B3 n H). specialize (A2 m B1). lra.
  - specialize (A3 m H). specialize (B2 n A1). lra.
Qed.
Lemma node_spec values b n : node_from_belief values b = Ok n <-> Forall (fun r => length r = length b) values /\ best values b n.
Proof.
  assert (HE : Forall (fun r => length r = length b) values -> values <> [] -> exists k, node_from_belief values b = Ok k /\ best values b k).
  { intros HF Hne. unfold node_from_belief. assert (forallb (fun r => Nat.eqb (length r) (length b)) values = true) as ->.
    { apply forallb_forall. rewrite Forall_forall in HF. intros x Hx. apply Nat.eqb_eq; auto. }
    destruct (argmaxQ_spec (map (fun r => dot r b) values)) as (k & E & K1 & K2 & K3); [intros H; apply map_eq_nil in H; auto|].
    exists k. split; [auto|]. rewrite map_length in *.
    assert (HD : forall m, m < length values -> (dot (nth m values []) b == scalar (nth m values []) b)%Q).
    { intros m Hm. apply dot_scalar. rewrite Forall_forall in HF. apply HF. apply nth_In; auto. }
    split; [auto|]. split; intros m Hm; [specialize (K2 m Hm)|specialize (K3 m Hm)]; rewrite !nth_dot, !HD in * by lia; auto. }
  split.
  - intros E. unfold node_from_belief in E. destruct (forallb _ _) eqn:F; [|discriminate]. rewrite forallb_forall in F.
    assert (HF : Forall (fun r => length r = length b) values) by (apply Forall_forall; intros x Hx; apply Nat.eqb_eq; auto).
    split; [auto|]. destruct HE as (k & E1 & B); [auto|intros ->; discriminate|]. unfold node_from_belief in E1.
    destruct (forallb _ _); [|discriminate]. assert (k = n) as -> by congruence. auto.
  - intros [HF B]. destruct HE as (k & E1 & B1); [auto|intros ->; destruct B as [H _]; cbn in H; lia|]. rewrite (best_unique _ _ _ _ B B1). auto.
Qed.
Lemma node_err values b e : node_from_belief values b = Err e -> e = EValue /\ (values = [] \/ exists r, In r values /\ length r <> length b).
Proof.
  unfold node_from_belief. destruct (forallb _ _) eqn:F.
  - destruct values; [intros H; split; [cbn in H; congruence|auto]|]. discriminate.
  - intros H. split; [congruence|]. right. clear H. induction values as [|r t IH]; [discriminate|]. cbn in F. apply andb_false_iff in F. destruct F as [F|F].
    + exists r. split; [simpl; auto|]. apply Nat.eqb_neq. auto.
    + destruct (IH F) as (x & X1 & X2). exists x. simpl; auto.
Qed.

(** *** names *)
Lemma list_index_ok l x i : list_index l x = Ok i -> nth_error l i = Some x.
Proof.
  unfold list_index. revert i. induction l as [|y t IH]; intros i E; cbn [index_of] in E; [discriminate|].
  destruct (name_eqb x y) eqn:N; [apply name_eqb_iff in N; subst; inversion E; reflexivity|].
  destruct (index_of name_eqb x t) as [j|] eqn:J; [|discriminate]. cbn in E. inversion E; subst. apply (IH j). reflexivity.
Qed.
Lemma list_index_In l x : In x l -> exists i, list_index l x = Ok i.
Proof.
  unfold list_index. induction l as [|y t IH]; intros H; [destruct H|]. cbn [index_of]. destruct (name_eqb x y) eqn:N; [eauto|].
  destruct H as [->|H]; [assert (name_eqb x x = true) by (apply name_eqb_iff; auto); congruence|]. destruct (IH H) as [i Hi].
  destruct (index_of name_eqb x t); [cbn; eauto|discriminate].
Qed.
Lemma list_index_nth l i x : NoDup l -> nth_error l i = Some x -> list_index l x = Ok i.
Proof.
  intros ND E. destruct (list_index_In l x (nth_error_In _ _ E)) as [j Hj]. rewrite Hj. f_equal. apply list_index_ok in Hj.
  apply (proj1 (NoDup_nth_error l) ND); [apply nth_error_Some; congruence|congruence].
Qed.
Lemma list_index_err l x e : list_index l x = Err e -> e = EValue /\ ~ In x l.
Proof.
  intros E. split; [unfold list_index in E; destruct (index_of _ _ _); congruence|]. intros H. destruct (list_index_In l x H). congruence.
Qed.

Lemma none_names (obs : list name) : flat_map (fun oc : name * option ttree => match snd oc with Some _ => [fst oc] | None => [] end) (combine obs (map (fun _ => None) obs)) = [].
Proof. induction obs; simpl; auto. Qed.
Lemma none_trees (obs : list name) : flat_map (fun c : option ttree => match c with Some t => [t] | None => [] end) (map (fun _ => None) obs) = [].
Proof. induction obs; simpl; auto. Qed.

(** *** roots of trees, for any beliefs *)
Lemma reset_belief g b r : b_belief (fst (br_reset g b r)) = b /\ snd (br_reset g b r) <> Err EImpossible.
Proof.
  unfold br_reset, gr_reset. destruct (node_from_belief (g_values g) b) as [n|e] eqn:E; cbn; (split; [reflexivity|]); [discriminate|].
  apply node_err in E. destruct E as [-> _]. discriminate.
Qed.
Lemma collect_belief child b : (forall o r r' c, b_belief r = b -> child o r = (r', c) -> c <> Err EImpossible /\ forall t, c = Ok t -> b_belief r' = b) ->
  forall obs r r' cs, b_belief r = b -> collect child obs r = (r', cs) -> cs <> Err EImpossible /\ forall l, cs = Ok l -> b_belief r' = b.
Proof.
  intros HC. induction obs as [|o rest IH]; intros r r' cs Hr E; cbn [collect] in E.
  - assert (r' = r /\ cs = Ok []) as [-> ->] by (split; congruence). split; [discriminate|auto].
  - destruct (child o r) as [r1 c] eqn:E1. destruct (HC _ _ _ _ Hr E1) as [H1 H2]. destruct c as [c|e].
    + specialize (H2 c eq_refl). destruct (collect child rest r1) as [r2 cs2] eqn:E2. destruct (IH _ _ _ H2 E2) as [H3 H4].
      destruct cs2 as [l2|e]; assert (r' = r2) as -> by congruence.
      * assert (cs = Ok (c :: l2)) as -> by congruence. split; [discriminate|]. intros; eapply H4; reflexivity.
      * assert (cs = Err e) as -> by congruence. split; [congruence|discriminate].
    + assert (r' = r1 /\ cs = Err e) as [-> ->] by (split; congruence). split; [congruence|discriminate].
Qed.
Lemma trajectory_root g p : forall h r r' out, trajectory g p h r = (r', out) -> out <> Err EImpossible /\ forall t, out = Ok t -> b_belief r' = b_belief r /\ root t = b_belief r.
Proof.
  induction h as [|h IH]; intros r r' out E; cbn [trajectory] in E.
  all: match type of E with context [collect ?f _ _] => set (child := f) in E end.
  all: assert (HC : forall o r0 r1 c, b_belief r0 = b_belief r -> child o r0 = (r1, c) -> c <> Err EImpossible /\ forall t, c = Ok t -> b_belief r1 = b_belief r).
  - intros o r0 r1 c H0 E1. unfold child in E1. assert (r1 = r0 /\ c = Ok None) as [-> ->] by (split; congruence). split; [discriminate|auto].
  - destruct (collect child (p_observations p) r) as [r1 cs] eqn:E1. destruct (collect_belief child _ HC _ _ _ _ eq_refl E1) as [H1 H2].
    destruct cs as [cs|e]; [|assert (out = Err e) as -> by congruence; split; [congruence|discriminate]]. specialize (H2 cs eq_refl).
    destruct (gr_action g (b_node r1)) as [a|e] eqn:Ea.
    + destruct (b_node r1) as [n|]; [|discriminate]. assert (r' = r1) as -> by congruence. match type of E with (_, ?x) = _ => assert (out = x) as -> by congruence end.
      split; [discriminate|]. intros t Et. match type of Et with Ok ?x = _ => assert (t = x) as -> by congruence end. cbn [root]. auto.
    + assert (out = Err e) as -> by congruence. split; [|discriminate]. intros X. assert (e = EImpossible) as -> by congruence. destruct (b_node r1); cbn [gr_action] in Ea; [|discriminate].
      unfold gp_action, axis in Ea. destruct (_ || _)%bool; cbn [bind] in Ea; [discriminate|]. destruct (nth_error _ _); discriminate.
  - intros o r0 r1 c H0 E1. unfold child in E1. destruct (br_step g p o r0) as [r2 e2] eqn:E2.
    assert (HB : e2 = Err EImpossible -> r2 = r0).
    { intros ->. unfold br_step in E2. destruct (bind _ _) as [nb|e]; [|congruence]. exfalso. destruct (reset_belief g nb r0) as [_ X]. rewrite E2 in X. apply X. reflexivity. }
    destruct e2 as [u|e].
    + destruct (trajectory g p h r2) as [r3 t3] eqn:E3. destruct (IH _ _ _ E3) as [H3 H4]. destruct t3 as [t3|e3].
      * destruct (reset_belief g (b_belief r0) r3) as [B1 B2]. destruct (br_reset g (b_belief r0) r3) as [r4 e4]. cbn [fst snd] in *.
        destruct e4 as [u4|e4].
        -- assert (r1 = r4 /\ c = Ok (Some t3)) as [-> ->] by (split; congruence). split; [discriminate|]. intros; congruence.
        -- destruct e4; try (assert (r1 = r4) as -> by congruence; match type of E1 with (_, ?x) = _ => assert (c = x) as -> by congruence end; split; discriminate). congruence.
      * destruct e3; try (match type of E1 with (_, ?x) = _ => assert (c = x) as -> by congruence end; split; discriminate). congruence.
    + destruct e; try (match type of E1 with (_, ?x) = _ => assert (c = x) as -> by congruence end; split; discriminate).
      rewrite (HB eq_refl) in E1. assert (r1 = r0 /\ c = Ok None) as [-> ->] by (split; congruence). split; [discriminate|auto].
  - destruct (collect child (p_observations p) r) as [r1 cs] eqn:E1. destruct (collect_belief child _ HC _ _ _ _ eq_refl E1) as [H1 H2].
    destruct cs as [cs|e]; [|assert (out = Err e) as -> by congruence; split; [congruence|discriminate]]. specialize (H2 cs eq_refl).
    destruct (gr_action g (b_node r1)) as [a|e] eqn:Ea.
    + destruct (b_node r1) as [n|]; [|discriminate]. assert (r' = r1) as -> by congruence. match type of E with (_, ?x) = _ => assert (out = x) as -> by congruence end.
      split; [discriminate|]. intros t Et. match type of Et with Ok ?x = _ => assert (t = x) as -> by congruence end. cbn [root]. auto.
    + assert (out = Err e) as -> by congruence. split; [|discriminate]. intros X. assert (e = EImpossible) as -> by congruence. destruct (b_node r1); cbn [gr_action] in Ea; [|discriminate].
      unfold gp_action, axis in Ea. destruct (_ || _)%bool; cbn [bind] in Ea; [discriminate|]. destruct (nth_error _ _); discriminate.
Qed.

(** *** the belief runner *)
Section Runner.
  Variables (g : graph_policy) (p : pomdp).
  Hypothesis PF : policy_for g p.
  Hypothesis St : stochastic p.
  Hypothesis NA : NoDup (p_actions p).
  Hypothesis NO : NoDup (p_observations p).

  Lemma reset_ok b r : length b = nS p -> exists n, best (g_values g) b n /\ br_reset g b r = ({| b_belief := b; b_node := Some (Z.of_nat n) |}, Ok tt).
  Proof.
    intros Hb. unfold br_reset, gr_reset. destruct (node_from_belief (g_values g) b) as [n|e] eqn:E.
    - exists n. apply node_spec in E. split; [tauto|reflexivity].
    - exfalso. apply node_err in E. destruct E as [_ [E|(x & Hx & Hl)]].
      + pose proof (pf_values _ _ PF) as H. pose proof (pf_some _ _ PF). rewrite E in H. cbn in H. lia.
      + pose proof (pf_rows _ _ PF) as H. rewrite Forall_forall in H. rewrite (H x Hx) in Hl. auto.
  Qed.
  Lemma action_ok b r : at_belief g b r -> exists n nm a, best (g_values g) b n /\ b_node r = Some (Z.of_nat n) /\ nth_error (g_actions g) n = Some nm /\ gr_action g (b_node r) = Ok nm /\
    list_index (p_actions p) nm = Ok a /\ nth_error (p_actions p) a = Some nm /\ a < nA p.
  Proof.
    intros (_ & n & Hn & B). pose proof (pf_values _ _ PF) as HV. destruct B as [B1 B2]. assert (Hl : n < length (g_actions g)) by lia.
    destruct (nth_error (g_actions g) n) as [nm|] eqn:E; [|apply nth_error_None in E; lia].
    destruct (list_index_In (p_actions p) nm) as [a Ha]; [apply (pf_actions _ _ PF); eapply nth_error_In; eauto|]. pose proof (list_index_ok _ _ _ Ha) as Ha'.
    exists n, nm, a. split; [split; auto|]. split; [auto|]. split; [auto|]. split.
    - rewrite Hn. cbn [gr_action]. unfold gp_action. rewrite axis_nat. apply Nat.ltb_lt in Hl. rewrite Hl. cbn [bind]. rewrite E. reflexivity.
    - split; [auto|]. split; [auto|]. apply nth_error_Some. congruence.
  Qed.
  (** Bayes rule for weights that do not sum to one. *)
  Definition weights (b : list Q) : Prop := length b = nS p /\ forall s, s < nS p -> (0 <= nth s b 0)%Q.
  Lemma update_weights b a o : weights b -> a < nA p -> o < nO p ->
    ((prob_obs p b a o == 0)%Q -> belief_update p (Z.of_nat a) (Z.of_nat o) b = Err EImpossible) /\
    (~ (prob_obs p b a o == 0)%Q -> exists nb, belief_update p (Z.of_nat a) (Z.of_nat o) b = Ok nb /\ distribution p nb /\
       forall s', s' < nS p -> (nth s' nb 0 == prob_end p b a s' o / prob_obs p b a o)%Q).
  Proof.
    intros Hb Ha Ho. destruct (update_unfold p b a o Ha Ho (proj1 Hb)) as [nb [s (H1 & H2 & H3 & ->)]].
    assert (NN : forall s', s' < nS p -> (0 <= prob_end p b a s' o)%Q).
    { intros s' Hs. apply sum_n_nonneg. intros i Hi. destruct St as (S1 & _ & S3 & _). unfold joint. apply Qmult_le_0_compat; [apply Qmult_le_0_compat|]; auto. apply Hb. exact Hi. }
    split.
    - intros E. assert (Qeq_bool s 0 = true) as -> by (apply Qeq_bool_iff; rewrite H3; auto). reflexivity.
    - intros E. destruct (Qeq_bool s 0) eqn:Es; [apply Qeq_bool_iff in Es; rewrite H3 in Es; contradiction|].
      exists (map (fun x => x / s)%Q nb). split; [reflexivity|].
      assert (HV : forall s', s' < nS p -> (nth s' (map (fun x => x / s) nb) 0 == prob_end p b a s' o / prob_obs p b a o)%Q).
      { intros s' Hs. rewrite nth_map0 by (rewrite H1; auto). rewrite H2, H3 by auto. reflexivity. }
      split; [|exact HV]. split; [rewrite map_length; auto|].
      assert (HP : (0 < prob_obs p b a o)%Q). { assert (X : (0 <= prob_obs p b a o)%Q) by (apply sum_n_nonneg; exact NN). lra. }
      split.
      + intros s' Hs. rewrite HV by auto. apply Qle_shift_div_l; [auto|]. rewrite Qmult_0_l. auto.
      + rewrite (sum_n_ext (nS p) _ (fun s' => prob_end p b a s' o / prob_obs p b a o)%Q) by auto. unfold sum_n. rewrite sum_div.
        change (sum_over (seq 0 (nS p)) (fun s' => prob_end p b a s' o)) with (prob_obs p b a o). field. lra.
  Qed.
  Lemma step_weights b r o : weights b -> at_belief g b r -> exists a, action_for g p b a /\ a < nA p /\
    match list_index (p_observations p) o with
    | Err _ => br_step g p o r = (r, Err EValue)
    | Ok io => ((prob_obs p b a io == 0)%Q /\ br_step g p o r = (r, Err EImpossible)) \/
        (~ (prob_obs p b a io == 0)%Q /\ exists nb r', posterior p b a io nb /\ distribution p nb /\
           br_step g p o r = (r', Ok tt) /\ at_belief g nb r')
    end.
  Proof.
    intros Db AB. destruct (action_ok b r AB) as (n & nm & a & B & Hn & En & Ea & El & Ep & Ha). exists a.
    split; [exists n, nm; auto|]. split; [auto|]. unfold br_step. rewrite Ea. cbn [bind]. rewrite El. cbn [bind].
    destruct (list_index (p_observations p) o) as [io|e] eqn:Eo; cbn [bind].
    - pose proof (list_index_ok _ _ _ Eo) as Eo'. assert (Hio : io < nO p) by (apply nth_error_Some; congruence).
      rewrite (proj1 AB). destruct (update_weights b a io Db Ha Hio) as [C1 C2].
      destruct (Qeq_dec (prob_obs p b a io) 0) as [Ez|Ez].
      + left. split; [auto|]. rewrite (C1 Ez). reflexivity.
      + right. split; [auto|]. destruct (C2 Ez) as (nb & E1 & D1 & D2). rewrite E1. destruct (reset_ok nb r) as (k & B' & Er); [apply D1|].
        rewrite Er. eexists nb, _. split; [split; [apply D1|exact D2]|]. split; [auto|]. split; [reflexivity|]. split; [reflexivity|]. exists k. auto.
    - destruct (list_index_err _ _ _ Eo) as [-> _]. reflexivity.
  Qed.
  Lemma step_spec b r o : distribution p b -> at_belief g b r -> exists a, action_for g p b a /\ a < nA p /\
    match list_index (p_observations p) o with
    | Err _ => br_step g p o r = (r, Err EValue)
    | Ok io => ((prob_obs p b a io == 0)%Q /\ br_step g p o r = (r, Err EImpossible)) \/
        (~ (prob_obs p b a io == 0)%Q /\ exists nb r', posterior p b a io nb /\ distribution p nb /\
           br_step g p o r = (r', Ok tt) /\ at_belief g nb r')
    end.
  Proof. intros Db. apply step_weights. split; apply Db. Qed.
  Lemma at_belief_unique b r r' : at_belief g b r -> at_belief g b r' -> r = r'.
  Proof.
    intros (A1 & n & A2 & A3) (B1 & m & B2 & B3). destruct r as [rb rn], r' as [rb' rn']. cbn in *. subst. rewrite (best_unique _ _ _ _ A3 B3). reflexivity.
  Qed.

  (** trajectory trees *)
  Lemma trajectory_weights : forall h b r, weights b -> at_belief g b r -> exists t, trajectory g p h r = (r, Ok t) /\ is_tree g p h b t.
  Proof.
    induction h as [|h IH]; intros b r Db AB; destruct (action_ok b r AB) as (n & nm & a & B & Hn & En & Ea & El & Ep & Ha).
    - cbn [trajectory]. assert (HC : forall obs r, collect (fun _ r => (r, Ok None)) obs r = (r, Ok (map (fun _ => None) obs))).
      { induction obs as [|o rest IHo]; intros r0; [reflexivity|]. cbn [collect map]. rewrite IHo. reflexivity. }
      rewrite HC. rewrite Ea, Hn, (proj1 AB).
      rewrite none_names, none_trees.
      eexists. split; [reflexivity|]. apply it_leaf; auto.
    - cbn [trajectory].
      match goal with |- context [collect ?f _ _] => set (child := f) end.
      assert (HC : forall m k, k + m = nO p -> exists cs,
        collect child (map (fun io => nth io (p_observations p) (NInt 0)) (seq k m)) r = (r, Ok cs) /\
        flat_map (fun oc => match snd oc with Some _ => [fst oc] | None => [] end) (combine (map (fun io => nth io (p_observations p) (NInt 0)) (seq k m)) cs) =
          map (fun io => nth io (p_observations p) (NInt 0)) (filter (fun io => negb (Qeq_bool (prob_obs p b a io) 0)) (seq k m)) /\
        are_trees g p h b a (filter (fun io => negb (Qeq_bool (prob_obs p b a io) 0)) (seq k m)) (flat_map (fun c => match c with Some t => [t] | None => [] end) cs)).
      { induction m as [|m IHm]; intros k Hk; [exists []; split; [reflexivity|split; [reflexivity|constructor]]|].
        destruct (IHm (S k)) as (cs & C1 & C2 & C3); [lia|]. cbn [seq map collect].
        set (o := nth k (p_observations p) (NInt 0)). assert (Ho : list_index (p_observations p) o = Ok k).
        { apply list_index_nth; [auto|]. apply nth_error_nth'. change (k < nO p). lia. }
        destruct (step_weights b r o Db AB) as (a' & (n' & nm' & B' & En' & Ep') & _ & H). rewrite Ho in H.
        assert (a' = a).
        { pose proof (best_unique _ _ _ _ B B') as <-. assert (nm' = nm) by congruence. subst nm'.
          pose proof (list_index_nth _ _ _ NA Ep') as H'. congruence. }
        subst a'. cbn [filter].
        destruct H as [[Ez Es]|(Ez & nb & r' & Eu & Dn & Es & AB')].
        - unfold child at 1. rewrite Es. rewrite C1. exists (None :: cs). split; [reflexivity|].
          assert (Qeq_bool (prob_obs p b a k) 0 = true) as -> by (apply Qeq_bool_iff; auto). cbn [negb combine flat_map snd app]. auto.
        - unfold child at 1. rewrite Es. destruct (IH nb r' (conj (proj1 Dn) (proj1 (proj2 Dn))) AB') as (t & Et & It). rewrite Et. rewrite (proj1 AB).
          destruct (reset_ok b r') as (k' & Bk & Er); [apply Db|]. rewrite Er.
          assert (Er' : {| b_belief := b; b_node := Some (Z.of_nat k') |} = r).
          { apply (at_belief_unique b); [|auto]. split; [reflexivity|]. exists k'. auto. }
          rewrite Er', C1. exists (Some t :: cs). split; [reflexivity|].
          assert (Qeq_bool (prob_obs p b a k) 0 = false) as -> by (apply not_true_is_false; rewrite Qeq_bool_iff; auto). cbn [negb combine flat_map snd fst app map].
          split; [f_equal; auto|]. econstructor; eauto. }
      destruct (HC (nO p) 0 eq_refl) as (cs & C1 & C2 & C3).
      assert (EO : map (fun io => nth io (p_observations p) (NInt 0)) (seq 0 (nO p)) = p_observations p).
      { unfold nO. clear. induction (p_observations p) as [|o t IHt]; [reflexivity|]. cbn [length seq map nth]. f_equal. rewrite <- seq_shift, map_map. exact IHt. }
      rewrite EO in C1, C2. rewrite C1, Ea, Hn, (proj1 AB), C2. eexists. split; [reflexivity|]. eapply it_node; eauto.
  Qed.
  Lemma trajectory_spec : forall h b r, distribution p b -> at_belief g b r -> exists t, trajectory g p h r = (r, Ok t) /\ is_tree g p h b t.
  Proof. intros h b r Db. apply trajectory_weights. split; apply Db. Qed.
End Runner.
