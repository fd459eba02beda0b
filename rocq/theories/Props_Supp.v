(** C32 to C38 and C80: the supportive model. *)
From Verif Require Import QBase PyBase PyBaseFacts HtmModel HtmSpec HtmProofs DagModel DagSpec DagProofs CodecModel CodecSpec CodecProofs SuppModel SuppSpec SuppProofs SuppProofs2 SuppProofs3 SuppProofs4 Props_Dag.
From Coq Require Import Lia.
Import HtmSpec.
Local Open Scope nat_scope.

(** A concrete task: assemble a leg (uses joints, consumes a leg), then either glue (part consumed) or screw. *)
Definition ex_leaf_s (n : string) (cs : list (cond * string)) (hold : option string) : stree :=
  Leaf {| a_class := KSupported; a_name := n; a_agent := "None"; a_params := Some {| sp_conditions := cs; sp_hold := hold |} |} None None false.
Definition ex_task : stree :=
  Node Sequential
    [ex_leaf_s "leg" [(CUses, "joints"); (CConsumes, "leg")]%string (Some "h"%string);
     Node Alternative [ex_leaf_s "glue" [(CSome, "glue")]%string None; ex_leaf_s "screw" [(CUses, "joints")]%string (Some "v"%string)]
       None None "fix" false (Some [1 # 2; 1 # 2]%Q)] None None "all" false None.
Definition ex_model : spomdp :=
  match mk_supportive (fun l => l) ex_task with Ok m => m | Err _ => {| htm_nodes := []; htm_succs := []; htm_init := []; objects := []; clearable := []; htm_conditions := []; a_bring := []; a_clear := []; n_actions := 0 |} end.
Example ex_model_built : mk_supportive (fun l => l) ex_task = Ok ex_model.
Proof. vm_compute. reflexivity. Qed.
Example ex_model_values : objects ex_model = ["joints"; "leg"; "glue"]%string /\ clearable ex_model = [true; false; true] /\
  n_actions ex_model = 9%Z /\
  actions ex_model = ["wait"; "hold H"; "hold V"; "ask hold"; "bring joints"; "clear joints"; "bring leg"; "bring glue"; "clear glue"]%string /\
  htm_succs ex_model = [[1; 2]; [3]; [3]].
Proof. vm_compute. auto. Qed.

(** *** C32 *)
Theorem C32_names : forall ordn t m, is_order ordn -> mk_supportive ordn t = Ok m ->
  n_actions m = Z.of_nat (length (actions m)) /\ NoDup (actions m) /\ NoDup (objects m) /\
  (forall a nm, nth_error (actions m) a = Some nm -> exists act, nm = robot_name act) /\
  nth_error (actions m) 0 = Some (robot_name Wait) /\ nth_error (actions m) 1 = Some (robot_name HoldH) /\
  nth_error (actions m) 2 = Some (robot_name HoldV) /\ nth_error (actions m) 3 = Some (robot_name Ask).
Proof.
  intros ordn t m Ho E. destruct (mk_facts _ _ _ Ho E) as [nodes [succs [init [ps (_ & B & D)]]]].
  split; [apply (b_nact _ _ _ _ _ B)|]. split; [|split; [apply (b_nodup _ _ _ _ _ B)|split; [|cbn; auto]]].
  - apply NoDup_nth_error. intros i j Hi Eij. destruct (nth_error (actions m) i) as [nm|] eqn:E1; [|apply nth_error_None in E1; lia]. symmetry in Eij.
    assert (H1 := actions_cases m _ _ _ _ B (Z.of_nat i) nm ltac:(lia) ltac:(rewrite Nat2Z.id; auto)).
    assert (H2 := actions_cases m _ _ _ _ B (Z.of_nat j) nm ltac:(lia) ltac:(rewrite Nat2Z.id; auto)).
    apply Nat2Z.inj. pose proof (b_nodup _ _ _ _ _ B) as Hn. rewrite NoDup_nth_error in Hn.
    destruct H1 as [[A1 A2]|[[A1 A2]|[[A1 A2]|[[A1 A2]|(_ & k & o & Hk & H1)]]]];
      destruct H2 as [[B1 B2]|[[B1 B2]|[[B1 B2]|[[B1 B2]|(_ & k' & o' & Hk' & H2)]]]]; try congruence;
      try (destruct H1 as [(A2 & _)|(A2 & _)]; subst nm; discriminate); try (destruct H2 as [(B2 & _)|(B2 & _)]; subst nm; discriminate).
    destruct H1 as [(A1 & A2 & A3 & A4)|(A1 & A2 & A3 & A4 & A5)], H2 as [(B1 & B2 & B3 & B4)|(B1 & B2 & B3 & B4 & B5)];
      rewrite A1 in B1; cbn in B1; try discriminate; inversion B1; subst o'.
    + assert (k = k') as <- by (apply Hn; [apply nth_error_Some; congruence|congruence]). congruence.
    + assert (k = k') as <- by (apply Hn; [apply nth_error_Some; congruence|congruence]). congruence.
  - intros a nm Ea. destruct (acts_exists m _ _ _ _ B (Z.of_nat a)) as [act [_ Hact]].
    + rewrite (b_nact _ _ _ _ _ B). assert (a < length (actions m)) by (apply nth_error_Some; congruence). lia.
    + rewrite Nat2Z.id in Hact. exists act. congruence.
Qed.
Print Assumptions C32_names.

(** Object actions: from index to object and back. *)
Theorem C32_object_actions : forall ordn t m, is_order ordn -> mk_supportive ordn t = Ok m ->
  (forall a o, nth_error (actions m) a = Some (robot_name (Bring o)) <->
     exists i, nth_error (objects m) i = Some o /\ bring_action m i = Ok (Z.of_nat a)) /\
  (forall a o, nth_error (actions m) a = Some (robot_name (Clear o)) <->
     exists i, nth_error (objects m) i = Some o /\ clear_action m i = Ok (Z.of_nat a)) /\
  (forall i a, bring_action m i = Ok a -> obj_from_action m a = Ok i /\ is_bring m a = true) /\
  (forall i a, clear_action m i = Ok a -> obj_from_action m a = Ok i /\ is_bring m a = false) /\
  (forall i, bring_action m i = Err EIndex <-> length (objects m) <= i).
Proof.
  intros ordn t m Ho E. destruct (mk_facts _ _ _ Ho E) as [nodes [succs [init [ps (_ & B & D)]]]].
  destruct (object_actions_spec _ (objects m) _ _ _ (b_tables _ _ _ _ _ B) (b_clen _ _ _ _ _ B)) as (O1 & O2 & O3 & O4 & O5 & O6).
  pose proof (b_nodup _ _ _ _ _ B) as Hn. rewrite NoDup_nth_error in Hn.
  assert (HA : forall k, nth_error (actions m) (4 + k) = nth_error (obj_names (objects m) (clearable m)) k) by reflexivity.
  assert (HB : forall i a, bring_action m i = Ok a -> exists o, nth_error (objects m) i = Some o /\ nth_error (actions m) (Z.to_nat a) = Some (robot_name (Bring o)) /\ (0 <= a)%Z).
  { intros i a Ea. unfold bring_action in Ea. rewrite py_nth_nat in Ea. destruct (nth_error (a_bring m) i) as [b|] eqn:Eb; [|discriminate].
    assert (i < length (objects m)) by (rewrite <- O1; apply nth_error_Some; congruence).
    destruct (nth_error (objects m) i) as [o|] eqn:Eo; [|apply nth_error_None in Eo; lia].
    destruct (O6 _ _ Eo) as ([k [K1 K2]] & _ & _). exists o. split; [auto|].
    assert (a = (4 + Z.of_nat k)%Z) as -> by congruence. replace (Z.to_nat (4 + Z.of_nat k)) with (4 + k) by lia. rewrite HA. split; [exact K1|lia]. }
  assert (HC : forall i a, clear_action m i = Ok a -> exists o, nth_error (objects m) i = Some o /\ nth_error (actions m) (Z.to_nat a) = Some (robot_name (Clear o)) /\ (0 <= a)%Z).
  { intros i a Ea. unfold clear_action in Ea. rewrite py_nth_nat in Ea. destruct (nth_error (a_clear m) i) as [[b|]|] eqn:Eb; try discriminate.
    cbn [bind] in Ea.
    assert (i < length (objects m)) by (rewrite <- O2; apply nth_error_Some; congruence).
    destruct (nth_error (objects m) i) as [o|] eqn:Eo; [|apply nth_error_None in Eo; lia].
    destruct (O6 _ _ Eo) as (_ & K & K'). exists o. split; [auto|].
    assert (Hc : nth_error (clearable m) i = Some true).
    { destruct (nth_error (clearable m) i) as [[|]|] eqn:Ec; [auto| |].
      - rewrite K' in Eb by auto. discriminate.
      - apply nth_error_None in Ec. rewrite (b_clen _ _ _ _ _ B) in Ec. lia. }
    destruct (K Hc) as [k [K1 K2]].
    assert (a = (4 + Z.of_nat k)%Z) as -> by congruence. replace (Z.to_nat (4 + Z.of_nat k)) with (4 + k) by lia. rewrite HA. split; [exact K1|lia]. }
  assert (HI : forall a act, nth_error (actions m) a = Some (robot_name act) -> acts m (Z.of_nat a) act).
  { intros a act H. split; [lia|]. rewrite Nat2Z.id. exact H. }
  split; [|split; [|split; [|split]]].
  - intros a o. split.
    + intros H. destruct (actions_cases m _ _ _ _ B (Z.of_nat a) _ ltac:(lia) ltac:(rewrite Nat2Z.id; exact H)) as
        [[_ E1]|[[_ E1]|[[_ E1]|[[_ E1]|(_ & i & o' & Ho' & [(E1 & E2 & E3 & E4)|(E1 & _)])]]]]; try discriminate E1.
      assert (o' = o) as -> by (cbn in E1; inversion E1; auto). eauto.
    + intros [i [Hi Ea]]. destruct (HB _ _ Ea) as [o' (H1 & H2 & _)]. rewrite Nat2Z.id in H2. congruence.
  - intros a o. split.
    + intros H. destruct (actions_cases m _ _ _ _ B (Z.of_nat a) _ ltac:(lia) ltac:(rewrite Nat2Z.id; exact H)) as
        [[_ E1]|[[_ E1]|[[_ E1]|[[_ E1]|(_ & i & o' & Ho' & [(E1 & _)|(E1 & E2 & E3 & E4 & E5)])]]]]; try discriminate E1.
      assert (o' = o) as -> by (cbn in E1; inversion E1; auto). eauto.
    + intros [i [Hi Ea]]. destruct (HC _ _ Ea) as [o' (H1 & H2 & _)]. rewrite Nat2Z.id in H2. congruence.
  - intros i a Ea. destruct (HB _ _ Ea) as [o (H1 & H2 & H3)].
    destruct (actions_cases m _ _ _ _ B a _ H3 H2) as
        [[_ E1]|[[_ E1]|[[_ E1]|[[_ E1]|(_ & i' & o' & Ho' & [(E1 & E2 & E3 & E4)|(E1 & _)])]]]]; try discriminate E1.
    assert (o' = o) as -> by (cbn in E1; inversion E1; auto).
    assert (i' = i) as -> by (apply Hn; [apply nth_error_Some; congruence|congruence]). auto.
  - intros i a Ea. destruct (HC _ _ Ea) as [o (H1 & H2 & H3)].
    destruct (actions_cases m _ _ _ _ B a _ H3 H2) as
        [[_ E1]|[[_ E1]|[[_ E1]|[[_ E1]|(_ & i' & o' & Ho' & [(E1 & _)|(E1 & E2 & E3 & E4 & E5)])]]]]; try discriminate E1.
    assert (o' = o) as -> by (cbn in E1; inversion E1; auto).
    assert (i' = i) as -> by (apply Hn; [apply nth_error_Some; congruence|congruence]). auto.
  - intros i. unfold bring_action. rewrite py_nth_nat, <- O1, <- nth_error_None.
    destruct (nth_error (a_bring m) i); split; congruence.
Qed.
Print Assumptions C32_object_actions.

(** The objects are those mentioned by the leaves, and those that can be cleared are those that some leaf
    uses or partly consumes. *)
Theorem C32_clearable : forall ordn t m nodes succs init ps, is_order ordn -> mk_supportive ordn t = Ok m ->
  htm_to_dag ordn t = Ok (nodes, succs, init) -> mapM action_params nodes = Ok ps ->
  (forall o, In o (objects m) <-> exists p c, In p ps /\ In (c, o) (sp_conditions p)) /\
  (forall i o, nth_error (objects m) i = Some o ->
     ((exists a, clear_action m i = Ok a) <-> exists p, In p ps /\ (In (CUses, o) (sp_conditions p) \/ In (CSome, o) (sp_conditions p))) /\
     (clear_action m i = Err EValue <-> ~ exists p, In p ps /\ (In (CUses, o) (sp_conditions p) \/ In (CSome, o) (sp_conditions p)))).
Proof.
  intros ordn t m nodes succs init ps Ho E Ed Ep. destruct (mk_facts _ _ _ Ho E) as [nodes' [succs' [init' [ps' (Ed' & B & D)]]]].
  assert (nodes' = nodes) as -> by congruence. assert (ps' = ps) as -> by (pose proof (b_params _ _ _ _ _ B); congruence).
  destruct (object_actions_spec _ (objects m) _ _ _ (b_tables _ _ _ _ _ B) (b_clen _ _ _ _ _ B)) as (O1 & O2 & O3 & O4 & O5 & O6).
  split; [apply (b_objs _ _ _ _ _ B)|]. intros i o Hi. destruct (O6 _ _ Hi) as (_ & K1 & K2).
  assert (Hlt : i < length (objects m)) by (apply nth_error_Some; congruence).
  assert (HT : nth_error (clearable m) i = Some true <-> exists p, In p ps /\ (In (CUses, o) (sp_conditions p) \/ In (CSome, o) (sp_conditions p))).
  { rewrite (b_clear _ _ _ _ _ B). split.
    - intros [p [c [o' (H1 & H2 & H3 & H4)]]]. assert (o' = o) as -> by congruence. exists p. split; [auto|]. destruct H3 as [-> | ->]; auto.
    - intros [p [H1 [H2|H2]]]; [exists p, CUses, o|exists p, CSome, o]; unfold needs_clear; auto 10. }
  rewrite <- HT. unfold clear_action. rewrite py_nth_nat.
  destruct (nth_error (clearable m) i) as [[|]|] eqn:Ec.
  - destruct (K1 eq_refl) as [a [_ ->]]. cbn [bind]. split; split; intros H; eauto; try discriminate. exfalso; auto.
  - rewrite (K2 eq_refl). cbn [bind]. split; split; intros H; try discriminate; auto. destruct H; discriminate.
  - apply nth_error_None in Ec. rewrite (b_clen _ _ _ _ _ B) in Ec. lia.
Qed.
Print Assumptions C32_clearable.
Example C32_ex : clear_action ex_model 0 = Ok 5%Z /\ clear_action ex_model 1 = Err EValue /\ bring_action ex_model 2 = Ok 7%Z.
Proof. vm_compute. auto. Qed.

(** *** C33 *)
Theorem C33_total : forall cf ordn t m, is_order ordn -> mk_supportive ordn t = Ok m -> 1 <= cf_preferences cf ->
  (forall d random a s, (0 <= s < model_n_states cf m)%Z -> (0 <= a < n_actions m)%Z ->
     exists s' o r, sample_transition cf m d random a s = Ok (s', o, r) /\ (0 <= s' < model_n_states cf m)%Z /\ o < length observations) /\
  (forall d random a s, (a < 0 \/ n_actions m <= a)%Z -> sample_transition cf m d random a s = Err EValue).
Proof.
  intros cf ordn t m Ho E Hc. destruct (mk_facts _ _ _ Ho E) as [nodes [succs [init [ps (_ & B & D)]]]]. split.
  - intros d random a s Hs Ha. destruct (step_total cf m _ _ _ _ B D d random a s Hc Hs Ha) as [s' [o [r Es]]].
    destruct (reads_exists cf m _ _ _ _ B s Hs) as [w Hr].
    destruct (step_sound cf m _ _ _ _ B D d random a s s' o r w Hc Hr Es) as [act [w1 [w' [ob (S1 & S2 & S3 & S4 & S5 & S6)]]]].
    exists s', o, r. split; [auto|]. split; [apply S4|]. apply nth_error_Some. congruence.
  - intros d random a s Ha. eapply step_invalid; eauto.
Qed.
Print Assumptions C33_total.
Definition ex_draws : draws := {| d_object := fun i => Nat.eqb i 1; d_preference := fun _ => true; d_succ := 1; d_hold := false; d_answer := true; d_fail := false; d_consume := fun _ => true |}.
Example C33_ex : model_n_states default_config ex_model = 160%Z /\
  sample_transition default_config ex_model ex_draws true 1 0 = Ok (81%Z, O_NONE, (- 2 + 10 + (-15 + (0 + 0)) + 10 + 0)%Q).
Proof. vm_compute. auto. Qed.

(** *** C36, C37: one step without random changes is exactly what is documented. *)
Theorem C36_documented : forall cf ordn t m nodes succs init ps, is_order ordn -> mk_supportive ordn t = Ok m -> 1 <= cf_preferences cf ->
  htm_to_dag ordn t = Ok (nodes, succs, init) -> mapM action_params nodes = Ok ps ->
  forall d a act s w s' o r, reads cf m s w -> nth_error (actions m) a = Some (robot_name act) ->
    sample_transition cf m d false (Z.of_nat a) s = Ok (s', o, r) ->
    exists w' ob, reads cf m s' w' /\ nth_error observations o = Some ob /\ documented cf ps succs (objects m) false w act w' ob r.
Proof.
  intros cf ordn t m nodes succs init ps Ho E Hc Ed Ep d a act s w s' o r Hr Ha Es.
  destruct (mk_facts _ _ _ Ho E) as [nodes' [succs' [init' [ps' (Ed' & B & D)]]]].
  assert (nodes' = nodes) as -> by congruence. assert (succs' = succs) as -> by congruence. assert (ps' = ps) as -> by (pose proof (b_params _ _ _ _ _ B); congruence).
  destruct (step_sound cf m _ _ _ _ B D d false _ s s' o r w Hc Hr Es) as [act' [w1 [w' [ob (S1 & S2 & S3 & S4 & S5 & S6)]]]].
  destruct S1 as [_ S1]. rewrite Nat2Z.id in S1. assert (act' = act) as -> by (apply robot_name_inj; congruence).
  rewrite (S2 eq_refl) in S6. eauto.
Qed.
Print Assumptions C36_documented.

(** Every documented outcome is one of sample_transition. *)
Theorem C36_complete : forall cf ordn t m nodes succs init ps, is_order ordn -> mk_supportive ordn t = Ok m -> 1 <= cf_preferences cf ->
  htm_to_dag ordn t = Ok (nodes, succs, init) -> mapM action_params nodes = Ok ps ->
  forall a act s w w' ob r, reads cf m s w -> nth_error (actions m) a = Some (robot_name act) ->
    documented cf ps succs (objects m) false w act w' ob r ->
    exists d s' o r', sample_transition cf m d false (Z.of_nat a) s = Ok (s', o, r') /\ reads cf m s' w' /\
      nth_error observations o = Some ob /\ (r' == r)%Q.
Proof.
  intros cf ordn t m nodes succs init ps Ho E Hc Ed Ep a act s w w' ob r Hr Ha Hd.
  destruct (mk_facts _ _ _ Ho E) as [nodes' [succs' [init' [ps' (Ed' & B & D)]]]].
  assert (nodes' = nodes) as -> by congruence. assert (succs' = succs) as -> by congruence. assert (ps' = ps) as -> by (pose proof (b_params _ _ _ _ _ B); congruence).
  assert (Hact : acts m (Z.of_nat a) act) by (split; [lia|rewrite Nat2Z.id; auto]).
  assert (Hrep := proj1 (reads_rep cf m s w) Hr).
  destruct (body_complete cf m _ _ _ _ B D false _ _ _ _ _ _ _ Hc Hact Hrep Hd) as [ds [dh [da [df [dc HH]]]]].
  destruct (HH (fun _ => false) (fun _ => false)) as [x' [o [r' (H1 & H2 & H3 & H4)]]].
  exists (draws_of (fun _ => false) (fun _ => false) ds dh da df dc), (st x'), o, r'.
  rewrite (sample_body cf m _ _ _ _ B _ _ _ _ _ Hr). split; [exact H1|]. split; [apply reads_st; auto|]. auto.
Qed.
Print Assumptions C36_complete.

(** With random changes: first objects and preferences change arbitrarily, then a documented outcome, likely
    or not; and all of these can happen. *)
Theorem C36_random : forall cf ordn t m nodes succs init ps, is_order ordn -> mk_supportive ordn t = Ok m -> 1 <= cf_preferences cf ->
  htm_to_dag ordn t = Ok (nodes, succs, init) -> mapM action_params nodes = Ok ps ->
  forall a act s w, reads cf m s w -> nth_error (actions m) a = Some (robot_name act) ->
  (forall d s' o r, sample_transition cf m d true (Z.of_nat a) s = Ok (s', o, r) ->
    exists w1 w' ob, disturbed w w1 /\ reads cf m s' w' /\ nth_error observations o = Some ob /\ documented cf ps succs (objects m) true w1 act w' ob r) /\
  (forall w1 w' ob r, disturbed w w1 -> documented cf ps succs (objects m) true w1 act w' ob r ->
    exists d s' o r', sample_transition cf m d true (Z.of_nat a) s = Ok (s', o, r') /\ reads cf m s' w' /\
      nth_error observations o = Some ob /\ (r' == r)%Q).
Proof.
  intros cf ordn t m nodes succs init ps Ho E Hc Ed Ep a act s w Hr Ha.
  destruct (mk_facts _ _ _ Ho E) as [nodes' [succs' [init' [ps' (Ed' & B & D)]]]].
  assert (nodes' = nodes) as -> by congruence. assert (succs' = succs) as -> by congruence. assert (ps' = ps) as -> by (pose proof (b_params _ _ _ _ _ B); congruence).
  assert (Hact : acts m (Z.of_nat a) act) by (split; [lia|rewrite Nat2Z.id; auto]).
  assert (Hrep := proj1 (reads_rep cf m s w) Hr). split.
  - intros d s' o r Es.
    destruct (step_sound cf m _ _ _ _ B D d true _ s s' o r w Hc Hr Es) as [act' [w1 [w' [ob (S1 & S2 & S3 & S4 & S5 & S6)]]]].
    destruct S1 as [_ S1]. rewrite Nat2Z.id in S1. assert (act' = act) as -> by (apply robot_name_inj; congruence). eauto 8.
  - intros w1 w' ob r Hdis Hd. destruct (disturb_all cf m _ _ _ _ B _ _ _ Hrep Hdis) as [dobj [dpref HD]].
    assert (Hrep1 := HD 0 true true true (fun _ => true)).
    destruct (body_complete cf m _ _ _ _ B D true _ _ _ _ _ _ _ Hc Hact Hrep1 Hd) as [ds [dh [da [df [dc HH]]]]].
    destruct (HH dobj dpref) as [x' [o [r' (H1 & H2 & H3 & H4)]]].
    exists (draws_of dobj dpref ds dh da df dc), (st x'), o, r'.
    rewrite (sample_body cf m _ _ _ _ B _ _ _ _ _ Hr). split; [exact H1|]. split; [apply reads_st; auto|]. auto.
Qed.
Print Assumptions C36_random.

Lemma meets_frame cs h h' n : meets cs h h' n -> forall o, (forall c, ~ In (c, o) cs) -> h' o = h o.
Proof.
  induction 1 as [|c o t h h1 h' n H1 H2 H3 H4 H5 IH]; intros o' Hno; [auto|].
  rewrite IH by (intros c' Hc; apply (Hno c'); simpl; auto). apply H1. intros ->. apply (Hno c). simpl; auto.
Qed.
Lemma meets_decides cs h h' n : meets cs h h' n -> forall c o, decides cs c o -> (c = CConsumes -> h' o = false) /\ (c = CUses -> h' o = true).
Proof.
  induction 1 as [|c0 o0 t h h1 h' n H1 H2 H3 H4 H5 IH]; intros c o [l1 [l2 [E Hno]]]; [destruct l1; discriminate|].
  destruct l1 as [|x l1]; cbn in E; inversion E; subst.
  - rewrite (meets_frame _ _ _ _ H5) by auto. auto.
  - apply IH. exists l1, l2; auto.
Qed.
(** If no object is mentioned twice the number of fetched objects is the number of absent ones. *)
Lemma meets_count cs h h' n : meets cs h h' n -> NoDup (map snd cs) -> n = length (filter (fun co => negb (h (snd co))) cs).
Proof.
  induction 1 as [|c0 o0 t h h1 h' n H1 H2 H3 H4 H5 IH]; intros Hn; [reflexivity|]. cbn in Hn. inversion Hn as [|? ? N1 N2]; subst.
  rewrite IH by auto. cbn [filter snd].
  assert (EF : filter (fun co => negb (h1 (snd co))) t = filter (fun co => negb (h (snd co))) t).
  { apply filter_ext_in. intros [c o] Hin. cbn. rewrite H1; [auto|]. intros ->. apply N1. apply in_map_iff. exists (c, o0); auto. }
  rewrite EF. destruct (h o0); reflexivity.
Qed.

Theorem C37_changes : forall cf ordn t m nodes succs init ps, is_order ordn -> mk_supportive ordn t = Ok m -> 1 <= cf_preferences cf ->
  htm_to_dag ordn t = Ok (nodes, succs, init) -> mapM action_params nodes = Ok ps ->
  forall d a act s w s' w' o r, reads cf m s w -> reads cf m s' w' -> nth_error (actions m) a = Some (robot_name act) ->
    sample_transition cf m d false (Z.of_nat a) s = Ok (s', o, r) ->
    w_prefs w' = w_prefs w /\ w_holding w' = w_holding w /\
    (forall ob, In ob (objects m) -> w_has w' ob <> w_has w ob ->
       act = Bring ob \/ act = Clear ob \/
       exists i p c, w_stage w = Doing i /\ w_stage w' <> w_stage w /\ nth_error ps i = Some p /\ In (c, ob) (sp_conditions p)) /\
    (w_stage w' <> w_stage w -> ((act = Wait \/ is_hold act) /\
       forall i, w_stage w = Doing i -> exists p, nth_error ps i = Some p /\
         forall c ob, decides (sp_conditions p) c ob -> (c = CConsumes -> w_has w' ob = false) /\ (c = CUses -> w_has w' ob = true))).
Proof.
  intros cf ordn t m nodes succs init ps Ho E Hc Ed Ep d a act s w s' w' o r Hr Hr' Ha Es.
  destruct (mk_facts _ _ _ Ho E) as [nodes' [succs' [init' [ps' (Ed' & B & D)]]]].
  assert (nodes' = nodes) as -> by congruence. assert (succs' = succs) as -> by congruence. assert (ps' = ps) as -> by (pose proof (b_params _ _ _ _ _ B); congruence).
  destruct (C36_documented cf ordn t m nodes succs init ps Ho E Hc Ed Ep d a act s w s' o r Hr Ha Es) as [w0 [ob0 (H1 & H2 & H3)]].
  destruct (reads_same cf m _ _ _ H1 Hr') as (Q1 & Q2 & Q3 & Q4). rewrite <- Q1, <- Q2, <- Q3.
  assert (HC : forall i n, w_stage w = Doing i -> completes ps succs i w w0 n ->
     w_stage w0 <> w_stage w /\ exists p, nth_error ps i = Some p /\ meets (sp_conditions p) (w_has w) (w_has w0) n).
  { intros i n Hs ([p [Hp Hm]] & [l [Hl Hst]] & _). split; [|eauto]. rewrite Hs.
    destruct Hst as [[-> ->]|[j [Hj ->]]]; [discriminate|]. destruct D as (_ & _ & _ & D4). pose proof (D4 _ _ _ Hl Hj). intros EE; inversion EE; lia. }
  assert (HM : forall i n, w_stage w = Doing i -> completes ps succs i w w0 n -> (act = Wait \/ is_hold act) ->
    w_prefs w0 = w_prefs w /\ w_holding w0 = w_holding w /\
    (forall ob, In ob (objects m) -> w_has w' ob <> w_has w ob ->
       act = Bring ob \/ act = Clear ob \/
       exists i p c, w_stage w = Doing i /\ w_stage w0 <> w_stage w /\ nth_error ps i = Some p /\ In (c, ob) (sp_conditions p)) /\
    (w_stage w0 <> w_stage w -> ((act = Wait \/ is_hold act) /\
       forall i, w_stage w = Doing i -> exists p, nth_error ps i = Some p /\
         forall c ob, decides (sp_conditions p) c ob -> (c = CConsumes -> w_has w' ob = false) /\ (c = CUses -> w_has w' ob = true)))).
  { intros i n Hs Hcm Hact. destruct (HC _ _ Hs Hcm) as [Hne [p [Hp Hm]]]. destruct Hcm as (_ & _ & P1 & P2).
    assert (HinO : forall c ob, In (c, ob) (sp_conditions p) -> In ob (objects m)).
    { intros c ob Hin. apply (b_objs _ _ _ _ _ B). exists p, c. split; [eapply nth_error_In; eauto|auto]. }
    split; [auto|]. split; [auto|]. split.
    - intros ob Hob Hd. right; right. rewrite <- Q4 in Hd by auto.
      destruct (in_dec String.string_dec ob (map snd (sp_conditions p))) as [Hin|Hin].
      + apply in_map_iff in Hin. destruct Hin as [[c ob'] [E1 E2]]. cbn in E1. subst ob'. exists i, p, c. auto.
      + exfalso. apply Hd. eapply meets_frame; eauto. intros c Hc'. apply Hin. apply in_map_iff. exists (c, ob); auto.
    - intros _. split; [auto|]. intros i' Hi'. assert (i' = i) as -> by congruence. exists p. split; [auto|]. intros c ob Hdec.
      rewrite <- Q4; [eapply meets_decides; eauto|]. destruct Hdec as [l1 [l2 [El _]]]. apply (HinO c). rewrite El. apply in_or_app; simpl; auto. }
  assert (HS : forall ww : world, w_stage ww = w_stage w -> w_stage ww <> w_stage w -> False) by (intros; congruence).
  assert (HK : w_stage w0 = w_stage w -> w_prefs w0 = w_prefs w -> w_holding w0 = w_holding w ->
    (forall ob, In ob (objects m) -> w_has w0 ob <> w_has w ob -> act = Bring ob \/ act = Clear ob) ->
    w_prefs w0 = w_prefs w /\ w_holding w0 = w_holding w /\
    (forall ob, In ob (objects m) -> w_has w' ob <> w_has w ob ->
       act = Bring ob \/ act = Clear ob \/
       exists i p c, w_stage w = Doing i /\ w_stage w0 <> w_stage w /\ nth_error ps i = Some p /\ In (c, ob) (sp_conditions p)) /\
    (w_stage w0 <> w_stage w -> ((act = Wait \/ is_hold act) /\
       forall i, w_stage w = Doing i -> exists p, nth_error ps i = Some p /\
         forall c ob, decides (sp_conditions p) c ob -> (c = CConsumes -> w_has w' ob = false) /\ (c = CUses -> w_has w' ob = true)))).
  { intros K1 K2 K3 K4. split; [auto|]. split; [auto|]. split; [|intros K; congruence].
    intros ob Hob Hd. rewrite <- Q4 in Hd by auto. destruct (K4 ob Hob Hd); auto. }
  inversion H3; subst; try discriminate; try (solve [apply HK; auto; intros ob Hob Hd; congruence]); try (solve [eapply HM; eauto]).
  - split; [auto|]. split; [auto|]. split.
    + intros ob Hob Hd. exfalso. apply Hd. rewrite <- Q4 by auto. reflexivity.
    + intros _. split; [auto|]. intros i Hi. congruence.
  - match goal with H : helps _ _ _ _ |- _ => pose proof H as Hh; destruct Hh as [_ [p [_ [[_ Hh]|[_ Hh]]]]] end; eapply HM; eauto; right; [left|right]; auto.
  - apply HK; auto. intros ob Hob Hd. cbn in Hd. destruct (String.eqb_spec ob o0); [subst; auto|congruence].
  - apply HK; auto. intros ob Hob Hd. cbn in Hd. destruct (String.eqb_spec ob o0); [subst; auto|congruence].
Qed.
Print Assumptions C37_changes.

Definition ex_world : world := {| w_stage := Doing 0; w_prefs := [true]; w_holding := false; w_has := fun o => String.eqb o "leg" |}.
Example C36_ex_reads : reads default_config ex_model 18 ex_world.
Proof.
  unfold reads. split; [vm_compute; split; congruence|]. split; [vm_compute; reflexivity|].
  split; [intros i E; inversion E; subst; vm_compute; lia|]. split; [reflexivity|].
  split; [intros [|[|i]] b E; inversion E; vm_compute; reflexivity|]. split; [vm_compute; reflexivity|].
  intros [|[|[|i]]] o E; vm_compute in E; inversion E; vm_compute; try reflexivity. destruct i; discriminate.
Qed.
Example C36_ex_step : exists s', sample_transition default_config ex_model ex_draws false 1 18 = Ok (s', O_NONE, (- 2 + 10 + (- 15 + (0 + 0)) + 10 + 0)%Q) /\ s' = 81%Z.
Proof. eexists; split; [vm_compute; reflexivity|reflexivity]. Qed.

(** *** C38 *)
Theorem C38_start : forall cf ordn t m nodes succs init, is_order ordn -> mk_supportive ordn t = Ok m ->
  htm_to_dag ordn t = Ok (nodes, succs, init) ->
  (forall d, exists s w i, sample_start cf m d = Ok s /\ reads cf m s w /\ In i init /\ w_stage w = Doing i /\ w_holding w = false) /\
  (forall i, In i init -> exists d s w, sample_start cf m d = Ok s /\ reads cf m s w /\ w_stage w = Doing i).
Proof.
  intros cf ordn t m nodes succs init Ho E Ed. destruct (mk_facts _ _ _ Ho E) as [nodes' [succs' [init' [ps (Ed' & B & D)]]]].
  assert (nodes' = nodes) as -> by congruence. assert (succs' = succs) as -> by congruence. assert (init' = init) as -> by congruence. split.
  - intros d. destruct (start_sound cf m _ _ _ _ B D d) as [s [i (H1 & H2 & H3)]]. exists s. eexists. exists i. split; [auto|]. split; [exact H3|]. auto.
  - intros i Hi. destruct (choose_all _ _ Hi) as [k Ek].
    set (d := draws_of (fun _ => false) (fun _ => false) k true true true (fun _ => true)). exists d.
    destruct (start_sound cf m _ _ _ _ B D d) as [s [j (H1 & H2 & H3)]]. exists s. eexists. split; [auto|]. split; [exact H3|]. cbn [w_stage].
    f_equal. unfold sample_start in H1. rewrite (b_init _ _ _ _ _ B) in H1. cbn [d draws_of d_succ] in H1. rewrite Ek in H1. cbn [bind] in H1.
    (* the stage is the one chosen *)
    assert (Hg : forall j, Doing i = Doing j -> j < length (htm_nodes m)).
    { intros j' E'; inversion E'; subst. rewrite (b_nodes _ _ _ _ _ B). apply D; auto. }
    pose proof (init_rep cf m (Doing i) Hg) as R0. cbn [stage_index] in R0.
    pose proof (start_prefs_exact cf m d (cf_preferences cf) 0 _ _ R0 ltac:(lia)) as R1.
    apply (rep_random_obj cf m _ _ _ _ B _ _ (d_object d)) in R1. apply reads_st in R1.
    assert (Es : s = st (random_object_changes (map (d_object d) (seq 0 (length (objects m))))
                   (start_preferences d 0 (cf_preferences cf) (set_htm (int_to_state cf m 0) (Z.of_nat i))))) by congruence.
    rewrite <- Es in R1. assert (EE := reads_stage cf m _ _ _ H3 R1). cbn in EE. inversion EE; auto.
Qed.
Print Assumptions C38_start.
Example C38_ex : sample_start default_config ex_model ex_draws = Ok 18%Z /\ htm_init ex_model = [0].
Proof. vm_compute. auto. Qed.

(** *** C34 *)
(** Every episode: the leaves left so far, followed by the current leaf and some others, are an execution of
    the task; when the cleaning or final state is reached they are a complete execution. *)
Theorem C34_episodes : forall cf ordn t m, is_order ordn -> mk_supportive ordn t = Ok m -> 1 <= cf_preferences cf ->
  forall done s, episode cf m done s ->
  let h := htm (int_to_state cf m s) in
  exists word, executes (fun a => a) t word /\
    map (node_label (fun a => a) (htm_nodes m)) done = map Some (firstn (length done) word) /\
    ((h = htm_clean m \/ h = htm_final m) -> length done = length word) /\
    ((h < htm_clean m)%Z -> exists a, nth_error word (length done) = Some a /\ node_label (fun a => a) (htm_nodes m) (Z.to_nat h) = Some a).
Proof.
  intros cf ordn t m Ho E Hc done s He h.
  destruct (mk_facts _ _ _ Ho E) as [nodes [succs [init [ps (Ed & B & D)]]]].
  assert (Hnp : no_parallel t) by (apply (proj1 (mk_supportive_iff ordn t)); eauto).
  assert (HW : forall i w, In i init -> full_walk succs i w -> exists word, executes (fun a => a) t word /\ map (node_label (fun a => a) nodes) w = map Some word).
  { intros i w Hi Hw.
    assert (exists word, map (node_label (fun a => a) nodes) w = map Some word) as [word Hword].
    { destruct (C27_well_formed _ _ _ _ _ _ Ho Ed) as (W1 & W2 & W3 & W4 & W5 & W6 & W7). clear - Hw W2 W3 W6.
      induction Hw as [i Hi|i j w l Hi Hj Hw IH].
      - assert (Hlt : i < length nodes) by (rewrite <- W2; apply nth_error_Some; congruence).
        destruct (nth_error nodes i) as [x|] eqn:Ex; [|apply nth_error_None in Ex; lia].
        destruct (W3 x (nth_error_In _ _ Ex)) as [a [i' [p [hh ->]]]]. exists [a]. cbn. unfold node_label. rewrite Ex. reflexivity.
      - destruct IH as [word IH]. assert (Hlt : i < length nodes) by (rewrite <- W2; apply nth_error_Some; congruence).
        destruct (nth_error nodes i) as [x|] eqn:Ex; [|apply nth_error_None in Ex; lia].
        destruct (W3 x (nth_error_In _ _ Ex)) as [a [i' [p [hh ->]]]]. exists (a :: word). cbn. rewrite IH. unfold node_label. rewrite Ex. reflexivity. }
    exists word. split; [|auto]. eapply (C26_actions_without_parallel _ _ _ _ _ _ Ho Hnp Ed); eauto. }
  assert (Hinv : exists w, reads cf m s w /\
    match w_stage w with
    | Doing i => forall rest, full_walk succs i rest -> exists i0, In i0 init /\ full_walk succs i0 (done ++ rest)
    | _ => exists i0, In i0 init /\ full_walk succs i0 done
    end).
  { clear h. induction He as [d s Es|done s d random a s' o r He IH Es].
    - destruct (start_sound cf m _ _ _ _ B D d) as [s0 [i (H1 & H2 & H3)]]. assert (s0 = s) as -> by congruence.
      eexists; split; [exact H3|]. cbn. intros rest Hrest. eauto.
    - destruct IH as [w [Hr Hw]]. destruct (stage_step cf m _ _ _ _ B D random a s s' o r d w Hc Hr Es) as [w' [Hr' Hst]].
      exists w'. split; [auto|]. unfold left_leaf. rewrite (reads_htm cf m _ _ Hr), (reads_htm cf m _ _ Hr').
      destruct Hst as [Hst|[[i [l (S1 & S2 & S3)]]|(S1 & S2 & S3)]].
      + rewrite Hst, Z.eqb_refl. cbn [orb]. rewrite app_nil_r. exact Hw.
      + rewrite S1 in Hw |- *. cbn [stage_index].
        assert (Hi : i < length (htm_nodes m)) by (apply Hr; auto).
        assert (Hlt : Z.leb (htm_clean m) (Z.of_nat i) = false) by (apply Z.leb_gt; unfold htm_clean; lia).
        rewrite Hlt, orb_false_r.
        destruct S3 as [[-> ->]|[j [Hj ->]]]; cbn [stage_index].
        * replace (Z.eqb (Z.of_nat i) (htm_clean m)) with false by (symmetry; apply Z.eqb_neq; unfold htm_clean; lia). rewrite Nat2Z.id.
          apply Hw. constructor; auto.
        * assert (i < j) by (destruct D as (_ & _ & _ & D4); apply (D4 _ _ _ S2 Hj)).
          replace (Z.eqb (Z.of_nat i) (Z.of_nat j)) with false by (symmetry; apply Z.eqb_neq; lia). rewrite Nat2Z.id.
          intros rest Hrest. rewrite <- app_assoc. apply Hw. econstructor; eauto.
      + rewrite S1 in Hw |- *. rewrite S3. cbn [stage_index].
        assert (Hcl : Z.leb (htm_clean m) (htm_clean m) = true) by apply Z.leb_refl. rewrite Hcl, orb_true_r, app_nil_r. exact Hw. }
  destruct Hinv as [w [Hr Hw]]. unfold h. rewrite (reads_htm cf m _ _ Hr). rewrite (b_nodes _ _ _ _ _ B).
  destruct (w_stage w) as [i| |] eqn:Ew; cbn [stage_index].
  - assert (Hi : i < length nodes) by (rewrite <- (b_nodes _ _ _ _ _ B); apply Hr; auto).
    destruct (C27_well_formed _ _ _ _ _ _ Ho Ed) as (W1 & W2 & W3 & W4 & W5 & W6 & W7).
    destruct (W7 i Hi) as [rest Hrest]. destruct (Hw _ Hrest) as [i0 [Hi0 Hfull]]. destruct (HW _ _ Hi0 Hfull) as [word [Hex Hlab]].
    assert (Hlen : length word = length done + length rest) by (apply (f_equal (@length _)) in Hlab; rewrite !map_length, app_length in Hlab; lia).
    assert (Hrest' : exists r', rest = i :: r') by (inversion Hrest; eauto). destruct Hrest' as [r' ->].
    exists word. split; [auto|]. split; [|split].
    + rewrite <- firstn_map, <- Hlab, map_app. rewrite firstn_app. rewrite map_length, Nat.sub_diag. cbn [firstn]. rewrite app_nil_r.
      rewrite <- (map_length (node_label (fun a => a) nodes) done). rewrite firstn_all. reflexivity.
    + assert (Hi' : i < length (htm_nodes m)) by (apply Hr; auto). intros [Hx|Hx]; exfalso; unfold htm_clean, htm_final in Hx; lia.
    + intros _. rewrite Nat2Z.id.
      assert (Hn := f_equal (fun l => nth_error l (length done)) Hlab). cbn beta in Hn. rewrite map_app in Hn.
      rewrite nth_error_app2 in Hn by (rewrite map_length; lia). rewrite map_length, Nat.sub_diag in Hn. cbn [map nth_error] in Hn.
      rewrite nth_error_map in Hn. destruct (nth_error word (length done)) as [a|] eqn:Ea; [|discriminate].
      exists a. split; [auto|]. cbn in Hn. congruence.
  - destruct Hw as [i0 [Hi0 Hfull]]. destruct (HW _ _ Hi0 Hfull) as [word [Hex Hlab]].
    assert (Hlen : length word = length done) by (apply (f_equal (@length _)) in Hlab; rewrite !map_length in Hlab; lia).
    exists word. split; [auto|]. split; [rewrite Hlab, <- Hlen, firstn_all; reflexivity|]. split; [auto|]. intros Hx. exfalso. lia.
  - destruct Hw as [i0 [Hi0 Hfull]]. destruct (HW _ _ Hi0 Hfull) as [word [Hex Hlab]].
    assert (Hlen : length word = length done) by (apply (f_equal (@length _)) in Hlab; rewrite !map_length in Hlab; lia).
    exists word. split; [auto|]. split; [rewrite Hlab, <- Hlen, firstn_all; reflexivity|]. split; [auto|]. intros Hx. exfalso.
    unfold htm_clean, htm_final in Hx. lia.
Qed.
Print Assumptions C34_episodes.

(** An episode that reaches the final state: leg, screw, clean, final, and a step more. *)
Lemma episode_next cf m done s d random a s' o r done' : episode cf m done s -> sample_transition cf m d random a s = Ok (s', o, r) ->
  done' = done ++ left_leaf cf m s s' -> episode cf m done' s'.
Proof. intros H1 H2 ->. econstructor; eauto. Qed.
Example C34_ex : exists s, episode default_config ex_model [0; 2] s /\ htm (int_to_state default_config ex_model s) = htm_final ex_model.
Proof.
  exists 131%Z. split; [|vm_compute; reflexivity].
  assert (H0 : episode default_config ex_model [] 18) by (apply episode_start with (d := ex_draws); vm_compute; reflexivity).
  assert (H1 : episode default_config ex_model [0] 81).
  { eapply (episode_next _ _ [] 18 ex_draws false 1 81); [exact H0|vm_compute; reflexivity|vm_compute; reflexivity]. }
  assert (H2 : episode default_config ex_model [0; 2] 113).
  { eapply (episode_next _ _ [0] 81 ex_draws false 2 113); [exact H1|vm_compute; reflexivity|vm_compute; reflexivity]. }
  assert (H3 : episode default_config ex_model [0; 2] 145).
  { eapply (episode_next _ _ [0; 2] 113 ex_draws false 0 145); [exact H2|vm_compute; reflexivity|vm_compute; reflexivity]. }
  eapply (episode_next _ _ [0; 2] 145 ex_draws true 3 131); [exact H3|vm_compute; reflexivity|vm_compute; reflexivity].
Qed.

(** *** C35 *)
Theorem C35_monotone : forall cf ordn t m, is_order ordn -> mk_supportive ordn t = Ok m -> 1 <= cf_preferences cf ->
  forall d random a s s' o r, (0 <= s < model_n_states cf m)%Z -> sample_transition cf m d random a s = Ok (s', o, r) ->
  let h := htm (int_to_state cf m s) in let h' := htm (int_to_state cf m s') in
  (h <= h')%Z /\ (model_is_final cf m s = true -> model_is_final cf m s' = true) /\
  (model_is_final cf m s = false -> model_is_final cf m s' = true ->
     nth_error (actions m) (Z.to_nat a) = Some "wait"%string /\ h = htm_clean m) /\
  (h <> h' -> h <> htm_final m).
Proof.
  intros cf ordn t m Ho E Hc d random a s s' o r Hs Es h h'.
  destruct (mk_facts _ _ _ Ho E) as [nodes [succs [init [ps (Ed & B & D)]]]].
  destruct (reads_exists cf m _ _ _ _ B s Hs) as [w Hr].
  destruct (stage_step cf m _ _ _ _ B D random a s s' o r d w Hc Hr Es) as [w' [Hr' Hst]].
  assert (Fin : forall s w, reads cf m s w -> model_is_final cf m s = match w_stage w with Finished => true | _ => false end).
  { intros s0 w0 H. apply reads_rep in H. unfold model_is_final. apply (rep_final _ _ _ _ H). }
  rewrite (Fin _ _ Hr), (Fin _ _ Hr'). unfold h, h'. rewrite (reads_htm cf m _ _ Hr), (reads_htm cf m _ _ Hr').
  destruct Hst as [Hst|[[i [l (S1 & S2 & S3)]]|(S1 & S2 & S3)]].
  - rewrite Hst. split; [lia|]. split; [auto|]. split; [|intros; congruence]. destruct (w_stage w); intros; congruence.
  - rewrite S1. assert (Hi : i < length (htm_nodes m)) by (apply Hr; auto). cbn [stage_index].
    assert (Hf : Z.of_nat i <> htm_final m) by (unfold htm_final; lia).
    destruct S3 as [[_ ->]|[j [Hj ->]]]; cbn [stage_index]; (split; [|split; [auto|split; [discriminate|auto]]]).
    + unfold htm_clean. lia.
    + destruct D as (_ & _ & _ & D4). pose proof (D4 _ _ _ S2 Hj). lia.
  - rewrite S1, S3. cbn [stage_index]. unfold htm_clean, htm_final. split; [lia|]. split; [auto|]. split; [|intros; lia].
    intros _ _. subst a. split; reflexivity.
Qed.
Print Assumptions C35_monotone.

Lemma run_changes cf m nodes succs init ps : built m nodes succs init ps -> dag_ok nodes succs init -> 1 <= cf_preferences cf ->
  forall s l, run cf m s l -> forall w, reads cf m s w -> exists wl, reads cf m (last l s) wl /\
    (stage_index m (w_stage w) + Z.of_nat (htm_changes cf m s l) <= stage_index m (w_stage wl))%Z.
Proof.
  intros B D Hc s l H. induction H as [s|s s' d random a o r l Es Hrun IH]; intros w Hr.
  - exists w. cbn. split; [auto|lia].
  - destruct (stage_step cf m _ _ _ _ B D random a s s' o r d w Hc Hr Es) as [w' [Hr' Hst]].
    destruct (IH _ Hr') as [wl [Hl HI]]. exists wl. split.
    + assert (EL : last (s' :: l) s = last l s').
      { clear. revert s s'. induction l as [|x l IHl]; intros s s'; [reflexivity|]. change (last (s' :: x :: l) s) with (last (x :: l) s).
        rewrite (IHl s x). symmetry. apply (IHl s' x). }
      rewrite EL. auto.
    + cbn [htm_changes]. rewrite (reads_htm cf m _ _ Hr), (reads_htm cf m _ _ Hr').
      destruct (Z.eqb_spec (stage_index m (w_stage w)) (stage_index m (w_stage w'))) as [Eq|Ne]; [lia|].
      assert (stage_index m (w_stage w) < stage_index m (w_stage w'))%Z; [|lia].
      destruct Hst as [Hst|[[i [l' (S1 & S2 & S3)]]|(S1 & S2 & S3)]].
      * congruence.
      * rewrite S1. assert (Hi : i < length (htm_nodes m)) by (apply Hr; auto). cbn [stage_index].
        destruct S3 as [[_ ->]|[j [Hj ->]]]; cbn [stage_index]; [unfold htm_clean; lia|].
        destruct D as (_ & _ & _ & D4). pose proof (D4 _ _ _ S2 Hj). lia.
      * rewrite S1, S3. cbn. unfold htm_clean, htm_final. lia.
Qed.

Theorem C35_bounded : forall cf ordn t m, is_order ordn -> mk_supportive ordn t = Ok m -> 1 <= cf_preferences cf ->
  forall s l, (0 <= s < model_n_states cf m)%Z -> run cf m s l -> htm_changes cf m s l <= length (htm_nodes m) + 1.
Proof.
  intros cf ordn t m Ho E Hc s l Hs Hrun. destruct (mk_facts _ _ _ Ho E) as [nodes [succs [init [ps (Ed & B & D)]]]].
  destruct (reads_exists cf m _ _ _ _ B s Hs) as [w Hr].
  destruct (run_changes cf m _ _ _ _ B D Hc s l Hrun w Hr) as [wl [Hl HI]].
  assert (H1 : (0 <= stage_index m (w_stage w))%Z) by (destruct (w_stage w); cbn; unfold htm_clean, htm_final; lia).
  assert (H2 : (stage_index m (w_stage wl) <= htm_final m)%Z).
  { destruct (w_stage wl) as [i| |] eqn:Ew; cbn; unfold htm_clean, htm_final; try lia. assert (i < length (htm_nodes m)) by (apply Hl; auto). lia. }
  unfold htm_final in H2. lia.
Qed.
Print Assumptions C35_bounded.
Example C35_ex : run default_config ex_model 18 [81; 113; 145]%Z /\ htm_changes default_config ex_model 18 [81; 113; 145]%Z = 3.
Proof.
  split; [|vm_compute; reflexivity].
  eapply (run_cons _ _ 18 81 ex_draws false 1); [vm_compute; reflexivity|].
  eapply (run_cons _ _ 81 113 ex_draws false 2); [vm_compute; reflexivity|].
  eapply (run_cons _ _ 113 145 ex_draws false 0); [vm_compute; reflexivity|constructor].
Qed.

(** *** C80: which tasks have a model. *)
(** False as stated (every task of supportive actions): exactly the tasks without parallel combinations. *)
Theorem C80_builds_partial : forall ordn (t : stree), is_order ordn -> constructed t ->
  ((exists m, mk_supportive ordn t = Ok m) <->
   (forall x, In x (preorder t) -> is_leaf x \/ children_of x <> []) /\
   (forall ch i p n h pr, ~ In (Node Parallel ch i p n h pr) (preorder t)) /\
   (forall a i p h, In (Leaf a i p h) (preorder t) -> a_class a = KSupported /\ a_params a <> None)).
Proof.
  intros ordn t Ho Hc. rewrite mk_supportive_iff.
  assert (HL : leaves_supp t <-> (forall a i p h, In (Leaf a i p h) (preorder t) -> a_class a = KSupported /\ a_params a <> None)).
  { unfold leaves_supp, supp. split; intros H a i p h Hin; specialize (H a i p h Hin).
    - destruct H as [q Hq]. cbn in Hq. destruct (a_class a), (a_params a); try discriminate. split; congruence.
    - destruct H as [H1 H2]. cbn. rewrite H1. destruct (a_params a); [eauto|congruence]. }
  rewrite HL, (C27_builds_iff _ ordn t Ho Hc). unfold expandable, no_parallel. split.
  - intros ([H1 _] & H2 & H3). auto.
  - intros (H1 & H2 & H3). split; [|auto]. split; [auto|]. intros ch i p n h pr a i' p' h' Hp. exfalso. eapply H2; eauto.
Qed.
Print Assumptions C80_builds_partial.
Theorem C80_parallel_refuted : forall ordn (t : stree) ch i p n h pr, is_order ordn -> constructed t ->
  In (Node Parallel ch i p n h pr) (preorder t) -> forall m, mk_supportive ordn t <> Ok m.
Proof.
  intros ordn t ch i p n h pr Ho Hc Hin m E. destruct (proj1 (C80_builds_partial ordn t Ho Hc) ltac:(eauto)) as (_ & H & _). eapply H; eauto.
Qed.
Print Assumptions C80_parallel_refuted.
Example C80_ex : mk_supportive (fun l => l) (Node Parallel [ex_leaf_s "a" [] None; ex_leaf_s "b" [] None] None None "p" false None) = Err EAttr.
Proof. vm_compute. reflexivity. Qed.
Example C80_ex_constructed : constructed ex_task /\ exists m, mk_supportive (fun l => l) ex_task = Ok m.
Proof.
  split; [|exists ex_model; apply ex_model_built].
  apply constructed_comb with (k := Sequential) (ch := children_of ex_task) (i := None) (p := None) (n := "all"%string) (h := false) (pr := None); [|reflexivity].
  constructor; [constructor|constructor; [|constructor]].
  eapply constructed_comb with (k := Alternative) (pr := None) (i := None) (p := None) (n := "fix"%string) (h := false)
      (ch := [ex_leaf_s "glue" [(CSome, "glue")]%string None; ex_leaf_s "screw" [(CUses, "joints")]%string (Some "v"%string)]); [|reflexivity].
  repeat constructor.
Qed.
