(** Proofs about one step of the simulation, continued: every action. *)
From Verif Require Import QBase PyBase PyBaseFacts HtmModel HtmSpec HtmProofs DagModel DagSpec DagProofs CodecModel CodecSpec CodecProofs SuppModel SuppSpec SuppProofs SuppProofs2.
From Coq Require Import Lia.
Import HtmSpec.
Local Open Scope nat_scope.

Lemma py_nth_nat {A} (l : list A) i : py_nth l (Z.of_nat i) = match nth_error l i with Some x => Ok x | None => Err EIndex end.
Proof.
  unfold py_nth. rewrite (proj2 (Z.ltb_ge (Z.of_nat i) 0)) by lia. rewrite (proj2 (Z.ltb_ge (Z.of_nat i) 0)) by lia.
  rewrite Nat2Z.id. reflexivity.
Qed.

Lemma choose_In {A} (l : list A) k x : choose l k = Ok x -> In x l.
Proof. unfold choose. destruct (nth_error l (k mod length l)) eqn:E; [|discriminate]. intros H; inversion H; subst. eapply nth_error_In; eauto. Qed.
Lemma choose_ok {A} (l : list A) k : l <> [] -> exists x, choose l k = Ok x /\ In x l.
Proof.
  intros H. unfold choose. assert (Hl : length l <> 0) by (destruct l; [congruence|discriminate]).
  destruct (nth_error l (k mod length l)) eqn:E; [eauto using nth_error_In|].
  apply nth_error_None in E. pose proof (Nat.mod_upper_bound k _ Hl). lia.
Qed.
Lemma choose_all {A} (l : list A) x : In x l -> exists k, choose l k = Ok x.
Proof.
  intros H. apply In_nth_error in H. destruct H as [k E]. exists k. unfold choose.
  assert (k < length l) by (apply nth_error_Some; congruence). rewrite Nat.mod_small by auto. rewrite E. reflexivity.
Qed.

Lemma mapM_nth {A C} (f : A -> res C) l ps i x : mapM f l = Ok ps -> nth_error l i = Some x ->
  exists p, f x = Ok p /\ nth_error ps i = Some p.
Proof.
  revert ps i; induction l as [|y t IH]; intros ps i E Hi; [destruct i; discriminate|]. cbn [mapM] in E.
  destruct (f y) as [p|] eqn:Ep; [|discriminate]. cbn [bind] in E. destruct (mapM f t) as [ps'|] eqn:Et; [|discriminate]. cbn [bind] in E.
  assert (ps = p :: ps') as -> by congruence. destruct i as [|i]; cbn in Hi |- *; [inversion Hi; subst; eauto|]. eapply IH; eauto.
Qed.
Lemma mapM_length {A C} (f : A -> res C) l ps : mapM f l = Ok ps -> length ps = length l.
Proof.
  revert ps; induction l as [|y t IH]; intros ps E; cbn [mapM] in E; [inversion E; reflexivity|].
  destruct (f y) as [p|]; [|discriminate]. cbn [bind] in E. destruct (mapM f t) as [ps'|]; [|discriminate]. cbn [bind] in E.
  assert (ps = p :: ps') as -> by congruence. cbn. f_equal. apply IH; reflexivity.
Qed.
Lemma Forall2_nth {A C} (R : A -> C -> Prop) l l' : Forall2 R l l' -> forall i y, nth_error l' i = Some y -> exists x, nth_error l i = Some x /\ R x y.
Proof. induction 1; intros [|i] z E; try discriminate; cbn in *; [inversion E; subst; eauto|eauto]. Qed.

(** Dag facts used. *)
Definition dag_ok (nodes : list stree) (succs : list (list nat)) (init : list nat) : Prop :=
  length succs = length nodes /\ init <> [] /\ (forall i, In i init -> i < length nodes) /\
  (forall i l j, nth_error succs i = Some l -> In j l -> i < j < length nodes).

Section Step.
  Variable cf : config.
  Variable m : spomdp.
  Variables (nodes : list stree) (succs : list (list nat)) (init : list nat) (ps : list sparams).
  Hypothesis B : built m nodes succs init ps.
  Hypothesis D : dag_ok nodes succs init.

  (** ** Actions *)
  Definition acts (a : Z) (act : robot) : Prop := (0 <= a)%Z /\ nth_error (actions m) (Z.to_nat a) = Some (robot_name act).

  Lemma actions_cases a nm : (0 <= a)%Z -> nth_error (actions m) (Z.to_nat a) = Some nm ->
    (a = 0%Z /\ nm = "wait"%string) \/ (a = 1%Z /\ nm = "hold H"%string) \/ (a = 2%Z /\ nm = "hold V"%string) \/ (a = 3%Z /\ nm = "ask hold"%string) \/
    ((4 <= a)%Z /\ exists i o, nth_error (objects m) i = Some o /\
      ((nm = ("bring " ++ o)%string /\ obj_from_action m a = Ok i /\ is_bring m a = true /\ bring_action m i = Ok a) \/
       (nm = ("clear " ++ o)%string /\ obj_from_action m a = Ok i /\ is_bring m a = false /\ clear_action m i = Ok a /\ nth_error (clearable m) i = Some true))).
  Proof.
    intros Ha E. destruct (Z.lt_ge_cases a 4) as [Hlt|Hge].
    - assert (Hc : a = 0%Z \/ a = 1%Z \/ a = 2%Z \/ a = 3%Z) by lia. destruct Hc as [->|[->|[->| ->]]]; cbn in E; inversion E; auto 10.
    - right; right; right; right. split; [lia|]. unfold actions in E. rewrite nth_error_app2 in E by (cbn; lia). fold (obj_names (objects m) (clearable m)) in E.
      destruct (object_actions_spec _ (objects m) _ _ _ (b_tables _ _ _ _ _ B) (b_clen _ _ _ _ _ B)) as (O1 & O2 & O3 & O4 & O5 & O6).
      destruct (O4 _ _ E) as [i [o [Ho H]]]. exists i, o. split; [auto|].
      cbn [length] in H. replace (4 + Z.of_nat (Z.to_nat a - 4))%Z with a in H by lia.
      unfold obj_from_action, is_bring, bring_action, clear_action. rewrite !py_nth_nat. fold oeqb.
      destruct H as [(H1 & H2 & H3)|(H1 & H2 & H3 & H4 & H5)]; [left|right]; rewrite ?H2, ?H3, ?H4, ?H5; cbn [bind]; auto.
  Qed.

  Lemma obj_from_action_invalid a : (a < 0 \/ n_actions m <= a)%Z -> obj_from_action m a = Err EValue.
  Proof.
    intros Ha. destruct (object_actions_spec _ (objects m) _ _ _ (b_tables _ _ _ _ _ B) (b_clen _ _ _ _ _ B)) as (O1 & O2 & O3 & O4 & O5 & O6).
    unfold obj_from_action. fold oeqb. destruct Ha as [Ha|Ha].
    - destruct (object_actions_low _ _ a _ _ (b_tables _ _ _ _ _ B)) as [-> ->]; [lia|reflexivity].
    - destruct (O5 a) as [-> ->]; [|reflexivity]. rewrite (b_nact _ _ _ _ _ B) in Ha. unfold actions in Ha. rewrite app_length in Ha.
      fold (obj_names (objects m) (clearable m)) in Ha. cbn [length] in Ha. lia.
  Qed.

  Lemma robot_bring nm o : robot_name nm = ("bring " ++ o)%string -> nm = Bring o.
  Proof. destruct nm; cbn; intros E; try discriminate. inversion E; reflexivity. Qed.
  Lemma robot_clear nm o : robot_name nm = ("clear " ++ o)%string -> nm = Clear o.
  Proof. destruct nm; cbn; intros E; try discriminate. inversion E; reflexivity. Qed.
  Lemma robot_name_inj a a' : robot_name a = robot_name a' -> a = a'.
  Proof. destruct a, a'; cbn; intros E; try discriminate; inversion E; reflexivity. Qed.

  Lemma act_cases a act : acts a act ->
    (a = 0%Z /\ act = Wait) \/ ((a = 1%Z /\ act = HoldH) \/ (a = 2%Z /\ act = HoldV)) \/ (a = 3%Z /\ act = Ask) \/
    ((4 <= a)%Z /\ exists i o, nth_error (objects m) i = Some o /\ obj_from_action m a = Ok i /\
      ((act = Bring o /\ is_bring m a = true) \/ (act = Clear o /\ is_bring m a = false))).
  Proof.
    intros [Ha E]. destruct (actions_cases _ _ Ha E) as [[-> H]|[[-> H]|[[-> H]|[[-> H]|[Hge [i [o [Ho H]]]]]]]].
    1-4: destruct act; cbn in H; try discriminate H; auto 10.
    right; right; right. split; [auto|]. exists i, o. split; [auto|].
    destruct H as [(H1 & H2 & H3 & H4)|(H1 & H2 & H3 & H4 & H5)]; (split; [auto|]); [left|right]; split; auto;
      [apply robot_bring|apply robot_clear]; auto.
  Qed.

  Lemma acts_exists a : (0 <= a < n_actions m)%Z -> exists act, acts a act.
  Proof.
    intros Ha. rewrite (b_nact _ _ _ _ _ B) in Ha. destruct (nth_error (actions m) (Z.to_nat a)) as [nm|] eqn:E;
      [|apply nth_error_None in E; lia].
    destruct (actions_cases a nm ltac:(lia) E) as [[-> ->]|[[-> ->]|[[-> ->]|[[-> ->]|[Hge [i [o [Ho H]]]]]]]].
    - exists Wait; split; [lia|exact E].
    - exists HoldH; split; [lia|exact E].
    - exists HoldV; split; [lia|exact E].
    - exists Ask; split; [lia|exact E].
    - destruct H as [(-> & _)|(-> & _)]; [exists (Bring o)|exists (Clear o)]; split; try lia; exact E.
  Qed.

  (** ** Completing a leaf *)
  Local Open Scope Q_scope.
  Notation Rep := (Rep cf m).

  Lemma node_lookup i : (i < length nodes)%nat ->
    exists n p l cs, nth_error (htm_nodes m) i = Some n /\ action_params n = Ok p /\ nth_error ps i = Some p /\
      nth_error succs i = Some l /\ nth_error (htm_succs m) i = Some (match l with [] => [length nodes] | _ => l end) /\
      nth_error (htm_conditions m) i = Some cs /\ Forall2 (linked (objects m)) cs (sp_conditions p).
  Proof.
    intros Hi. destruct D as (D1 & D2 & D3 & D4).
    destruct (nth_error nodes i) as [n|] eqn:En; [|apply nth_error_None in En; lia].
    destruct (mapM_nth _ _ _ _ _ (b_params _ _ _ _ _ B) En) as [p [Ep Hp]].
    destruct (nth_error succs i) as [l|] eqn:El; [|apply nth_error_None in El; lia].
    destruct (Forall2_nth _ _ _ (b_conds _ _ _ _ _ B) _ _ Hp) as [cs [Ec HF]].
    exists n, p, l, cs. rewrite (b_nodes _ _ _ _ _ B), (b_succs _ _ _ _ _ B), nth_error_map, El. cbn. auto 10.
  Qed.

  Lemma transition_sound d x w i : Rep x w -> w_stage w = Doing i ->
    exists x' r w' n, update_for_transition cf m d x (Z.of_nat i) = Ok (x', r) /\ Rep x' w' /\ completes ps succs i w w' n /\ r == - missing_cost cf n.
  Proof.
    intros Hr Hs. assert (Hi : (i < length nodes)%nat) by (rewrite <- (b_nodes _ _ _ _ _ B); apply Hr; auto).
    destruct (node_lookup i Hi) as [nd [p [l [cs (N1 & N2 & N3 & N4 & N5 & N6 & N7)]]]].
    unfold update_for_transition. rewrite !py_nth_nat, N5, N6. cbn [bind].
    destruct (choose_ok (match l with [] => [length nodes] | _ => l end) (d_succ d)) as [h [Eh Hin]]; [destruct l; discriminate|].
    rewrite Eh. cbn [bind].
    assert (Hg : exists g, Z.of_nat h = stage_index m g /\ (forall j, g = Doing j -> (j < length (htm_nodes m))%nat) /\
                           ((l = [] /\ g = Cleaning) \/ exists j, In j l /\ g = Doing j)).
    { rewrite (b_nodes _ _ _ _ _ B). destruct l as [|j l'].
      - destruct Hin as [<-|[]]. exists Cleaning. cbn. unfold htm_clean. rewrite (b_nodes _ _ _ _ _ B). split; [auto|]. split; [discriminate|auto].
      - exists (Doing h). split; [reflexivity|]. split; [|right; eauto]. intros j' E; inversion E; subst.
        destruct D as (D1 & D2 & D3 & D4). apply (D4 _ _ _ N4 Hin). }
    destruct Hg as [g (G1 & G2 & G3)]. rewrite G1.
    pose proof (rep_set_htm cf m x w g Hr G2) as Hr1.
    destruct (update_sound cf m _ _ _ _ B d cs 0 (sp_conditions p) _ _ N7 Hr1) as [h' [n (U1 & U2 & U3)]].
    destruct (update_for_conditions cf d 0 cs (set_htm x (stage_index m g))) as [x' r] eqn:Eu. cbn [fst snd] in *.
    exists x', r, (with_has (with_stage w g) h'), n. split; [reflexivity|]. split; [exact U1|]. split; [|exact U3].
    split; [exists p; auto|]. split; [exists l; split; auto|]. split; reflexivity.
  Qed.

  Lemma transition_complete x w i w' n : Rep x w -> w_stage w = Doing i -> completes ps succs i w w' n ->
    exists ds dc, forall d, d_succ d = ds -> (forall j, d_consume d j = dc j) ->
      exists x' r, update_for_transition cf m d x (Z.of_nat i) = Ok (x', r) /\ Rep x' w' /\ r == - missing_cost cf n.
  Proof.
    intros Hr Hs ([p [Hp Hm]] & [l [Hl Hst]] & C1 & C2).
    assert (Hi : (i < length nodes)%nat) by (rewrite <- (b_nodes _ _ _ _ _ B); apply Hr; auto).
    destruct (node_lookup i Hi) as [nd [p' [l' [cs (N1 & N2 & N3 & N4 & N5 & N6 & N7)]]]].
    assert (p' = p) as -> by congruence. assert (l' = l) as -> by congruence.
    assert (Hg : exists h, In h (match l with [] => [length nodes] | _ => l end) /\ Z.of_nat h = stage_index m (w_stage w') /\
                           (forall j, w_stage w' = Doing j -> (j < length (htm_nodes m))%nat)).
    { rewrite (b_nodes _ _ _ _ _ B). destruct Hst as [[-> E]|[j [Hj E]]]; rewrite E.
      - exists (length nodes). split; [left; auto|]. cbn. unfold htm_clean. rewrite (b_nodes _ _ _ _ _ B). split; [auto|discriminate].
      - exists j. split; [destruct l; [destruct Hj|exact Hj]|]. split; [reflexivity|]. intros j' E'; inversion E'; subst. destruct D as (D1 & D2 & D3 & D4). apply (D4 _ _ _ N4 Hj). }
    destruct Hg as [h (G1 & G2 & G3)]. destruct (choose_all _ _ G1) as [ds Eds].
    pose proof (rep_set_htm cf m x w _ Hr G3) as Hr1.
    destruct (update_complete cf m _ _ _ _ B _ _ _ _ Hm cs 0 _ _ N7 Hr1 ltac:(reflexivity)) as [dc Hdc].
    exists ds, dc. intros d Hd1 Hd2. destruct (Hdc d ltac:(auto)) as [U1 U2].
    unfold update_for_transition. rewrite !py_nth_nat, N5, N6. cbn [bind]. rewrite Hd1, Eds. cbn [bind]. rewrite G2.
    destruct (update_for_conditions cf d 0 cs (set_htm x (stage_index m (w_stage w')))) as [x' r] eqn:Eu. cbn [fst snd] in *.
    exists x', r. split; [reflexivity|]. split; [|exact U2]. eapply rep_ext; [exact U1|]. repeat split; cbn; auto.
  Qed.

  (** ** The body of sample_transition *)
  Definition body (d : draws) (random : bool) (a : Z) (x : sstate) : res (Z * nat * Q) :=
    if Z.eqb a 0 || Z.eqb a 1 || Z.eqb a 2 then
      let r := if Z.eqb a 0 then 0%Q else (- cost_hold cf)%Q in
      if is_final x then Ok (st x, O_NONE, r)
      else if Z.eqb (htm x) (htm_clean m) then
        if Z.eqb a 0 then Ok (st (set_htm x (htm_final m)), O_NONE, (r - left_over cf m x + r_final cf)%Q)
        else Ok (st x, O_FAIL, r)
      else
        do n <- py_nth (htm_nodes m) (htm x);
        do p <- action_params n;
        let pref := negb (Z.eqb (has_preference x 0) 0) in
        let helps := pref && match sp_hold p with
                             | Some h => (String.eqb h "h" && Z.eqb a 1) || (String.eqb h "v" && Z.eqb a 2)
                             | None => false
                             end in
        let fails := negb helps && (Z.eqb a 1 || Z.eqb a 2) && (negb random || d_hold d) in
        let r1 := if helps then (r + r_preference cf)%Q else r in
        if fails then Ok (st x, O_FAIL, r1)
        else do (x', rc) <- update_for_transition cf m d x (htm x);
             Ok (st x', O_NONE,
                 (r1 + rc + r_subtask cf + (if reward_independent_preference cf && negb pref then r_preference cf - cost_hold cf else 0))%Q)
    else if Z.eqb a 3 then
      let yes := negb (Z.eqb (has_preference x 0) 0) in
      Ok (st x, (if negb random || d_answer d then (if yes then O_YES else O_NO) else O_NONE), (- cost_intrinsic cf)%Q)
    else
      do o <- obj_from_action m a;
      let b := if is_bring m a then 1%Z else 0%Z in
      if Z.eqb (has_object x o) b then Ok (st x, O_NOT_FOUND, (- cost_intrinsic cf)%Q)
      else if random && d_fail d then Ok (st x, O_FAIL, (- cost_intrinsic cf)%Q)
      else Ok (st (set_object x o b), O_NONE, (- cost_intrinsic cf)%Q).

  Definition disturb (d : draws) (random : bool) (x : sstate) : sstate :=
    if random
    then random_preference_changes (map (d_preference d) (seq 0 (cf_preferences cf)))
           (random_object_changes (map (d_object d) (seq 0 (length (objects m)))) x)
    else x.
  Definition disturb_world (d : draws) (random : bool) (w : world) : world :=
    if random then with_prefs (with_has w (flip_has m (d_object d) (w_has w))) (flip (map (d_preference d) (seq 0 (cf_preferences cf))) (w_prefs w))
    else w.

  Lemma disturb_rep d random x w : Rep x w -> Rep (disturb d random x) (disturb_world d random w).
  Proof.
    intros H. unfold disturb, disturb_world. destruct random; [|exact H].
    apply (rep_random_pref cf m _ (with_has w (flip_has m (d_object d) (w_has w))) (d_preference d)).
    apply (rep_random_obj cf m _ _ _ _ B); auto.
  Qed.

  Lemma sample_body d random a s w : reads cf m s w ->
    sample_transition cf m d random a s = body d random a (disturb d random (int_to_state cf m s)).
  Proof.
    intros H. apply reads_rep in H. apply (disturb_rep d random) in H.
    change (sample_transition cf m d random a s) with
      (let x := disturb d random (int_to_state cf m s) in let nx := int_to_state cf m (st x) in
       if Z.eqb a 0 || Z.eqb a 1 || Z.eqb a 2 then
      let r := if Z.eqb a 0 then 0%Q else (- cost_hold cf)%Q in
      if is_final x then Ok (st nx, O_NONE, r)
      else if Z.eqb (htm x) (htm_clean m) then
        if Z.eqb a 0 then Ok (st (set_htm nx (htm_final m)), O_NONE, (r - left_over cf m x + r_final cf)%Q)
        else Ok (st nx, O_FAIL, r)
      else
        do n <- py_nth (htm_nodes m) (htm x);
        do p <- action_params n;
        let pref := negb (Z.eqb (has_preference x 0) 0) in
        let helps := pref && match sp_hold p with
                             | Some h => (String.eqb h "h" && Z.eqb a 1) || (String.eqb h "v" && Z.eqb a 2)
                             | None => false
                             end in
        let fails := negb helps && (Z.eqb a 1 || Z.eqb a 2) && (negb random || d_hold d) in
        let r1 := if helps then (r + r_preference cf)%Q else r in
        if fails then Ok (st nx, O_FAIL, r1)
        else do (x', rc) <- update_for_transition cf m d nx (htm x);
             Ok (st x', O_NONE,
                 (r1 + rc + r_subtask cf + (if reward_independent_preference cf && negb pref then r_preference cf - cost_hold cf else 0))%Q)
    else if Z.eqb a 3 then
      let yes := negb (Z.eqb (has_preference x 0) 0) in
      Ok (st nx, (if negb random || d_answer d then (if yes then O_YES else O_NO) else O_NONE), (- cost_intrinsic cf)%Q)
    else
      do o <- obj_from_action m a;
      let b := if is_bring m a then 1%Z else 0%Z in
      if Z.eqb (has_object x o) b then Ok (st nx, O_NOT_FOUND, (- cost_intrinsic cf)%Q)
      else if random && d_fail d then Ok (st nx, O_FAIL, (- cost_intrinsic cf)%Q)
      else Ok (st (set_object nx o b), O_NONE, (- cost_intrinsic cf)%Q)).
    cbv zeta. rewrite <- (siz_eq cf m (disturb d random (int_to_state cf m s))) by apply H. reflexivity.
  Qed.

  Lemma left_over_count x w : Rep x w -> left_over cf m x == missing_cost cf (present_count (objects m) w).
  Proof.
    intros H. unfold left_over, sum_n, missing_cost, present_count.
    assert (G : forall l k, (forall i o, nth_error l i = Some o -> has_object x (k + i) = Z.b2z (w_has w o)) ->
      sum_over (seq k (length l)) (fun o => cost_get cf * inject_Z (has_object x o)) == inject_Z (Z.of_nat (length (filter (w_has w) l))) * cost_get cf).
    { induction l as [|o t IH]; intros k Hk; cbn [length seq]; [cbn; ring|]. rewrite sum_cons, (IH (S k)).
      - rewrite <- (Nat.add_0_r k) at 1. rewrite (Hk 0%nat o eq_refl). cbn [filter]. destruct (w_has w o); cbn [Z.b2z length].
        + rewrite Nat2Z.inj_succ. unfold Z.succ. rewrite inject_Z_plus. ring.
        + change (inject_Z 0) with 0. ring.
      - intros i o' Hi. rewrite Nat.add_succ_l, <- Nat.add_succ_r. apply Hk; auto. }
    apply G. intros i o Hi. cbn [Nat.add]. eapply rep_obj; eauto.
  Qed.

  Lemma helps_dec w i p a act : nth_error ps i = Some p -> (a = 1%Z /\ act = HoldH) \/ (a = 2%Z /\ act = HoldV) ->
    (wants_hold w && match sp_hold p with
       | Some h => (String.eqb h "h" && Z.eqb a 1) || (String.eqb h "v" && Z.eqb a 2) | None => false end = true) <-> helps ps w act i.
  Proof.
    intros Hp Ha. unfold helps. rewrite andb_true_iff. apply and_iff_compat_l.
    destruct (sp_hold p) as [h|] eqn:Eh.
    - rewrite orb_true_iff, !andb_true_iff, !String.eqb_eq. split.
      + intros H. exists p. split; [auto|]. rewrite Eh. destruct Ha as [[-> ->]|[-> ->]]; destruct H as [[-> H]|[-> H]]; try discriminate; auto.
      + intros [p' [Hp' H]]. assert (p' = p) as -> by congruence. rewrite Eh in H.
        destruct Ha as [[-> ->]|[-> ->]]; destruct H as [[H1 H2]|[H1 H2]]; try discriminate; inversion H1; auto.
    - split; [discriminate|]. intros [p' [Hp' H]]. assert (p' = p) as -> by congruence. rewrite Eh in H. destruct H as [[H _]|[H _]]; discriminate.
  Qed.

  Lemma pref_b x w : (1 <= cf_preferences cf)%nat -> Rep x w -> negb (Z.eqb (has_preference x 0) 0) = wants_hold w.
  Proof. intros Hc H. rewrite (rep_pref cf m _ _ Hc H). destruct (wants_hold w); reflexivity. Qed.

  Lemma body_sound d random a act x w : (1 <= cf_preferences cf)%nat -> acts a act -> Rep x w ->
    exists x' o r ob w', body d random a x = Ok (st x', o, r) /\ Rep x' w' /\ nth_error observations o = Some ob /\
      documented cf ps succs (objects m) random w act w' ob r.
  Proof.
    intros Hc Ha Hr. unfold body.
    destruct (act_cases _ _ Ha) as [[-> ->]|[Hh'|[[-> ->]|[Hge [i [o (Ho & Eo & Hk)]]]]]].
    - (* wait *)
      cbn [Z.eqb orb]. rewrite (rep_final cf m _ _ Hr), (rep_clean cf m _ _ Hr), (rep_htm cf m _ _ Hr).
      destruct (w_stage w) as [i| |] eqn:Ew.
      + assert (Hi : (i < length nodes)%nat) by (rewrite <- (b_nodes _ _ _ _ _ B); apply Hr; auto).
        destruct (node_lookup i Hi) as [nd [p [l [cs (N1 & N2 & N3 & _)]]]].
        cbn [stage_index]. rewrite py_nth_nat, N1. cbn [bind]. rewrite N2. cbn [bind].
        rewrite (pref_b _ _ Hc Hr).
        replace (match sp_hold p with Some h => (String.eqb h "h" && false) || (String.eqb h "v" && false) | None => false end) with false
          by (destruct (sp_hold p) as [h|]; [rewrite !andb_false_r|]; reflexivity).
        rewrite !andb_false_r. cbn [negb andb].
        destruct (transition_sound d x w i Hr Ew) as [x' [r [w' [n (T1 & T2 & T3 & T4)]]]]. rewrite T1. cbn [bind].
        exists x', O_NONE. eexists. exists "none"%string, w'. split; [reflexivity|]. split; [exact T2|]. split; [reflexivity|].
        eapply leaf_wait; eauto. rewrite T4. unfold compensation. destruct (reward_independent_preference cf && negb (wants_hold w)); ring.
      + exists (set_htm x (htm_final m)), O_NONE. eexists. exists "none"%string, (with_stage w Finished). split; [reflexivity|].
        split; [apply (rep_set_htm cf m x w Finished Hr); discriminate|]. split; [reflexivity|].
        apply cleaning_wait; [auto|]. rewrite (left_over_count _ _ Hr). ring.
      + exists x, O_NONE. eexists. exists "none"%string, w. split; [reflexivity|]. split; [auto|]. split; [reflexivity|].
        apply finished_wait; [auto|reflexivity].
    - (* holds *)
      assert (Hih : is_hold act) by (destruct Hh' as [[_ ->]|[_ ->]]; [left|right]; auto).
      assert (E0 : Z.eqb a 0 = false) by (apply Z.eqb_neq; lia).
      assert (E12 : Z.eqb a 1 || Z.eqb a 2 = true) by (destruct Hh' as [[-> _]|[-> _]]; reflexivity).
      rewrite <- orb_assoc, E12, E0. cbn [orb]. rewrite (rep_final cf m _ _ Hr), (rep_clean cf m _ _ Hr), (rep_htm cf m _ _ Hr).
      destruct (w_stage w) as [i| |] eqn:Ew.
      + assert (Hi : (i < length nodes)%nat) by (rewrite <- (b_nodes _ _ _ _ _ B); apply Hr; auto).
        destruct (node_lookup i Hi) as [nd [p [l [cs (N1 & N2 & N3 & _)]]]].
        cbn [stage_index]. rewrite py_nth_nat, N1. cbn [bind]. rewrite N2. cbn [bind].
        rewrite (pref_b _ _ Hc Hr). pose proof (helps_dec w i p a act N3 Hh') as HD.
        destruct (wants_hold w && match sp_hold p with Some h => (String.eqb h "h" && Z.eqb a 1) || (String.eqb h "v" && Z.eqb a 2) | None => false end) eqn:Eb; cbn [negb andb].
        * destruct (transition_sound d x w i Hr Ew) as [x' [r [w' [n (T1 & T2 & T3 & T4)]]]]. rewrite T1. cbn [bind].
          exists x', O_NONE. eexists. exists "none"%string, w'. split; [reflexivity|]. split; [exact T2|]. split; [reflexivity|].
          eapply leaf_help; eauto; [apply HD; auto|]. apply andb_true_iff in Eb. destruct Eb as [-> _]. cbn [negb]. rewrite andb_false_r, T4. ring.
        * assert (Hn : ~ helps ps w act i) by (intros H; apply HD in H; discriminate).
          destruct (negb random || d_hold d) eqn:Ed.
          -- exists x, O_FAIL. eexists. exists "fail"%string, w. split; [reflexivity|]. split; [auto|]. split; [reflexivity|].
             eapply leaf_undesired; eauto. reflexivity.
          -- destruct (transition_sound d x w i Hr Ew) as [x' [r [w' [n (T1 & T2 & T3 & T4)]]]]. rewrite T1. cbn [bind].
             exists x', O_NONE. eexists. exists "none"%string, w'. split; [reflexivity|]. split; [exact T2|]. split; [reflexivity|].
             eapply leaf_lucky; eauto; [destruct random; [auto|discriminate]|]. rewrite T4. unfold compensation.
             destruct (reward_independent_preference cf && negb (wants_hold w)); ring.
      + exists x, O_FAIL. eexists. exists "fail"%string, w. split; [reflexivity|]. split; [auto|]. split; [reflexivity|].
        apply cleaning_hold; auto. reflexivity.
      + exists x, O_NONE. eexists. exists "none"%string, w. split; [reflexivity|]. split; [auto|]. split; [reflexivity|].
        apply finished_hold; auto. reflexivity.
    - (* ask *)
      cbn [Z.eqb Pos.eqb orb]. rewrite (pref_b _ _ Hc Hr). destruct (negb random || d_answer d) eqn:Ed.
      + exists x, (if wants_hold w then O_YES else O_NO). eexists. exists (if wants_hold w then "yes" else "no")%string, w. split; [reflexivity|].
        split; [auto|]. split; [destruct (wants_hold w); reflexivity|]. apply ask_answer. reflexivity.
      + exists x, O_NONE. eexists. exists "none"%string, w. split; [reflexivity|]. split; [auto|]. split; [reflexivity|].
        apply ask_silent; [destruct random; [auto|discriminate]|reflexivity].
    - (* objects *)
      replace (Z.eqb a 0) with false by (symmetry; apply Z.eqb_neq; lia). replace (Z.eqb a 1) with false by (symmetry; apply Z.eqb_neq; lia).
      replace (Z.eqb a 2) with false by (symmetry; apply Z.eqb_neq; lia). replace (Z.eqb a 3) with false by (symmetry; apply Z.eqb_neq; lia).
      cbn [orb]. rewrite Eo. cbn [bind]. rewrite (rep_obj cf m _ _ _ _ Hr Ho).
      destruct Hk as [[-> ->]|[-> ->]].
      + destruct (w_has w o) eqn:Eh; cbn [Z.b2z Z.eqb Pos.eqb].
        * exists x, O_NOT_FOUND. eexists. exists "not-found"%string, w. split; [reflexivity|]. split; [auto|]. split; [reflexivity|].
          apply bring_useless; [auto|reflexivity].
        * destruct (random && d_fail d) eqn:Ed.
          -- exists x, O_FAIL. eexists. exists "fail"%string, w. split; [reflexivity|]. split; [auto|]. split; [reflexivity|].
             apply bring_fails; [destruct random; auto|auto|reflexivity].
          -- exists (set_object x i 1), O_NONE. eexists. exists "none"%string, (with_object w o true). split; [reflexivity|].
             split; [exact (rep_set_obj cf m _ _ _ _ B x w i o true Hr Ho)|]. split; [reflexivity|]. apply bring_done; [auto|reflexivity].
      + destruct (w_has w o) eqn:Eh; cbn [Z.b2z Z.eqb Pos.eqb].
        * destruct (random && d_fail d) eqn:Ed.
          -- exists x, O_FAIL. eexists. exists "fail"%string, w. split; [reflexivity|]. split; [auto|]. split; [reflexivity|].
             apply clear_fails; [destruct random; auto|auto|reflexivity].
          -- exists (set_object x i 0), O_NONE. eexists. exists "none"%string, (with_object w o false). split; [reflexivity|].
             split; [exact (rep_set_obj cf m _ _ _ _ B x w i o false Hr Ho)|]. split; [reflexivity|]. apply clear_done; [auto|reflexivity].
        * exists x, O_NOT_FOUND. eexists. exists "not-found"%string, w. split; [reflexivity|]. split; [auto|]. split; [reflexivity|].
          apply clear_useless; [auto|reflexivity].
  Qed.

  Definition draws_of (dobj dpref : nat -> bool) (ds : nat) (dh da df : bool) (dc : nat -> bool) : draws :=
    {| d_object := dobj; d_preference := dpref; d_succ := ds; d_hold := dh; d_answer := da; d_fail := df; d_consume := dc |}.

  Lemma body_complete random a act x w w' ob r : (1 <= cf_preferences cf)%nat -> acts a act -> Rep x w ->
    documented cf ps succs (objects m) random w act w' ob r ->
    exists ds dh da df dc, forall dobj dpref, exists x' o r', 
      body (draws_of dobj dpref ds dh da df dc) random a x = Ok (st x', o, r') /\ Rep x' w' /\ nth_error observations o = Some ob /\ r' == r.
  Proof.
    intros Hc Ha Hr Hd.
    pose proof (rep_final cf m _ _ Hr) as Ef. pose proof (rep_clean cf m _ _ Hr) as Ec. pose proof (rep_htm cf m _ _ Hr) as Eh.
    assert (HT : forall i w' n, w_stage w = Doing i -> completes ps succs i w w' n ->
      exists ds dc, forall dobj dpref dh da df, exists x' rc, update_for_transition cf m (draws_of dobj dpref ds dh da df dc) x (Z.of_nat i) = Ok (x', rc) /\ Rep x' w' /\ rc == - missing_cost cf n).
    { intros i w1 n Hs Hcm. destruct (transition_complete x w i w1 n Hr Hs Hcm) as [ds [dc HH]]. exists ds, dc. intros. apply HH; reflexivity. }
    assert (HW : forall act', acts a act' -> act' = Wait -> a = 0%Z).
    { intros act' Ha' ->. destruct (act_cases _ _ Ha') as [[-> E]|[[[-> E]|[-> E]]|[[-> E]|[Hge [i [o (Ho & Eo & Hk)]]]]]]; try discriminate E; auto.
      destruct Hk as [[Hk _]|[Hk _]]; discriminate Hk. }
    assert (HH : is_hold act -> (a = 1%Z /\ act = HoldH) \/ (a = 2%Z /\ act = HoldV)).
    { intros Hh. destruct (act_cases _ _ Ha) as [[-> E]|[E|[[-> E]|[Hge [i [o (Ho & Eo & Hk)]]]]]]; auto; destruct Hh as [-> | ->]; try discriminate;
        destruct Hk as [[Hk _]|[Hk _]]; discriminate Hk. }
    assert (HK : act = Ask -> a = 3%Z).
    { intros ->. destruct (act_cases _ _ Ha) as [[-> E]|[[[-> E]|[-> E]]|[[-> E]|[Hge [i [o (Ho & Eo & Hk)]]]]]]; try discriminate E; auto.
      destruct Hk as [[Hk _]|[Hk _]]; discriminate Hk. }
    assert (HO : forall o b, act = (if b : bool then Bring o else Clear o) ->
       (4 <= a)%Z /\ is_bring m a = b /\ exists i, nth_error (objects m) i = Some o /\ obj_from_action m a = Ok i).
    { intros o b E. destruct (act_cases _ _ Ha) as [[-> E']|[[[-> E']|[-> E']]|[[-> E']|[Hge [i [o' (Ho & Eo & Hk)]]]]]].
      1-4: subst act; destruct b; discriminate E'.
      split; [auto|]. destruct Hk as [[E1 E2]|[E1 E2]]; subst act; destruct b; try discriminate E1; inversion E1; subst; eauto. }
    assert (HG : act = Wait \/ is_hold act -> Z.eqb a 0 || Z.eqb a 1 || Z.eqb a 2 = true).
    { intros [->|Hh]; [rewrite (HW _ Ha eq_refl); reflexivity|]. destruct (HH Hh) as [[-> _]|[-> _]]; reflexivity. }
    assert (HGo : (4 <= a)%Z -> Z.eqb a 0 || Z.eqb a 1 || Z.eqb a 2 = false /\ Z.eqb a 3 = false).
    { intros Hge. rewrite !(proj2 (Z.eqb_neq _ _)) by lia. auto. }
    inversion Hd; subst; unfold body.
    - (* finished_wait *) exists 0%nat, true, true, true, (fun _ => true). intros dobj dpref. rewrite HG, Ef by auto.
      match goal with H : w_stage w' = _ |- _ => rewrite H end. rewrite (HW _ Ha eq_refl). cbn [Z.eqb].
      exists x, O_NONE. eexists. split; [reflexivity|]. split; [auto|]. split; [reflexivity|]. symmetry; auto.
    - exists 0%nat, true, true, true, (fun _ => true). intros dobj dpref. rewrite HG, Ef by auto.
      match goal with H : w_stage w' = _ |- _ => rewrite H end.
      replace (Z.eqb a 0) with false by (destruct (HH H0) as [[-> _]|[-> _]]; reflexivity).
      exists x, O_NONE. eexists. split; [reflexivity|]. split; [auto|]. split; [reflexivity|]. symmetry; auto.
    - exists 0%nat, true, true, true, (fun _ => true). intros dobj dpref. rewrite HG, Ef, Ec by auto.
      match goal with H : w_stage w = _ |- _ => rewrite H end. rewrite (HW _ Ha eq_refl). cbn [Z.eqb].
      exists (set_htm x (htm_final m)), O_NONE. eexists. split; [reflexivity|].
      split; [apply (rep_set_htm cf m x w Finished Hr); discriminate|]. split; [reflexivity|]. rewrite H0, (left_over_count _ _ Hr). ring.
    - exists 0%nat, true, true, true, (fun _ => true). intros dobj dpref. rewrite HG, Ef, Ec by auto.
      match goal with H : w_stage w' = _ |- _ => rewrite H end.
      replace (Z.eqb a 0) with false by (destruct (HH H0) as [[-> _]|[-> _]]; reflexivity).
      exists x, O_FAIL. eexists. split; [reflexivity|]. split; [auto|]. split; [reflexivity|]. symmetry; auto.
    - (* leaf_wait *) destruct (HT _ _ _ H H0) as [ds [dc HTT]]. exists ds, true, true, true, dc. intros dobj dpref.
      destruct (HTT dobj dpref true true true) as [x' [rc (T1 & T2 & T3)]].
      rewrite HG, Ef, Ec, Eh, H by auto. rewrite (HW _ Ha eq_refl). cbn [Z.eqb stage_index].
      assert (Hi : (i < length nodes)%nat) by (rewrite <- (b_nodes _ _ _ _ _ B); apply Hr; auto).
      destruct (node_lookup i Hi) as [nd [p [l [cs (N1 & N2 & N3 & _)]]]].
      rewrite py_nth_nat, N1. cbn [bind]. rewrite N2. cbn [bind].
      rewrite (pref_b _ _ Hc Hr).
      replace (match sp_hold p with Some h => (String.eqb h "h" && false) || (String.eqb h "v" && false) | None => false end) with false
          by (destruct (sp_hold p) as [h|]; [rewrite !andb_false_r|]; reflexivity).
      rewrite !andb_false_r. cbn [negb andb orb]. rewrite T1. cbn [bind].
      exists x', O_NONE. eexists. split; [reflexivity|]. split; [auto|]. split; [reflexivity|].
      rewrite H1, T3. unfold compensation. destruct (reward_independent_preference cf && negb (wants_hold w)); ring.
    - (* leaf_help *) destruct (HT _ _ _ H H1) as [ds [dc HTT]]. exists ds, true, true, true, dc. intros dobj dpref.
      destruct (HTT dobj dpref true true true) as [x' [rc (T1 & T2 & T3)]].
      assert (Hh : is_hold act).
      { destruct H0 as [_ [p [_ [[_ E]|[_ E]]]]]; [left|right]; auto. }
      rewrite HG, Ef, Ec, Eh, H by auto. cbn [stage_index].
      assert (E0 : Z.eqb a 0 = false) by (destruct (HH Hh) as [[-> _]|[-> _]]; reflexivity). rewrite E0.
      assert (Hi : (i < length nodes)%nat) by (rewrite <- (b_nodes _ _ _ _ _ B); apply Hr; auto).
      destruct (node_lookup i Hi) as [nd [p [l [cs (N1 & N2 & N3 & _)]]]].
      rewrite py_nth_nat, N1. cbn [bind]. rewrite N2. cbn [bind].
      rewrite (pref_b _ _ Hc Hr). rewrite (proj2 (helps_dec w i p a act N3 (HH Hh)) H0). cbn [negb andb]. rewrite T1. cbn [bind].
      exists x', O_NONE. eexists. split; [reflexivity|]. split; [auto|]. split; [reflexivity|].
      rewrite H2, T3. destruct H0 as [-> _]. cbn [negb]. rewrite andb_false_r. ring.
    - (* leaf_undesired *) exists 0%nat, true, true, true, (fun _ => true). intros dobj dpref.
      rewrite HG, Ef, Ec, Eh, H by auto. cbn [stage_index].
      assert (E0 : Z.eqb a 0 = false) by (destruct (HH H0) as [[-> _]|[-> _]]; reflexivity). rewrite E0.
      assert (E12 : Z.eqb a 1 || Z.eqb a 2 = true) by (destruct (HH H0) as [[-> _]|[-> _]]; reflexivity).
      assert (Hi : (i < length nodes)%nat) by (rewrite <- (b_nodes _ _ _ _ _ B); apply Hr; auto).
      destruct (node_lookup i Hi) as [nd [p [l [cs (N1 & N2 & N3 & _)]]]].
      rewrite py_nth_nat, N1. cbn [bind]. rewrite N2. cbn [bind]. rewrite (pref_b _ _ Hc Hr).
      destruct (wants_hold w' && match sp_hold p with Some h => (String.eqb h "h" && Z.eqb a 1) || (String.eqb h "v" && Z.eqb a 2) | None => false end) eqn:Eb.
      { exfalso. apply H1. apply (helps_dec w' i p a act N3 (HH H0)). exact Eb. }
      rewrite E12. cbn [draws_of d_hold negb andb]. rewrite orb_true_r.
      exists x, O_FAIL. eexists. split; [reflexivity|]. split; [auto|]. split; [reflexivity|]. symmetry; auto.
    - (* leaf_lucky *) destruct (HT _ _ _ H0 H3) as [ds [dc HTT]]. exists ds, false, true, true, dc. intros dobj dpref.
      destruct (HTT dobj dpref false true true) as [x' [rc (T1 & T2 & T3)]].
      rewrite HG, Ef, Ec, Eh, H0 by auto. cbn [stage_index].
      assert (E0 : Z.eqb a 0 = false) by (destruct (HH H1) as [[-> _]|[-> _]]; reflexivity). rewrite E0.
      assert (Hi : (i < length nodes)%nat) by (rewrite <- (b_nodes _ _ _ _ _ B); apply Hr; auto).
      destruct (node_lookup i Hi) as [nd [p [l [cs (N1 & N2 & N3 & _)]]]].
      rewrite py_nth_nat, N1. cbn [bind]. rewrite N2. cbn [bind]. rewrite (pref_b _ _ Hc Hr).
      destruct (wants_hold w && match sp_hold p with Some h => (String.eqb h "h" && Z.eqb a 1) || (String.eqb h "v" && Z.eqb a 2) | None => false end) eqn:Eb.
      { exfalso. apply H2. apply (helps_dec w i p a act N3 (HH H1)). exact Eb. }
      cbn [draws_of d_hold negb orb]. rewrite andb_false_r. rewrite T1. cbn [bind].
      exists x', O_NONE. eexists. split; [reflexivity|]. split; [auto|]. split; [reflexivity|].
      rewrite H4, T3. unfold compensation. destruct (reward_independent_preference cf && negb (wants_hold w)); ring.
    - (* ask_answer *) exists 0%nat, true, true, true, (fun _ => true). intros dobj dpref. rewrite (HK eq_refl). cbn [Z.eqb Pos.eqb orb].
      rewrite (pref_b _ _ Hc Hr). cbn [draws_of d_answer]. rewrite orb_true_r.
      exists x. eexists; eexists. split; [reflexivity|]. split; [auto|]. split; [destruct (wants_hold w'); reflexivity|]. symmetry; auto.
    - exists 0%nat, true, false, true, (fun _ => true). intros dobj dpref. rewrite (HK eq_refl). cbn [Z.eqb Pos.eqb orb draws_of d_answer negb].
      exists x. eexists; eexists. split; [reflexivity|]. split; [auto|]. split; [reflexivity|]. symmetry; auto.
    - destruct (HO o true eq_refl) as (Hge & Hb & i & Ho & Eo). destruct (HGo Hge) as [-> ->].
      exists 0%nat, true, true, false, (fun _ => true). intros dobj dpref. rewrite Eo. cbn [bind]. rewrite Hb, (rep_obj cf m _ _ _ _ Hr Ho), H.
      cbn [Z.b2z Z.eqb Pos.eqb]. exists x. eexists; eexists. split; [reflexivity|]. split; [auto|]. split; [reflexivity|]. symmetry; auto.
    - destruct (HO o false eq_refl) as (Hge & Hb & i & Ho & Eo). destruct (HGo Hge) as [-> ->].
      exists 0%nat, true, true, false, (fun _ => true). intros dobj dpref. rewrite Eo. cbn [bind]. rewrite Hb, (rep_obj cf m _ _ _ _ Hr Ho), H.
      cbn [Z.b2z Z.eqb Pos.eqb]. exists x. eexists; eexists. split; [reflexivity|]. split; [auto|]. split; [reflexivity|]. symmetry; auto.
    - destruct (HO o true eq_refl) as (Hge & Hb & i & Ho & Eo). destruct (HGo Hge) as [-> ->].
      exists 0%nat, true, true, false, (fun _ => true). intros dobj dpref. rewrite Eo. cbn [bind]. rewrite Hb, (rep_obj cf m _ _ _ _ Hr Ho), H.
      cbn [Z.b2z Z.eqb Pos.eqb draws_of d_fail]. rewrite andb_false_r. exists (set_object x i 1). eexists; eexists. split; [reflexivity|].
      split; [exact (rep_set_obj cf m _ _ _ _ B x w i o true Hr Ho)|]. split; [reflexivity|]. symmetry; auto.
    - destruct (HO o false eq_refl) as (Hge & Hb & i & Ho & Eo). destruct (HGo Hge) as [-> ->].
      exists 0%nat, true, true, false, (fun _ => true). intros dobj dpref. rewrite Eo. cbn [bind]. rewrite Hb, (rep_obj cf m _ _ _ _ Hr Ho), H.
      cbn [Z.b2z Z.eqb Pos.eqb draws_of d_fail]. rewrite andb_false_r. exists (set_object x i 0). eexists; eexists. split; [reflexivity|].
      split; [exact (rep_set_obj cf m _ _ _ _ B x w i o false Hr Ho)|]. split; [reflexivity|]. symmetry; auto.
    - destruct (HO o true eq_refl) as (Hge & Hb & i & Ho & Eo). destruct (HGo Hge) as [-> ->].
      exists 0%nat, true, true, true, (fun _ => true). intros dobj dpref. rewrite Eo. cbn [bind]. rewrite Hb, (rep_obj cf m _ _ _ _ Hr Ho), H0.
      cbn [Z.b2z Z.eqb Pos.eqb draws_of d_fail andb]. exists x. eexists; eexists. split; [reflexivity|]. split; [auto|]. split; [reflexivity|]. symmetry; auto.
    - destruct (HO o false eq_refl) as (Hge & Hb & i & Ho & Eo). destruct (HGo Hge) as [-> ->].
      exists 0%nat, true, true, true, (fun _ => true). intros dobj dpref. rewrite Eo. cbn [bind]. rewrite Hb, (rep_obj cf m _ _ _ _ Hr Ho), H0.
      cbn [Z.b2z Z.eqb Pos.eqb draws_of d_fail andb]. exists x. eexists; eexists. split; [reflexivity|]. split; [auto|]. split; [reflexivity|]. symmetry; auto.
  Qed.

  (** Any disturbance can be drawn. *)
  Lemma disturb_all x w w1 : Rep x w -> disturbed w w1 -> exists dobj dpref, forall ds dh da df dc,
    Rep (disturb (draws_of dobj dpref ds dh da df dc) true x) w1.
  Proof.
    intros Hr (E1 & E2 & E3).
    exists (fun i => match nth_error (objects m) i with Some o => xorb (w_has w o) (w_has w1 o) | None => false end),
           (fun i => xorb (nth i (w_prefs w) false) (nth i (w_prefs w1) false)).
    intros ds dh da df dc. eapply rep_ext; [apply disturb_rep; exact Hr|].
    unfold disturb_world, same_world; cbn. split; [auto|]. split.
    - assert (G : length (w_prefs w) = cf_preferences cf) by apply Hr.
      unfold flip. apply list_ext.
      + rewrite map_length, combine_length, map_length, seq_length. lia.
      + intros i b E. rewrite nth_error_map in E.
        assert (HC : forall {A C} (l : list A) (l' : list C) k, nth_error (combine l l') k = match nth_error l k, nth_error l' k with Some a, Some c => Some (a, c) | _, _ => None end).
        { intros A C l. induction l as [|a l IH]; intros l' [|k]; cbn; auto; destruct l'; cbn; auto. destruct (nth_error l k); reflexivity. }
        rewrite HC, nth_error_map in E.
        destruct (nth_error (w_prefs w) i) as [c|] eqn:Ec; [|match type of E with context [option_map ?f ?y] => destruct (option_map f y); discriminate E end].
        assert (Hi : (i < length (w_prefs w))%nat) by (apply nth_error_Some; congruence).
        rewrite (nth_error_nth' (seq 0 (cf_preferences cf)) 0%nat) in E by (rewrite seq_length; lia).
        rewrite seq_nth in E by lia. cbn in E. inversion E; subst.
        rewrite (nth_error_nth _ _ false Ec). rewrite (nth_error_nth' _ false) by lia. f_equal.
        destruct c, (nth i (w_prefs w1) false); reflexivity.
    - split; [auto|]. intros o Ho. unfold flip_has. destruct (index_of String.eqb o (objects m)) as [i|] eqn:Ei.
      + apply (index_of_eqb_Some _ seqb_iff) in Ei. rewrite Ei. destruct (w_has w o), (w_has w1 o); reflexivity.
      + apply (index_of_eqb_None _ seqb_iff) in Ei. contradiction.
  Qed.
End Step.
