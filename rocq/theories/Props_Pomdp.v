(** C40, C43 to C47 and C81: tables of a POMDP. *)
From Verif Require Import QBase PyBase PyBaseFacts PomdpModel PomdpSpec PomdpProofs PomdpProofs2.
From Coq Require Import Lia Lqa Field.
Local Open Scope nat_scope.

(** A concrete POMDP, the tiger problem. *)
Definition l1 (l : list Q) : nested := Lst (map Num l).
Definition l2 (l : list (list Q)) : nested := Lst (map l1 l).
Definition l3 (l : list (list (list Q))) : nested := Lst (map l2 l).
Definition ex_arr (x : nested) : array := match asarray x with Ok a => a | Err _ => {| shape := []; at_ := fun _ => 0%Q |} end.
Definition tiger_T : array := ex_arr (l3 [[[1; 0]; [0; 1]]; [[1 # 2; 1 # 2]; [1 # 2; 1 # 2]]; [[1 # 2; 1 # 2]; [1 # 2; 1 # 2]]]%Q).
Definition tiger_O : array := ex_arr (l3 [[[17 # 20; 3 # 20]; [3 # 20; 17 # 20]]; [[1 # 2; 1 # 2]; [1 # 2; 1 # 2]]; [[1 # 2; 1 # 2]; [1 # 2; 1 # 2]]]%Q).
Definition tiger_R : array := {| shape := [3; 2; 2; 2]; at_ := fun idx => match idx with 0 :: _ => (-1)%Q | [1; 0; _; _] => (-100)%Q | [2; 1; _; _] => (-100)%Q | _ => 10%Q end |}.
Definition tiger_start : array := ex_arr (l1 [1 # 2; 1 # 2]%Q).
Definition tiger : pomdp :=
  match mk_pomdp tiger_T tiger_O tiger_R tiger_start (95 # 100) None (Some [NStr "listen"; NStr "left"; NStr "right"]) None "reward" true with
  | Ok p => p
  | Err _ => {| p_T := tiger_start; p_O := tiger_start; p_R := tiger_start; p_start := tiger_start; p_discount := 0; p_s := NCount 0; p_a := NCount 0; p_o := NCount 0 |}
  end.
Example tiger_built : mk_pomdp tiger_T tiger_O tiger_R tiger_start (95 # 100) None (Some [NStr "listen"; NStr "left"; NStr "right"]) None "reward" true = Ok tiger.
Proof. vm_compute. reflexivity. Qed.
Example tiger_sizes : nS tiger = 2 /\ nA tiger = 3 /\ nO tiger = 2.
Proof. vm_compute. auto. Qed.
Example tiger_stochastic : stochastic tiger.
Proof.
  unfold stochastic. change (nS tiger) with 2. change (nA tiger) with 3. change (nO tiger) with 2. repeat split.
  - intros [|[|[|a]]] [|[|s]] [|[|s']] Ha Hs Hs'; try lia; vm_compute; discriminate.
  - intros [|[|[|a]]] [|[|s]] Ha Hs; try lia; vm_compute; reflexivity.
  - intros [|[|[|a]]] [|[|s]] [|[|s']] Ha Hs Hs'; try lia; vm_compute; discriminate.
  - intros [|[|[|a]]] [|[|s]] Ha Hs; try lia; vm_compute; reflexivity.
Qed.
Example tiger_distribution : distribution tiger [1 # 4; 3 # 4]%Q.
Proof. split; [reflexivity|]. split; [|vm_compute; reflexivity]. intros [|[|s]] H; change (nS tiger) with 2 in H; try lia; vm_compute; discriminate. Qed.

(** *** C40 *)
Theorem C40_bayes : forall p b a o, stochastic p -> distribution p b -> a < nA p -> o < nO p ->
  ((prob_obs p b a o == 0)%Q -> belief_update p (Z.of_nat a) (Z.of_nat o) b = Err EImpossible) /\
  (~ (prob_obs p b a o == 0)%Q -> exists nb, belief_update p (Z.of_nat a) (Z.of_nat o) b = Ok nb /\ distribution p nb /\
     forall s', s' < nS p -> (nth s' nb 0 == prob_end p b a s' o / prob_obs p b a o)%Q).
Proof. intros p b a o St Hb Ha Ho. apply update_bayes; auto. Qed.
Print Assumptions C40_bayes.

(** Other exceptions, for every POMDP: indices out of range and beliefs of the wrong size. *)
Theorem C40_exceptions : forall p a o b e, belief_update p a o b = Err e ->
  (e = EIndex /\ ~ (- Z.of_nat (nA p) <= a < Z.of_nat (nA p) /\ - Z.of_nat (nO p) <= o < Z.of_nat (nO p))%Z) \/
  (e = EValue /\ length b <> nS p) \/ (e = EImpossible /\ length b = nS p).
Proof.
  intros p a o b e E. unfold belief_update in E. fold (nA p) (nS p) (nO p) in E.
  assert (HX : forall n i, (exists j, axis n i = Ok j) \/ (axis n i = Err EIndex /\ ~ (- Z.of_nat n <= i < Z.of_nat n)%Z)).
  { intros n i. unfold axis. destruct (Z.ltb_spec i 0).
    - destruct (Z.ltb_spec (i + Z.of_nat n) 0); cbn [orb]; [right; split; [auto|lia]|]. destruct (Z.leb_spec (Z.of_nat n) (i + Z.of_nat n)); [lia|eauto].
    - destruct (Z.ltb_spec i 0); [lia|]. cbn [orb]. destruct (Z.leb_spec (Z.of_nat n) i); [right; split; [auto|lia]|eauto]. }
  destruct (HX (nA p) a) as [[a' Ea]|[Ea Ha]]; rewrite Ea in E; cbn [bind] in E; [|left; split; [congruence|tauto]].
  destruct (Nat.eqb_spec (length b) (nS p)) as [El|El]; cbn [negb] in E; [|right; left; split; [congruence|auto]].
  destruct (HX (nO p) o) as [[o' Eo]|[Eo Ho]]; rewrite Eo in E; cbn [bind] in E; [|left; split; [congruence|tauto]].
  destruct (Qeq_bool _ 0); [|discriminate]. right; right. split; [congruence|auto].
Qed.
Print Assumptions C40_exceptions.

(** The observations have probabilities that add up to one, and the posteriors average to the prediction. *)
Theorem C40_total_probability : forall p b a, stochastic p -> distribution p b -> a < nA p ->
  (sum_n (nO p) (prob_obs p b a) == 1)%Q /\
  (forall s', s' < nS p -> (sum_n (nO p) (prob_end p b a s') == sum_n (nS p) (fun s => nth s b 0 * Tr p a s s'))%Q).
Proof.
  intros p b a St Hb Ha. pose proof St as (S1 & S2 & S3 & S4). pose proof Hb as (B1 & B2 & B3).
  assert (H : forall s', s' < nS p -> (sum_n (nO p) (prob_end p b a s') == sum_n (nS p) (fun s => nth s b 0 * Tr p a s s'))%Q).
  { intros s' Hs'. unfold prob_end, sum_n. rewrite sum_swap. apply sum_ext. intros s Hs. unfold joint. rewrite sum_scale.
    change (sum_over (seq 0 (nO p)) (fun o => Ob p a s' o)) with (sum_n (nO p) (Ob p a s')). specialize (S4 a s' Ha Hs'). rewrite S4. ring. }
  split; [|exact H]. unfold prob_obs, sum_n. rewrite sum_swap.
  rewrite (sum_ext (seq 0 (nS p)) _ (fun s' => sum_n (nS p) (fun s => nth s b 0 * Tr p a s s')%Q)).
  2:{ intros s' Hs'. apply in_seq in Hs'. apply (H s'). lia. }
  unfold sum_n. rewrite sum_swap. rewrite <- B3. apply sum_ext. intros s Hs. apply in_seq in Hs. rewrite sum_scale.
  change (sum_over (seq 0 (nS p)) (fun s' => Tr p a s s')) with (sum_n (nS p) (Tr p a s)). assert (Hs2 : s < nS p) by lia. specialize (S2 a s Ha Hs2). rewrite S2. ring.
Qed.
Print Assumptions C40_total_probability.

(** Updating along a history of any length gives the distribution of the last state given the history, in
    the probability space of all paths of states; and fails exactly when the history is impossible. *)
Theorem C40_history : forall p b h, stochastic p -> distribution p b -> Forall (fun ao => fst ao < nA p /\ snd ao < nO p) h ->
  ((history p b h == 0)%Q -> filter_belief p b h = Err EImpossible) /\
  (~ (history p b h == 0)%Q -> exists nb, filter_belief p b h = Ok nb /\ distribution p nb /\
     forall e, e < nS p -> (nth e nb 0 * history p b h == history_end p b h e)%Q).
Proof. intros. apply filter_history; auto. Qed.
Print Assumptions C40_history.
Example C40_ex : exists nb, filter_belief tiger [1 # 2; 1 # 2]%Q [(0, 0); (0, 0)]%nat = Ok nb /\ map Qred nb = [289 # 298; 9 # 298]%Q /\
  (history tiger [1 # 2; 1 # 2]%Q [(0, 0); (0, 0)]%nat == 149 # 400)%Q.
Proof. eexists. split; [vm_compute; reflexivity|]. split; vm_compute; reflexivity. Qed.

(** *** C43 *)
Lemma as_list_given g n l : named g l -> (g = None -> length l = n) -> as_list (match g with Some x => NList x | None => NCount n end) = l.
Proof. destruct g as [x|]; cbn; intros H Hn; [auto|]. rewrite <- (Hn eq_refl). auto. Qed.
Lemma named_as_list g n : named g (as_list (match g with Some x => NList x | None => NCount n end)).
Proof. destruct g as [x|]; cbn; [reflexivity|]. rewrite map_length, seq_length. reflexivity. Qed.

Theorem C43_accepts : forall T O R start discount gs ga go values,
  (forall solver p, mk_pomdp T O R start discount gs ga go values solver = Ok p ->
     accepts T O R start discount (states p) (p_actions p) (p_observations p) values /\
     named gs (states p) /\ named ga (p_actions p) /\ named go (p_observations p) /\
     p_T p = T /\ p_O p = O /\ p_start p = start /\ p_discount p = discount /\
     shape (p_R p) = shape R /\
     (values = "reward"%string -> p_R p = R) /\
     (values = "cost"%string -> forall idx, at_ (p_R p) idx = (- at_ R idx)%Q)) /\
  (forall ns na no, named gs ns -> named ga na -> named go no -> accepts T O R start discount ns na no values ->
     (exists p, mk_pomdp T O R start discount gs ga go values true = Ok p) /\
     mk_pomdp T O R start discount gs ga go values false = Err EImport) /\
  (forall e, mk_pomdp T O R start discount gs ga go values true = Err e -> e = EValue).
Proof.
  intros T O R start discount gs ga go values. split; [|split].
  - intros solver p E. unfold mk_pomdp in E.
    destruct (shape O) as [|a [|s [|o [|? ?]]]] eqn:ESO; try discriminate.
    match type of E with bind ?r _ = _ => destruct r as [R'|] eqn:ER end; [|discriminate]. cbn [bind] in E.
    set (ns := match gs with Some l => NList l | None => NCount s end) in *.
    set (na := match ga with Some l => NList l | None => NCount a end) in *.
    set (no := match go with Some l => NList l | None => NCount o end) in *.
    destruct (assert_shape start [length (as_list ns)]) as [[]|] eqn:E1; [|discriminate]. cbn [bind] in E.
    destruct (assert_shape T [length (as_list na); length (as_list ns); length (as_list ns)]) as [[]|] eqn:E2; [|discriminate]. cbn [bind] in E.
    destruct (assert_shape O [length (as_list na); length (as_list ns); length (as_list no)]) as [[]|] eqn:E3; [|discriminate]. cbn [bind] in E.
    destruct (assert_shape R' [length (as_list na); length (as_list ns); length (as_list ns); length (as_list no)]) as [[]|] eqn:E4; [|discriminate]. cbn [bind] in E.
    destruct (assert_normal start) as [[]|] eqn:E5; [|discriminate]. cbn [bind] in E.
    destruct (assert_normal T) as [[]|] eqn:E6; [|discriminate]. cbn [bind] in E.
    destruct (assert_normal O) as [[]|] eqn:E7; [|discriminate]. cbn [bind] in E.
    destruct (no_dup (as_list ns) && no_dup (as_list na) && no_dup (as_list no)) eqn:E8; cbn [negb] in E; [|discriminate].
    destruct (Qle_bool discount 1) eqn:E9; cbn [negb orb] in E; [|discriminate].
    destruct (Qle_bool 0 discount) eqn:E10; cbn [negb] in E; [|discriminate].
    destruct solver; cbn [negb] in E; [|discriminate].
    assert (Ep : p = {| p_T := T; p_O := O; p_R := R'; p_start := start; p_discount := discount; p_s := ns; p_a := na; p_o := no |}) by congruence.
    clear E. subst p. cbn [p_T p_O p_R p_start p_discount]. unfold states, p_actions, p_observations. cbn [p_s p_a p_o].
    apply assert_shape_iff in E1, E2, E3, E4. rewrite (assert_normal1 _ _ E1) in E5. rewrite (assert_normal3 _ _ _ _ E2) in E6. rewrite (assert_normal3 _ _ _ _ E3) in E7.
    apply andb_true_iff in E8. destruct E8 as [E8 E8c]. apply andb_true_iff in E8. destruct E8 as [E8a E8b]. apply no_dup_iff in E8a, E8b, E8c.
    apply Qle_bool_iff in E9, E10.
    assert (HR : (values = "reward"%string /\ R' = R) \/ (values = "cost"%string /\ R' = neg R)).
    { destruct (String.eqb_spec values "reward"); [left; split; congruence|]. destruct (String.eqb_spec values "cost"); [right; split; congruence|discriminate]. }
    assert (HRs : shape R' = shape R) by (destruct HR as [[_ ->]|[_ ->]]; reflexivity).
    split; [|split; [apply named_as_list|split; [apply named_as_list|split; [apply named_as_list|]]]].
    + unfold accepts. rewrite <- HRs. do 11 (split; [solve [tauto|assumption]|]). split; assumption.
    + do 4 (split; [reflexivity|]). split; [exact HRs|]. split.
      * intros ->. destruct HR as [[_ H]|[H _]]; [auto|discriminate].
      * intros ->. destruct HR as [[H _]|[_ H]]; [discriminate|]. rewrite H. reflexivity.
  - intros ns na no Ns Na No (A1 & A2 & A3 & A4 & A5 & A6 & A7 & A8 & A9 & A10 & A11 & A12).
    assert (HM : exists p, forall solver, mk_pomdp T O R start discount gs ga go values solver = if solver then Ok p else Err EImport).
    { unfold mk_pomdp. rewrite A4.
      rewrite (as_list_given gs (length ns) ns Ns) by auto. rewrite (as_list_given ga (length na) na Na) by auto. rewrite (as_list_given go (length no) no No) by auto.
      assert (HR : exists R', (if String.eqb values "reward" then Ok R else if String.eqb values "cost" then Ok (neg R) else Err EValue) = Ok R' /\ shape R' = shape R).
      { destruct A1 as [-> | ->]; cbn; eauto. }
      destruct HR as [R' [-> HRs]]. cbn [bind].
      rewrite (proj2 (assert_shape_iff _ _) A2), (proj2 (assert_shape_iff _ _) A3), (proj2 (assert_shape_iff _ _) A4). cbn [bind].
      rewrite (proj2 (assert_shape_iff R' _) (eq_trans HRs A5)). cbn [bind].
      rewrite (proj2 (assert_normal1 _ _ A2) A6), (proj2 (assert_normal3 _ _ _ _ A3) A7), (proj2 (assert_normal3 _ _ _ _ A4) A8). cbn [bind].
      apply no_dup_iff in A9, A10, A11. rewrite A9, A10, A11. cbn [negb andb].
      assert (Qle_bool discount 1 = true) as -> by (apply Qle_bool_iff; apply A12).
      assert (Qle_bool 0 discount = true) as -> by (apply Qle_bool_iff; apply A12). cbn [negb orb].
      eexists. intros [|]; reflexivity. }
    destruct HM as [p HM]. split; [exists p; apply (HM true)|apply (HM false)].
  - intros e E. unfold mk_pomdp in E.
    assert (HS : forall x sh, assert_shape x sh = Ok tt \/ assert_shape x sh = Err EValue) by (intros; apply assert_shape_ok).
    assert (HN : forall x, assert_normal x = Ok tt \/ assert_normal x = Err EValue) by (intros; apply assert_normal_ok).
    destruct (shape O) as [|a [|s [|o [|? ?]]]]; try congruence.
    destruct (String.eqb values "reward"); [|destruct (String.eqb values "cost"); [|cbn [bind] in E; congruence]]; cbn [bind] in E.
    all: repeat match goal with
      | X : bind (assert_shape ?x ?sh) _ = _ |- _ => let Y := fresh in destruct (HS x sh) as [Y|Y]; rewrite Y in X; cbn [bind] in X; [clear Y|congruence]
      | X : bind (assert_normal ?x) _ = _ |- _ => let Y := fresh in destruct (HN x) as [Y|Y]; rewrite Y in X; cbn [bind] in X; [clear Y|congruence]
      | X : (if ?c then _ else _) = _ |- _ => destruct c; [congruence|]
      end; cbn [negb] in *; congruence.
Qed.
Print Assumptions C43_accepts.
Example C43_ex : accepts tiger_T tiger_O tiger_R tiger_start (95 # 100) (states tiger) (p_actions tiger) (p_observations tiger) "reward" /\
  (exists p, mk_pomdp tiger_T tiger_O tiger_R tiger_start (95 # 100) None (Some [NStr "listen"; NStr "left"; NStr "right"]) None "cost" true = Ok p /\
     at_ (p_R p) [0; 0; 0; 0] = 1%Q) /\
  mk_pomdp tiger_T tiger_O tiger_R tiger_start (95 # 100) None (Some [NStr "listen"; NStr "left"]) None "reward" true = Err EValue.
Proof.
  split; [exact (proj1 (proj1 (C43_accepts _ _ _ _ _ _ _ _ _) _ _ tiger_built))|]. split; [|vm_compute; reflexivity].
  eexists. split; [vm_compute; reflexivity|]. vm_compute. reflexivity.
Qed.

(** *** C44 *)
Lemma about_one_eq x y : (x == y)%Q -> about_one x -> about_one y.
Proof. unfold about_one. intros ->. auto. Qed.
Lemma accepted_sizes T O R start discount gs ga go values solver p : mk_pomdp T O R start discount gs ga go values solver = Ok p ->
  0 < nS p /\ (0 < nA p -> 0 < nO p).
Proof.
  intros E. destruct (proj1 (C43_accepts T O R start discount gs ga go values) solver p E) as [(A1 & A2 & A3 & A4 & A5 & A6 & A7 & A8 & _) _].
  assert (H0 : ~ about_one 0) by (unfold about_one; vm_compute; auto).
  assert (HS : 0 < nS p).
  { unfold nS. destruct (length (states p)); [|lia]. exfalso. apply H0. exact A6. }
  split; [auto|]. intros HA. unfold nO. destruct (length (p_observations p)); [|lia]. exfalso. apply H0. exact (A8 0 0 HA HS).
Qed.

Theorem C44_round_trip_partial : forall T O R start discount gs ga go values solver p,
  mk_pomdp T O R start discount gs ga go values solver = Ok p -> 0 < nA p ->
  exists p', from_dict (to_dict p) true = Ok p' /\
    same_array (p_T p) (p_T p') /\ same_array (p_O p) (p_O p') /\ same_array (p_R p) (p_R p') /\ same_array (p_start p) (p_start p') /\
    p_discount p' = p_discount p /\ states p' = states p /\ p_actions p' = p_actions p /\ p_observations p' = p_observations p.
Proof.
  intros T O R start discount gs ga go values solver p E HA.
  destruct (accepted_sizes _ _ _ _ _ _ _ _ _ _ _ E) as [HS HO]. specialize (HO HA).
  destruct (proj1 (C43_accepts T O R start discount gs ga go values) solver p E) as
    [(A1 & A2 & A3 & A4 & A5 & A6 & A7 & A8 & A9 & A10 & A11 & A12) (_ & _ & _ & ET & EO & ES & ED & ERs & _)].
  fold (nS p) (nA p) (nO p) in A2, A3, A4, A5.
  assert (P1 : Forall (fun n => 0 < n) (shape T)) by (rewrite A3; repeat constructor; auto).
  assert (P2 : Forall (fun n => 0 < n) (shape O)) by (rewrite A4; repeat constructor; auto).
  assert (P3 : Forall (fun n => 0 < n) (shape (p_R p))) by (rewrite ERs, A5; repeat constructor; auto).
  assert (P4 : Forall (fun n => 0 < n) (shape start)) by (rewrite A2; repeat constructor; auto).
  destruct (asarray_tolist _ P1) as [T' [T1 [T2 T3]]]. destruct (asarray_tolist _ P2) as [O' [O1 [O2 O3]]].
  destruct (asarray_tolist _ P3) as [R' [R1 [R2 R3]]]. destruct (asarray_tolist _ P4) as [S' [S1 [S2 S3]]].
  unfold from_dict, to_dict. cbn [d_T d_O d_R d_start d_discount d_states d_actions d_observations].
  rewrite ET, EO, ES, ED, T1, O1, R1, S1. cbn [bind].
  set (mk := mk_pomdp T' O' R' S' discount (Some (states p)) (Some (p_actions p)) (Some (p_observations p)) "reward").
  destruct (C43_accepts T' O' R' S' discount (Some (states p)) (Some (p_actions p)) (Some (p_observations p)) "reward") as (C1 & C2 & _).
  destruct (C2 (states p) (p_actions p) (p_observations p) eq_refl eq_refl eq_refl) as [[p' Ep'] _].
  { unfold accepts. rewrite <- S2, <- T2, <- O2, <- R2, ERs. split; [auto|]. do 4 (split; [assumption|]).
    split; [|split; [|split; [|auto]]].
    - eapply about_one_eq; [|exact A6]. apply sum_n_ext. intros i Hi. rewrite S3; [reflexivity|]. apply indices_In. rewrite A2. repeat constructor; auto.
    - intros a s Ha Hs. eapply about_one_eq; [|exact (A7 a s Ha Hs)]. apply sum_n_ext. intros i Hi. rewrite T3; [reflexivity|]. apply indices_In. rewrite A3. repeat constructor; auto.
    - intros a s Ha Hs. eapply about_one_eq; [|exact (A8 a s Ha Hs)]. apply sum_n_ext. intros i Hi. rewrite O3; [reflexivity|]. apply indices_In. rewrite A4. repeat constructor; auto. }
  exists p'. split; [exact Ep'|].
  destruct (C1 _ _ Ep') as (_ & N1 & N2 & N3 & E1 & E2 & E3 & E4 & _ & E5 & _). cbn in N1, N2, N3. rewrite E1, E2, E3, E4, (E5 eq_refl).
  repeat split; auto.
Qed.
Print Assumptions C44_round_trip_partial.

(** A POMDP without actions is accepted, but its dictionary cannot be loaded. *)
Theorem C44_round_trip_refuted :
  (forall p solver, well_shaped p -> nA p = 0 -> from_dict (to_dict p) solver = Err EValue) /\
  exists T O R start p, mk_pomdp T O R start (1 # 2) None None None "reward" true = Ok p /\ nA p = 0 /\ well_shaped p.
Proof.
  split.
  - intros p solver (W1 & W2 & W3 & W4) HA. unfold from_dict, to_dict. cbn [d_T d_O d_R d_start].
    unfold tolist. rewrite W1, W2, W3, W4, HA. cbn [tolist_at seq map]. unfold asarray at 1 2 3. cbn [nshape bind].
    destruct (asarray _) as [st|e] eqn:Es; [reflexivity|]. exfalso. destruct (nS p) as [|n] eqn:En.
    + cbn in Es. discriminate.
    + unfold asarray in Es. pose proof (tolist_shape [S n] (Forall_cons _ (Nat.lt_0_succ n) (Forall_nil _)) (at_ (p_start p))) as Hx. cbn [tolist_at] in Hx. rewrite Hx in Es. discriminate.
  - exists {| shape := [0; 1; 1]; at_ := fun _ => 1%Q |}, {| shape := [0; 1; 1]; at_ := fun _ => 1%Q |},
      {| shape := [0; 1; 1; 1]; at_ := fun _ => 1%Q |}, {| shape := [1]; at_ := fun _ => 1%Q |}.
    eexists. split; [vm_compute; reflexivity|]. split; [reflexivity|]. repeat split.
Qed.
Print Assumptions C44_round_trip_refuted.
Example C44_ex : exists p', from_dict (to_dict tiger) true = Ok p' /\ at_ (p_O p') [0; 1; 0] = (3 # 20)%Q.
Proof. eexists; split; [vm_compute; reflexivity|]. vm_compute. reflexivity. Qed.

(** *** C45 *)
Theorem C45_randomize : forall T O R start discount gs ga go values solver p q,
  mk_pomdp T O R start discount gs ga go values solver = Ok p -> (0 < q)%Q ->
  (forall a s s', a < nA p -> s < nS p -> s' < nS p -> (0 <= Tr p a s s')%Q) ->
  (forall a s' o, a < nA p -> s' < nS p -> o < nO p -> (0 <= Ob p a s' o)%Q) ->
  let p' := randomize p q in
  nS p' = nS p /\ nA p' = nA p /\ nO p' = nO p /\ well_shaped p' /\ stochastic p' /\
  (forall a s s', a < nA p -> s < nS p -> s' < nS p -> (0 < Tr p' a s s')%Q) /\
  (forall a s' o, a < nA p -> s' < nS p -> o < nO p -> (0 < Ob p' a s' o)%Q) /\
  (forall b a o, distribution p' b -> a < nA p -> o < nO p -> exists nb, belief_update p' (Z.of_nat a) (Z.of_nat o) b = Ok nb).
Proof.
  intros T O R start discount gs ga go values solver p q E Hq HT HO p'.
  destruct (accepted_sizes _ _ _ _ _ _ _ _ _ _ _ E) as [HS HO'].
  destruct (proj1 (C43_accepts T O R start discount gs ga go values) solver p E) as
    [(A1 & A2 & A3 & A4 & A5 & _) (_ & _ & _ & ET & EO & ES & ED & ERs & _)].
  fold (nS p) (nA p) (nO p) in A2, A3, A4, A5.
  assert (VT : forall a s s', a < nA p -> s < nS p -> s' < nS p -> (Tr p' a s s' = (Tr p a s s' + q) / sum_n (nS p) (fun k => Tr p a s k + q))%Q).
  { intros a s s' _ _ _. unfold p', Tr, randomize, div_rows, sum_last, add_number. cbn [p_T at_ shape removelast]. rewrite ET, A3. reflexivity. }
  assert (VO : forall a s o, (Ob p' a s o = (Ob p a s o + q) / sum_n (nO p) (fun k => Ob p a s k + q))%Q).
  { intros a s s'. unfold p', Ob, randomize, div_rows, sum_last, add_number. cbn [p_O at_ shape removelast]. rewrite EO, A4. reflexivity. }
  assert (ZT : forall a s, a < nA p -> s < nS p -> (0 < sum_n (nS p) (fun k => Tr p a s k + q))%Q).
  { intros a s Ha Hs. apply Qlt_le_trans with (Tr p a s 0 + q)%Q; [specialize (HT a s 0 Ha Hs HS); lra|].
    apply (sum_n_le_mem (nS p) (fun k => Tr p a s k + q)%Q 0); [|auto]. intros i Hi. specialize (HT a s i Ha Hs Hi). lra. }
  assert (ZO : forall a s, a < nA p -> s < nS p -> (0 < sum_n (nO p) (fun k => Ob p a s k + q))%Q).
  { intros a s Ha Hs. assert (HO0 : 0 < nO p) by (apply HO'; lia). apply Qlt_le_trans with (Ob p a s 0 + q)%Q; [specialize (HO a s 0 Ha Hs HO0); lra|].
    apply (sum_n_le_mem (nO p) (fun k => Ob p a s k + q)%Q 0); [|auto]. intros i Hi. specialize (HO a s i Ha Hs Hi). lra. }
  assert (PT : forall a s s', a < nA p -> s < nS p -> s' < nS p -> (0 < Tr p' a s s')%Q).
  { intros a s s' Ha Hs Hs'. rewrite VT by auto. apply Qlt_shift_div_l; [auto|]. specialize (HT a s s' Ha Hs Hs'). lra. }
  assert (PO : forall a s' o, a < nA p -> s' < nS p -> o < nO p -> (0 < Ob p' a s' o)%Q).
  { intros a s o Ha Hs Ho. rewrite VO. apply Qlt_shift_div_l; [auto|]. specialize (HO a s o Ha Hs Ho). lra. }
  assert (STO : stochastic p').
  { split; [|split; [|split]]; change (nS p') with (nS p); change (nA p') with (nA p); change (nO p') with (nO p).
    - intros a s s' Ha Hs Hs'. apply Qlt_le_weak. auto.
    - intros a s Ha Hs. rewrite (sum_n_ext _ _ (fun s' => (Tr p a s s' + q) / sum_n (nS p) (fun k => Tr p a s k + q))%Q).
      2:{ intros i Hi. rewrite VT by auto. reflexivity. }
      unfold sum_n at 1. rewrite sum_div. change (sum_over (seq 0 (nS p)) (fun s' => (Tr p a s s' + q)%Q)) with (sum_n (nS p) (fun k => (Tr p a s k + q)%Q)).
      field. specialize (ZT a s Ha Hs). lra.
    - intros a s s' Ha Hs Hs'. apply Qlt_le_weak. auto.
    - intros a s Ha Hs. rewrite (sum_n_ext _ _ (fun s' => (Ob p a s s' + q) / sum_n (nO p) (fun k => Ob p a s k + q))%Q).
      2:{ intros i Hi. rewrite VO. reflexivity. }
      unfold sum_n at 1. rewrite sum_div. change (sum_over (seq 0 (nO p)) (fun s' => (Ob p a s s' + q)%Q)) with (sum_n (nO p) (fun k => (Ob p a s k + q)%Q)).
      field. specialize (ZO a s Ha Hs). lra. }
  do 3 (split; [reflexivity|]). split.
  { unfold well_shaped. change (nS p') with (nS p). change (nA p') with (nA p). change (nO p') with (nO p).
    unfold p', randomize. cbn [p_T p_O p_R p_start div_rows add_number shape]. rewrite ET, EO, ES, ERs. auto. }
  split; [exact STO|]. split; [exact PT|]. split; [exact PO|].
  intros b a o Hb Ha Ho. destruct (C40_bayes p' b a o STO Hb Ha Ho) as [_ H].
  destruct H as [nb (Enb & _)]; [|eauto]. intros E0.
  assert (HE : forall s', s' < nS p -> (prob_end p' b a s' o == 0)%Q).
  { apply (sum_n_zero_inv (nS p')); [|exact E0]. intros i Hi. apply prob_end_nonneg; auto. }
  destruct Hb as (B1 & B2 & B3). change (nS p') with (nS p) in *.
  assert (HB0 : forall s, s < nS p -> (nth s b 0 == 0)%Q).
  { intros s Hs. assert (J : (joint p' b a s 0 o == 0)%Q).
    { apply (sum_n_zero_inv (nS p') (fun s => joint p' b a s 0 o)); [|apply HE; auto|auto].
      intros i Hi. apply joint_nonneg; auto. split; auto. }
    unfold joint in J. specialize (PT a s 0 Ha Hs HS). specialize (PO a 0 o Ha HS Ho).
    apply Qmult_integral in J. destruct J as [J|J]; [|lra]. apply Qmult_integral in J. destruct J as [J|J]; [auto|lra]. }
  assert (sum_n (nS p) (fun s => nth s b 0%Q) == 0)%Q by (apply sum_zero; intros s Hs; apply in_seq in Hs; apply HB0; lia). lra.
Qed.
Print Assumptions C45_randomize.
Example C45_ex : (0 < 1 # 100)%Q /\ (Tr tiger 0 0 1 == 0)%Q /\ (Tr (randomize tiger (1 # 100)) 0 0 1 == 1 # 102)%Q.
Proof. vm_compute. auto. Qed.

(** *** C46, C47 *)
Theorem C46_dump : forall a l, dump_1d_array a = Ok l ->
  length l = length a /\ nearest (sumQ a) (sumZ l) /\
  exists k, k < length a /\ (forall i, i < length a -> i <> k -> nearest (nth i a 0%Q) (nth i l 0%Z)) /\
    (Qabs (nth k a 0 * 100000 - inject_Z (nth k l 0%Z)) <= inject_Z (Z.of_nat (length a)) / 2 + 1)%Q.
Proof.
  intros a l E. destruct (dump_spec _ _ E) as [k (K1 & K2 & K3 & K4 & K5 & K6)].
  split; [auto|]. split; [rewrite K3; apply around_nearest|]. exists k. split; [auto|]. split.
  - intros i Hi Hne. rewrite K4 by auto. apply around_nearest.
  - rewrite K5, inject_Z_plus. unfold Zminus. rewrite inject_Z_plus, inject_Z_opp.
    assert (HS : forall l, (Qabs (sumQ l * 100000 - inject_Z (sumZ (map around5 l))) <= inject_Z (Z.of_nat (length l)) / 2)%Q).
    { clear. induction l as [|x t IH]; [vm_compute; discriminate|]. rewrite sumQ_cons. cbn [map sumZ fold_right length]. fold (sumZ (map around5 t)).
      rewrite inject_Z_plus, Nat2Z.inj_succ, <- Z.add_1_r, inject_Z_plus. change (inject_Z 1) with 1%Q.
      destruct (around_nearest x) as [H _]. apply Qabs_Qle_condition in H. apply Qabs_Qle_condition in IH. apply Qabs_Qle_condition.
      assert (D : forall y, ((y + 1) / 2 == y / 2 + (1 # 2))%Q) by (intros; field). rewrite D. lra. }
    destruct (around_nearest (nth k a 0%Q)) as [H1 _]. destruct (around_nearest (sumQ a)) as [H2 _]. specialize (HS a).
    apply Qabs_Qle_condition in H1. apply Qabs_Qle_condition in H2. apply Qabs_Qle_condition in HS. apply Qabs_Qle_condition. lra.
Qed.
Print Assumptions C46_dump.
Example C46_ex : dump_1d_array [1 # 3; 1 # 3; 1 # 3]%Q = Ok [33334; 33333; 33333]%Z.
Proof. vm_compute. reflexivity. Qed.

(** Uniform distributions over many states are written with a negative probability. *)
Theorem C47_negative_refuted : forall n, (100001 < Z.of_nat n < 200000)%Z ->
  let a := repeat (1 / inject_Z (Z.of_nat n))%Q n in
  (sumQ a == 1)%Q /\ exists l k, dump_1d_array a = Ok l /\ nth k l 0%Z = (100001 - Z.of_nat n)%Z /\ (nth k l 0 < 0)%Z.
Proof.
  intros n Hn a. set (x := (1 / inject_Z (Z.of_nat n))%Q) in *.
  assert (HN : (100001 < inject_Z (Z.of_nat n) < 200000)%Q) by (destruct Hn as [H1 H2]; rewrite Zlt_Qlt in H1, H2; split; assumption).
  assert (Hs : forall k, (sumQ (repeat x k) == inject_Z (Z.of_nat k) * x)%Q).
  { induction k as [|k IH]; [cbn; ring|]. cbn [repeat]. rewrite sumQ_cons, IH, Nat2Z.inj_succ, <- Z.add_1_r, inject_Z_plus. ring. }
  assert (H1 : (sumQ a == 1)%Q) by (unfold a; rewrite Hs; unfold x; field; lra).
  split; [exact H1|]. assert (Hl : length a = n) by apply repeat_length.
  destruct (dump_1d_array a) as [l|] eqn:E.
  2:{ exfalso. unfold dump_1d_array in E. destruct (argmax_spec (map around5 a)) as [k (Ek & _)]; [|rewrite Ek in E; discriminate].
      intros EE. apply map_eq_nil in EE. rewrite EE in Hl. cbn in Hl. subst n. cbn in Hn. lia. }
  destruct (dump_spec _ _ E) as [k (K1 & K2 & K3 & K4 & K5 & K6)]. exists l, k. split; [reflexivity|].
  assert (Ax : around5 x = 1%Z).
  { apply rint_unique. change (inject_Z 1) with 1%Q. apply Qabs_Qlt_condition.
    assert (HX : (1 # 200000 < x < 1 # 100001)%Q).
    { unfold x. split; [apply Qlt_shift_div_l; lra|apply Qlt_shift_div_r; lra]. }
    lra. }
  assert (As : around5 (sumQ a) = 100000%Z).
  { apply rint_unique. rewrite H1. vm_compute. reflexivity. }
  assert (Hsz : forall m, sumZ (map around5 (repeat x m)) = Z.of_nat m).
  { induction m as [|m IH]; [reflexivity|]. cbn [repeat map sumZ fold_right]. fold (sumZ (map around5 (repeat x m))). rewrite IH, Ax. lia. }
  assert (En : nth k a 0%Q = x).
  { rewrite Hl in K1. unfold a. rewrite (nth_indep _ _ x) by (rewrite repeat_length; auto). apply nth_repeat. }
  rewrite K5, En, Ax, As. unfold a. rewrite Hsz. lia.
Qed.
Print Assumptions C47_negative_refuted.

(** With at most 446 entries a probability row is written without negative numbers. *)
Theorem C47_nonnegative_partial : forall a l, (forall x, In x a -> 0 <= x)%Q ->
  (inject_Z (Z.of_nat (length a)) * (inject_Z (Z.of_nat (length a)) + 2) <= sumQ a * 200000)%Q ->
  dump_1d_array a = Ok l -> forall z, In z l -> (0 <= z)%Z.
Proof.
  intros a l Hp Hn E. destruct (dump_spec _ _ E) as [k (K1 & K2 & K3 & K4 & K5 & K6)].
  assert (HA : forall x, (0 <= x)%Q -> (0 <= around5 x)%Z).
  { intros x Hx. destruct (around_nearest x) as [H _]. apply Qabs_Qle_condition in H.
    destruct (Z.lt_ge_cases (around5 x) 0) as [Hl|]; [|auto]. exfalso.
    assert (inject_Z (around5 x) <= -1)%Q by (change (-1)%Q with (inject_Z (-1)); rewrite <- Zle_Qle; lia). lra. }
  intros z Hz. apply (In_nth _ _ 0%Z) in Hz. destruct Hz as [i [Hi <-]]. rewrite K2 in Hi.
  destruct (Nat.eq_dec i k) as [->|Hne]; [|rewrite K4 by auto; apply HA; apply Hp; apply nth_In; auto].
  rewrite K5.
  set (n := inject_Z (Z.of_nat (length a))) in *. set (S := sumQ a) in *.
  assert (HS : forall t, (Qabs (sumQ t * 100000 - inject_Z (sumZ (map around5 t))) <= inject_Z (Z.of_nat (length t)) / 2)%Q).
  { clear. induction t as [|x t IH]; [vm_compute; discriminate|]. rewrite sumQ_cons. cbn [map sumZ fold_right length]. fold (sumZ (map around5 t)).
    rewrite inject_Z_plus, Nat2Z.inj_succ, <- Z.add_1_r, inject_Z_plus. change (inject_Z 1) with 1%Q.
    destruct (around_nearest x) as [H _]. apply Qabs_Qle_condition in H. apply Qabs_Qle_condition in IH. apply Qabs_Qle_condition.
    assert (D : forall y, ((y + 1) / 2 == y / 2 + (1 # 2))%Q) by (intros; field). rewrite D. lra. }
  specialize (HS a). fold n S in HS. apply Qabs_Qle_condition in HS.
  destruct (around_nearest S) as [H2 _]. apply Qabs_Qle_condition in H2.
  set (A := around5 (nth k a 0%Q)) in *.
  assert (HM : (sumZ (map around5 a) <= Z.of_nat (length a) * A)%Z).
  { assert (G : forall t, (forall x, In x t -> around5 x <= A)%Z -> (sumZ (map around5 t) <= Z.of_nat (length t) * A)%Z).
    { clear. induction t as [|x t IH]; intros H; [reflexivity|]. cbn [map sumZ fold_right length]. fold (sumZ (map around5 t)).
      assert (around5 x <= A)%Z by (apply H; simpl; auto). assert (sumZ (map around5 t) <= Z.of_nat (length t) * A)%Z by (apply IH; intros; apply H; simpl; auto). lia. }
    apply G. intros x Hx. apply (In_nth _ _ 0%Q) in Hx. destruct Hx as [j [Hj <-]]. auto. }
  rewrite Zle_Qle, inject_Z_mult in HM. fold n in HM.
  assert (Hn0 : (0 < n)%Q) by (unfold n; change 0%Q with (inject_Z 0); rewrite <- Zlt_Qlt; lia).
  assert (HAn : (n * ((n + 1) / 2) <= n * inject_Z A)%Q).
  { assert (D : (n * ((n + 1) / 2) == n * (n + 2) / 2 - n / 2)%Q) by field. rewrite D.
    assert (D2 : (n * (n + 2) / 2 <= S * 100000)%Q) by (apply Qle_shift_div_r; lra). lra. }
  assert (HA1 : ((n + 1) / 2 <= inject_Z A)%Q).
  { destruct (Qlt_le_dec (inject_Z A) ((n + 1) / 2)) as [Hlt|Hle]; [|auto]. exfalso.
    assert (n * inject_Z A < n * ((n + 1) / 2))%Q; [|lra]. rewrite (Qmult_comm n (inject_Z A)), (Qmult_comm n ((n + 1) / 2)). apply Qmult_lt_compat_r; auto. }
  assert (D : ((n + 1) / 2 == n / 2 + (1 # 2))%Q) by field. rewrite D in HA1.
  apply Zle_Qle in HM || idtac. rewrite Zle_Qle. rewrite inject_Z_plus. unfold Zminus. rewrite inject_Z_plus, inject_Z_opp. change (inject_Z 0) with 0%Q.
  lra.
Qed.
Print Assumptions C47_nonnegative_partial.
Example C47_ex : forall a, length a = 446 -> (forall x, In x a -> 0 <= x)%Q -> (sumQ a == 1)%Q ->
  forall l, dump_1d_array a = Ok l -> forall z, In z l -> (0 <= z)%Z.
Proof. intros a Ha Hp Hs l E. eapply C47_nonnegative_partial; eauto. rewrite Ha, Hs. vm_compute. discriminate. Qed.

(** *** C81: sampling from the tables. *)
(** False as stated: the constructor accepts negative probabilities and sums that random choice rejects. *)
Theorem C81_sampling_refuted :
  (exists T p, mk_pomdp T tiger_O tiger_R tiger_start (95 # 100) None (Some [NStr "listen"; NStr "left"; NStr "right"]) None "reward" true = Ok p /\
     (Tr p 0 0 0 < 0)%Q /\ forall u v, pomdp_sample_transition p u v 0 0 = Err EValue) /\
  (exists start p, mk_pomdp tiger_T tiger_O tiger_R start (95 # 100) None (Some [NStr "listen"; NStr "left"; NStr "right"]) None "reward" true = Ok p /\
     stochastic p /\ (forall s, s < nS p -> (0 < Start p s)%Q) /\ forall u, pomdp_sample_start p u = Err EValue).
Proof.
  split.
  - exists (ex_arr (l3 [[[-1; 2]; [0; 1]]; [[1 # 2; 1 # 2]; [1 # 2; 1 # 2]]; [[1 # 2; 1 # 2]; [1 # 2; 1 # 2]]]%Q)).
    eexists. split; [vm_compute; reflexivity|]. split; [vm_compute; reflexivity|]. intros u v. reflexivity.
  - exists (ex_arr (l1 [1 # 2; 500001 # 1000000]%Q)). eexists. split; [vm_compute; reflexivity|]. split; [|split].
    + exact tiger_stochastic.
    + intros [|[|s]] H; vm_compute in H; try lia; vm_compute; reflexivity.
    + intros u. reflexivity.
Qed.
Print Assumptions C81_sampling_refuted.

(** With exact distributions: a transition is always drawn, has positive probability, carries the reward of
    the table, and each outcome is drawn exactly for the draws of an interval of the length of its probability. *)
Lemma row3 (A : array) (n1 n2 n3 i j : nat) : shape A = [n1; n2; n3] -> row A [i; j] = map (fun k => at_ A [i; j; k]) (seq 0 n3).
Proof. intros H. unfold row. rewrite H. reflexivity. Qed.
Lemma sumQ_map_seq f n : sumQ (map f (seq 0 n)) = sum_n n f.
Proof. unfold sumQ, sum_n. rewrite sum_map. reflexivity. Qed.
Lemma firstn_map_seq (f : nat -> Q) n k : k <= n -> firstn k (map f (seq 0 n)) = map f (seq 0 k).
Proof.
  intros H. rewrite firstn_map. f_equal. replace n with (k + (n - k)) by lia. rewrite seq_app, firstn_app, seq_length, Nat.sub_diag, firstn_O, app_nil_r.
  rewrite <- (seq_length k 0) at 1. apply firstn_all.
Qed.
Lemma choice_exact (f : nat -> Q) n u : (forall i, i < n -> (0 <= f i)%Q) -> (sum_n n f == 1)%Q -> (0 <= u < 1)%Q ->
  (exists k, random_choice (map f (seq 0 n)) u = Ok k) /\
  forall k, random_choice (map f (seq 0 n)) u = Ok k <-> k < n /\ (sum_n k f <= u < sum_n k f + f k)%Q.
Proof.
  intros H0 H1 Hu. destruct (random_choice_spec (map f (seq 0 n)) u) as [C1 C2].
  - intros x Hx. apply in_map_iff in Hx. destruct Hx as [i [<- Hi]]. apply in_seq in Hi. apply H0. lia.
  - rewrite sumQ_map_seq, H1. vm_compute. discriminate.
  - auto.
  - split; [auto|]. intros k. rewrite C2, map_length, seq_length, sumQ_map_seq, H1, Qmult_1_r.
    split; intros [K1 K2]; (split; [auto|]).
    + rewrite !firstn_map_seq, !sumQ_map_seq, sum_n_S in K2 by lia. exact K2.
    + rewrite !firstn_map_seq, !sumQ_map_seq, sum_n_S by lia. exact K2.
Qed.

Theorem C81_sampling_partial : forall p a s, well_shaped p -> stochastic p -> a < nA p -> s < nS p ->
  (forall u v, (0 <= u < 1)%Q -> (0 <= v < 1)%Q -> exists s' o r, pomdp_sample_transition p u v (Z.of_nat a) (Z.of_nat s) = Ok (s', o, r)) /\
  (forall u v, (0 <= u < 1)%Q -> (0 <= v < 1)%Q -> forall s' o r,
     pomdp_sample_transition p u v (Z.of_nat a) (Z.of_nat s) = Ok (s', o, r) <->
     s' < nS p /\ o < nO p /\ r = at_ (p_R p) [a; s; s'; o] /\
     (sum_n s' (Tr p a s) <= u < sum_n s' (Tr p a s) + Tr p a s s')%Q /\ (sum_n o (Ob p a s') <= v < sum_n o (Ob p a s') + Ob p a s' o)%Q) /\
  (forall s' o, s' < nS p -> o < nO p -> (0 < step_prob p a s s' o)%Q ->
     exists u v, (0 <= u < 1)%Q /\ (0 <= v < 1)%Q /\ exists r, pomdp_sample_transition p u v (Z.of_nat a) (Z.of_nat s) = Ok (s', o, r)).
Proof.
  intros p a s (W1 & W2 & W3 & W4) (S1 & S2 & S3 & S4) Ha Hs.
  assert (HU : forall u v, pomdp_sample_transition p u v (Z.of_nat a) (Z.of_nat s) =
     do s' <- random_choice (map (Tr p a s) (seq 0 (nS p))) u; do o <- random_choice (map (Ob p a s') (seq 0 (nO p))) v; Ok (s', o, at_ (p_R p) [a; s; s'; o])).
  { intros u v. unfold pomdp_sample_transition. rewrite !axis_nat. fold (nA p) (nS p).
    assert (a <? nA p = true) as -> by (apply Nat.ltb_lt; auto). assert (s <? nS p = true) as -> by (apply Nat.ltb_lt; auto). cbn [bind].
    rewrite (row3 _ _ _ _ _ _ W2). unfold Tr at 1. destruct (random_choice _ u) as [s'|]; [|reflexivity]. cbn [bind].
    rewrite (row3 _ _ _ _ _ _ W3). reflexivity. }
  assert (H2 : forall u v, (0 <= u < 1)%Q -> (0 <= v < 1)%Q -> forall s' o r,
     pomdp_sample_transition p u v (Z.of_nat a) (Z.of_nat s) = Ok (s', o, r) <->
     s' < nS p /\ o < nO p /\ r = at_ (p_R p) [a; s; s'; o] /\
     (sum_n s' (Tr p a s) <= u < sum_n s' (Tr p a s) + Tr p a s s')%Q /\ (sum_n o (Ob p a s') <= v < sum_n o (Ob p a s') + Ob p a s' o)%Q).
  { intros u v Hu Hv s' o r. rewrite HU. destruct (choice_exact (Tr p a s) (nS p) u) as [_ C]; auto. split.
    - intros E. destruct (random_choice _ u) as [s1|] eqn:E1; [|discriminate]. cbn [bind] in E.
      destruct (proj1 (C s1) eq_refl) as [K1 K2]. destruct (choice_exact (Ob p a s1) (nO p) v) as [_ D]; auto.
      destruct (random_choice (map (Ob p a s1) _) v) as [o1|] eqn:E2; [|discriminate]. cbn [bind] in E.
      destruct (proj1 (D o1) eq_refl) as [L1 L2]. inversion E; subst. auto.
    - intros (K1 & L1 & -> & K2 & L2). rewrite (proj2 (C s') (conj K1 K2)). cbn [bind].
      destruct (choice_exact (Ob p a s') (nO p) v) as [_ D]; auto. rewrite (proj2 (D o) (conj L1 L2)). reflexivity. }
  split; [|split; [exact H2|]].
  - intros u v Hu Hv. rewrite HU. destruct (choice_exact (Tr p a s) (nS p) u) as [[s' E1] C]; auto. rewrite E1. cbn [bind].
    apply C in E1. destruct E1 as [K1 _]. destruct (choice_exact (Ob p a s') (nO p) v) as [[o E2] D]; auto. rewrite E2. cbn [bind]. eauto.
  - intros s' o Hs' Ho Hp. unfold step_prob in Hp.
    assert (HB : forall (f : nat -> Q) n k, (forall i, i < n -> (0 <= f i)%Q) -> (sum_n n f == 1)%Q -> k < n -> (0 < f k)%Q -> (0 <= sum_n k f < 1)%Q).
    { intros f n k H0 H1 Hk Hf. split; [apply sum_n_nonneg; intros; apply H0; lia|].
      assert (sum_n (S k) f <= sum_n n f)%Q.
      { replace n with (S k + (n - S k)) by lia. unfold sum_n at 2. rewrite seq_app, sum_app. fold (sum_n (S k) f).
        assert (0 <= sum_over (seq (0 + S k) (n - S k)) f)%Q; [|lra]. apply sum_nonneg. intros i Hi. apply in_seq in Hi. apply H0. lia. }
      rewrite sum_n_S in *. lra. }
    specialize (S1 a s s' Ha Hs Hs') as P1. specialize (S3 a s' o Ha Hs' Ho) as P3.
    assert (T1 : (0 < Tr p a s s')%Q).
    { destruct (Qlt_le_dec 0 (Tr p a s s')); [auto|]. exfalso. assert (E : (Tr p a s s' == 0)%Q) by lra. rewrite E in Hp. lra. }
    assert (T2 : (0 < Ob p a s' o)%Q).
    { destruct (Qlt_le_dec 0 (Ob p a s' o)); [auto|]. exfalso. assert (E : (Ob p a s' o == 0)%Q) by lra. rewrite E in Hp. lra. }
    exists (sum_n s' (Tr p a s)), (sum_n o (Ob p a s')).
    assert (B1 := HB (Tr p a s) (nS p) s' ltac:(auto) ltac:(auto) Hs' T1). assert (B2 := HB (Ob p a s') (nO p) o ltac:(auto) ltac:(auto) Ho T2).
    split; [auto|]. split; [auto|]. eexists. apply H2; auto. split; [auto|]. split; [auto|]. split; [reflexivity|]. lra.
Qed.
Print Assumptions C81_sampling_partial.
Example C81_ex : well_shaped tiger /\ pomdp_sample_transition tiger (1 # 2) (9 # 10) 1 0 = Ok (1, 1, (-100)%Q).
Proof. split; [repeat split|]. vm_compute. reflexivity. Qed.
