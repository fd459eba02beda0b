(** Properties of the POMDP of a hierarchical task: C65 to C67 and C85 to C88. *)
From Coq Require Import Lia Lqa.
From Verif Require Import PyBase PyBaseFacts QBase PomdpModel PomdpSpec PomdpProofs Props_Pomdp HtmModel HtmSpec HtmProofs ConvModel NodeModel NodeSpec ConvSpec NodeProofs NodeProofs2 NodeProofs3 NodeProofs4 ConvProofs ConvProofs2 ConvProofs3 ConvProofs4 NameSpec NameProofs.
Local Open Scope list_scope.
Local Open Scope nat_scope.

Lemma NStr_NoDup l : NoDup l -> NoDup (map NStr l).
Proof. apply FinFun.Injective_map_NoDup. intros x y E. congruence. Qed.
Lemma NoDup_app_first {A} (l l' : list A) : NoDup (l ++ l') -> NoDup l.
Proof. induction l as [|x l IH]; intros N; [constructor|]. inversion N as [|y z N1 N2]; subst. constructor; [|auto]. intros K. apply N1. apply in_or_app. auto. Qed.
Lemma sum_zero n f : (forall i, i < n -> (f i == 0)%Q) -> (sum_n n f == 0)%Q.
Proof. induction n as [|n IH]; intros H; [reflexivity|]. rewrite sum_n_S, IH by (intros; apply H; lia). rewrite H by lia. ring. Qed.
Lemma about_one_nat n : about_one (inject_Z (Z.of_nat n)) -> n = 1.
Proof.
  unfold about_one. intros H. destruct n as [|[|n]]; [exfalso; revert H; apply Qlt_not_le; vm_compute; reflexivity|reflexivity|]. exfalso. revert H. apply Qlt_not_le. rewrite Qabs_pos.
  - unfold Qlt, Qminus, Qplus, Qopp, inject_Z. cbn [Qnum Qden]. lia.
  - unfold Qle, Qminus, Qplus, Qopp, inject_Z. cbn [Qnum Qden]. lia.
Qed.
Lemma about_one_1 x : (x == 1)%Q -> about_one x.
Proof. intros E. unfold about_one. rewrite E. vm_compute. discriminate. Qed.

Lemma one_start_length t : proper t -> (length (inits t) = 1 <-> one_start t).
Proof.
  intros Pt. unfold one_start. split.
  - intros L1. destruct (inits t) as [|[j q] [|y l]] eqn:E; try discriminate L1. exists j. intros r i Hr Hs. destruct (proj2 (enters_run t i Pt)) as [q' Hq]; [eauto|]. apply inits_enters in Hq. rewrite E in Hq. destruct Hq as [Hq|[]]. congruence.
  - intros [j Hj]. pose proof (inits_ne t Pt) as Ne. pose proof (inits_NoDup t) as N. destruct (inits t) as [|x [|y l]] eqn:E; [congruence|reflexivity|]. exfalso.
    assert (A : forall z, In z (inits t) -> fst z = j). { intros [i q] Hz. apply inits_enters in Hz. destruct (proj1 (enters_run t i Pt)) as (r & Hr & Hs); [eauto|]. apply (Hj r i Hr Hs). }
    rewrite E in A. pose proof (A x (or_introl eq_refl)). pose proof (A y (or_intror (or_introl eq_refl))). cbn in N. inversion N as [|a b N1 N2]. apply N1. left. congruence.
Qed.
Lemma start_sum (t : n2p collab) : proper t -> (sum_n (3 * n_leaves t + 1) (look (map (fun x => ((3 * fst x)%nat, snd x)) (inits t))) == 1)%Q /\ (forall n, 3 * n_leaves t < n -> (sum_n n (look (map (fun x => ((3 * fst x)%nat, snd x)) (inits t))) == 1)%Q).
Proof.
  intros Pt. assert (A : forall n, 3 * n_leaves t < n -> (sum_n n (look (map (fun x => ((3 * fst x)%nat, snd x)) (inits t))) == 1)%Q); [|split; [apply A; lia|exact A]].
  intros n Hn. rewrite look_sum.
  - rewrite sum_map. cbn [snd]. apply (inits_sum t Pt).
  - rewrite map_map. cbn [fst]. rewrite <- (map_map fst (Nat.mul 3)). apply FinFun.Injective_map_NoDup; [intros x y; lia|apply inits_NoDup].
  - intros x Hx. apply in_map_iff in Hx. destruct Hx as (y & <- & Hy). apply inits_bound in Hy. cbn. lia.
Qed.

Section Inv.
  Variable exp : Q -> Q.
  Variables t_wait t_ask t_tell intr end_reward : Q.
  Variable fl : flags.
  Lemma attrs_collab a : collaborative a <-> exists p, attrs a = Ok p.
  Proof. split; intros [p H]; exists p; apply attrs_param; auto. Qed.

  Lemma conv_accepts (t : n2p collab) T O R S : proper t ->
    tabT exp t_wait t_ask t_tell fl t T -> tabO fl t O -> (forall k, S k = look (map (fun x => (3 * fst x, snd x)) (inits t)) k) -> Forall (fun a => exists p, attrs a = Ok p) (leaves t) ->
    (accepts (array3 (n_act t) (size fl t) (size fl t) T) (array3 (n_act t) (size fl t) (n_obs fl) O) (array4 (n_act t) (size fl t) (size fl t) (n_obs fl) R) (array1 (size fl t) S) 1 (map NStr (state_names fl t)) (map NStr (action_names t)) (map NStr (obs_names fl)) "cost" <->
     NoDup (map NStr (state_names fl t)) /\ NoDup (map NStr (action_names t)) /\ (loop fl = true -> reward_state fl = false /\ length (inits t) = 1)).
  Proof.
    intros Pt HT HO HS At. pose proof (state_names_length fl t) as E1. pose proof (action_names_length t) as E2. pose proof (obs_names_length fl) as E3. unfold accepts. rewrite !map_length, E1, E2, E3. cbn [array3 array4 array1 shape at_].
    assert (S3 : 3 * n_leaves t < size fl t) by (unfold size; destruct (reward_state fl); lia). assert (A0 : 0 < n_act t) by (unfold n_act; lia). split.
    - intros (_ & _ & _ & _ & _ & _ & RT & _ & N1 & N2 & _). split; [auto|]. split; [auto|]. intros El. destruct (reward_state fl) eqn:Er.
      + exfalso. specialize (RT 0 (3 * n_leaves t) A0 S3). pose proof (T_loop_reward exp t_wait t_ask t_tell fl t T 0 HT El Er) as Z. unfold about_one in RT. rewrite (Qplus_comp _ _ Z _ _ (Qeq_refl (-(1)))) in RT. revert RT. apply Qlt_not_le. vm_compute. reflexivity.
      + split; [reflexivity|]. specialize (RT 0 (3 * n_leaves t) A0 S3). pose proof (T_sum_loop exp t_wait t_ask t_tell fl t Pt At T HT ltac:(auto) 0 El A0) as Z. apply about_one_nat. unfold about_one in *. rewrite <- Z. exact RT.
    - intros (N1 & N2 & HL). split; [auto|]. do 4 (split; [reflexivity|]). split; [|split; [|split; [|split; [auto|split; [auto|split]]]]].
      + apply about_one_1. rewrite (sum_n_ext _ S (look (map (fun x => ((3 * fst x)%nat, snd x)) (inits t)))) by (intros; rewrite HS; reflexivity). apply (start_sum t Pt). auto.
      + intros a s Ha Hs. apply about_one_1. apply (T_sum exp t_wait t_ask t_tell fl t Pt At T HT); auto; intros El; apply (HL El).
      + intros a s Ha Hs. apply about_one_1. apply (proj1 (O_sum fl t Pt O HO a s Ha Hs)).
      + unfold obs_names, observations. apply NStr_NoDup. destruct (more fl); repeat constructor; cbn; intuition discriminate.
      + split; vm_compute; discriminate.
  Qed.
  Lemma conv_inv root solver p : inhabited root -> task_to_pomdp exp t_ask t_tell fl t_wait intr end_reward root solver = Ok p ->
    exists t T O R S, unfolds root t /\ proper t /\ Forall (fun a => exists p, attrs a = Ok p) (leaves t) /\
      tabT exp t_wait t_ask t_tell fl t T /\ tabO fl t O /\ tabR t_wait t_ask t_tell intr end_reward fl t R /\ (forall k, S k = look (map (fun x => (3 * fst x, snd x)) (inits t)) k) /\
      states p = map NStr (state_names fl t) /\ p_actions p = map NStr (action_names t) /\ p_observations p = map NStr (obs_names fl) /\
      (forall a s s', Tr p a s s' = T a s s') /\ (forall a s o, Ob p a s o = O a s o) /\ (forall s, Start p s = S s) /\ (forall a s s' o, at_ (p_R p) [a; s; s'; o] = (- R a s s' o)%Q) /\
      (loop fl = true -> reward_state fl = false /\ length (inits t) = 1) /\ structured fl = false /\ well_shaped p /\ distinct_names t.
  Proof.
    intros HI E. unfold task_to_pomdp in E. destruct (from_node (fun _ => Ok tt) (levels root) root) as [t|] eqn:En; cbn [bind] in E; [|discriminate]. apply from_node_unfolds in En. pose proof (unfolds_proper root t HI En) as Pt.
    pose proof (core_attrs exp t_wait t_ask t_tell intr end_reward fl t Pt solver p E) as At. destruct (structured fl) eqn:Est; [rewrite (core_structured exp t_wait t_ask t_tell intr end_reward fl t Pt At solver Est) in E; discriminate|].
    destruct (core exp t_wait t_ask t_tell intr end_reward fl t Pt At solver Est) as (T & O & R & S & E' & HT & HO & HR & HS). rewrite E' in E. clear E'.
    destruct (proj1 (C43_accepts _ _ _ _ _ _ _ _ _) solver p E) as (Acc & N1 & N2 & N3 & PT & PO & PS & _ & ShR & _ & PR). cbn [named] in N1, N2, N3. specialize (PR eq_refl). rewrite N1, N2, N3 in Acc. pose proof (proj1 (conv_accepts t T O R S Pt HT HO HS At) Acc) as (D1 & D2 & HL).
    exists t, T, O, R, S. do 7 (split; [assumption|]). do 3 (split; [assumption|]). split; [intros; unfold Tr; rewrite PT; reflexivity|]. split; [intros; unfold Ob; rewrite PO; reflexivity|]. split; [intros; unfold Start; rewrite PS; reflexivity|]. split; [intros; rewrite PR; reflexivity|]. split; [auto|]. split; [auto|]. split.
    - unfold well_shaped, nS, nA, nO. rewrite N1, N2, N3, PT, PO, PS, ShR, !map_length, state_names_length, action_names_length, obs_names_length. repeat split; reflexivity.
    - unfold distinct_names. rewrite dashed_map. clear - D1. apply NoDup_map_inv in D1. unfold state_names in D1. apply NoDup_app_first in D1. rewrite node_states_flat in D1. revert D1. induction (leaves t) as [|a l IH]; intros D1; [constructor|]. cbn [flat_map leaf_states map app] in D1. inversion D1 as [|x y N1 N2]; subst. inversion N2 as [|x y N3 N4]; subst. inversion N4 as [|x y N5 N6]; subst. cbn [map]. constructor; [|apply IH; auto].
      intros K. apply N1. apply in_map_iff in K. destruct K as (b & Eb & Hb). right. right. apply in_flat_map. exists b. split; [auto|]. left. rewrite Eb. reflexivity.
  Qed.
End Inv.

(** *** C65 *)
Theorem C65_tables : forall exp t_ask t_tell fl t_wait intr end_reward root solver p,
  inhabited root -> task_to_pomdp exp t_ask t_tell fl t_wait intr end_reward root solver = Ok p ->
  exists t, unfolds root t /\
    nS p = 3 * length (leaves t) + (if reward_state fl then 2 else 1) /\
    nA p = 4 * length (leaves t) + 1 /\
    nO p = (if loop fl || reward_state fl then 5 else 4) /\
    well_shaped p /\
    (forall a s, a < nA p -> s < nS p -> (sum_n (nS p) (Tr p a s) == 1)%Q) /\
    (forall a s', a < nA p -> s' < nS p -> (sum_n (nO p) (Ob p a s') == 1)%Q /\ forall o, (0 <= Ob p a s' o)%Q) /\
    ((sum_n (nS p) (Start p) == 1)%Q /\ forall s, (0 <= Start p s)%Q) /\
    ((forall x, (x <= 0)%Q -> (0 <= exp x <= 1)%Q) -> (0 <= t_wait)%Q -> (0 <= t_ask)%Q -> (0 <= t_tell)%Q -> all_leaves sensible root -> stochastic p).
Proof.
  intros exp t_ask t_tell fl t_wait intr end_reward root solver p HI E.
  destruct (conv_inv _ _ _ _ _ _ _ _ _ _ HI E) as (t & T & O & R & S & U & Pt & At & HT & HO & HR & HS & N1 & N2 & N3 & PT & PO & PS & PR & HL & Est & WS & _).
  assert (Es : nS p = size fl t) by (unfold nS; rewrite N1, map_length; apply state_names_length). assert (Ea : nA p = n_act t) by (unfold nA; rewrite N2, map_length; apply action_names_length). assert (Eo : nO p = n_obs fl) by (unfold nO; rewrite N3, map_length; apply obs_names_length).
  assert (ST : forall a s, a < nA p -> s < nS p -> (sum_n (nS p) (Tr p a s) == 1)%Q).
  { rewrite Ea, Es. intros a s Ha Hs. rewrite (sum_n_ext _ (Tr p a s) (T a s)) by (intros; rewrite PT; reflexivity). apply (T_sum exp t_wait t_ask t_tell fl t Pt At T HT); auto; intros El; apply (HL El). }
  assert (SO : forall a s', a < nA p -> s' < nS p -> (sum_n (nO p) (Ob p a s') == 1)%Q /\ forall o, (0 <= Ob p a s' o)%Q).
  { rewrite Ea, Es, Eo. intros a s Ha Hs. destruct (O_sum fl t Pt O HO a s Ha Hs) as [S1 S2]. split; [rewrite <- S1; apply sum_n_ext; intros; rewrite PO; reflexivity|intros o; rewrite PO; apply S2]. }
  exists t. rewrite <- n_leaves_length. split; [auto|]. split; [auto|]. split; [auto|]. split; [auto|]. split; [auto|]. split; [auto|]. split; [auto|]. split; [split|].
  - rewrite Es. rewrite (sum_n_ext _ (Start p) (look (map (fun x => ((3 * fst x)%nat, snd x)) (inits t)))) by (intros; rewrite PS, HS; reflexivity). apply (start_sum t Pt). unfold size. destruct (reward_state fl); lia.
  - intros s. rewrite PS, HS. apply look_nonneg. intros x Hx. apply in_map_iff in Hx. destruct Hx as (y & <- & Hy). apply inits_pos in Hy. cbn. lra.
  - intros Hexp Hw Hk Hl HG. assert (GL : Forall sensible (leaves t)).
    { apply (unfolds_leaves sensible) with (c := root); auto. clear. intros fmt a a' (q & A1 & A2 & A3) Ec. unfold action_copy in Ec. rewrite A1 in Ec. assert (a' = {| a_class := KCollab; a_name := fmt (a_name a); a_agent := "None"; a_params := a_params a |}) as -> by congruence. exists q. auto. }
    assert (GP : forall k q, param t k q -> (0 <= no_proba q <= 1)%Q /\ (0 <= fail_proba q <= 1)%Q /\ (0 < t_hum q)%Q /\ (0 <= t_err q)%Q).
    { intros k q (a & Ha & A1 & A2). rewrite Forall_forall in GL. destruct (GL a (nth_error_In _ _ Ha)) as (q' & _ & A3 & A4). assert (q' = q) as -> by congruence. auto. }
    split; [|split; [|split]].
    + rewrite Ea, Es. intros a s s' Ha Hs _. rewrite PT. destruct (T_row exp t_wait t_ask t_tell fl t Pt At T HT ltac:(intros El; apply (HL El)) a s Ha Hs) as (Rw & _ & -> & _ & _ & C). apply look_nonneg. intros x Hx. destruct C as [(_ & _ & li & Hli & Hm & ->)|[_ ->]].
      * pose proof (param_par t At li Hli) as Pp. destruct (GP _ _ Pp) as (G1 & G2 & G3 & G4). apply (row_nonneg exp t_wait t_ask t_tell fl t Pt li a s x Hli); auto. apply Hexp.
        assert (D : (0 <= nth a (durs t_wait t_ask t_tell t) 0)%Q). { pose proof (lasts_ex t_wait t_ask t_tell t At a Ha) as D. destruct D as [|k q D|k q D|k q D|k q D]; auto. apply (GP _ _ D). }
        unfold Qdiv. setoid_replace (- nth a (durs t_wait t_ask t_tell t) 0 * / t_hum (par li))%Q with (- (nth a (durs t_wait t_ask t_tell t) 0 * / t_hum (par li)))%Q by ring. assert (0 <= nth a (durs t_wait t_ask t_tell t) 0 * / t_hum (par li))%Q; [|lra]. apply Qmult_le_0_compat; [auto|]. apply Qlt_le_weak, Qinv_lt_0_compat. auto.
      * unfold rowE in Hx. destruct (loop fl); [destruct (s =? size fl t - 1); [apply in_map_iff in Hx; destruct Hx as (y & <- & _); cbn; lra|destruct Hx]|destruct Hx as [<-|[]]; cbn; lra].
    + auto.
    + intros a s' o Ha Hs _. apply (SO a s' Ha Hs).
    + intros a s' Ha Hs. apply (SO a s' Ha Hs).
Qed.
Print Assumptions C65_tables.

(** *** C66 *)
Theorem C66_usable_partial : forall exp t_ask t_tell fl t_wait intr end_reward root,
  constructed root -> inhabited root -> all_leaves collaborative root ->
  structured fl = false -> (loop fl = true -> reward_state fl = false) ->
  (forall t, unfolds root t -> distinct_names t /\ (loop fl = true -> one_start t)) ->
  exists p, task_to_pomdp exp t_ask t_tell fl t_wait intr end_reward root true = Ok p.
Proof.
  intros exp t_ask t_tell fl t_wait intr end_reward root HC HI HG Est NB HU.
  destruct (from_node_ok (P := collab) collaborative) with (leaf := fun _ : action collab => Ok tt) (fuel := levels root) (c := root) as (t & En & Pt & Gt); auto.
  { clear. intros fmt a (q & A1 & A2). unfold action_copy. rewrite A1. eexists. split; [reflexivity|]. exists q. auto. }
  { apply constructed_ready; auto. }
  unfold task_to_pomdp. rewrite En. cbn [bind]. apply from_node_unfolds in En. destruct (HU t En) as [D OS].
  assert (At : Forall (fun a => exists p, attrs a = Ok p) (leaves t)) by (eapply Forall_impl; [|exact Gt]; intros a; apply attrs_collab).
  destruct (core exp t_wait t_ask t_tell intr end_reward fl t Pt At true Est) as (T & O & R & S & E' & HT & HO & HR & HS). rewrite E'.
  destruct (proj1 (proj2 (C43_accepts (array3 (n_act t) (size fl t) (size fl t) T) (array3 (n_act t) (size fl t) (n_obs fl) O) (array4 (n_act t) (size fl t) (size fl t) (n_obs fl) R) (array1 (size fl t) S) 1 (Some (map NStr (state_names fl t))) (Some (map NStr (action_names t))) (Some (map NStr (obs_names fl))) "cost")) _ _ _ eq_refl eq_refl eq_refl) as [Hp _]; [|exact Hp].
  unfold distinct_names in D. rewrite dashed_map in D. apply (conv_accepts exp t_wait t_ask t_tell fl t T O R S Pt HT HO HS At). split; [apply NStr_NoDup, (state_names_NoDup t (reward_state fl)); exact D|]. split; [apply NStr_NoDup, (action_names_NoDup t); exact D|]. intros El. split; [auto|]. apply one_start_length; auto.
Qed.
Print Assumptions C66_usable_partial.

(** For every task: never with structured, never with loop and reward_state, never with loop when the task may
    start with several leaves, and never when names clash. *)
Theorem C66_usable_refuted : forall exp t_ask t_tell fl t_wait intr end_reward root,
  constructed root -> inhabited root -> all_leaves collaborative root ->
  (structured fl = true -> forall solver, task_to_pomdp exp t_ask t_tell fl t_wait intr end_reward root solver = Err EAttr) /\
  (structured fl = false -> exists t, unfolds root t /\
     ((loop fl = true /\ reward_state fl = true) \/ (loop fl = true /\ ~ one_start t) \/ ~ distinct_names t ->
      task_to_pomdp exp t_ask t_tell fl t_wait intr end_reward root true = Err EValue)).
Proof.
  intros exp t_ask t_tell fl t_wait intr end_reward root HC HI HG.
  destruct (from_node_ok (P := collab) collaborative) with (leaf := fun _ : action collab => Ok tt) (fuel := levels root) (c := root) as (t & En & Pt & Gt); auto.
  { clear. intros fmt a (q & A1 & A2). unfold action_copy. rewrite A1. eexists. split; [reflexivity|]. exists q. auto. }
  { apply constructed_ready; auto. }
  assert (At : Forall (fun a => exists p, attrs a = Ok p) (leaves t)) by (eapply Forall_impl; [|exact Gt]; intros a; apply attrs_collab). pose proof (from_node_unfolds _ _ _ _ En) as U. split.
  - intros Est solver. unfold task_to_pomdp. rewrite En. cbn [bind]. apply core_structured; auto.
  - intros Est. exists t. split; [auto|]. intros Bad. destruct (task_to_pomdp exp t_ask t_tell fl t_wait intr end_reward root true) as [p|e] eqn:E.
    + exfalso. destruct (conv_inv _ _ _ _ _ _ _ _ _ _ HI E) as (t' & T & O & R & S & U' & _ & _ & _ & _ & _ & _ & _ & _ & _ & _ & _ & _ & _ & HL & _ & _ & D). assert (t' = t) as -> by (eapply unfolds_unique; eauto). destruct Bad as [[B1 B2]|[[B1 B2]|B]].
      * destruct (HL B1). congruence.
      * apply B2. apply one_start_length; auto. apply (HL B1).
      * auto.
    + f_equal. unfold task_to_pomdp in E. rewrite En in E. cbn [bind] in E. destruct (core exp t_wait t_ask t_tell intr end_reward fl t Pt At true Est) as (T & O & R & S & E' & _). rewrite E' in E. eapply (proj2 (proj2 (C43_accepts _ _ _ _ _ _ _ _ _))). exact E.
Qed.
Print Assumptions C66_usable_refuted.

(** *** C67 *)
(** The entries of the table of transitions. *)
Theorem C67_moves : forall exp t_ask t_tell fl t_wait intr end_reward root solver p,
  inhabited root -> task_to_pomdp exp t_ask t_tell fl t_wait intr end_reward root solver = Ok p ->
  exists t, unfolds root t /\ forall a s s', a < nA p -> s < nS p ->
    (forall q, goes exp t_wait t_ask t_tell fl t a s s' q -> Tr p a s s' = q) /\
    ((forall q, ~ goes exp t_wait t_ask t_tell fl t a s s' q) -> Tr p a s s' = 0%Q).
Proof.
  intros exp t_ask t_tell fl t_wait intr end_reward root solver p HI E.
  destruct (conv_inv _ _ _ _ _ _ _ _ _ _ HI E) as (t & T & O & R & S & U & Pt & At & HT & HO & HR & HS & N1 & N2 & N3 & PT & PO & PS & PR & HL & Est & WS & _).
  exists t. split; [auto|]. unfold nA, nS. rewrite N1, N2, !map_length, state_names_length, action_names_length. intros a s s' Ha Hs. rewrite PT. apply (T_goes exp t_wait t_ask t_tell fl t Pt At T HT); auto. intros El. apply (HL El).
Qed.
Print Assumptions C67_moves.

(** From the states of leaf k: only its own states, the first state of a leaf that directly follows it in a run,
    or the end if k may be last; and all these are reached when the robot succeeds. *)
Theorem C67_follow : forall exp t_ask t_tell fl t_wait intr end_reward root solver p,
  inhabited root -> task_to_pomdp exp t_ask t_tell fl t_wait intr end_reward root solver = Ok p ->
  exists t, unfolds root t /\
    (forall k a s s', k < length (leaves t) -> a < nA p -> of_leaf k s -> (~ Tr p a s s' == 0)%Q -> of_leaf k s' \/ just_after t k s') /\
    (forall k q s', param t k q -> (fail_proba q < 1)%Q -> just_after t k s' -> (0 < Tr p (physical k) (robot k) s')%Q).
Proof.
  intros exp t_ask t_tell fl t_wait intr end_reward root solver p HI E. destruct (C67_moves _ _ _ _ _ _ _ _ _ _ HI E) as (t & U & M). destruct (C65_tables _ _ _ _ _ _ _ _ _ _ HI E) as (t' & U' & Es & Ea & _).
  assert (t' = t) as -> by (eapply unfolds_unique; eauto). pose proof (unfolds_proper root t HI U) as Pt. exists t. split; [auto|].
  assert (J : forall k o, (exists q, leads t k o q) <-> just_after t k (place t o) /\ match o with Some j => exists r, run t r /\ directly r k j | None => exists r, run t r /\ ends_with r k end).
  { intros k [j|]; [rewrite (leads_some_run t k j Pt)|rewrite (leads_none_run t k Pt)]; (split; [|tauto]); intros (r & Hr & Hd); (split; [|eauto]); [left; exists r, j; auto|right; exists r; auto]. }
  split.
  - intros k a s s' Hk Ha Hs Hne. assert (Hlt : s < nS p) by (rewrite Es; unfold of_leaf, before_leaf, human, robot in Hs; destruct (reward_state fl); lia). destruct (M a s s' Ha Hlt) as [_ M0].
    assert (H : exists q, goes exp t_wait t_ask t_tell fl t a s s' q \/ ~ (exists q, goes exp t_wait t_ask t_tell fl t a s s' q)).
    { destruct (conv_inv _ _ _ _ _ _ _ _ _ _ HI E) as (t2 & T & O & R & S & U2 & _ & At & HT & _ & _ & _ & _ & _ & _ & PT & _ & _ & _ & HL & _). assert (t2 = t) as -> by (eapply unfolds_unique; eauto).
      destruct (T_row exp t_wait t_ask t_tell fl t Pt At T HT ltac:(intros El; apply (HL El)) a s) as (Rw & _ & ET & G & _); [unfold n_act; rewrite n_leaves_length, <- Ea; auto|unfold size; rewrite n_leaves_length, <- Es; auto|].
      destruct (look_cases Rw s') as [(q & Hq & _)|[Hn _]]; [exists q; left; apply G; auto|]. exists 0%Q. right. intros [q Hq]. apply Hn. apply G in Hq. apply (in_map fst) in Hq. auto. }
    destruct H as [q [H|H]]; [|exfalso; apply Hne; rewrite M0; [reflexivity|]; intros q' Hq'; eauto].
    assert (Ho : number t = length (leaves t)) by reflexivity. unfold of_leaf, before_leaf, human, robot in *.
    destruct H as [k' q' P' A'|k' q' P' A'|k' q' P' A'|k' q' P' A1 A2|k' q' P' A'|k' q' o q0 P' A' Hl|k' q' P' A1|k' q' d D P' La|k' q' d o q0 D P' La Hl|k' q' D P' A'|k' q' l o D P' A' N HIn Hl|Lo Re|Lo Re|Lo Re|j q0 Lo En]; unfold over, before_leaf, human, robot in *;
      try (left; lia); try (exfalso; lia); right; assert (k' = k) as -> by lia; apply (J k o); eauto. apply HIn. auto.
  - intros k q s' P' F HJ. assert (Hk : k < length (leaves t)) by (destruct P' as (a & Ha & _); apply nth_error_Some; congruence).
    assert (HO : exists o q0, leads t k o q0 /\ s' = place t o).
    { destruct HJ as [(r & j & Hr & Hd & ->)|(r & Hr & Hd & ->)]; [destruct (proj2 (leads_some_run t k j Pt)) as [q0 Hq]; [eauto|]; exists (Some j), q0; auto|destruct (proj2 (leads_none_run t k Pt)) as [q0 Hq]; [eauto|]; exists None, q0; auto]. }
    destruct HO as (o & q0 & Hl & ->). rewrite (proj1 (M (physical k) (robot k) (place t o) ltac:(rewrite Ea; unfold physical; lia) ltac:(rewrite Es; unfold robot; destruct (reward_state fl); lia)) _ (go_success _ _ _ _ _ _ _ _ _ o q0 P' eq_refl Hl)).
    apply Qmult_lt_0_compat; [lra|]. rewrite <- n_leaves_length in Hk. destruct (flat_get t 0 [(n_leaves t, 1%Q)] [] k Hk) as (li & Hli & Ek). cbn in Ek. subst k. destruct (next_good t Pt li Hli) as (_ & _ & Po & _). assert (Hn : In (spot t o, q0) (li_next li)) by (apply (next_leads t li _ _ Hli); eauto). apply (Po _ Hn).
Qed.
Print Assumptions C67_follow.

(** The task starts as its runs do. *)
Theorem C67_start : forall exp t_ask t_tell fl t_wait intr end_reward root solver p,
  inhabited root -> task_to_pomdp exp t_ask t_tell fl t_wait intr end_reward root solver = Ok p ->
  exists t, unfolds root t /\
    (forall j q, enters t j q -> Start p (before_leaf j) = q) /\
    (forall s, (~ Start p s == 0)%Q <-> exists j r, s = before_leaf j /\ run t r /\ starts_with r j).
Proof.
  intros exp t_ask t_tell fl t_wait intr end_reward root solver p HI E.
  destruct (conv_inv _ _ _ _ _ _ _ _ _ _ HI E) as (t & T & O & R & S & U & Pt & At & HT & HO & HR & HS & N1 & N2 & N3 & PT & PO & PS & PR & HL & Est & WS & _).
  assert (N : NoDup (map fst (map (fun x : nat * Q => (3 * fst x, snd x)) (inits t)))) by (rewrite map_map; cbn [fst]; rewrite <- (map_map fst (Nat.mul 3)); apply FinFun.Injective_map_NoDup; [intros x y; lia|apply inits_NoDup]).
  exists t. split; [auto|]. split.
  - intros j q H. rewrite PS, HS. apply look_In; [auto|]. apply inits_enters in H. apply in_map_iff. exists (j, q). auto.
  - intros s. rewrite PS, HS. split.
    + intros Hs. destruct (look_cases (map (fun x : nat * Q => (3 * fst x, snd x)) (inits t)) s) as [(q & Hq & _)|[_ Z]]; [|exfalso; apply Hs; rewrite Z; reflexivity]. apply in_map_iff in Hq. destruct Hq as ([j q'] & Eq & Hq). apply inits_enters in Hq. destruct (proj1 (enters_run t j Pt)) as (r & Hr & Hst); [eauto|]. exists j, r. split; [cbn [fst snd] in Eq; unfold before_leaf; congruence|auto].
    + intros (j & r & -> & Hr & Hst). destruct (proj2 (enters_run t j Pt)) as [q Hq]; [eauto|]. apply inits_enters in Hq. rewrite (look_In _ (before_leaf j) q N) by (apply in_map_iff; exists (j, q); auto). apply inits_pos in Hq. cbn in Hq. lra.
Qed.
Print Assumptions C67_start.

(** *** C85: costs *)
Theorem C85_costs : forall exp t_ask t_tell fl t_wait intr end_reward root solver p,
  inhabited root -> task_to_pomdp exp t_ask t_tell fl t_wait intr end_reward root solver = Ok p ->
  exists t, unfolds root t /\ forall a s s', a < nA p -> s < nS p ->
    (exists c, costs t_wait t_ask t_tell intr end_reward fl t a s s' c) /\
    forall c o, costs t_wait t_ask t_tell intr end_reward fl t a s s' c -> (at_ (p_R p) [a; s; s'; o] == - c)%Q.
Proof.
  intros exp t_ask t_tell fl t_wait intr end_reward root solver p HI E.
  destruct (conv_inv _ _ _ _ _ _ _ _ _ _ HI E) as (t & T & O & R & S & U & Pt & At & HT & HO & HR & HS & N1 & N2 & N3 & PT & PO & PS & PR & HL & Est & WS & _).
  exists t. split; [auto|]. unfold nA, nS. rewrite N1, N2, !map_length, state_names_length, action_names_length. intros a s s' Ha Hs. split; [apply costs_ex; auto|]. intros c o Hc. rewrite PR. rewrite (R_costs t_wait t_ask t_tell intr end_reward fl t At R HR a s s' o c Hs Hc). reflexivity.
Qed.
Print Assumptions C85_costs.

(** *** C86: observations *)
Theorem C86_observations : forall exp t_ask t_tell fl t_wait intr end_reward root solver p,
  inhabited root -> task_to_pomdp exp t_ask t_tell fl t_wait intr end_reward root solver = Ok p ->
  p_observations p = map NStr (["none"; "yes"; "no"; "error"]%string ++ if loop fl || reward_state fl then ["done"%string] else []) /\
  exists t, unfolds root t /\ forall a s', a < nA p -> s' < nS p ->
    (exists o, o < nO p /\ sees fl t a s' o) /\
    forall o o', sees fl t a s' o -> Ob p a s' o' = if Nat.eqb o' o then 1%Q else 0%Q.
Proof.
  intros exp t_ask t_tell fl t_wait intr end_reward root solver p HI E.
  destruct (conv_inv _ _ _ _ _ _ _ _ _ _ HI E) as (t & T & O & R & S & U & Pt & At & HT & HO & HR & HS & N1 & N2 & N3 & PT & PO & PS & PR & HL & Est & WS & _).
  split; [rewrite N3; unfold obs_names, more; destruct (loop fl || reward_state fl); reflexivity|]. exists t. split; [auto|]. unfold nA, nS, nO. rewrite N1, N2, N3, !map_length, state_names_length, action_names_length, obs_names_length. intros a s' Ha Hs. split; [apply sees_ex; auto|]. intros o o' H. rewrite PO. apply (O_sees fl t Pt O HO a s' o o' Ha Hs H).
Qed.
Print Assumptions C86_observations.

(** *** C87: names *)
Theorem C87_names : forall exp t_ask t_tell fl t_wait intr end_reward root solver p,
  inhabited root -> task_to_pomdp exp t_ask t_tell fl t_wait intr end_reward root solver = Ok p ->
  exists t, unfolds root t /\ distinct_names t /\
    (forall s n, state_name fl t s n -> nth_error (states p) s = Some (NStr n)) /\
    (forall a n, action_name t a n -> nth_error (p_actions p) a = Some (NStr n)).
Proof.
  intros exp t_ask t_tell fl t_wait intr end_reward root solver p HI E.
  destruct (conv_inv _ _ _ _ _ _ _ _ _ _ HI E) as (t & T & O & R & S & U & Pt & At & HT & HO & HR & HS & N1 & N2 & N3 & PT & PO & PS & PR & HL & Est & WS & D).
  exists t. split; [auto|]. split; [auto|]. rewrite N1, N2. split; intros s n H; rewrite nth_error_map; [rewrite (state_name_nth fl t s n H)|rewrite (action_name_nth t s n H)]; reflexivity.
Qed.
Print Assumptions C87_names.

(** *** C88: what follows a leaf does not depend on who has done it *)
Theorem C88_same_partial : forall exp t_ask t_tell fl t_wait intr end_reward root solver p,
  inhabited root -> task_to_pomdp exp t_ask t_tell fl t_wait intr end_reward root solver = Ok p -> deterministic fl = false ->
  exists t, unfolds root t /\ forall k a s', k < length (leaves t) -> a < nA p -> ~ of_leaf k s' ->
    (Tr p a (human k) s' * (1 - Tr p (physical k) (robot k) (robot k)) == Tr p (physical k) (robot k) s' * (1 - Tr p a (human k) (human k)))%Q.
Proof.
  intros exp t_ask t_tell fl t_wait intr end_reward root solver p HI E Hd.
  destruct (C67_moves _ _ _ _ _ _ _ _ _ _ HI E) as (t & U & M). destruct (C65_tables _ _ _ _ _ _ _ _ _ _ HI E) as (t' & U' & Es & Ea & _). assert (t' = t) as -> by (eapply unfolds_unique; eauto). clear U'. pose proof (unfolds_proper root t HI U) as Pt.
  destruct (conv_inv _ _ _ _ _ _ _ _ _ _ HI E) as (t2 & T & O & R & S & U2 & _ & At & _). assert (t2 = t) as -> by (eapply unfolds_unique; eauto).
  exists t. split; [auto|]. intros k a s' Hk Ha Hs'. destruct (flat_get t 0 [(n_leaves t, 1%Q)] [] k ltac:(rewrite n_leaves_length; auto)) as (li & Hli & Ek). cbn in Ek. subst k. pose proof (param_par t At li Hli) as Pp.
  assert (La : lasts t_wait t_ask t_tell t a (nth a (durs t_wait t_ask t_tell t) 0%Q)) by (apply lasts_ex; auto; unfold n_act; rewrite n_leaves_length, <- Ea; auto).
  assert (H1 : human (li_k li) < nS p) by (rewrite Es; unfold human; destruct (reward_state fl); lia). assert (H2 : robot (li_k li) < nS p) by (rewrite Es; unfold robot; destruct (reward_state fl); lia). assert (H3 : physical (li_k li) < nA p) by (rewrite Ea; unfold physical; lia).
  rewrite (proj1 (M _ _ _ H3 H2) _ (go_fail _ _ _ _ _ _ _ _ _ Pp eq_refl)), (proj1 (M _ _ _ Ha H1) _ (go_busy _ _ _ _ _ _ _ _ _ _ Hd Pp La)).
  assert (D : (exists o q, leads t (li_k li) o q /\ s' = place t o) \/ ~ (exists o q, leads t (li_k li) o q /\ s' = place t o)).
  { destruct (mem s' (map (fun x : nat * Q => 3 * fst x) (li_next li))) eqn:Em; [left; apply mem_In in Em|right; apply mem_not_In in Em].
    - apply in_map_iff in Em. destruct Em as ([j q] & <- & Hx). apply (next_leads t li j q Hli) in Hx. destruct Hx as (o & Ho & ->). exists o, q. rewrite place_spot. auto.
    - intros (o & q & Ho & ->). apply Em. rewrite place_spot. apply in_map_iff. exists (spot t o, q). split; [reflexivity|]. apply (next_leads t li _ q Hli). eauto. }
  destruct D as [(o & q & Ho & ->)|D].
  - rewrite (proj1 (M _ _ _ H3 H2) _ (go_success _ _ _ _ _ _ _ _ _ o q Pp eq_refl Ho)), (proj1 (M _ _ _ Ha H1) _ (go_finished _ _ _ _ _ _ _ _ _ _ o q Hd Pp La Ho)). ring.
  - unfold of_leaf, before_leaf, human, robot in *.
    rewrite (proj2 (M a _ s' Ha H1)), (proj2 (M (physical (li_k li)) _ s' H3 H2)); [ring| |];
      intros q0 H; inversion H as [k' q' P' A'|k' q' P' A'|k' q' P' A'|k' q' P' A1 A2|k' q' P' A'|k' q' o q1 P' A' Hl|k' q' P' A1|k' q' d D' P' La'|k' q' d o q1 D' P' La' Hl|k' q' D' P' A'|k' q' l o D' P' A' N HIn Hl|Lo Re|Lo Re|Lo Re|j q1 Lo En]; unfold over, before_leaf, human, robot in *; unfold number in *; try lia; try congruence;
      (assert (k' = li_k li) as -> by lia); apply D; eauto.
Qed.
Print Assumptions C88_same_partial.

(** With deterministic, the human may go on with another leaf than the robot: for every task with a leaf whose
    continuations are not equally likely. *)
Theorem C88_same_refuted : forall exp t_ask t_tell fl t_wait intr end_reward root solver p t k par_ l o q,
  inhabited root -> task_to_pomdp exp t_ask t_tell fl t_wait intr end_reward root solver = Ok p -> deterministic fl = true -> unfolds root t ->
  param t k par_ -> (~ fail_proba par_ == 1)%Q -> NoDup l -> (forall o, In o l <-> exists q, leads t k o q) ->
  leads t k o q -> (~ q == 1 / inject_Z (Z.of_nat (length l)))%Q ->
  (~ Tr p (ask_finished k) (human k) (place t o) * (1 - Tr p (physical k) (robot k) (robot k)) ==
     Tr p (physical k) (robot k) (place t o) * (1 - Tr p (ask_finished k) (human k) (human k)))%Q.
Proof.
  intros exp t_ask t_tell fl t_wait intr end_reward root solver p t k par_ l o q HI E Hd U Pp Hf N HIn Hl Hq.
  destruct (C67_moves _ _ _ _ _ _ _ _ _ _ HI E) as (t1 & U1 & M). assert (t1 = t) as -> by (eapply unfolds_unique; eauto). destruct (C65_tables _ _ _ _ _ _ _ _ _ _ HI E) as (t' & U' & Es & Ea & _). assert (t' = t) as -> by (eapply unfolds_unique; eauto).
  assert (Hk : k < length (leaves t)) by (destruct Pp as (a & Ha & _); apply nth_error_Some; congruence).
  assert (H1 : human k < nS p) by (rewrite Es; unfold human; destruct (reward_state fl); lia). assert (H2 : robot k < nS p) by (rewrite Es; unfold robot; destruct (reward_state fl); lia). assert (H3 : physical k < nA p) by (rewrite Ea; unfold physical; lia). assert (H4 : ask_finished k < nA p) by (rewrite Ea; unfold ask_finished; lia).
  rewrite (proj1 (M _ _ _ H3 H2) _ (go_fail _ _ _ _ _ _ _ _ _ Pp eq_refl)), (proj1 (M _ _ _ H3 H2) _ (go_success _ _ _ _ _ _ _ _ _ o q Pp eq_refl Hl)).
  rewrite (proj1 (M _ _ _ H4 H1) _ (go_asked _ _ _ _ _ _ _ _ _ l o Hd Pp eq_refl N HIn (proj2 (HIn o) (ex_intro _ q Hl)))).
  rewrite (proj2 (M _ _ (human k) H4 H1)).
  - intros K. apply Hq. assert (Z : ((q - 1 / inject_Z (Z.of_nat (length l))) * (1 - fail_proba par_) == 0)%Q) by (setoid_replace ((q - 1 / inject_Z (Z.of_nat (length l))) * (1 - fail_proba par_))%Q with ((1 - fail_proba par_) * q * (1 - 0) - 1 / inject_Z (Z.of_nat (length l)) * (1 - fail_proba par_))%Q by ring; rewrite <- K; ring).
    apply Qmult_integral in Z. destruct Z as [Z|Z]; [|exfalso; apply Hf; lra]. lra.
  - intros q0 H. inversion H as [k' q' P' A'|k' q' P' A'|k' q' P' A'|k' q' P' A1 A2|k' q' P' A'|k' q' o1 q1 P' A' Hl'|k' q' P' A1|k' q' d D' P' La'|k' q' d o1 q1 D' P' La' Hl'|k' q' D' P' A'|k' q' l1 o1 D' P' A' N' HIn' Hl'|Lo Re|Lo Re|Lo Re|j q1 Lo En]; unfold ask_finished, over, before_leaf, human, robot in *; unfold number in *; try lia; try congruence.
    destruct o1; cbn [place] in *; unfold over, before_leaf, number in *; lia.
Qed.
Print Assumptions C88_same_refuted.

(** *** Non-vacuity *)
Definition ex_leaf (n : string) : comb collab :=
  Leaf {| a_class := KCollab; a_name := n; a_agent := "None"; a_params := Some {| t_hum := 2; t_rob := 3; t_err := 1; no_proba := 1 # 10; fail_proba := 1 # 5 |} |} None None false.
Definition ex_exp (x : Q) : Q := (1 / (1 - x))%Q.
Definition ex_flags (d s l r : bool) : flags := {| deterministic := d; structured := s; loop := l; reward_state := r; subtask_reward := Some 2%Q |}.
(** A first leaf, then two leaves in any order. *)
Definition ex_task : comb collab := Node Sequential [ex_leaf "Mount leg"; Node Parallel [ex_leaf "B"; ex_leaf "C"] None None "par" true None] None None "task" true None.
Definition ex_choice : comb collab := Node Sequential [ex_leaf "A"; Node Alternative [ex_leaf "B"; Node Alternative [ex_leaf "C"; ex_leaf "D"] None None "in" true (Some [1 # 2; 1 # 2])] None None "out" true (Some [1 # 2; 1 # 2])] None None "task" true None.
Lemma ex_constructed_leaf n : constructed (ex_leaf n).
Proof. constructor. Qed.
Lemma ex_task_constructed : constructed ex_task.
Proof.
  apply (constructed_comb Sequential [ex_leaf "Mount leg"; Node Parallel [ex_leaf "B"; ex_leaf "C"] None None "par" true None] None None "task" true None); [|reflexivity]. repeat constructor.
  apply (constructed_comb Parallel [ex_leaf "B"; ex_leaf "C"] None None "par" true None); [|reflexivity]. repeat constructor.
Qed.
Lemma ex_task_inhabited : inhabited ex_task.
Proof. repeat (constructor; try discriminate). Qed.
Ltac leaves_are := intros a i p h H; cbn in H; repeat (destruct H as [H|H]; [first [discriminate H|inversion H; subst; eexists; split; [reflexivity|]; split; [reflexivity|]; cbn; repeat split; vm_compute; congruence]|]); destruct H.
Lemma ex_task_sensible : all_leaves sensible ex_task.
Proof. leaves_are. Qed.
Definition ex_collab_task : all_leaves collaborative ex_task.
Proof. intros a i p h H. destruct (ex_task_sensible a i p h H) as (q & A & B & _). exists q. auto. Qed.
Definition ex_unfolded (c : comb collab) : n2p collab := match from_node (fun _ => Ok tt) (levels c) c with Ok t => t | Err _ => NSeq [] end.
Lemma ex_task_unfolds : unfolds ex_task (ex_unfolded ex_task).
Proof. apply (from_node_unfolds (fun _ => Ok tt) (levels ex_task)). vm_compute. reflexivity. Qed.
Ltac distinct := vm_compute; repeat (constructor; [cbn; intuition discriminate|]); constructor.

(** Five leaves: the tables of C65, with sensible parameters. *)
Example C65_ex : exists p, task_to_pomdp ex_exp 1 1 (ex_flags false false false true) 1 1 10 ex_task true = Ok p /\ nS p = 17 /\ nA p = 21 /\ stochastic p.
Proof.
  destruct (C66_usable_partial ex_exp 1 1 (ex_flags false false false true) 1 1 10 ex_task ex_task_constructed ex_task_inhabited ex_collab_task eq_refl ltac:(discriminate)) as [p E].
  { intros t U. rewrite (unfolds_unique _ _ _ U ex_task_unfolds). split; [|discriminate]. unfold distinct_names. distinct. }
  exists p. split; [auto|]. destruct (C65_tables _ _ _ _ _ _ _ _ _ _ ex_task_inhabited E) as (t & U & -> & -> & _ & _ & _ & _ & _ & S). rewrite (unfolds_unique _ _ _ U ex_task_unfolds). split; [reflexivity|]. split; [reflexivity|]. apply S; [|vm_compute; discriminate|vm_compute; discriminate|vm_compute; discriminate|apply ex_task_sensible].
  intros x Hx. unfold ex_exp. split; [apply Qle_shift_div_l; lra|apply Qle_shift_div_r; lra].
Qed.
(** The loop of a sequence of two leaves is accepted; with both flags it is not, nor is a choice. *)
Definition ex_pair : comb collab := Node Sequential [ex_leaf "A"; ex_leaf "B"] None None "task" true None.
Definition ex_either : comb collab := Node Alternative [ex_leaf "A"; ex_leaf "B"] None None "task" true (Some [1 # 2; 1 # 2]).
Definition accepted (c : comb collab) (fl : flags) : res unit := do _ <- task_to_pomdp ex_exp 1 1 fl 1 1 10 c true; Ok tt.
Example C66_ex : constructed ex_pair /\ inhabited ex_pair /\ all_leaves collaborative ex_pair /\ constructed ex_either /\
  accepted ex_pair (ex_flags false false true false) = Ok tt /\ accepted ex_pair (ex_flags true false true false) = Ok tt /\
  accepted ex_pair (ex_flags false false true true) = Err EValue /\ accepted ex_pair (ex_flags false true false false) = Err EAttr /\
  accepted ex_either (ex_flags false false true false) = Err EValue /\ accepted ex_either (ex_flags false false false true) = Ok tt.
Proof.
  split; [|split; [|split; [|split]]].
  - apply (constructed_comb Sequential [ex_leaf "A"; ex_leaf "B"] None None "task" true None); [|reflexivity]. repeat constructor.
  - repeat (constructor; try discriminate).
  - assert (all_leaves sensible ex_pair) as S by leaves_are. intros a i p h H. destruct (S a i p h H) as (q & A & B & _). exists q; auto.
  - apply (constructed_comb Alternative [ex_leaf "A"; ex_leaf "B"] None None "task" true None); [|reflexivity]. repeat constructor.
  - repeat split; vm_compute; reflexivity.
Qed.
(** After the first leaf the second or the fourth of the unfolded task; the others are not reached from it. *)
Lemma ex_plain : exists p, task_to_pomdp ex_exp 1 1 (ex_flags false false false false) 1 1 10 ex_task true = Ok p.
Proof.
  apply C66_usable_partial; [exact ex_task_constructed|exact ex_task_inhabited|exact ex_collab_task|reflexivity|discriminate|]. intros t U. rewrite (unfolds_unique _ _ _ U ex_task_unfolds). split; [|discriminate]. unfold distinct_names. distinct.
Qed.
Definition ex_entry (c : comb collab) (fl : flags) (a s s' : nat) : res Q := do p <- task_to_pomdp ex_exp 1 1 fl 1 1 10 c true; Ok (Qred (Tr p a s s')).
Ltac unfolded := let x := eval vm_compute in (ex_unfolded ex_task) in change (ex_unfolded ex_task) with x.
Ltac next_of_run r r' := match goal with |- run_seq (?t :: ?l) _ => apply (ru_some t l r r') end.
Example C67_ex : (exists p, task_to_pomdp ex_exp 1 1 (ex_flags false false false false) 1 1 10 ex_task true = Ok p) /\ inhabited ex_task /\
  run (ex_unfolded ex_task) [0; 1; 2] /\ run (ex_unfolded ex_task) [0; 3; 4] /\
  map (ex_entry ex_task (ex_flags false false false false) (physical 0) (robot 0)) [before_leaf 1; before_leaf 2; before_leaf 3; robot 0] = [Ok (2 # 5); Ok 0%Q; Ok (2 # 5); Ok (1 # 5)].
Proof.
  split; [exact ex_plain|]. split; [exact ex_task_inhabited|]. split; [|split].
  - unfolded. apply ru_seq. next_of_run [0] [0; 1]; [constructor|]. next_of_run [0; 1] (@nil nat); [|constructor]. match goal with |- run (NAlt (?t :: ?l)) _ => apply (ru_alt [] t l [0; 1]) end. apply ru_seq. next_of_run [0] [0]; [constructor|]. next_of_run [0] (@nil nat); constructor.
  - unfolded. apply ru_seq. next_of_run [0] [2; 3]; [constructor|]. next_of_run [2; 3] (@nil nat); [|constructor]. match goal with |- run (NAlt [?u; ?t]) _ => apply (ru_alt [u] t [] [0; 1]) end. apply ru_seq. next_of_run [0] [0]; [constructor|]. next_of_run [0] (@nil nat); constructor.
  - vm_compute. reflexivity.
Qed.
Example C85_ex : exists c, costs 1 1 1 1 10 (ex_flags false false false false) (ex_unfolded ex_task) (physical 1) (robot 1) (before_leaf 2) c /\ (c == 2)%Q.
Proof.
  eexists. split; [eapply (co_physical _ _ _ _ _ _ _ _ _ _ 1); [|reflexivity|reflexivity|]|].
  - eexists. split; [vm_compute; reflexivity|]. split; reflexivity.
  - right. split; [|reflexivity]. vm_compute. intuition discriminate.
  - vm_compute. reflexivity.
Qed.
Example C86_ex : sees (ex_flags false false false false) (ex_unfolded ex_task) (ask_finished 0) (human 2) yes.
Proof.
  apply (se_leaf _ _ _ _ 0); [left; vm_compute; lia|vm_compute; lia|]. apply an_finished; [reflexivity|reflexivity|]. left. exists [0; 1; 2], 2. split; [apply C67_ex|]. split; [exists [], [1; 2]; cbn; auto|auto].
Qed.
Example C87_ex : state_name (ex_flags false false false false) (ex_unfolded ex_task) (human 0) "H-mount-leg" /\ action_name (ex_unfolded ex_task) (ask_finished 3) "com-ask-finished-c-order-1".
Proof. split; [left; exists 0; eexists; split; [vm_compute; reflexivity|]; right; left; auto|]. right. exists 3. eexists. split; [vm_compute; reflexivity|]. do 3 right. split; reflexivity. Qed.
(** B follows A with probability 1/2, but 1/3 when the human is asked. *)
Example C88_ex : map (ex_entry ex_choice (ex_flags true false false false) (physical 0) (robot 0)) [before_leaf 1; before_leaf 2; before_leaf 3; robot 0] = [Ok (2 # 5); Ok (1 # 5); Ok (1 # 5); Ok (1 # 5)] /\
  map (ex_entry ex_choice (ex_flags true false false false) (ask_finished 0) (human 0)) [before_leaf 1; before_leaf 2; before_leaf 3; human 0] = [Ok (1 # 3); Ok (1 # 3); Ok (1 # 3); Ok 0%Q] /\
  leads (ex_unfolded ex_choice) 0 (Some 1) (1 * (1 * (1 / 2)))%Q.
Proof.
  split; [vm_compute; reflexivity|]. split; [vm_compute; reflexivity|]. let x := eval vm_compute in (ex_unfolded ex_choice) in change (ex_unfolded ex_choice) with x.
  match goal with |- leads (NSeq [?t; NAlt [?u; ?v]]) _ _ _ => exact (le_next [] t (NAlt [u; v]) [] 0 0 _ _ (le_leaf _) (en_alt [] u [v] 0 1 (en_leaf _))) end.
Qed.
