(** C75: towers. *)
From Coq Require Import Lia.
From Verif Require Import PyBase HtmModel HtmSpec NodeModel NodeSpec NodeProofs NodeProofs4 NameSpec PomdpModel PomdpSpec BringModel BringSpec Props_Bring TowerModel TowerSpec TowerProofs.
Local Open Scope list_scope.
Local Open Scope nat_scope.

(** Both orders have each part once, and every part after the part below it. *)
Theorem C75_orders : forall h n, (0 <= h \/ 0 <= n)%Z ->
  (complete h n (v_first h n) /\ buildable h n (v_first h n)) /\ (complete h n (h_first h n) /\ buildable h n (h_first h n)).
Proof.
  intros h n P. split; (split; [split|]).
  - apply (sorted_NoDup Z.lt); [intros x; lia|apply range_sorted].
  - intros k. apply v_first_In; auto.
  - intros i j (t & l & Hi & Hj). apply (sorted_precedes Z.lt); [apply range_sorted|lia| | |destruct Hi as (_ & _ & ->); destruct Hj as (_ & _ & ->); lia]; apply v_first_In; auto; [exists t, l; exact Hi|exists t, (l + 1)%Z; exact Hj].
  - apply (sorted_NoDup (level_lt h)); [intros x H; apply (level_lt_asym _ _ _ H H)|apply h_first_sorted].
  - intros k. apply h_first_In.
  - intros i j (t & l & Hi & Hj). apply (sorted_precedes (level_lt h)); [apply h_first_sorted|apply level_lt_asym| | |]; [apply h_first_In; exists t, l; exact Hi|apply h_first_In; exists t, (l + 1)%Z; exact Hj|]. apply placed_eq in Hi, Hj. left. lia.
Qed.
Print Assumptions C75_orders.

(** The first one goes tower by tower, the second one level by level. *)
Theorem C75_vertical_horizontal : forall h n i ti li j tj lj, placed h n i ti li -> placed h n j tj lj ->
  (precedes (v_first h n) i j <-> (ti < tj \/ ti = tj /\ li < lj)%Z) /\ (precedes (h_first h n) i j <-> (li < lj \/ li = lj /\ ti < tj)%Z).
Proof.
  intros h n i ti li j tj lj Hi Hj. assert (P : (0 <= h \/ 0 <= n)%Z) by (destruct Hi; lia). pose proof (placed_eq _ _ _ _ _ Hi) as [E1 E2]. pose proof (placed_eq _ _ _ _ _ Hj) as [E3 E4].
  assert (Ii : is_part h n i) by (exists ti, li; exact Hi). assert (Ij : is_part h n j) by (exists tj, lj; exact Hj). split.
  - assert (L : (i < j <-> ti < tj \/ ti = tj /\ li < lj)%Z).
    { clear E1 E2 E3 E4. destruct Hi as (A1 & A2 & ->), Hj as (B1 & B2 & ->). split; intros H; [|destruct H as [H|[-> H]]; [|lia]; assert ((ti + 1) * h <= tj * h)%Z by (apply Z.mul_le_mono_nonneg_r; lia); lia].
      destruct (Z.lt_trichotomy ti tj) as [K|[K|K]]; [auto|right; split; auto; subst; lia|]. exfalso. assert ((tj + 1) * h <= ti * h)%Z by (apply Z.mul_le_mono_nonneg_r; lia). lia. }
    rewrite <- L. split; [apply precedes_sorted; apply range_sorted|]. intros H. apply (sorted_precedes Z.lt); [apply range_sorted|lia| | |exact H]; apply v_first_In; auto.
  - replace (li < lj \/ li = lj /\ ti < tj)%Z with (level_lt h i j) by (unfold level_lt; rewrite E1, E2, E3, E4; reflexivity). split; [apply precedes_sorted; apply h_first_sorted|]. intros H. apply (sorted_precedes (level_lt h)); [apply h_first_sorted|apply level_lt_asym| | |exact H]; apply h_first_In; auto.
Qed.
Print Assumptions C75_vertical_horizontal.

(** With two negative sizes, the first order has parts that do not exist. *)
Theorem C75_negative_refuted : forall h n, (h < 0)%Z -> (n < 0)%Z -> (forall k, ~ is_part h n k) /\ In 0%Z (v_first h n) /\ h_first h n = [].
Proof.
  intros h n H N. split; [intros k (t & l & K & _); lia|]. split; [apply range_In; unfold n_parts; split; [lia|apply Z.mul_neg_neg; lia]|].
  unfold h_first, range at 2. replace (Z.to_nat h) with 0 by lia. reflexivity.
Qed.
Print Assumptions C75_negative_refuted.

Lemma parts_In h n k : (0 <= h \/ 0 <= n)%Z -> is_part h n k -> In (str_int k) (parts h n).
Proof. intros P H. apply in_map. apply (v_first_In h n k P). exact H. Qed.
Lemma parts_NoDup h n : NoDup (parts h n).
Proof. unfold parts. assert (N : NoDup (range (n_parts h n))) by (apply (sorted_NoDup Z.lt); [intros x; lia|apply range_sorted]). induction N as [|x l Nx N IH]; [constructor|]. cbn [map]. constructor; [|exact IH]. intros K. apply in_map_iff in K. destruct K as (y & E & Hy). apply str_int_inj in E. subst. auto. Qed.

(** The task for some orders of parts has a POMDP (of bring_next_to_pomdp.py), with one state for each item of each
    order and one for the end, and doing the task is bringing the parts in one of these orders. *)
Theorem C75_task : forall h n orders names cost_com cost_get cost_err end_reward loop no_answer discount,
  orders <> [] -> (forall o, In o orders -> o <> [] /\ NoDup o /\ forall k, In k o -> is_part h n k) ->
  (forall l, names = Some l -> length l = length orders /\ NoDup (map dashed l)) -> (forall d, discount = Some d -> (0 <= d <= 1)%Q) ->
  exists root t p, task_from_orders orders names = Ok root /\ unfolds root t /\
    bring_task_to_pomdp cost_com cost_get cost_err end_reward (parts h n) loop no_answer discount root true = Ok p /\
    nS p = length (concat orders) + 1 /\ nA p = 2 * Z.to_nat (h * n) /\
    forall objects, done_by t objects <-> exists o, In o orders /\ objects = map numeral o.
Proof.
  intros h n orders names cost_com cost_get cost_err end_reward loop no_answer discount HO HP HN HD.
  assert (G : exists l, length l = length orders /\ NoDup (map dashed l) /\ task_from_orders orders names = task_from_orders orders (Some l)).
  { destruct names as [l|]; [exists l; destruct (HN l eq_refl); auto|]. exists (map (fun i => str_int (Z.of_nat i)) (seq 0 (length orders))). split; [rewrite map_length, seq_length; reflexivity|]. split; [apply default_names|reflexivity]. }
  destruct G as (l & L & N & ->). destruct (task_ok orders l HO L) as [pr E]. set (root := Node Alternative (map order_comb (combine orders l)) None None "Alt" false pr) in *.
  assert (U : unfolds root (orders_tree (combine orders l))) by (constructor; apply order_unfolds).
  assert (NE : combine orders l <> []) by (destruct orders, l; try discriminate; contradiction).
  assert (HI : inhabited root).
  { constructor; [intros K; apply NE; destruct (combine orders l); auto; discriminate|]. apply Forall_forall. intros c Hc. apply in_map_iff in Hc. destruct Hc as ([o nm] & <- & Ho). constructor; [|apply Forall_forall; intros d Hd; apply in_map_iff in Hd; destruct Hd as (i & <- & _); constructor]. cbn [fst snd]. pose proof (proj1 (HP o (in_combine_l _ _ _ _ Ho))) as K. intros M. apply K. destruct o; auto; discriminate. }
  assert (PP : forall c, In c (HtmSpec.preorder root) -> c = root \/ (exists on, In on (combine orders l) /\ (c = order_comb on \/ exists i, In i (fst on) /\ c = bring_part (Some (snd on)) i))).
  { intros c Hc. unfold root in Hc. cbn [HtmSpec.preorder] in Hc. destruct Hc as [<-|Hc]; [left; reflexivity|right]. apply in_flat_map in Hc. destruct Hc as (d & Hd & Hc). apply in_map_iff in Hd. destruct Hd as (on & <- & Ho). exists on. split; [auto|]. cbn [order_comb HtmSpec.preorder] in Hc. destruct Hc as [<-|Hc]; [left; reflexivity|right]. apply in_flat_map in Hc. destruct Hc as (d & Hd & Hc). apply in_map_iff in Hd. destruct Hd as (i & <- & Hi). exists i. split; [auto|]. cbn in Hc. destruct Hc as [<-|[]]. reflexivity. }
  assert (PN : forall o k, In o orders -> In k o -> (0 <= h \/ 0 <= n)%Z /\ is_part h n k /\ (0 <= k)%Z).
  { intros o k Ho Hk. pose proof (proj2 (proj2 (HP o Ho)) k Hk) as K. split; [destruct K as (t & lv & K & _); lia|]. split; [auto|]. destruct K as (t & lv & K1 & K2 & ->). assert (0 <= t * h)%Z by (apply Z.mul_nonneg_nonneg; lia). lia. }
  destruct (C68_usable_partial cost_com cost_get cost_err end_reward (parts h n) loop no_answer discount root HI) as [p Ep]; auto.
  - intros a i p hl K. destruct (PP _ K) as [K'|(on & Ho & [K'|(j & Hj & K')])]; try discriminate. injection K' as -> -> -> ->. eexists. split; [reflexivity|]. split; [reflexivity|]. destruct on as [o nm]. destruct (PN o j (in_combine_l _ _ _ _ Ho) Hj) as (P1 & P2 & _). apply parts_In; auto.
  - apply parts_NoDup.
  - intros (ch & i & p & nm & hl & q & K). destruct (PP _ K) as [K'|(on & Ho & [K'|(j & Hj & K')])]; discriminate.
  - intros t Ut. rewrite (unfolds_unique _ _ _ Ut U). apply tree_names; auto. intros o Ho. split; [apply (HP o Ho)|]. intros i Hi. apply (PN o i Ho Hi).
  - exists root, (orders_tree (combine orders l)), p. split; [exact E|]. split; [exact U|]. split; [exact Ep|]. destruct (C68_tables _ _ _ _ _ _ _ _ _ _ _ HI Ep) as (t & Ut & S & A & _). rewrite (unfolds_unique _ _ _ Ut U) in S. split; [|split].
    + rewrite S, orders_leaves. f_equal. clear -L. revert l L. induction orders as [|o orders IH]; intros [|nm l] L; try discriminate; [reflexivity|]. cbn [combine flat_map concat fst snd]. rewrite !app_length, map_length, IH by (injection L; auto). reflexivity.
    + rewrite A. unfold parts, range. rewrite !map_length, seq_length. reflexivity.
    + intros objects. rewrite done_iff. split.
      * intros ([o nm] & Ho & ->). exists o. split; [apply (in_combine_l _ _ _ _ Ho)|reflexivity].
      * intros (o & Ho & ->). apply In_nth_error in Ho. destruct Ho as [k Hk]. destruct (nth_error l k) as [nm|] eqn:Ek; [|apply nth_error_None in Ek; assert (k < length orders) by (apply nth_error_Some; congruence); lia]. exists (o, nm). split; [|reflexivity]. clear -Hk Ek. revert k l Hk Ek. induction orders as [|o' orders IH]; intros [|k] [|nm' l] Hk Ek; try discriminate; cbn in *; [left; congruence|right; eauto].
Qed.
Print Assumptions C75_task.

(** For towers of at least one part, the task is done in one of the two orders. *)
Theorem C75_two_orders : forall h n cost_com cost_get cost_err end_reward loop no_answer discount, (0 < h)%Z -> (0 < n)%Z -> (forall d, discount = Some d -> (0 <= d <= 1)%Q) ->
  exists root t p, vertical_horizontal_task h n = Ok root /\ unfolds root t /\
    bring_task_to_pomdp cost_com cost_get cost_err end_reward (parts h n) loop no_answer discount root true = Ok p /\
    forall objects, done_by t objects <-> objects = map numeral (v_first h n) \/ objects = map numeral (h_first h n).
Proof.
  intros h n cost_com cost_get cost_err end_reward loop no_answer discount Hh Hn HD. destruct (C75_orders h n) as [[[V1 V2] _] [[H1 H2] _]]; [lia|].
  assert (Z0 : is_part h n 0) by (exists 0%Z, 0%Z; lia).
  destruct (C75_task h n [v_first h n; h_first h n] (Some ["vertical"; "horizontal"]%string) cost_com cost_get cost_err end_reward loop no_answer discount) as (root & t & p & E & U & Ep & _ & _ & D); auto.
  - discriminate.
  - intros o [<-|[<-|[]]]; (split; [|split; [auto|]]); try (intros k; apply V2); try (intros k; apply H2); intros K; [apply V2 in Z0; rewrite K in Z0; destruct Z0|apply H2 in Z0; rewrite K in Z0; destruct Z0].
  - intros l K. injection K as <-. split; [reflexivity|]. vm_compute. repeat constructor; cbn; intuition discriminate.
  - exists root, t, p. split; [exact E|]. split; [exact U|]. split; [exact Ep|]. intros objects. rewrite D. split; [intros (o & [<-|[<-|[]]] & ->); auto|intros [->| ->]; eexists; (split; [|reflexivity]); cbn; auto].
Qed.
Print Assumptions C75_two_orders.

Example C75_ex : v_first 2 3 = [0; 1; 2; 3; 4; 5]%Z /\ h_first 2 3 = [0; 2; 4; 1; 3; 5]%Z /\ parts 2 3 = ["0"; "1"; "2"; "3"; "4"; "5"]%string /\ on_top 2 3 2 3 /\ ~ buildable 2 3 [0; 1; 3; 2; 4; 5]%Z.
Proof.
  do 3 (split; [reflexivity|]). split; [exists 1%Z, 0%Z; unfold placed; lia|]. intros B. destruct (B 2 3)%Z as (l1 & l2 & E & K); [exists 1%Z, 0%Z; unfold placed; lia|]. do 6 (destruct l1 as [|? l1]; cbn [app] in E; [first [discriminate E|injection E as <-; cbn in K; intuition discriminate]|injection E as _ E]). destruct l1; discriminate.
Qed.
(** The orders of samples/tower_scenario.py. *)
Example C75_ex_task : exists root t p, task_from_orders [[2; 0; 4; 3; 1; 5]; [2; 4; 0; 3; 5; 1]; v_first 2 3]%Z None = Ok root /\ unfolds root t /\
  bring_task_to_pomdp 2 8 5 50 (parts 2 3) false false None root true = Ok p /\ nS p = 19 /\ done_by t ["2"; "4"; "0"; "3"; "5"; "1"]%string.
Proof.
  destruct (C75_task 2 3 [[2; 0; 4; 3; 1; 5]; [2; 4; 0; 3; 5; 1]; v_first 2 3]%Z None 2 8 5 50 false false None) as (root & t & p & E & U & Ep & S & _ & D); try discriminate.
  - assert (P : forall k, (0 <= k < 6)%Z -> is_part 2 3 k) by (intros k K; exists (k / 2)%Z, (k mod 2)%Z; pose proof (Z.div_mod k 2); pose proof (Z.mod_pos_bound k 2); assert (0 <= k / 2 < 3)%Z by (split; [apply Z.div_pos|apply Z.div_lt_upper_bound]; lia); lia).
    intros o Ho. change (v_first 2 3) with [0; 1; 2; 3; 4; 5]%Z in Ho. cbn [In] in Ho. repeat (destruct Ho as [<-|Ho]; [split; [discriminate|]; split; [repeat constructor; cbn; intuition discriminate|]; intros k Hk; apply P; cbn [In] in Hk; clear P; intuition lia|]). destruct Ho.
  - exists root, t, p. split; [exact E|]. split; [exact U|]. split; [exact Ep|]. split; [exact S|]. apply D. exists [2; 4; 0; 3; 5; 1]%Z. split; [cbn; auto|reflexivity].
Qed.
