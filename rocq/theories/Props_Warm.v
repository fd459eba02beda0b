(** C132: rounds of search from the start, as in the scripts. *)
From Verif Require Import PyBase PyBaseFacts QBase PomdpModel PomdpSpec BeliefModel EvalModel PolicyModel PomcpModel PomcpSpec PomcpProofs PomcpProofs2 Props_Pomdp Props_Pomcp WarmModel.
From Coq Require Import Lia Lqa.
Local Open Scope list_scope.
Local Open Scope nat_scope.

(** The action a is the first of greatest value at the start, and its name is nm. *)
Definition best_at_start {X St B H} (P : search X St B H) (r : runner B) (nm : name) (v : Q) : Prop :=
  exists a, nth_error (s_actions P) a = Some nm /\ v = action_value (r_root r) a /\ 0 < visits (r_root r) a /\
    (forall i, i < length (s_actions P) -> 0 < visits (r_root r) i /\ (action_value (r_root r) i <= v)%Q) /\ forall i, i < a -> (action_value (r_root r) i < v)%Q.
(** A runner after some calls of get_action, each with k iterations, and no step. *)
Definition searched {X St B H} (P : search X St B H) (b : B) (calls k : nat) (r : runner B) : Prop :=
  exists l, trace P b l r /\ length l = calls /\ (forall ev, In ev l -> exists a, ev = EvAction (Some a)) /\ r_history r = [] /\ o_count (r_root r) = calls * k.
(** So many calls of get_action in a row, each of which returned: what the last one returned, the runner and what is left of the draws. *)
Inductive calls_done {X St B H} (P : search X St B H) (k fuel : nat) (r0 : runner B) (x0 : X) : nat -> option name -> runner B -> X -> Prop :=
| calls_none : calls_done P k fuel r0 x0 0 None r0 x0
| calls_more n best r x r' x' nm : calls_done P k fuel r0 x0 n best r x -> get_action P k fuel r x = (r', x', Ok nm) -> calls_done P k fuel r0 x0 (S n) (Some nm) r' x'.

Lemma round X St B H (P : search X St B H) b calls k r fuel x r' x' nm : s_reached P (s_horizon P) = false -> length (s_actions P) <= k ->
  searched P b calls k r -> get_action P k fuel r x = (r', x', Ok nm) ->
  searched P b (S calls) k r' /\ exists v, current_value r' = Ok v /\ best_at_start P r' nm v.
Proof.
  intros Hh Hk (l & T & L & A & EH & C) E. pose proof (trace_inv P _ _ _ T) as I. destruct (get_action_keep P _ _ _ _ _ _ _ E) as (G & K1 & K2 & _).
  destruct (C59_best _ _ _ _ P b l r k fuel x r' x' nm T Hh Hk E) as (n & a & F & La & En & V & Fi). rewrite K1, EH in F. cbn [find] in F. assert (n = r_root r') as -> by congruence. clear F.
  pose proof (tr_action P _ _ _ _ _ _ _ _ _ T E) as T'. assert (Hl : a < length (s_actions P)) by (apply nth_error_Some; congruence).
  split.
  - exists (l ++ [EvAction (r_last r')]). split; [exact T'|]. split; [rewrite app_length; cbn; lia|]. split; [|split; [congruence|]].
    + intros ev Hev. apply in_app_or in Hev. destruct Hev as [Hev|[<-|[]]]; [auto|]. exists a. rewrite La. reflexivity.
    + destruct (get_action_pick P _ _ _ _ _ _ _ _ _ I E) as [_ Hp]. destruct (Hp _ eq_refl) as (a' & r1 & x1 & m & Es & F1 & _ & _ & _ & F2).
      assert (N0 : r_node r = []) by (rewrite (inv_node _ _ _ _ I); exact EH). destruct (simulations_keep P _ _ _ _ _ _ _ Es) as (_ & _ & N1 & _). rewrite N1, N0 in F1. rewrite K2, N0 in F2. cbn [find] in F1, F2.
      destruct (simulations_tried P _ _ _ _ _ _ (r_root r) Es Hh) as (m' & F' & _ & C'); [rewrite N0; reflexivity|]. rewrite N1, N0 in F'. cbn [find] in F'. assert (m' = r_root r') as -> by congruence. lia.
  - destruct (V a Hl) as [Va _]. unfold current_value. rewrite La. unfold visits, action_value in *. destruct (nth_error (o_kids (r_root r')) a) as [[c|]|] eqn:Ek; try lia.
    exists (avg_value (a_avg c)). split; [reflexivity|]. exists a. unfold visits, action_value. rewrite Ek. repeat split; auto; [apply (V i H0)|].
    pose proof (proj2 (V i H0)) as Q. exact Q.
Qed.

Lemma warm_rounds X St B H (P : search X St B H) b k fuel r0 x0 : s_reached P (s_horizon P) = false -> length (s_actions P) <= k ->
  forall rounds calls best r x l r' x' out v, calls_done P k fuel r0 x0 calls best r x -> searched P b calls k r -> current_value r = Ok v -> warm_up P rounds k fuel best r x = (l, r', x', out) ->
  (forall i bs w, nth_error l i = Some (bs, w) -> (i = 0 /\ bs = best /\ w = v) \/ (0 < i /\ exists ri xi nm, bs = Some nm /\ calls_done P k fuel r0 x0 (calls + i) bs ri xi /\ searched P b (calls + i) k ri /\ best_at_start P ri nm w)) /\
  match out with
  | Ok bs => length l = rounds /\ calls_done P k fuel r0 x0 (calls + rounds) bs r' x' /\ searched P b (calls + rounds) k r' /\ (rounds = 0 /\ bs = best \/ 0 < rounds /\ exists nm w, bs = Some nm /\ best_at_start P r' nm w)
  | Err e => 0 < length l <= rounds /\ exists bi ri xi, calls_done P k fuel r0 x0 (calls + (length l - 1)) bi ri xi /\ get_action P k fuel ri xi = (r', x', Err e)
  end.
Proof.
  intros Hh Hk. induction rounds as [|rounds IH]; intros calls best r x l r' x' out v D S V E; cbn [warm_up] in E.
  - assert (l = [] /\ r' = r /\ x' = x /\ out = Ok best) as (-> & -> & -> & ->) by (repeat split; congruence). split; [intros [|i] bs w Hi; discriminate|]. rewrite Nat.add_0_r. auto 10.
  - rewrite V in E. destruct (get_action P k fuel r x) as [[r1 x1] a] eqn:Ea. destruct a as [nm|e].
    + destruct (round _ _ _ _ P b calls k r fuel x r1 x1 nm Hh Hk S Ea) as [S1 (v1 & V1 & B1)]. pose proof (calls_more P k fuel r0 x0 _ _ _ _ _ _ _ D Ea) as D1. destruct (warm_up P rounds k fuel (Some nm) r1 x1) as [[[l1 r2] x2] out1] eqn:Ew.
      destruct (IH _ _ _ _ _ _ _ _ _ D1 S1 V1 Ew) as [I1 I2]. assert (l = (best, v) :: l1 /\ r' = r2 /\ x' = x2 /\ out = out1) as (-> & -> & -> & ->) by (repeat split; congruence). split.
      * intros [|i] bs w Hi; cbn [nth_error] in Hi; [left; repeat split; congruence|]. right. split; [lia|]. destruct (I1 _ _ _ Hi) as [(-> & -> & ->)|(Hi0 & ri & xi & nm' & -> & Di & Si & Bi)].
        -- exists r1, x1, nm. rewrite Nat.add_1_r. auto 10.
        -- exists ri, xi, nm'. replace (calls + Datatypes.S i) with (Datatypes.S calls + i) by lia. auto 10.
      * destruct out1 as [bs|e].
        -- destruct I2 as (L & Df & Sf & Hb). cbn [length]. split; [lia|]. replace (calls + Datatypes.S rounds) with (Datatypes.S calls + rounds) by lia. split; [exact Df|]. split; [exact Sf|]. right. split; [lia|].
           destruct Hb as [(-> & ->)|(_ & Hb)]; [|exact Hb]. cbn [warm_up] in Ew. assert (r2 = r1) as -> by congruence. eauto.
        -- destruct I2 as (L & bi & ri & xi & Di & Ei). cbn [length]. split; [lia|]. exists bi, ri, xi. split; [|exact Ei]. replace (calls + (Datatypes.S (length l1) - 1)) with (Datatypes.S calls + (length l1 - 1)) by lia. exact Di.
    + assert (l = [(best, v)] /\ r' = r1 /\ x' = x1 /\ out = Err e) as (-> & -> & -> & ->) by (repeat split; congruence). split.
      * intros [|[|i]] bs w Hi; try discriminate. left. cbn in Hi. repeat split; congruence.
      * cbn [length]. split; [lia|]. exists best, r, x. rewrite Nat.add_0_r. auto.
Qed.
Lemma fresh X St B H (P : search X St B H) b k r : trace P b [] r -> searched P b 0 k r /\ current_value r = Ok 0%Q /\ r_node r = [] /\ forall i c, nth_error (o_kids (r_root r)) i <> Some (Some c).
Proof.
  intros T. assert (E : r = r_reset (o_new P b)).
  { inversion T as [x b' x' r' Hs Hr|? l|? l|? l|? l|? l|? l]; subst; try (match goal with E : _ ++ [_] = [] |- _ => destruct (app_eq_nil _ _ E) as [_ E']; discriminate end).
    unfold r_init in Hr. rewrite Hs in Hr. cbn [bind] in Hr. congruence. }
  subst r. split; [|split; [reflexivity|split; [reflexivity|]]].
  - exists []. split; [exact T|]. split; [reflexivity|]. split; [intros ev []|]. split; reflexivity.
  - intros i c Ek. destruct (no_kid P _ _ _ Ek).
Qed.

(** With at least as many iterations as actions: nothing is shown before the first call, then the first action of greatest value at the start and this value,
    after so many rounds; the counts add up, and only get_action may raise. *)
Theorem C132_shown : forall X St B H (P : search X St B H) b rounds k fuel r x l r' x' out, s_reached P (s_horizon P) = false -> length (s_actions P) <= k -> trace P b [] r ->
  warm_up P rounds k fuel None r x = (l, r', x', out) ->
  (forall i bs w, nth_error l i = Some (bs, w) ->
     if i =? 0 then bs = None /\ w = 0%Q else exists ri xi nm, bs = Some nm /\ calls_done P k fuel r x i bs ri xi /\ searched P b i k ri /\ best_at_start P ri nm w) /\
  match out with
  | Ok bs => length l = rounds /\ calls_done P k fuel r x rounds bs r' x' /\ searched P b rounds k r' /\ (0 < rounds -> exists nm w, bs = Some nm /\ best_at_start P r' nm w)
  | Err e => 0 < length l <= rounds /\ exists bi ri xi, calls_done P k fuel r x (length l - 1) bi ri xi /\ get_action P k fuel ri xi = (r', x', Err e)
  end.
Proof.
  intros X St B H P b rounds k fuel r x l r' x' out Hh Hk T E. destruct (fresh _ _ _ _ P b k r T) as (S0 & V0 & _).
  destruct (warm_rounds _ _ _ _ P b k fuel r x Hh Hk rounds 0 None r x l r' x' out 0%Q (calls_none P k fuel r x) S0 V0 E) as [I1 I2]. split.
  - intros i bs w Hi. destruct (I1 _ _ _ Hi) as [(-> & -> & ->)|(Hi0 & ri & xi & nm & -> & Di & Si & Bi)]; [cbn; auto|]. destruct (Nat.eqb_spec i 0); [lia|]. exists ri, xi, nm. auto.
  - destruct out as [bs|e]; [|exact I2]. destruct I2 as (L & Df & Sf & Hb). split; [exact L|]. split; [exact Df|]. split; [exact Sf|]. intros Hr. destruct Hb as [(-> & _)|(_ & Hb)]; [lia|exact Hb].
Qed.
Print Assumptions C132_shown.

(** With fewer iterations than actions the second round raises: the action returned first has no node yet. *)
Lemma sims_full X St B H (P : search X St B H) : s_reached P (s_horizon P) = false -> forall k fuel r x r' x', simulations P k fuel r x = (r', x', Ok tt) -> r_node r = [] ->
  (forall i c, nth_error (o_kids (r_root r)) i = Some (Some c) -> 0 < a_count c) -> forall i c, nth_error (o_kids (r_root r')) i = Some (Some c) -> 0 < a_count c.
Proof.
  intros Hh. induction k as [|k IH]; intros fuel r x r' x' E N0 F; cbn [simulations] in E; [assert (r' = r) as -> by congruence; exact F|].
  rewrite N0 in E. cbn [at_node] in E. destruct (simulate_from_node P fuel None (r_root r) x) as [[root y] w] eqn:Es. destruct w as [w|e]; [|discriminate].
  eapply IH; [exact E|reflexivity|]. cbn [r_root]. unfold simulate_from_node in Es. destruct (s_sample P (o_belief (r_root r)) x) as [[s|e] z]; [|discriminate].
  destruct (C62_simulation _ _ _ _ _ _ _ _ _ _ _ _ _ _ Es) as [_ U]. destruct (U Hh) as (_ & a & c' & Ek & Ec & Eo). intros i c Hi. destruct (Nat.eq_dec i a) as [->|Hne].
  - assert (c = c') as -> by congruence. unfold a_count. rewrite Ec. unfold avg_update. cbn. lia.
  - rewrite Eo in Hi by auto. eapply F; eauto.
Qed.
Theorem C132_few : forall X St B H (P : search X St B H) b rounds k fuel r x l r' x' out, s_reached P (s_horizon P) = false -> k < length (s_actions P) -> trace P b [] r -> 2 <= rounds ->
  warm_up P rounds k fuel None r x = (l, r', x', out) ->
  l = [(None, 0%Q)] /\ (out = Err EAttr \/ exists r1 x1 e, get_action P k fuel r x = (r1, x1, Err e) /\ out = Err e).
Proof.
  intros X St B H P b rounds k fuel r x l r' x' out Hh Hk T Hr E. destruct (fresh _ _ _ _ P b k r T) as (_ & V0 & N0 & NK). pose proof (trace_inv P _ _ _ T) as I.
  destruct rounds as [|[|rounds]]; [lia|lia|]. cbn [warm_up] in E. rewrite V0 in E. destruct (get_action P k fuel r x) as [[r1 x1] a] eqn:Ea. destruct a as [nm|e].
  2:{ split; [congruence|]. right. exists r1, x1, e. split; [reflexivity|congruence]. }
  assert (EV : current_value r1 = Err EAttr).
  { destruct (get_action_pick P _ _ _ _ _ _ _ _ _ I Ea) as [_ Hp]. destruct (Hp _ eq_refl) as (a & r2 & x2 & m & Es & F1 & Eb & En & La & F2).
    destruct (get_action_keep P _ _ _ _ _ _ _ Ea) as (_ & _ & K2 & _). destruct (simulations_keep P _ _ _ _ _ _ _ Es) as (_ & _ & N1 & _). rewrite N1, N0 in F1. rewrite K2, N0 in F2. cbn [find] in F1, F2.
    assert (m = r_root r1) as -> by congruence. assert (ER : r_root r2 = r_root r1) by congruence.
    pose proof (tr_action P _ _ _ _ _ _ _ _ _ T Ea) as T1. pose proof (C58_counts _ _ _ _ P b _ _ [] _ T1 eq_refl) as [C _].
    destruct (simulations_tried P _ _ _ _ _ _ (r_root r) Es Hh) as (m' & F' & _ & C'); [rewrite N0; reflexivity|]. rewrite N1, N0 in F'. cbn [find] in F'. assert (m' = r_root r1) as -> by congruence.
    destruct (fresh _ _ _ _ P b k r T) as ((l0 & _ & _ & _ & _ & C0) & _). assert (C0' : o_count (r_root r) = 0) by (rewrite C0; lia).
    pose proof (trace_inv P _ _ _ T1) as I1. pose proof (inv_sized P _ _ _ I1 [] _ eq_refl) as SZ. unfold sized, n_actions in SZ.
    assert (EX : exists i, i < length (o_kids (r_root r1)) /\ visits (r_root r1) i = 0).
    { destruct (existsb (fun i => visits (r_root r1) i =? 0) (seq 0 (length (o_kids (r_root r1))))) eqn:Ex; [apply existsb_exists in Ex; destruct Ex as (i & Hi & Hv); apply in_seq in Hi; apply Nat.eqb_eq in Hv; exists i; split; [lia|exact Hv]|].
      exfalso. assert (LB : length (o_kids (r_root r1)) <= all_visits (r_root r1)).
      { unfold all_visits. rewrite <- (seq_length (length (o_kids (r_root r1))) 0) at 1. revert Ex. generalize (seq 0 (length (o_kids (r_root r1)))). induction l1 as [|i t IHt]; intros Ex; [cbn; lia|]. cbn [existsb] in Ex. apply orb_false_iff in Ex. destruct Ex as [E1 E2]. apply Nat.eqb_neq in E1. specialize (IHt E2). cbn [map list_sum length fold_right] in *. unfold list_sum in *. lia. }
      lia. }
    destruct (C59_untried _ _ _ _ P _ _ _ _ _ _ Eb EX) as [Ha Hv].
    assert (FK : forall i c, nth_error (o_kids (r_root r1)) i = Some (Some c) -> 0 < a_count c).
    { rewrite <- ER. apply (sims_full _ _ _ _ P Hh _ _ _ _ _ _ Es N0). intros i c Ek. destruct (NK _ _ Ek). }
    unfold current_value. rewrite La. unfold visits in Hv. destruct (nth_error (o_kids (r_root r1)) a) as [[c|]|] eqn:Ek; [|reflexivity|apply nth_error_None in Ek; lia].
    apply FK in Ek. lia. }
  rewrite EV in E. split; [congruence|]. left. congruence.
Qed.
Print Assumptions C132_few.

(** The tiger with three actions: three rounds of three iterations, and two rounds of two iterations. *)
Example C132_ex : (exists l r x nm, warm_up ex_search 3 3 3 None ex_start 0 = (l, r, x, Ok (Some nm)) /\ length l = 3 /\ o_count (r_root r) = 9) /\
  exists r x, warm_up ex_search 2 2 3 None ex_start 0 = ([(None, 0%Q)], r, x, Err EAttr).
Proof. split; [eexists _, _, _, _; split; [vm_compute; reflexivity|split; vm_compute; reflexivity]|]. eexists _, _. vm_compute. reflexivity. Qed.
Example C132_ex_hyps : s_reached ex_search (s_horizon ex_search) = false /\ length (s_actions ex_search) = 3 /\ trace ex_search [1 # 2; 1 # 2]%Q [] ex_start.
Proof. split; [reflexivity|]. split; [reflexivity|apply ex_trace]. Qed.
