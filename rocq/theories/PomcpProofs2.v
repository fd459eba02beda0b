(** Proofs for C58 to C63: actions, rollouts, runners. *)
From Verif Require Import PyBase PyBaseFacts QBase PomdpModel BeliefModel PolicyModel PomcpModel PomcpSpec PolicySpec PolicyProofs PomcpProofs.
From Coq Require Import Lia Lqa Field.
Local Open Scope list_scope.
Local Open Scope nat_scope.

Section Proofs.
  Context {X St B H : Type}.
  Variable P : search X St B H.
  Notation grows := (grows P).

  (** *** actions *)
  Lemma not_init_In (n : onode B) a : In a (not_init n) <-> a < length (o_kids n) /\ visits n a = 0.
  Proof.
    unfold not_init. rewrite filter_In, in_seq. unfold visits. split.
    - intros [Ha E]. split; [lia|]. rewrite (nth_error_nth' _ None) by lia. destruct (nth a (o_kids n) None) as [c|]; [apply Nat.eqb_eq; auto|auto].
    - intros [Ha E]. split; [lia|]. rewrite (nth_error_nth' _ None) in E by lia. destruct (nth a (o_kids n) None) as [c|]; [apply Nat.eqb_eq; auto|auto].
  Qed.
  Lemma choice_lt (rand : X -> nat * X) k x i x' : choice rand k x = (Ok i, x') -> i < k.
  Proof. unfold choice. destruct (rand x) as [r y]. destruct k as [|k]; [discriminate|]. intros E. assert (i = r mod S k) as -> by congruence. apply Nat.mod_upper_bound. lia. Qed.
  Lemma best_untried (n : onode B) e rel x a x' : best_action P n e rel x = (Ok a, x') -> not_init n <> [] -> In a (not_init n).
  Proof.
    unfold best_action. destruct (not_init n) as [|i l] eqn:E; [congruence|]. intros Hb _. destruct (choice _ _ _) as [[k|e'] y] eqn:Ec; [|discriminate].
    destruct (nth_error (i :: l) k) as [a'|] eqn:En; [|discriminate]. assert (a = a') as -> by congruence. eapply nth_error_In; eauto.
  Qed.
  Lemma best_tried (n : onode B) e rel x a x' : best_action P n e rel x = (Ok a, x') -> not_init n = [] -> x' = x /\ 0 < o_count n /\ a < length (o_kids n) /\
    (forall i, i < length (o_kids n) -> (nth i (augmented P n e rel) 0 <= nth a (augmented P n e rel) 0)%Q) /\ (forall i, i < a -> (nth i (augmented P n e rel) 0 < nth a (augmented P n e rel) 0)%Q).
  Proof.
    unfold best_action. intros Hb E. rewrite E in Hb. destruct (Nat.eqb_spec (o_count n) 0); [discriminate|]. split; [congruence|]. split; [lia|].
    assert (L : length (augmented P n e rel) = length (o_kids n)) by apply map_length.
    destruct (augmented P n e rel) as [|v l] eqn:Ea; [discriminate|]. destruct (argmaxQ_spec (v :: l)) as (k & Ek & K1 & K2 & K3); [discriminate|].
    assert (a = k) as -> by congruence. rewrite <- L. auto.
  Qed.
  Lemma best_lt (n : onode B) e rel x a x' : best_action P n e rel x = (Ok a, x') -> a < length (o_kids n).
  Proof.
    intros Hb. destruct (not_init n) eqn:E; [apply (best_tried _ _ _ _ _ _ Hb E)|]. apply (proj1 (not_init_In n a)). eapply best_untried; eauto. congruence.
  Qed.
  Lemma augmented_zero (n : onode B) rel i : not_init n = [] -> i < length (o_kids n) -> (nth i (augmented P n 0 rel) 0 == action_value n i)%Q.
  Proof.
    intros E Hi. unfold augmented, action_value. change (negb (Qle_bool 0 0)) with false. cbn [andb].
    destruct (nth_error (o_kids n) i) as [c|] eqn:Ec; [|apply nth_error_None in Ec; lia].
    erewrite nth_error_nth; [|rewrite nth_error_map, Ec; reflexivity]. destruct c as [c|]; [ring|reflexivity].
  Qed.
  Lemma action_value_best (n : onode B) rel x a x' : best_action P n 0 rel x = (Ok a, x') -> not_init n = [] ->
    (forall i, i < length (o_kids n) -> (action_value n i <= action_value n a)%Q) /\ (forall i, i < a -> (action_value n i < action_value n a)%Q).
  Proof.
    intros Hb E. destruct (best_tried _ _ _ _ _ _ Hb E) as (_ & _ & Ha & H1 & H2). split; intros i Hi.
    - rewrite <- (augmented_zero n rel i), <- (augmented_zero n rel a); auto.
    - rewrite <- (augmented_zero n rel i), <- (augmented_zero n rel a); auto. lia.
  Qed.

  (** *** one simulation, seen from its node *)
  Lemma simulate_top fuel n s h action x n' x' v : simulate P fuel n s h action x = (n', x', Ok v) -> s_reached P h = false ->
    exists a c c', nth_error (o_kids n) a = Some c /\ n' = o_update P (set_kid n a (a_update P c' v)) v /\ a_avg c' = match c with Some c => a_avg c | None => avg_new end /\
      match action with Some b => a = b | None => exists y, best_action P n (s_exploration P) (s_relative P) x = (Ok a, y) end.
  Proof.
    intros E Hh. destruct fuel as [|fuel]; cbn [simulate] in E; rewrite Hh in E; [discriminate|].
    destruct (match action with Some a => _ | None => _ end) as [a y] eqn:Eact. destruct a as [a|e]; cbn [bind] in E; [|discriminate].
    destruct (safe_child n a) as [c|e] eqn:Ec; cbn [bind] in E; [|discriminate].
    destruct (s_transition P a s y) as [[[[s' o] r]|e] y1] eqn:Et; [|discriminate].
    cbv zeta in E. match type of E with (match ?q with _ => _ end) = _ => destruct q as [[c' y2] w] eqn:Eq end.
    assert (Hc' : a_avg c' = a_avg c).
    { destruct (lookup o (a_kids c)) as [m|] eqn:El.
      - destruct (simulate P fuel m s' _ None y1) as [[m' y3] w']. assert (c' = put c o m') as -> by congruence. reflexivity.
      - destruct (s_succ P _ a o y1) as [[b|e] y3] eqn:Es.
        + destruct (rollout_from_node P fuel (o_new P b) _ y3) as [[m' y4] w']. assert (c' = put c o m') as -> by congruence. reflexivity.
        + assert (c' = c) as -> by (destruct e; congruence). reflexivity. }
    destruct w as [w|e]; [|discriminate]. rewrite set_kid_set_kid in E. unfold safe_child in Ec. destruct (nth_error (o_kids n) a) as [d|] eqn:Ed; [|discriminate].
    exists a, d, c'. split; [auto|]. split; [congruence|]. split; [rewrite Hc'; destruct d; [congruence|]; assert (c = a_new) as -> by congruence; reflexivity|].
    destruct action as [b|]; [congruence|]. exists y. congruence.
  Qed.
  Lemma simulate_fail fuel n s h action x n' x' e : simulate P fuel n s h action x = (n', x', Err e) -> o_avg n' = o_avg n /\ forall a, visits n' a = visits n a /\ action_value n' a = action_value n a.
  Proof.
    intros E. assert (Same : n' = n -> o_avg n' = o_avg n /\ forall a, visits n' a = visits n a /\ action_value n' a = action_value n a) by (intros ->; auto).
    assert (Kid : forall a c c', safe_child n a = Ok c -> a_avg c' = a_avg c -> n' = set_kid n a c' -> o_avg n' = o_avg n /\ forall a, visits n' a = visits n a /\ action_value n' a = action_value n a).
    { intros a c c' Hc Hv ->. split; [reflexivity|]. intros a'. pose proof (safe_child_lt _ _ _ Hc) as Ha. unfold visits, action_value.
      destruct (Nat.eq_dec a' a) as [->|Hne]; [|rewrite kid_set_other by auto; auto]. rewrite kid_set_same by auto. unfold safe_child in Hc. unfold a_count. rewrite Hv.
      destruct (nth_error (o_kids n) a) as [[d|]|]; [assert (d = c) as -> by congruence; auto| |discriminate]. assert (c = a_new) as -> by congruence. auto. }
    destruct fuel as [|fuel]; cbn [simulate] in E; (destruct (s_reached P h); [discriminate|]); [apply Same; congruence|].
    destruct (match action with Some a => _ | None => _ end) as [a y] eqn:Eact. destruct a as [a|e']; cbn [bind] in E; [|apply Same; congruence].
    destruct (safe_child n a) as [c|e'] eqn:Ec; cbn [bind] in E; [|apply Same; congruence].
    destruct (s_transition P a s y) as [[[[s' o] r]|e'] y1] eqn:Et; [|apply (Kid a c c); auto; congruence].
    cbv zeta in E. match type of E with (match ?q with _ => _ end) = _ => destruct q as [[c' y2] w] eqn:Eq end.
    assert (Hc' : a_avg c' = a_avg c).
    { destruct (lookup o (a_kids c)) as [m|] eqn:El.
      - destruct (simulate P fuel m s' _ None y1) as [[m' y3] w']. assert (c' = put c o m') as -> by congruence. reflexivity.
      - destruct (s_succ P _ a o y1) as [[b|e'] y3] eqn:Es.
        + destruct (rollout_from_node P fuel (o_new P b) _ y3) as [[m' y4] w']. assert (c' = put c o m') as -> by congruence. reflexivity.
        + assert (c' = c) as -> by (destruct e'; congruence). reflexivity. }
    destruct w as [w|e'']; [discriminate|]. rewrite set_kid_set_kid in E. apply (Kid a c c'); auto. congruence.
  Qed.

  (** counters after a successful simulation *)
  Lemma simulate_counts fuel n s h action x n' x' v : simulate P fuel n s h action x = (n', x', Ok v) -> s_reached P h = false ->
    exists a, a < length (o_kids n) /\ o_count n' = S (o_count n) /\ visits n' a = S (visits n a) /\ (forall a', a' <> a -> visits n' a' = visits n a') /\
      (action = None -> not_init n <> [] -> In a (not_init n)) /\ (forall b, action = Some b -> a = b).
  Proof.
    intros E Hh. destruct (simulate_top _ _ _ _ _ _ _ _ _ E Hh) as (a & c & c' & Ha & -> & Hc & Hact). assert (Hlt : a < length (o_kids n)) by (apply nth_error_Some; congruence).
    exists a. split; [auto|]. split; [reflexivity|].
    assert (V : forall a', visits (o_update P (set_kid n a (a_update P c' v)) v) a' = visits (set_kid n a (a_update P c' v)) a') by reflexivity.
    split; [|split; [|split]].
    - rewrite V, visits_set, Nat.eqb_refl by auto. unfold visits. rewrite Ha. unfold a_count. cbn [a_update a_avg avg_update n_simulations]. rewrite Hc. destruct c; reflexivity.
    - intros a' Hne. rewrite V, visits_set by auto. destruct (Nat.eqb_spec a' a); congruence.
    - intros -> Hn. destruct Hact as [y Hy]. eapply best_untried; eauto.
    - intros b ->. auto.
  Qed.

  (** *** paths *)
  Lemma at_node_find {A} (f : onode B -> X -> onode B * X * res A) : forall h n m x, find n h = Some m -> forall m' x' v, f m x = (m', x', v) ->
    exists n', at_node f n h x = (n', x', v) /\ find n' h = Some m'.
  Proof.
    induction h as [|[a o] h IH]; intros n m x F m' x' v E; cbn [find at_node] in *; [assert (m = n) as -> by congruence; eauto|].
    destruct (nth_error (o_kids n) a) as [[c|]|] eqn:Ek; try discriminate. destruct (lookup o (a_kids c)) as [k|] eqn:El; [|discriminate].
    destruct (IH _ _ _ F _ _ _ E) as (k' & -> & F'). eexists. split; [reflexivity|]. assert (Ha : a < length (o_kids n)) by (apply nth_error_Some; congruence).
    change (find (set_kid n a (put c o k')) ((a, o) :: h) = Some m'). rewrite find_set, !Nat.eqb_refl by auto. auto.
  Qed.
  Lemma at_node_other {A} (f : onode B -> X -> onode B * X * res A) : forall h n x n' x' v, at_node f n h x = (n', x', v) ->
    (exists m m', find n h = Some m /\ f m x = (m', x', v) /\ find n' h = Some m') \/ (find n h = None /\ n' = n /\ v = Err EKey /\ x' = x).
  Proof.
    intros h n x n' x' v E. destruct (find n h) as [m|] eqn:F.
    - left. destruct (f m x) as [[m' y] w] eqn:Ef. destruct (at_node_find f h n m x F _ _ _ Ef) as (k & Ek & Fk). assert (k = n' /\ y = x' /\ w = v) as (-> & -> & ->) by (repeat split; congruence). exists m, m'. auto.
    - right. revert n x n' x' v E F. induction h as [|[a o] h IH]; intros n x n' x' v E F; cbn [find at_node] in *; [discriminate|].
      destruct (nth_error (o_kids n) a) as [[c|]|] eqn:Ek; try (repeat split; congruence). destruct (lookup o (a_kids c)) as [k|] eqn:El; [|repeat split; congruence].
      destruct (at_node f k h x) as [[k' y] w] eqn:Em. destruct (IH _ _ _ _ _ Em F) as (F' & -> & -> & ->). split; [auto|].
      assert (Hs : set_kid n a (put c o k) = n).
      { clear - Ek El. destruct n as [va b kids]. unfold set_kid. cbn [o_avg o_belief o_kids] in *. f_equal. revert a Ek. induction kids as [|d kids IHk]; intros [|a] Ek; cbn in *; try discriminate; [|f_equal; auto].
        assert (d = Some c) as -> by congruence. destruct c as [va' ck]. unfold put. cbn [a_avg a_kids] in *. do 3 f_equal. clear - El. induction ck as [|[o' k'] ck IHc]; cbn in *; [discriminate|].
        destruct (eq_dec o o') as [->|]; [congruence|]. f_equal. auto. }
      repeat split; congruence.
  Qed.
  Lemma get_node_find : forall h n x n' x', get_node P n h x = (n', x', Ok tt) -> exists m, find n' h = Some m.
  Proof.
    induction h as [|[a o] h IH]; intros n x n' x' E; cbn [get_node] in E; [eexists; reflexivity|].
    destruct (safe_child n a) as [c|e] eqn:Ec; [|discriminate]. pose proof (safe_child_lt _ _ _ Ec) as Ha.
    destruct (lookup o (a_kids c)) as [m|] eqn:El.
    - destruct (get_node P m h x) as [[m' y] w] eqn:Em. assert (n' = set_kid n a (put c o m')) as -> by congruence. rewrite find_set, !Nat.eqb_refl by auto.
      apply (IH m x m' y). congruence.
    - destruct (s_succ P (o_belief n) a o x) as [[b|e] y] eqn:Es; [|discriminate]. destruct (get_node P (o_new P b) h y) as [[m' y'] w] eqn:Em. assert (n' = set_kid n a (put c o m')) as -> by congruence. rewrite find_set, !Nat.eqb_refl by auto.
      apply (IH (o_new P b) y m' y'). congruence.
  Qed.

  (** *** the runner *)
  Lemma simulations_keep : forall k fuel r x r' x' e, simulations P k fuel r x = (r', x', e) -> grows (r_root r) (r_root r') /\ r_history r' = r_history r /\ r_node r' = r_node r /\ r_last r' = r_last r.
  Proof.
    induction k as [|k IH]; intros fuel r x r' x' e E; cbn [simulations] in E; [assert (r' = r) as -> by congruence; split; [constructor|auto]|].
    destruct (at_node _ (r_root r) (r_node r) x) as [[root y] v] eqn:Ea. pose proof (at_node_grows P _ (simulate_from_grows P fuel None) _ _ _ _ _ _ Ea) as G.
    destruct v as [v|e']; [|match type of E with (?z, _, _) = _ => assert (r' = z) as -> by congruence end; cbn; auto].
    destruct (IH _ _ _ _ _ _ E) as (G' & H1 & H2 & H3). cbn [r_root r_history r_node r_last] in *. split; [eapply g_trans; eauto|auto].
  Qed.
  Definition pick (n : onode B) (x : X) : onode B * X * res nat := let (a, x) := best_action P n 0 false x in (n, x, a).
  Lemma pick_grows n x n' x' v : pick n x = (n', x', v) -> grows n n'.
  Proof. unfold pick. destruct (best_action P n 0 false x). intros E. assert (n' = n) as -> by congruence. constructor. Qed.
  Lemma get_action_keep k fuel r x r' x' v : get_action P k fuel r x = (r', x', v) -> grows (r_root r) (r_root r') /\ r_history r' = r_history r /\ r_node r' = r_node r /\
    (forall e, v = Err e -> e <> EIndex -> r_last r' = r_last r).
  Proof.
    unfold get_action. destruct (simulations P k fuel r x) as [[r1 x1] e1] eqn:Es. destruct (simulations_keep _ _ _ _ _ _ _ Es) as (G & H1 & H2 & H3).
    destruct e1 as [u|e1]; [|intros E; assert (r' = r1) as -> by congruence; auto 6].
    destruct (at_node _ (r_root r1) (r_node r1) x1) as [[root y] w] eqn:Ea. apply (at_node_grows P pick pick_grows) in Ea.
    destruct w as [a|e2]; intros E; [|assert (r' = r1) as -> by congruence; auto 6].
    match type of E with (?z, _, _) = _ => assert (r' = z) as -> by congruence end. cbn [r_root r_history r_node r_last]. split; [eapply g_trans; eauto|]. split; [auto|]. split; [auto|].
    intros e Hv He. destruct (nth_error (s_actions P) a); congruence.
  Qed.

  Definition sized : onode B -> Prop := fun m => length (o_kids m) = n_actions P.
  Record inv (b : B) (l : list event) (r : runner B) : Prop := {
    inv_grows : grows (o_new P b) (r_root r);
    inv_node : r_node r = r_history r;
    inv_find : exists m, find (r_root r) (r_node r) = Some m;
    inv_expect : (r_last r, r_history r) = fold_left expect l (None, []) }.

  Lemma inv_sized b l r : inv b l r -> every sized (r_root r).
  Proof. intros I. eapply grows_sized; [apply I|]. apply every_new. unfold sized, o_new. cbn. apply repeat_length. Qed.

  (** The action chosen by get_action *)
  Lemma get_action_pick b l r k fuel x r' x' nm : inv b l r -> get_action P k fuel r x = (r', x', nm) -> (forall e, nm = Err e -> r_last r' = r_last r) /\
    forall s, nm = Ok s -> exists a r1 x1 m, simulations P k fuel r x = (r1, x1, Ok tt) /\ find (r_root r1) (r_node r1) = Some m /\ best_action P m 0 false x1 = (Ok a, x') /\
      nth_error (s_actions P) a = Some s /\ r_last r' = Some a /\ find (r_root r') (r_node r') = Some m.
  Proof.
    intros I. unfold get_action. destruct (simulations P k fuel r x) as [[r1 x1] e1] eqn:Es. destruct (simulations_keep _ _ _ _ _ _ _ Es) as (G & H1 & H2 & H3).
    destruct e1 as [[]|e1]; [|intros E; assert (r' = r1) as -> by congruence; split; [auto|intros; congruence]].
    destruct (at_node _ (r_root r1) (r_node r1) x1) as [[root y] w] eqn:Ea.
    destruct (at_node_other pick _ _ _ _ _ _ Ea) as [(m & m' & F & Ep & F')|(F & -> & -> & ->)]; [|intros E; assert (r' = r1) as -> by congruence; split; [auto|intros; congruence]].
    unfold pick in Ep. destruct (best_action P m 0 false x1) as [a y'] eqn:Eb. assert (m' = m /\ y' = y /\ a = w) as (-> & -> & ->) by (repeat split; congruence).
    destruct w as [a|e2]; intros E; [|assert (r' = r1) as -> by congruence; split; [auto|intros; congruence]].
    assert (Ha : a < n_actions P).
    { assert (SZ : every sized (r_root r1)) by (eapply grows_sized; [exact G|eapply inv_sized; eauto]). rewrite <- (SZ _ _ F). eapply best_lt; eauto. }
    destruct (nth_error (s_actions P) a) as [s|] eqn:Es'; [|apply nth_error_None in Es'; unfold n_actions in Ha; lia].
    match type of E with (?z, _, _) = _ => assert (r' = z) as -> by congruence end. split; [intros; congruence|]. intros s' Hs. exists a, r1, x1, m. cbn [r_root r_node r_last].
    assert (s' = s) as -> by congruence. assert (x' = y) as -> by congruence. auto 7.
  Qed.
  Lemma step_keep ob r x r' x' e : r_step P ob r x = (r', x', e) -> grows (r_root r) (r_root r') /\
    match e with
    | Err _ => r_history r' = r_history r /\ r_node r' = r_node r /\ r_last r' = r_last r
    | Ok _ => exists a o, r_last r = Some a /\ list_index (s_observations P) ob = Ok o /\ r_last r' = Some a /\ r_history r' = r_history r ++ [(a, o)] /\ r_node r' = r_history r' /\ exists m, find (r_root r') (r_node r') = Some m
    end.
  Proof.
    unfold r_step. destruct (r_last r) as [a|] eqn:El; [|intros E; assert (r' = r /\ e = Err EValue) as [-> ->] by (split; congruence); split; [constructor|auto]].
    destruct (list_index (s_observations P) ob) as [o|e1] eqn:Eo; [|intros E; assert (r' = r /\ e = Err e1) as [-> ->] by (split; congruence); split; [constructor|auto]].
    cbv zeta. destruct (get_node P (r_root r) (r_history r ++ [(a, o)]) x) as [[root y] w] eqn:Eg. pose proof (get_node_grows P _ _ _ _ _ _ Eg) as G.
    destruct w as [[]|e1]; intros E; match type of E with (?z, _, ?q) = _ => assert (r' = z /\ e = q) as [-> ->] by (split; congruence) end; cbn [r_root r_history r_node r_last]; (split; [auto|]); [|auto].
    exists a, o. do 5 (split; [auto|]). eapply get_node_find; eauto.
  Qed.

  Lemma trace_inv b l r : trace P b l r -> inv b l r.
  Proof.
    induction 1 as [x b x' r Hs Hr|b l r k fuel x r' x' nm T I Ea|b l r k fuel x r' x' e T I Ea|b l r ob o x r' x' T I Es Eo|b l r ob x r' x' e T I Es|b l r T I|b l r fuel action path x root x' v T I Ea].
    - unfold r_init in Hr. rewrite Hs in Hr. cbn [bind] in Hr. assert (r = r_reset (o_new P b)) as -> by congruence. split; cbn; auto; [constructor|eauto].
    - destruct (get_action_keep _ _ _ _ _ _ _ Ea) as (G & H1 & H2 & _). destruct (get_action_pick _ _ _ _ _ _ _ _ _ I Ea) as [_ Hp]. destruct (Hp _ eq_refl) as (a & r1 & x1 & m & _ & _ & _ & _ & L & F).
      split; [eapply g_trans; [apply I|auto]|rewrite H1, H2; apply I|eauto|]. rewrite fold_left_app, <- (inv_expect _ _ _ I). cbn [fold_left expect fst snd]. rewrite L, H1. reflexivity.
    - destruct (get_action_keep _ _ _ _ _ _ _ Ea) as (G & H1 & H2 & _). destruct (get_action_pick _ _ _ _ _ _ _ _ _ I Ea) as [Hp _].
      split; [eapply g_trans; [apply I|auto]|rewrite H1, H2; apply I| |].
      + destruct (inv_find _ _ _ I) as [m F]. rewrite H2. destruct (grows_find P _ _ G _ _ F) as (m' & F' & _). eauto.
      + rewrite fold_left_app, <- (inv_expect _ _ _ I). cbn [fold_left expect fst snd]. rewrite H1, (Hp _ eq_refl). reflexivity.
    - destruct (step_keep _ _ _ _ _ _ Es) as (G & a & o' & L & Eo' & L' & H1 & H2 & F). assert (o' = o) as -> by congruence.
      split; [eapply g_trans; [apply I|auto]|auto|auto|]. rewrite fold_left_app, <- (inv_expect _ _ _ I). cbn [fold_left expect fst snd]. rewrite L, L', H1. reflexivity.
    - destruct (step_keep _ _ _ _ _ _ Es) as (G & H1 & H2 & H3).
      split; [eapply g_trans; [apply I|auto]|rewrite H1, H2; apply I| |].
      + destruct (inv_find _ _ _ I) as [m F]. rewrite H2. destruct (grows_find P _ _ G _ _ F) as (m' & F' & _). eauto.
      + rewrite fold_left_app, <- (inv_expect _ _ _ I). cbn [fold_left expect fst snd]. rewrite H1, H3. reflexivity.
    - split; [apply I|reflexivity|eexists; reflexivity|]. rewrite fold_left_app. reflexivity.
    - pose proof (at_node_grows P _ (simulate_from_grows P fuel action) _ _ _ _ _ _ Ea) as G. split; cbn [r_root r_history r_node r_last]; [eapply g_trans; [apply I|auto]|apply I| |].
      + destruct (inv_find _ _ _ I) as [m F]. destruct (grows_find P _ _ G _ _ F) as (m' & F' & _). eauto.
      + rewrite fold_left_app, <- (inv_expect _ _ _ I). reflexivity.
  Qed.
  Lemma trace_balanced b l r : trace P b l r -> every balanced (r_root r).
  Proof. intros T. apply trace_inv in T. eapply grows_balanced; [apply T|]. apply every_new. exists 0. split; [lia|]. rewrite (untouched_all _ (new_untouched P b)). reflexivity. Qed.
  Lemma trace_belief b l r : trace P b l r -> forall h m, find (r_root r) h = Some m -> filters P b h (o_belief m).
  Proof.
    intros T h m F. apply trace_inv in T. assert (E : every (edges P) (r_root r)) by (eapply grows_edges; [apply T|]; apply every_new; intros a c o k Ek; destruct (no_kid _ _ _ _ Ek)).
    pose proof (edges_filters P _ E _ _ F) as R. rewrite (grows_belief P _ _ (inv_grows _ _ _ T)) in R. exact R.
  Qed.

  (** *** enough simulations *)
  Lemma not_init_step (n n' : onode B) a : length (o_kids n') = length (o_kids n) -> a < length (o_kids n) -> visits n' a = S (visits n a) -> (forall a', a' <> a -> visits n' a' = visits n a') ->
    (not_init n <> [] -> In a (not_init n)) -> length (not_init n') <= pred (length (not_init n)).
  Proof.
    intros L Ha V1 V2 HI. destruct (not_init n) as [|i t] eqn:En.
    - destruct (not_init n') as [|j t'] eqn:En'; [cbn; lia|]. assert (Hj : In j (not_init n')) by (rewrite En'; cbn; auto). apply not_init_In in Hj. destruct Hj as [J1 J2].
      assert (Hj : In j (not_init n)); [|rewrite En in Hj; destruct Hj]. apply not_init_In. rewrite <- L. split; [auto|]. destruct (Nat.eq_dec j a) as [->|Hne]; [lia|]. rewrite <- V2; auto.
    - specialize (HI ltac:(discriminate)). rewrite <- En in *. assert (ND : NoDup (not_init n)) by (apply NoDup_filter, seq_NoDup).
      assert (ND' : NoDup (not_init n')) by (apply NoDup_filter, seq_NoDup). apply in_split in HI. destruct HI as (l1 & l2 & Hs). rewrite Hs. rewrite app_length. cbn [length].
      replace (pred (length l1 + S (length l2))) with (length (l1 ++ l2)) by (rewrite app_length; lia). apply NoDup_incl_length; [auto|]. intros j Hj. apply not_init_In in Hj. destruct Hj as [J1 J2].
      assert (Hne : j <> a) by (intros ->; lia). assert (Hin : In j (not_init n)) by (apply not_init_In; rewrite <- L; split; [auto|]; rewrite <- V2; auto).
      rewrite Hs in Hin. apply in_app_or in Hin. apply in_or_app. destruct Hin as [|[|]]; auto. congruence.
  Qed.
  Lemma simulations_tried : forall k fuel r x r' x' m, simulations P k fuel r x = (r', x', Ok tt) -> s_reached P (s_horizon P) = false -> find (r_root r) (r_node r) = Some m ->
    exists m', find (r_root r') (r_node r') = Some m' /\ length (not_init m') <= length (not_init m) - k /\ o_count m' = o_count m + k.
  Proof.
    induction k as [|k IH]; intros fuel r x r' x' m E Hh F; cbn [simulations] in E.
    - assert (r' = r) as -> by congruence. exists m. split; [auto|split; lia].
    - destruct (at_node _ (r_root r) (r_node r) x) as [[root y] v] eqn:Ea. destruct v as [v|e]; [|discriminate].
      destruct (simulate_from_node P fuel None m x) as [[m1 y1] v1] eqn:Em. destruct (at_node_find _ _ _ _ _ F _ _ _ Em) as (root' & Er & F1).
      assert (root' = root /\ y1 = y /\ v1 = Ok v) as (-> & -> & ->) by (repeat split; congruence).
      unfold simulate_from_node in Em. destruct (s_sample P (o_belief m) x) as [[s|e] y0]; [|discriminate].
      destruct (simulate_counts _ _ _ _ _ _ _ _ _ Em Hh) as (a & Ha & C & V1 & V2 & U & _). pose proof (grows_size P _ _ (simulate_grows P _ _ _ _ _ _ _ _ _ Em)) as L.
      pose proof (not_init_step _ _ _ L Ha V1 V2 (U eq_refl)) as NI.
      destruct (IH _ _ _ _ _ m1 E Hh F1) as (m' & F' & L' & C'). exists m'. split; [auto|]. split; lia.
  Qed.
  Lemma not_init_le (n : onode B) : length (not_init n) <= length (o_kids n).
  Proof. unfold not_init. rewrite <- (seq_length (length (o_kids n)) 0) at 2. set (l := seq 0 _). clearbody l. induction l as [|i l IH]; [auto|]. cbn [filter]. destruct (match _ with Some _ => _ | None => _ end); cbn; lia. Qed.

  (** *** rollouts *)
  Lemma one_rollout_gen : forall fuel s h gamma full x v x', one_rollout P fuel s h gamma full x = (Ok v, x') -> exists rs, walk P s h x rs x' /\ (v == full + gamma * discounted P rs)%Q /\ length rs <= fuel.
  Proof.
    induction fuel as [|fuel IH]; intros s h gamma full x v x' E; cbn [one_rollout] in E; (destruct (s_reached P h) eqn:Hh; [assert (v = full /\ x' = x) as [-> ->] by (split; congruence); exists []; split; [constructor; auto|split; [cbn; ring|cbn; lia]]|]); [discriminate|].
    destruct (choice _ _ x) as [[a|e] y] eqn:Ec; [|discriminate]. destruct (s_transition P a s y) as [[[[s' o] r]|e] y1] eqn:Et; [|discriminate].
    destruct (IH _ _ _ _ _ _ _ E) as (rs & W & V & L). exists (r :: rs). split; [econstructor; eauto|]. split; [rewrite V; cbn [discounted]; ring|cbn; lia].
  Qed.
  Lemma one_rollout_complete s h x rs x' : walk P s h x rs x' -> forall fuel gamma full, length rs <= fuel -> exists v, one_rollout P fuel s h gamma full x = (Ok v, x').
  Proof.
    induction 1 as [s h x Hh|s h x a x1 s' o r x2 rs x3 Hh Hc Ht W IH]; intros fuel gamma full L.
    - exists full. destruct fuel; cbn [one_rollout]; rewrite Hh; reflexivity.
    - destruct fuel as [|fuel]; [cbn in L; lia|]. cbn [one_rollout]. rewrite Hh, Hc, Ht. apply IH. cbn in L. lia.
  Qed.
  Lemma walk_unique s h x rs x' : walk P s h x rs x' -> forall rs' y', walk P s h x rs' y' -> rs = rs'.
  Proof.
    induction 1 as [s h x Hh|s h x a x1 s' o r x2 rs x3 Hh Hc Ht W IH]; intros rs' y' W'; inversion W'; subst; try congruence.
    match goal with Hx : choice _ _ _ = (Ok ?b, ?z) |- _ => assert (b = a /\ z = x1) as [-> ->] by (split; congruence) end.
    match goal with Hx : s_transition P a s x1 = (Ok (?t, ?q, ?w), ?z) |- _ => assert (t = s' /\ q = o /\ w = r /\ z = x2) as (-> & -> & -> & ->) by (repeat split; congruence) end.
    f_equal. eapply IH; eauto.
  Qed.
  Lemma rollouts_gen : forall k fuel b h acc x v x', rollouts P k fuel b h acc x = (Ok v, x') -> exists vs, walks P b h x vs x' /\ length vs = k /\ (v == acc + sumQ vs)%Q.
  Proof.
    induction k as [|k IH]; intros fuel b h acc x v x' E; cbn [rollouts] in E; [exists []; assert (v = acc /\ x' = x) as [-> ->] by (split; congruence); split; [constructor|split; [auto|cbn; ring]]|].
    destruct (s_sample P b x) as [[s|e] y] eqn:Es; [|discriminate]. destruct (one_rollout P fuel s (s_copy P h) 1 0 y) as [[w|e] y1] eqn:Ew; [|discriminate].
    destruct (one_rollout_gen _ _ _ _ _ _ _ _ Ew) as (rs & W & V & _). destruct (IH _ _ _ _ _ _ _ E) as (vs & WS & L & S). exists (discounted P rs :: vs). split; [econstructor; eauto|]. split; [cbn; auto|].
    rewrite S, V. unfold sumQ. rewrite sum_cons. ring.
  Qed.
  Lemma rollout_node_gen fuel m h x m' x' v : rollout_from_node P fuel m h x = (m', x', Ok v) ->
    (s_reached P h = true /\ v = 0%Q /\ m' = m /\ x' = x) \/ (s_reached P h = false /\ m' = o_update P m v /\ exists vs, walks P (o_belief m) h x vs x' /\ length vs = s_rollouts P /\ (v == mean vs)%Q).
  Proof.
    unfold rollout_from_node. destruct (s_reached P h) eqn:Hh; [intros E; left; repeat split; congruence|]. destruct (rollouts _ _ _ _ _ _ _) as [[w|e] y] eqn:Er; [|discriminate].
    destruct (Nat.eqb_spec (s_rollouts P) 0); [discriminate|]. intros E. right. destruct (rollouts_gen _ _ _ _ _ _ _ _ Er) as (vs & W & L & S).
    split; [auto|]. split; [congruence|]. exists vs. assert (x' = y) as -> by congruence. split; [auto|split; [auto|]]. assert (v = (w / inject_Z (Z.of_nat (s_rollouts P)))%Q) as -> by congruence.
    unfold mean. rewrite L, S, Qplus_0_l. reflexivity.
  Qed.

  Fixpoint power (k : nat) : Q := match k with 0 => 1%Q | S k => (s_discount P * power k)%Q end.
  Lemma simulate_return : forall fuel n s h action x n' x' v, simulate P fuel n s h action x = (n', x', Ok v) ->
    exists rs h' t, chain P s h rs h' /\ leaf P h' t /\ (v == discounted P rs + power (length rs) * t)%Q /\ (s_reached P h = false -> rs <> []).
  Proof.
    induction fuel as [|fuel IH]; intros n s h action x n' x' v E; cbn [simulate] in E; (destruct (s_reached P h) eqn:Hh; [exists [], h, (avg_value (o_avg n)); split; [constructor|]; split; [constructor; auto|]; split; [assert (v = avg_value (o_avg n)) as -> by congruence; cbn; ring|discriminate]|]); [discriminate|].
    destruct (match action with Some a => _ | None => _ end) as [a y]. destruct a as [a|e]; cbn [bind] in E; [|discriminate].
    destruct (safe_child n a) as [c|e] eqn:Ec; cbn [bind] in E; [|discriminate].
    destruct (s_transition P a s y) as [[[[s' o] r]|e] y1] eqn:Et; [|discriminate].
    cbv zeta in E. match type of E with (match ?q with _ => _ end) = _ => destruct q as [[c' y2] w] eqn:Eq end. destruct w as [w|e]; [|discriminate].
    assert (v = (r + s_discount P * w)%Q) as -> by congruence. set (h1 := s_decrement P h a s s' o) in *.
    assert (R : exists rs h' t, chain P s' h1 rs h' /\ leaf P h' t /\ (w == discounted P rs + power (length rs) * t)%Q).
    { destruct (lookup o (a_kids c)) as [m|] eqn:El.
      - destruct (simulate P fuel m s' h1 None y1) as [[m' y3] w'] eqn:Em. assert (w' = Ok w) as -> by congruence. destruct (IH _ _ _ _ _ _ _ _ Em) as (rs & h' & t & C & L & V & _). eauto 6.
      - destruct (s_succ P _ a o y1) as [[b|e] y3] eqn:Es.
        + destruct (rollout_from_node P fuel (o_new P b) h1 y3) as [[m' y4] [w'|e]] eqn:Er.
          * assert (w' = w) as -> by congruence. exists [], h1, w. split; [constructor|]. split; [|cbn; ring].
            destruct (rollout_node_gen _ _ _ _ _ _ _ Er) as [(R1 & -> & _)|(R1 & _ & vs & W & L & M)]; [apply lf_zero; auto|eapply lf_rollout; eauto].
          * exists [], h1, 0%Q. split; [constructor|]. assert (e = EMaxSamples) as -> by (destruct e; congruence). split; [apply lf_skipped; right; eauto 7|]. assert (w = 0%Q) as -> by congruence. cbn; ring.
        + exists [], h1, 0%Q. split; [constructor|]. assert (e = EMaxSamples) as -> by (destruct e; congruence). split; [apply lf_skipped; left; eauto 7|]. assert (w = 0%Q) as -> by congruence. cbn; ring. }
    destruct R as (rs & h' & t & C & L & V). exists (r :: rs), h', t. split; [eapply ch_cons; eauto|]. split; [auto|]. split; [rewrite V; cbn [discounted length power]; ring|discriminate].
  Qed.
End Proofs.
