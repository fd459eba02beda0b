(** Proofs for C96: the search after an export. *)
From Verif Require Import PyBase PyBaseFacts QBase PomdpModel BeliefModel PolicyModel PomcpModel PomcpSpec PolicySpec PolicyProofs PomcpProofs PomcpProofs2
  SharedModel SharedSpec SharedProofs SharedProofs3 ExportModel ExportSpec ExportProofs ExportProofs2.
From Coq Require Import Lia.
Local Open Scope list_scope.
Local Open Scope nat_scope.

Section After.
  Context {X St B H : Type}.
  Variable P : search X St B H.
  Notation kept := (@osame B).
  Notation akept := (@akept B).

  Lemma kept_safe (n n' : onode B) a : kept n n' ->
    match safe_child n a, safe_child n' a with Ok c, Ok c' => akept c c' | Err e, Err e' => e = e' | _, _ => False end.
  Proof.
    intros S0. destruct (kept_inv _ _ S0) as (_ & _ & F). unfold safe_child. destruct (nth_error (o_kids n) a) as [k|] eqn:Ek.
    - destruct (Forall2_nth_l _ _ _ F _ _ Ek) as (k' & Ek' & R). rewrite Ek'. destruct k as [c|], k' as [c'|]; cbn in R; [auto|destruct R|subst c'; apply akept_refl|apply akept_refl].
    - assert (Ek' : nth_error (o_kids n') a = None) by (apply nth_error_None; rewrite <- (Forall2_length _ _ _ F); apply nth_error_None; auto). rewrite Ek'. auto.
  Qed.
  Lemma kept_set_both (n n' : onode B) a c c' : kept n n' -> akept c c' -> kept (set_kid n a c) (set_kid n' a c').
  Proof.
    intros S0 R. destruct (kept_inv _ _ S0) as (E1 & E2 & F). unfold set_kid. rewrite E1, E2. apply kept_kids. clear -F R. revert a. induction F as [|k k' l l' Rk F IH]; intros [|a]; cbn [set_nth]; constructor; auto.
  Qed.
  Lemma kept_update (n n' : onode B) v : kept n n' -> kept (o_update P n v) (o_update P n' v).
  Proof. intros S0. destruct (kept_inv _ _ S0) as (E1 & E2 & F). unfold o_update. rewrite E1, E2. apply kept_kids. auto. Qed.
  Lemma akept_update (c c' : anode B) v : akept c c' -> akept (a_update P c v) (a_update P c' v).
  Proof. intros [E F]. split; [cbn; congruence|exact F]. Qed.
  Lemma akept_put (c c' : anode B) o m m' : akept c c' -> kept m m' -> akept (put c o m) (put c' o m').
  Proof.
    intros [E F] K. split; [exact E|]. cbn [put a_kids]. clear E. induction F as [|[k x] [k' x'] l l' [E R] F IH]; cbn [upd].
    - constructor; [split; auto|constructor].
    - cbn [fst snd] in E, R. subst k'. destruct (eq_dec o k); constructor; auto.
  Qed.
  Lemma kept_counts (n n' : onode B) : kept n n' -> o_count n' = o_count n /\ Forall2 (fun k k' : option (anode B) => match k' with
      | Some c' => match k with Some c => a_avg c' = a_avg c | None => a_count c' = 0 end | None => k = None end) (o_kids n) (o_kids n').
  Proof.
    intros S0. destruct (kept_inv _ _ S0) as (E1 & _ & F). split; [unfold o_count; congruence|]. clear -F. induction F as [|k k' l l' R F IH]; constructor; auto.
    destruct k as [c|], k' as [c'|]; cbn in R; [apply R|destruct R|subst c'; reflexivity|auto].
  Qed.
  Lemma kept_not_init (n n' : onode B) : kept n n' -> not_init n' = not_init n.
  Proof.
    intros S0. destruct (kept_counts _ _ S0) as [_ F]. unfold not_init. rewrite <- (Forall2_length _ _ _ F). apply filter_ext_in. intros i Hi. apply in_seq in Hi.
    destruct (nth_error (o_kids n) i) as [k|] eqn:Ek; [|apply nth_error_None in Ek; lia]. destruct (Forall2_nth_l _ _ _ F _ _ Ek) as (k' & Ek' & R).
    rewrite (nth_error_nth _ _ None Ek), (nth_error_nth _ _ None Ek'). destruct k as [c|], k' as [c'|]; [unfold a_count; rewrite R; auto|discriminate|rewrite R; auto|auto].
  Qed.
  Lemma kept_best (n n' : onode B) e rel x : kept n n' -> best_action P n' e rel x = best_action P n e rel x.
  Proof.
    intros S0. pose proof (kept_not_init _ _ S0) as EN. unfold best_action. rewrite EN. destruct (not_init n) as [|i l] eqn:E0; [|auto].
    destruct (kept_counts _ _ S0) as [EC F]. rewrite EC.
    assert (K : Forall2 (fun k k' : option (anode B) => exists c c', k = Some c /\ k' = Some c' /\ a_avg c' = a_avg c) (o_kids n) (o_kids n')).
    { assert (U : forall i, i < length (o_kids n) -> exists c, nth_error (o_kids n) i = Some (Some c)).
      { intros i Hi. destruct (nth_error (o_kids n) i) as [[c|]|] eqn:Ek; [eauto| |apply nth_error_None in Ek; lia]. assert (I : In i (not_init n)) by (apply not_init_In; unfold visits; rewrite Ek; auto).
        rewrite E0 in I. destruct I. }
      clear -F U. induction F as [|k k' l l' R F IH]; constructor.
      - destruct (U 0) as [c E]; [cbn; lia|]. cbn in E. assert (k = Some c) as -> by congruence. destruct k' as [c'|]; [exists c, c'; auto|discriminate].
      - apply IH. intros i Hi. apply (U (S i)). cbn. lia. }
    assert (EV : values n' = values n). { unfold values. clear -K. induction K as [|k k' l l' (c & c' & -> & -> & E) K IH]; cbn [map]; [auto|]. rewrite IH, E. auto. }
    assert (EA : augmented P n' e rel = augmented P n e rel). { unfold augmented. rewrite EV, EC. clear -K. induction K as [|k k' l l' (c & c' & -> & -> & E) K IH]; cbn [map]; [auto|]. rewrite IH. unfold a_count. rewrite E. auto. }
    rewrite EA. auto.
  Qed.

  (** results that are the same but for the trees *)
  Definition alike {A} (p q : onode B * X * res A) : Prop := kept (fst (fst p)) (fst (fst q)) /\ snd (fst q) = snd (fst p) /\ snd q = snd p.
  Lemma alike_intro {A} n n' x (v : res A) : kept n n' -> alike (n, x, v) (n', x, v).
  Proof. intros K. split; [exact K|auto]. Qed.
  Lemma kept_lookup_cases o (c c' : anode B) : akept c c' -> match lookup o (a_kids c), lookup o (a_kids c') with Some m, Some m' => kept m m' | None, None => True | _, _ => False end.
  Proof. intros [_ F]. apply kept_lookup. auto. Qed.

  Lemma finish_alike (n n' : onode B) a r (t t' : anode B * X * res Q) : kept n n' -> akept (fst (fst t)) (fst (fst t')) -> snd (fst t') = snd (fst t) -> snd t' = snd t ->
    alike (let '(c, x, v) := t in match v with Err e => (set_kid n a c, x, Err e) | Ok v => (o_update P (set_kid n a (a_update P c (r + s_discount P * v))) (r + s_discount P * v), x, Ok (r + s_discount P * v)%Q) end)
          (let '(c, x, v) := t' in match v with Err e => (set_kid n' a c, x, Err e) | Ok v => (o_update P (set_kid n' a (a_update P c (r + s_discount P * v))) (r + s_discount P * v), x, Ok (r + s_discount P * v)%Q) end).
  Proof.
    intros K A1 A2 A3. destruct t as [[c1 x1] v1], t' as [[c2 x2] v2]. cbn [fst snd] in *. subst x2 v2. destruct v1 as [v|e]; apply alike_intro.
    - apply kept_update. apply kept_set_both; [auto|apply akept_update; auto].
    - apply kept_set_both; auto.
  Qed.

  Lemma simulate_alike : forall fuel n n' s h action x, kept n n' -> alike (simulate P fuel n s h action x) (simulate P fuel n' s h action x).
  Proof.
    induction fuel as [|fuel IH]; intros n n' s h action x K; destruct (kept_inv _ _ K) as (EA & EB & _); cbn [simulate]; (destruct (s_reached P h); [rewrite EA; apply alike_intro; auto|]); [apply alike_intro; auto|].
    assert (EC : match action with Some a => (Ok a, x) | None => best_action P n' (s_exploration P) (s_relative P) x end =
                 match action with Some a => (Ok a, x) | None => best_action P n (s_exploration P) (s_relative P) x end) by (destruct action; [auto|apply kept_best; auto]).
    rewrite EC. destruct (match action with Some a => (Ok a, x) | None => best_action P n (s_exploration P) (s_relative P) x end) as [[a|e] y]; cbn [bind]; [|apply alike_intro; auto].
    pose proof (kept_safe n n' a K) as KS. destruct (safe_child n a) as [c|e], (safe_child n' a) as [c'|e']; cbn [bind]; [|destruct KS|destruct KS|subst e'; apply alike_intro; auto]. cbv zeta.
    assert (K1 : kept (set_kid n a c) (set_kid n' a c')) by (apply kept_set_both; auto).
    destruct (s_transition P a s y) as [[[[s' o] r]|e] z]; [|apply alike_intro; auto]. change (o_belief (set_kid n' a c')) with (o_belief n'). change (o_belief (set_kid n a c)) with (o_belief n). rewrite EB.
    match goal with |- alike (match ?t1 with _ => _ end) (match ?t2 with _ => _ end) => assert (A1 : akept (fst (fst t1)) (fst (fst t2)) /\ snd (fst t2) = snd (fst t1) /\ snd t2 = snd t1) end.
    { pose proof (kept_lookup_cases o c c' KS) as KL. destruct (lookup o (a_kids c)) as [m|], (lookup o (a_kids c')) as [m'|]; [|destruct KL|destruct KL|].
      - specialize (IH m m' s' (s_decrement P h a s s' o) None z KL). destruct (simulate P fuel m s' (s_decrement P h a s s' o) None z) as [[m1 z1] v1],
          (simulate P fuel m' s' (s_decrement P h a s s' o) None z) as [[m2 z2] v2]. destruct IH as (I1 & I2 & I3). cbn [fst snd] in *. split; [apply akept_put; auto|auto].
      - destruct (s_succ P (o_belief n) a o z) as [[nb|e] z1]; [|destruct e; auto]. destruct (rollout_from_node P fuel (o_new P nb) (s_decrement P h a s s' o) z1) as [[m1 z2] v1]. cbn [fst snd].
        split; [apply akept_put; [auto|apply kept_refl]|auto]. }
    destruct A1 as (A1 & A2 & A3). exact (finish_alike _ _ a r _ _ K1 A1 A2 A3).
  Qed.
  Lemma simulate_from_alike fuel action n n' x : kept n n' -> alike (simulate_from_node P fuel action n x) (simulate_from_node P fuel action n' x).
  Proof.
    intros K. destruct (kept_inv _ _ K) as (_ & EB & _). unfold simulate_from_node. rewrite EB. destruct (s_sample P (o_belief n) x) as [[s|e] y]; [apply simulate_alike; auto|apply alike_intro; auto].
  Qed.
  Lemma get_node_alike : forall h n n' x, kept n n' -> alike (get_node P n h x) (get_node P n' h x).
  Proof.
    induction h as [|[a o] h IH]; intros n n' x K; cbn [get_node]; [apply alike_intro; auto|]. destruct (kept_inv _ _ K) as (_ & EB & _). rewrite EB.
    pose proof (kept_safe n n' a K) as KS. destruct (safe_child n a) as [c|e], (safe_child n' a) as [c'|e']; [|destruct KS|destruct KS|subst e'; apply alike_intro; auto].
    pose proof (kept_lookup_cases o c c' KS) as KL. destruct (lookup o (a_kids c)) as [m|], (lookup o (a_kids c')) as [m'|]; [|destruct KL|destruct KL|].
    - specialize (IH m m' x KL). destruct (get_node P m h x) as [[m1 z1] v1], (get_node P m' h x) as [[m2 z2] v2]. destruct IH as (I1 & I2 & I3). cbn [fst snd] in *. subst z2 v2.
      apply alike_intro. apply kept_set_both; [auto|apply akept_put; auto].
    - destruct (s_succ P (o_belief n) a o x) as [[nb|e] z1]; [|apply alike_intro; apply kept_set_both; auto]. destruct (get_node P (o_new P nb) h z1) as [[m1 z2] v1].
      apply alike_intro. apply kept_set_both; [auto|apply akept_put; [auto|apply kept_refl]].
  Qed.
  Lemma at_node_alike {A} (f : onode B -> X -> onode B * X * res A) : (forall n n' x, kept n n' -> alike (f n x) (f n' x)) ->
    forall h n n' x, kept n n' -> alike (at_node f n h x) (at_node f n' h x).
  Proof.
    intros Hf. induction h as [|[a o] h IH]; intros n n' x K; cbn [at_node]; [auto|]. pose proof (kept_safe n n' a K) as KS. unfold safe_child in KS. destruct (kept_inv _ _ K) as (_ & _ & F).
    destruct (nth_error (o_kids n) a) as [k|] eqn:Ek.
    - destruct (Forall2_nth_l _ _ _ F _ _ Ek) as (k' & Ek' & R). rewrite Ek'. destruct k as [c|], k' as [c'|]; cbn in R; [|destruct R|subst c'; cbn; apply alike_intro; auto|apply alike_intro; auto].
      pose proof (kept_lookup_cases o c c' R) as KL. destruct (lookup o (a_kids c)) as [m|], (lookup o (a_kids c')) as [m'|]; [|destruct KL|destruct KL|apply alike_intro; auto].
      specialize (IH m m' x KL). destruct (at_node f m h x) as [[m1 z1] v1], (at_node f m' h x) as [[m2 z2] v2]. destruct IH as (I1 & I2 & I3). cbn [fst snd] in *. subst z2 v2.
      apply alike_intro. apply kept_set_both; [auto|apply akept_put; auto].
    - assert (Ek' : nth_error (o_kids n') a = None) by (apply nth_error_None; rewrite <- (Forall2_length _ _ _ F); apply nth_error_None; auto). rewrite Ek'. apply alike_intro; auto.
  Qed.

  (** runners *)
  Definition rkept (r r' : runner B) : Prop := kept (r_root r) (r_root r') /\ r_history r' = r_history r /\ r_node r' = r_node r /\ r_last r' = r_last r.
  Definition ralike {A} (p q : runner B * X * res A) : Prop := rkept (fst (fst p)) (fst (fst q)) /\ snd (fst q) = snd (fst p) /\ snd q = snd p.
  Lemma simulations_alike : forall k fuel r r' x, rkept r r' -> ralike (simulations P k fuel r x) (simulations P k fuel r' x).
  Proof.
    induction k as [|k IH]; intros fuel r r' x K; cbn [simulations]; [split; auto|]. destruct K as (K1 & K2 & K3 & K4). rewrite K3.
    pose proof (at_node_alike _ (simulate_from_alike fuel None) (r_node r) _ _ x K1) as A1. destruct (at_node (simulate_from_node P fuel None) (r_root r) (r_node r) x) as [[m1 z1] v1],
      (at_node (simulate_from_node P fuel None) (r_root r') (r_node r) x) as [[m2 z2] v2]. destruct A1 as (I1 & I2 & I3). cbn [fst snd] in *. subst z2 v2. rewrite K2, K4.
    assert (K : rkept {| r_root := m1; r_history := r_history r; r_node := r_node r; r_last := r_last r |} {| r_root := m2; r_history := r_history r; r_node := r_node r; r_last := r_last r |}) by (split; auto).
    destruct v1 as [v|e]; [apply IH; auto|split; auto].
  Qed.
  Lemma get_action_alike k fuel r r' x : rkept r r' -> ralike (get_action P k fuel r x) (get_action P k fuel r' x).
  Proof.
    intros K. unfold get_action. pose proof (simulations_alike k fuel r r' x K) as A1. destruct (simulations P k fuel r x) as [[r1 x1] v1], (simulations P k fuel r' x) as [[r2 x2] v2].
    destruct A1 as (I1 & I2 & I3). cbn [fst snd] in *. subst x2 v2. destruct v1 as [v|e]; [|split; auto]. destruct I1 as (K1 & K2 & K3 & K4). rewrite K3.
    match goal with |- ralike (match at_node ?f _ _ _ with _ => _ end) _ => pose proof (at_node_alike f) as A2; set (g := f) in * end.
    specialize (A2 (fun n n' y Kn => ltac:(unfold g; rewrite (kept_best n n' 0 false y Kn); destruct (best_action P n 0 false y); apply alike_intro; auto)) (r_node r1) _ _ x1 K1).
    destruct (at_node g (r_root r1) (r_node r1) x1) as [[m1 z1] a1], (at_node g (r_root r2) (r_node r1) x1) as [[m2 z2] a2]. destruct A2 as (J1 & J2 & J3). cbn [fst snd] in *. subst z2 a2.
    destruct a1 as [a|e]; (split; [|auto]); cbn [fst snd]; [rewrite K2; split; auto|split; auto].
  Qed.
  Lemma step_alike ob r r' x : rkept r r' -> ralike (r_step P ob r x) (r_step P ob r' x).
  Proof.
    intros K. pose proof K as (K1 & K2 & K3 & K4). unfold r_step. rewrite K4. destruct (r_last r) as [a|]; [|split; auto]. destruct (list_index (s_observations P) ob) as [o|e]; [|split; auto]. cbv zeta. rewrite K2, K3.
    pose proof (get_node_alike (r_history r ++ [(a, o)]) _ _ x K1) as A1. destruct (get_node P (r_root r) (r_history r ++ [(a, o)]) x) as [[m1 z1] v1], (get_node P (r_root r') (r_history r ++ [(a, o)]) x) as [[m2 z2] v2].
    destruct A1 as (I1 & I2 & I3). cbn [fst snd] in *. subst z2 v2. destruct v1 as [v|e]; (split; [split; auto|auto]).
  Qed.
  Lemma run_alike : forall (l : list (op (X := X))) r r', rkept r r' -> snd (run (plain_op P) r' l) = snd (run (plain_op P) r l) /\ rkept (fst (run (plain_op P) r l)) (fst (run (plain_op P) r' l)).
  Proof.
    induction l as [|o l IH]; intros r r' K; cbn [run]; [auto|].
    assert (S0 : rkept (fst (plain_op P r o)) (fst (plain_op P r' o)) /\ snd (plain_op P r' o) = snd (plain_op P r o)).
    { destruct o as [k fuel x|ob x|]; cbn [plain_op].
      - pose proof (get_action_alike k fuel r r' x K) as A1. destruct (get_action P k fuel r x) as [[r1 x1] v1], (get_action P k fuel r' x) as [[r2 x2] v2]. destruct A1 as (I1 & I2 & I3). cbn [fst snd] in *. split; [auto|congruence].
      - pose proof (step_alike ob r r' x K) as A1. destruct (r_step P ob r x) as [[r1 x1] v1], (r_step P ob r' x) as [[r2 x2] v2]. destruct A1 as (I1 & I2 & I3). cbn [fst snd] in *. split; [auto|congruence].
      - cbn [fst snd]. split; [|auto]. destruct K as (K1 & _). split; auto. }
    destruct (plain_op P r o) as [r1 o1], (plain_op P r' o) as [r2 o2]. cbn [fst snd] in S0. destruct S0 as [K1 ->]. destruct (IH r1 r2 K1) as [E1 E2].
    destruct (run (plain_op P) r1 l) as [r3 os], (run (plain_op P) r2 l) as [r4 os']. cbn [fst snd] in *. subst os'. auto.
  Qed.
End After.
