(** Properties of the episodes in the POMDPs of tasks: C117 and C118. *)
From Coq Require Import Lia Lqa.
From Verif Require Import PyBase PyBaseFacts QBase PomdpModel PomdpSpec HtmModel HtmSpec HtmProofs DagModel DagSpec Props_Dag ConvModel NodeModel NodeSpec ConvSpec NodeProofs NodeProofs2 NodeProofs3 NodeProofs4 ConvProofs ConvProofs2 ConvProofs3 ConvProofs4 Props_Conv BringModel BringSpec BringProofs BringProofs2 Props_Bring EpiSpec EpiProofs EpiProofs2 EpiProofs3.
Local Open Scope list_scope.
Local Open Scope nat_scope.

(** *** C117: collaborative tasks *)
Lemma known_kept : keeps known_as.
Proof.
  intros i a a' E. unfold known_as. rewrite <- (base_name_order (a_name a) i). unfold action_copy in E. destruct (a_class a); inversion E; reflexivity.
Qed.
Definition unsure_of (exp : Q -> Q) (t_ask : Q) (fl : flags) (q : collab) : Prop := deterministic fl = false /\ (exp (- t_ask / t_hum q) == 1)%Q.

Section Facts.
  Variable exp : Q -> Q.
  Variables t_ask t_tell : Q.
  Variable fl : flags.
  Variables t_wait intr end_reward : Q.
  Lemma conv_facts root solver p : inhabited root -> task_to_pomdp exp t_ask t_tell fl t_wait intr end_reward root solver = Ok p ->
    exists t, unfolds root t /\ proper t /\ over t < nS p /\ nA p = 4 * number t + 1 /\
      (forall k, k < n_leaves t -> exists q, param t k q) /\
      (forall k q, param t k q -> Tr p (physical k) (robot k) (robot k) = fail_proba q) /\
      (forall k q o q0, param t k q -> leads t k o q0 -> Tr p (physical k) (robot k) (place t o) = ((1 - fail_proba q) * q0)%Q) /\
      (forall k, k < n_leaves t -> Tr p (tell_intention k) (before_leaf k) (robot k) = 1%Q) /\
      (forall k q, param t k q -> Tr p (ask_intention k) (before_leaf k) (human k) = (1 - no_proba q)%Q) /\
      (forall k q o q0, param t k q -> ~ unsure_of exp t_ask fl q -> leads t k o q0 -> ~ (Tr p (ask_finished k) (human k) (place t o) == 0)%Q) /\
      (forall j q, enters t j q -> Start p (before_leaf j) = q) /\
      (forall s, ~ (Start p s == 0)%Q -> exists j q, s = before_leaf j /\ enters t j q) /\
      (forall k a s s', k < n_leaves t -> a < nA p -> of_leaf k s -> (~ Tr p a s s' == 0)%Q -> of_leaf k s' \/ exists o q, leads t k o q /\ s' = place t o).
  Proof.
    intros HI E. destruct (C67_moves _ _ _ _ _ _ _ _ _ _ HI E) as (t & U & M). destruct (C65_tables _ _ _ _ _ _ _ _ _ _ HI E) as (t' & U' & Es & Ea & _). assert (t' = t) as -> by (eapply unfolds_unique; eauto). clear U'.
    destruct (C67_follow _ _ _ _ _ _ _ _ _ _ HI E) as (t' & U' & W & _). assert (t' = t) as -> by (eapply unfolds_unique; eauto). clear U'.
    destruct (C67_start _ _ _ _ _ _ _ _ _ _ HI E) as (t' & U' & S1 & S2). assert (t' = t) as -> by (eapply unfolds_unique; eauto). clear U'.
    destruct (conv_inv _ _ _ _ _ _ _ _ _ _ HI E) as (t' & T & O & R & S & U' & Pt & At & _). assert (t' = t) as -> by (eapply unfolds_unique; eauto). clear U'.
    assert (PB : forall k q, param t k q -> k < length (leaves t)) by (intros k q (a & Ha & _); apply nth_error_Some; congruence).
    assert (HS : forall k s, k < length (leaves t) -> of_leaf k s -> s < nS p) by (intros k s Hk; rewrite Es; unfold of_leaf, before_leaf, human, robot; destruct (reward_state fl); lia).
    assert (HA : forall k, k < length (leaves t) -> physical k < nA p /\ ask_intention k < nA p /\ tell_intention k < nA p /\ ask_finished k < nA p) by (intros k Hk; rewrite Ea; unfold physical, ask_intention, tell_intention, ask_finished; lia).
    assert (HP : forall k, k < n_leaves t -> exists q, param t k q).
    { intros k Hk. destruct (flat_get t 0 [(n_leaves t, 1%Q)] [] k Hk) as (li & Hli & Ek). cbn in Ek. subst k. eexists. apply (param_par t At li Hli). }
    exists t. split; [auto|]. split; [auto|]. split; [rewrite Es; unfold over, number; destruct (reward_state fl); lia|]. split; [rewrite Ea; reflexivity|]. split; [auto|].
    split; [|split; [|split; [|split; [|split; [|split; [|split]]]]]].
    - intros k q Hq. apply (proj1 (M _ _ _ (proj1 (HA k (PB k q Hq))) (HS k (robot k) (PB k q Hq) ltac:(unfold of_leaf; auto)))). eapply go_fail; eauto.
    - intros k q o q0 Hq Hl. apply (proj1 (M _ _ _ (proj1 (HA k (PB k q Hq))) (HS k (robot k) (PB k q Hq) ltac:(unfold of_leaf; auto)))). eapply go_success; eauto.
    - intros k Hk. destruct (HP k Hk) as [q Hq]. apply (proj1 (M _ _ _ (proj1 (proj2 (proj2 (HA k (PB k q Hq))))) (HS k (before_leaf k) (PB k q Hq) ltac:(unfold of_leaf; auto)))). eapply go_told; eauto.
    - intros k q Hq. apply (proj1 (M _ _ _ (proj1 (proj2 (HA k (PB k q Hq)))) (HS k (before_leaf k) (PB k q Hq) ltac:(unfold of_leaf; auto)))). eapply go_yes; eauto.
    - intros k q o q0 Hq Hu Hl. pose proof (proj1 (M _ _ (place t o) (proj2 (proj2 (proj2 (HA k (PB k q Hq))))) (HS k (human k) (PB k q Hq) ltac:(unfold of_leaf; auto)))) as G. destruct (deterministic fl) eqn:Ed.
      + pose proof (PB k q Hq) as Hk. rewrite <- n_leaves_length in Hk. destruct (flat_get t 0 [(n_leaves t, 1%Q)] [] k Hk) as (li & Hli & Ek). cbn in Ek. subst k. destruct (outcomes_ex t Pt li Hli) as (l & N & HIn).
        rewrite (G _ (go_asked _ _ _ _ _ _ _ _ _ l o Ed Hq eq_refl N HIn (proj2 (HIn o) (ex_intro _ q0 Hl)))). assert (0 < 1 / inject_Z (Z.of_nat (length l)))%Q; [|lra]. apply Qlt_shift_div_l; [|lra]. destruct l as [|x l]; [destruct (proj2 (HIn o) (ex_intro _ q0 Hl))|]. cbn [length]. change 0%Q with (inject_Z 0). rewrite <- Zlt_Qlt. lia.
      + rewrite (G _ (go_finished _ _ _ _ _ _ _ _ _ _ o q0 Ed Hq (la_finished _ _ _ _ _ _ Hq) Hl)). intros Z. apply Qmult_integral in Z. pose proof (leads_pos _ _ _ _ Hl). destruct Z as [Z|Z]; [|lra]. apply Hu. split; [auto|lra].
    - exact S1.
    - intros s Hs. apply S2 in Hs. destruct Hs as (j & r & -> & Hr & Hst). destruct (proj2 (enters_run t j Pt)) as [q Hq]; [eauto|]. eauto.
    - intros k a s s' Hk Ha Hs Hn. rewrite n_leaves_length in Hk. destruct (W k a s s' Hk Ha Hs Hn) as [A|[(r & j & Hr & Hd & ->)|(r & Hr & Hd & ->)]]; [auto| |].
      + destruct (proj2 (leads_some_run t k j Pt)) as [q Hq]; [eauto|]. right. exists (Some j), q. auto.
      + destruct (proj2 (leads_none_run t k Pt)) as [q Hq]; [eauto|]. right. exists None, q. auto.
  Qed.
End Facts.

(** Whatever is done and whatever happens, the leaves gone through are, in order, the first of those of a run of the
    task, all of them when the end is reached; and the runs of the task are its executions. *)
Theorem C117_episodes : forall exp t_ask t_tell fl t_wait intr end_reward root solver p,
  inhabited root -> task_to_pomdp exp t_ask t_tell fl t_wait intr end_reward root solver = Ok p ->
  exists t, unfolds root t /\
    forall l, episode p l -> Forall (fun s => s < over t) (removelast l) ->
      exists r word, executes known_as root word /\ run t r /\ seen known_as t r = map Some word /\
        gone_through leaf_of_state (over t) l = firstn (length (gone_through leaf_of_state (over t) l)) r /\
        (last l 0 = over t -> gone_through leaf_of_state (over t) l = r).
Proof.
  intros exp t_ask t_tell fl t_wait intr end_reward root solver p HI E.
  destruct (conv_facts _ _ _ _ _ _ _ _ _ _ HI E) as (t & U & Pt & Sz & Ac & HP & F1 & F2 & F3 & F4 & F5 & S1 & S2 & W). exists t. split; [auto|]. intros l He Hl.
  destruct (episode_run t p leaf_of_state (over t) Pt) with (l := l) as (r & Hr & A & B); auto.
  - intros s Hs. destruct (S2 s Hs) as (j & q & -> & Hq). pose proof (enters_bound _ _ _ Hq) as Bj. rewrite n_leaves_length in Bj. unfold leaf_of_state, before_leaf, over, number. rewrite (Nat.mul_comm 3 j), Nat.div_mul by lia. split; [lia|eauto].
  - intros a s s' Ha Hs Hn. unfold leaf_of_state. pose proof (Nat.div_mod s 3 ltac:(lia)) as D. pose proof (Nat.mod_upper_bound s 3 ltac:(lia)) as M3. set (k := s / 3) in *. unfold over, number in Hs. rewrite <- n_leaves_length in Hs. assert (Hk : k < n_leaves t) by lia.
    destruct (W k a s s' Hk Ha ltac:(unfold of_leaf, before_leaf, human, robot; lia) Hn) as [Hs'|([j|] & q & Hq & ->)].
    + left. assert (s' / 3 = k) as Ek. { symmetry; apply (Nat.div_unique s' 3 k (s' - 3 * k)); unfold of_leaf, before_leaf, human, robot in Hs'; lia. } split; [unfold over, number; rewrite <- n_leaves_length; unfold of_leaf, before_leaf, human, robot in Hs'; lia|]. left. exact Ek.
    + left. cbn [place]. pose proof (leads_bound_next t _ _ _ Hq j eq_refl) as Bj. unfold before_leaf, over, number. rewrite <- n_leaves_length. split; [lia|]. right. rewrite (Nat.mul_comm 3 j), Nat.div_mul by lia. eauto.
    + right. split; [reflexivity|eauto].
  - intros s Hs. unfold leaf_of_state. unfold over, number in Hs. rewrite <- n_leaves_length in Hs. apply Nat.div_lt_upper_bound; lia.
  - destruct (run_word known_as root t r (fun _ => known_kept) U Hr) as (word & X1 & X2). exists r, word. auto.
Qed.
Print Assumptions C117_episodes.

(** Every execution of the task can happen, each action being done by the robot or the human as one likes, unless the
    parameters exclude it. *)
Theorem C117_possible : forall exp t_ask t_tell fl t_wait intr end_reward root solver p,
  inhabited root -> task_to_pomdp exp t_ask t_tell fl t_wait intr end_reward root solver = Ok p ->
  exists t, unfolds root t /\
    (forall word, executes known_as root word <-> exists r, run t r /\ seen known_as t r = map Some word) /\
    forall r (who : nat -> bool), run t r ->
      (forall k q, In k r -> param t k q ->
         if who k then ~ (fail_proba q == 1)%Q else ~ (no_proba q == 1)%Q /\ ~ (deterministic fl = false /\ (exp (- t_ask / t_hum q) == 1)%Q)) ->
      episode p (flat_map (done_by who) r ++ [over t]).
Proof.
  intros exp t_ask t_tell fl t_wait intr end_reward root solver p HI E.
  destruct (conv_facts _ _ _ _ _ _ _ _ _ _ HI E) as (t & U & Pt & Sz & Ac & HP & F1 & F2 & F3 & F4 & F5 & S1 & S2 & W). exists t. split; [auto|]. split; [apply (runs_executions known_as root t (fun _ => known_kept) U)|].
  intros r who Hr C. destruct (run_from t r Pt Hr) as (j & q0 & q1 & He & Hf). destruct (who_continues t p HP F2 Sz Ac (unsure_of exp t_ask fl) F3 F4 F5 who j r q1 Hf) as (l & -> & K); [exact C|].
  apply (continues_episode p _ _ _ K []). apply ep_start.
  - pose proof (enters_bound _ _ _ He) as B. rewrite n_leaves_length in B. unfold over, number in Sz. unfold before_leaf. lia.
  - rewrite (S1 _ _ He). pose proof (enters_pos _ _ _ He). lra.
Qed.
Print Assumptions C117_possible.

(** From every state the task can be completed. *)
Theorem C117_completable : forall exp t_ask t_tell fl t_wait intr end_reward root solver p,
  inhabited root -> task_to_pomdp exp t_ask t_tell fl t_wait intr end_reward root solver = Ok p ->
  exists t, unfolds root t /\
    ((forall k q, param t k q -> ~ (fail_proba q == 1)%Q /\ ~ (deterministic fl = false /\ (exp (- t_ask / t_hum q) == 1)%Q)) ->
     forall s, s <= over t -> exists l, continues p s l (over t)).
Proof.
  intros exp t_ask t_tell fl t_wait intr end_reward root solver p HI E.
  destruct (conv_facts _ _ _ _ _ _ _ _ _ _ HI E) as (t & U & Pt & Sz & Ac & HP & F1 & F2 & F3 & F4 & F5 & S1 & S2 & W). exists t. split; [auto|].
  intros C s Hs. apply (completes t p Pt HP F2 Sz Ac (unsure_of exp t_ask fl) F3 F4 F5 s C Hs).
Qed.
Print Assumptions C117_completable.

(** The tables give a run, when the robot does all of it and succeeds each time, the chance it has when each of n
    alternatives (and each of n orders of a parallel combination) has chance 1/n; and these chances add up to one. *)
Theorem C117_chances : forall exp t_ask t_tell fl t_wait intr end_reward root solver p,
  inhabited root -> task_to_pomdp exp t_ask t_tell fl t_wait intr end_reward root solver = Ok p ->
  exists t, unfolds root t /\
    (forall r q, chance t r q -> (Start p (before_leaf (hd O r)) * straight p (over t) r == q * succeeds p r)%Q) /\
    exists runs, NoDup (map fst runs) /\ (forall r, In r (map fst runs) <-> run t r) /\ (forall r q, In (r, q) runs -> chance t r q) /\ (sumQ (map snd runs) == 1)%Q.
Proof.
  intros exp t_ask t_tell fl t_wait intr end_reward root solver p HI E.
  destruct (conv_facts _ _ _ _ _ _ _ _ _ _ HI E) as (t & U & Pt & Sz & Ac & HP & F1 & F2 & F3 & F4 & F5 & S1 & S2 & W). exists t. split; [auto|]. split; [|apply all_runs_sum; auto].
  intros r q Hc. destruct (proj1 chance_from_both t r q Hc Pt) as (j & q0 & q1 & He & Hf & Eq). destruct (from_head _ _ _ _ Hf) as [r' Er]. rewrite (straight_from t p HP F1 F2 j r q1 Hf), Eq. rewrite Er. cbn [hd]. rewrite (S1 _ _ He). ring.
Qed.
Print Assumptions C117_chances.

(** *** C118: tasks that bring objects *)
Lemma bring_facts cost_com cost_get cost_err end_reward objects loop no_answer discount root solver p :
  inhabited root -> bring_task_to_pomdp cost_com cost_get cost_err end_reward objects loop no_answer discount root solver = Ok p ->
  exists t, unfolds root t /\ proper t /\ nS p = finish t + 1 /\ ~ has_parallel root /\
    (forall k, k < n_leaves t -> exists a x, a < nA p /\ wants t k x /\ fetches objects a x) /\
    (forall k a x o q, wants t k x -> fetches objects a x -> leads t k o q -> Tr p a k (site t o) = q) /\
    (forall j q, enters t j q -> Start p j = q) /\
    (forall s, ~ (Start p s == 0)%Q -> exists q, enters t s q) /\
    (forall a s s', s < n_leaves t -> ~ (Tr p a s s' == 0)%Q -> s' = s \/ exists o q, leads t s o q /\ s' = site t o).
Proof.
  intros HI E. destruct (C89_moves _ _ _ _ _ _ _ _ _ _ _ HI E) as (t & U & M & S1 & S2 & _). destruct (C68_tables _ _ _ _ _ _ _ _ _ _ _ HI E) as (t' & U' & Es & Ea & _). assert (t' = t) as -> by (eapply unfolds_unique; eauto). clear U'.
  destruct (bring_inv _ _ _ _ _ _ _ _ _ _ _ HI E) as (t' & T & O & R & U' & Pt & HK & HN & _). assert (t' = t) as -> by (eapply unfolds_unique; eauto). clear U'.
  assert (WB : forall k, k < n_leaves t -> exists a x, a < nA p /\ wants t k x /\ fetches objects a x).
  { intros k Hk. rewrite n_leaves_length in Hk. destruct (nth_error (leaves t) k) as [b|] eqn:Eb; [|apply nth_error_None in Eb; lia]. rewrite Forall_forall in HK. destruct (HK b (nth_error_In _ _ Eb)) as (x & Hx & Hin). destruct (In_nth_error _ _ Hin) as [a Ha]. exists a, x. split; [rewrite Ea; assert (a < length objects) by (apply nth_error_Some; congruence); lia|]. split; [|exact Ha]. exists b. split; [auto|apply obj_iff; auto]. }
  exists t. split; [auto|]. split; [auto|]. split; [rewrite Es; reflexivity|]. split; [|split; [auto|split; [|split; [auto|split]]]].
  - intros HPar. apply (C68_usable_refuted _ _ _ _ _ _ _ _ _ _ _ HI HPar E).
  - intros k a x o q Hw Hf Hl. apply (M a k (site t o)); [|eapply mo_right; eauto]. pose proof (leads_bound _ _ _ _ Hl) as B. rewrite n_leaves_length in B. rewrite Es. lia.
  - intros s Hs. apply S2 in Hs. apply (enters_run t s Pt). auto.
  - intros a s s' Hs Hn. destruct (WB s Hs) as (a0 & x & _ & Hw & _). assert (Hlt : s < nS p) by (rewrite Es, <- n_leaves_length; lia). destruct (M a s s' Hlt) as [M1 M2].
    assert (Fd : fetches objects a x \/ ~ fetches objects a x) by (unfold fetches; destruct (nth_error objects a) as [y|]; [destruct (string_dec y x); [left; congruence|right; congruence]|right; congruence]).
    destruct (Nat.eq_dec s' s) as [|Hne]; [auto|]. right. destruct Fd as [Fd|Fd].
    + (* the right object *)
      destruct (flat_get t 0 [(n_leaves t, 1%Q)] [] s Hs) as (li & Hli & Ek). cbn in Ek. subst s.
      assert (Dc : (exists o, (exists q, leads t (li_k li) o q) /\ s' = site t o) \/ ~ exists o, (exists q, leads t (li_k li) o q) /\ s' = site t o).
      { destruct (in_dec Nat.eq_dec s' (map fst (li_next li))) as [K|K].
        - left. apply in_map_iff in K. destruct K as ([j q] & <- & K). apply (next_site t li j q Hli) in K. destruct K as (o & A1 & A2). exists o. eauto.
        - right. intros (o & [q Hq] & ->). apply K. change (site t o) with (fst (site t o, q)). apply in_map. apply (next_site t li _ q Hli). eauto. }
      destruct Dc as [(o & [q Hq] & ->)|Dc]; [eauto|]. exfalso. apply Hn. rewrite M2; [reflexivity|]. intros q Hm. inversion Hm as [k x' o q0 H1 H2 H3|k x' H1 H2|H1|l0 j H1 H2 H3 H4]; subst.
      * apply Dc. exists o. eauto.
      * apply Hne. auto.
      * unfold finish in *. rewrite n_leaves_length in Hs. lia.
      * unfold finish in *. rewrite n_leaves_length in Hs. lia.
    + exfalso. apply Hn. rewrite M2; [reflexivity|]. intros q Hm. inversion Hm as [k x' o q0 H1 H2 H3|k x' H1 H2|H1|l0 j H1 H2 H3 H4]; subst.
      * rewrite (wants_fun _ _ _ _ H1 Hw) in H2. auto.
      * apply Hne. auto.
      * unfold finish in *. rewrite n_leaves_length in Hs. lia.
      * unfold finish in *. rewrite n_leaves_length in Hs. lia.
Qed.

(** The states gone through are, in order, the first leaves of a run of the task, all of them when the end is reached;
    and the runs of the task are its executions: the very actions of the task. *)
Theorem C118_episodes : forall cost_com cost_get cost_err end_reward objects loop no_answer discount root solver p,
  inhabited root -> bring_task_to_pomdp cost_com cost_get cost_err end_reward objects loop no_answer discount root solver = Ok p ->
  exists t, unfolds root t /\
    forall l, episode p l -> Forall (fun s => s < finish t) (removelast l) ->
      exists r word, executes (fun a => a) root word /\ run t r /\ map (nth_error (leaves t)) r = map Some word /\
        gone_through (fun s => s) (finish t) l = firstn (length (gone_through (fun s => s) (finish t) l)) r /\
        (last l 0 = finish t -> gone_through (fun s => s) (finish t) l = r).
Proof.
  intros cost_com cost_get cost_err end_reward objects loop no_answer discount root solver p HI E.
  destruct (bring_facts _ _ _ _ _ _ _ _ _ _ _ HI E) as (t & U & Pt & Sz & NP & WB & Mv & S1 & S2 & W). exists t. split; [auto|]. intros l He Hl. assert (Ef : finish t = n_leaves t) by (rewrite n_leaves_length; reflexivity).
  destruct (episode_run t p (fun s => s) (finish t) Pt) with (l := l) as (r & Hr & A & B); auto.
  - intros s Hs. destruct (S2 s Hs) as [q Hq]. pose proof (enters_bound _ _ _ Hq). split; [lia|eauto].
  - intros a s s' Ha Hs Hn. rewrite Ef in Hs. destruct (W a s s' Hs Hn) as [->|([j|] & q & Hq & ->)]; [left; split; [lia|auto]|left; cbn [site]; pose proof (leads_bound_next t _ _ _ Hq j eq_refl); split; [lia|eauto]|right; eauto].
  - intros s Hs. lia.
  - destruct (run_word (fun a => a) root t r (fun K => False_ind _ (NP K)) U Hr) as (word & X1 & X2). exists r, word. split; [auto|]. split; [auto|]. split; [|auto]. rewrite <- X2. unfold seen. apply map_ext. intros k. destruct (nth_error (leaves t) k); reflexivity.
Qed.
Print Assumptions C118_episodes.

(** Every execution can happen, and from every state the task can be completed. *)
Theorem C118_possible : forall cost_com cost_get cost_err end_reward objects loop no_answer discount root solver p,
  inhabited root -> bring_task_to_pomdp cost_com cost_get cost_err end_reward objects loop no_answer discount root solver = Ok p ->
  exists t, unfolds root t /\
    (forall word, executes (fun a => a) root word <-> exists r, run t r /\ map (nth_error (leaves t)) r = map Some word) /\
    (forall r, run t r -> episode p (r ++ [finish t])) /\
    (forall s, s < nS p -> exists l, continues p s l (finish t)).
Proof.
  intros cost_com cost_get cost_err end_reward objects loop no_answer discount root solver p HI E.
  destruct (bring_facts _ _ _ _ _ _ _ _ _ _ _ HI E) as (t & U & Pt & Sz & NP & WB & Mv & S1 & S2 & W). exists t. split; [auto|]. assert (Ef : finish t = n_leaves t) by (rewrite n_leaves_length; reflexivity).
  assert (BC : forall j r q, from t j r q -> exists l, r ++ [finish t] = j :: l /\ continues p j l (finish t)).
  { intros j r q F. apply (bring_continues t p (finish t) (fun k a => exists x, wants t k x /\ fetches objects a x)) with (q := q); auto; [|intros k Hk; destruct (WB k Hk) as (a & x & A1 & A2 & A3); exists a; eauto|lia]. intros k a o q0 (x & A1 & A2) Hl. apply (Mv k a x o q0 A1 A2 Hl). }
  split; [|split].
  - intros word. rewrite (runs_executions (fun a => a) root t (fun K => False_ind _ (NP K)) U). unfold seen. assert (X : forall r, map (fun k => option_map (fun a : action string => a) (nth_error (leaves t) k)) r = map (nth_error (leaves t)) r) by (intros r; apply map_ext; intros k; destruct (nth_error (leaves t) k); reflexivity).
    split; intros (r & Hr & Eq); exists r; (split; [auto|]); [rewrite <- X|rewrite X]; auto.
  - intros r Hr. destruct (run_from t r Pt Hr) as (j & q0 & q1 & He & Hf). destruct (BC j r q1 Hf) as (l & -> & K). apply (continues_episode p _ _ _ K []). apply ep_start; [pose proof (enters_bound _ _ _ He); lia|]. rewrite (S1 _ _ He). pose proof (enters_pos _ _ _ He). lra.
  - intros s Hs. destruct (Nat.eq_dec s (finish t)) as [->|Hne]; [exists []; constructor|]. destruct (from_ex t s Pt ltac:(lia)) as (r & q & F). destruct (BC s r q F) as (l & _ & K). eauto.
Qed.
Print Assumptions C118_possible.

(** Bringing the right objects, a run has the chance it has when each of n alternatives has chance 1/n. *)
Theorem C118_chances : forall cost_com cost_get cost_err end_reward objects loop no_answer discount root solver p,
  inhabited root -> bring_task_to_pomdp cost_com cost_get cost_err end_reward objects loop no_answer discount root solver = Ok p ->
  exists t, unfolds root t /\
    (forall r q l, chance t r q -> Forall2 (fun k a => exists x, wants t k x /\ fetches objects a x) r l -> (Start p (hd O r) * along p (finish t) r l == q)%Q) /\
    (forall k, k < finish t -> exists a x, a < nA p /\ wants t k x /\ fetches objects a x) /\
    exists runs, NoDup (map fst runs) /\ (forall r, In r (map fst runs) <-> run t r) /\ (forall r q, In (r, q) runs -> chance t r q) /\ (sumQ (map snd runs) == 1)%Q.
Proof.
  intros cost_com cost_get cost_err end_reward objects loop no_answer discount root solver p HI E.
  destruct (bring_facts _ _ _ _ _ _ _ _ _ _ _ HI E) as (t & U & Pt & Sz & NP & WB & Mv & S1 & S2 & W). exists t. split; [auto|]. assert (Ef : finish t = n_leaves t) by (rewrite n_leaves_length; reflexivity). split; [|split; [rewrite Ef; auto|apply all_runs_sum; auto]].
  intros r q l Hc Fl. destruct (proj1 chance_from_both t r q Hc Pt) as (j & q0 & q1 & He & Hf & Eq).
  rewrite (along_from t p (finish t) (fun k a => exists x, wants t k x /\ fetches objects a x)) with (q := q1) (j := j); auto; [|intros k a o q2 (x & A1 & A2) Hl; apply (Mv k a x o q2 A1 A2 Hl)]. destruct (from_head _ _ _ _ Hf) as [r' ->]. cbn [hd]. rewrite (S1 _ _ He), Eq. reflexivity.
Qed.
Print Assumptions C118_chances.

(** *** Non-vacuity *)
(** The task of C67: a leaf, then two in any order.  The second order, the human doing its first action. *)
Lemma ex_params k q : param (ex_unfolded ex_task) k q -> q = {| t_hum := 2; t_rob := 3; t_err := 1; no_proba := 1 # 10; fail_proba := 1 # 5 |}.
Proof.
  unfolded. intros (a & Ha & _ & Hp). do 5 (destruct k as [|k]; [cbn in Ha; assert (Some q = a_params a) as Eq by congruence; injection Ha as <-; cbn in Eq; congruence|]). destruct k; discriminate.
Qed.
Example C117_ex : exists p, task_to_pomdp ex_exp 1 1 (ex_flags false false false false) 1 1 10 ex_task true = Ok p /\
  episode p [0; 2; 9; 10; 12; 14; 15] /\ gone_through leaf_of_state 15 [0; 2; 9; 10; 12; 14; 15] = [0; 3; 4] /\
  (exists l, continues p 7 l 15) /\
  chance (ex_unfolded ex_task) [0; 3; 4] (1 * (1 * 1 / inject_Z (Z.of_nat 2) * 1))%Q /\
  seen known_as (ex_unfolded ex_task) [0; 3; 4] = map Some (map (fun n => (n, Some {| t_hum := 2; t_rob := 3; t_err := 1; no_proba := 1 # 10; fail_proba := 1 # 5 |})) ["Mount leg"; "C"; "B"])%string.
Proof.
  destruct ex_plain as [p E]. exists p. split; [auto|]. assert (O15 : over (ex_unfolded ex_task) = 15) by (vm_compute; reflexivity).
  destruct (C117_possible _ _ _ _ _ _ _ _ _ _ ex_task_inhabited E) as (t & U & _ & Q1). rewrite (unfolds_unique _ _ _ U ex_task_unfolds) in Q1. clear t U.
  destruct (C117_completable _ _ _ _ _ _ _ _ _ _ ex_task_inhabited E) as (t & U & Q2). rewrite (unfolds_unique _ _ _ U ex_task_unfolds) in Q2. clear t U.
  split; [|split; [reflexivity|split; [|split]]].
  - assert (R : run (ex_unfolded ex_task) [0; 3; 4]) by apply C67_ex. specialize (Q1 [0; 3; 4] (fun k => negb (k =? 3)) R). rewrite O15 in Q1. apply Q1. intros k q Hk Hq. rewrite (ex_params k q Hq). destruct (negb (k =? 3)); [|split; [|intros [_ H]; revert H]]; vm_compute; discriminate.
  - rewrite O15 in Q2. apply Q2; [|lia]. intros k q Hq. rewrite (ex_params k q Hq). split; [|intros [_ H]; revert H]; vm_compute; discriminate.
  - unfolded. apply ch_seq. match goal with |- chance_seq (?t :: ?l) _ _ => apply (ch_some t l [0] [2; 3] 1 (1 * 1 / inject_Z (Z.of_nat 2) * 1)); [constructor|] end. match goal with |- chance_seq (?t :: ?l) _ _ => apply (ch_some t l [2; 3] [] (1 * 1 / inject_Z (Z.of_nat 2)) 1); [|constructor] end.
    match goal with |- chance (NAlt [?u; ?t]) _ _ => apply (ch_alt [u] t [] [0; 1] (1 * 1)) end. apply ch_seq. match goal with |- chance_seq (?t :: ?l) _ _ => apply (ch_some t l [0] [0] 1 1); [constructor|] end. match goal with |- chance_seq (?t :: ?l) _ _ => apply (ch_some t l [0] [] 1 1); constructor end.
  - vm_compute. reflexivity.
Qed.
(** The task of C89: the screw and the second driver. *)
Example C118_ex : exists p, bring_task_to_pomdp 1 2 5 10 bx_objects false true None bx_task true = Ok p /\
  episode p [0; 2; 4; 5] /\ (exists l, continues p 1 l 5) /\ executes (fun a => a) bx_task (map (fun x => {| a_class := KBring; a_name := fst x; a_agent := "None"; a_params := Some (snd x) |}) [("Top", "top"); ("Fix leg", "screw"); ("D2", "driver 2")])%string /\
  (let r := [0; 2; 4]%nat in Start p 0%nat * along p 5%nat r r == 1 # 4)%Q.
Proof.
  destruct (proj1 (bx_built false true)) as [p E]. exists p. split; [auto|]. assert (O5 : finish (bx_unfolded bx_task) = 5) by (vm_compute; reflexivity).
  destruct (C118_possible _ _ _ _ _ _ _ _ _ _ _ (proj1 bx_inhabited) E) as (t & U & Q0 & Q1 & Q2). rewrite (unfolds_unique _ _ _ U (proj1 bx_unfolds)) in *. clear t U.
  destruct (C118_chances _ _ _ _ _ _ _ _ _ _ _ (proj1 bx_inhabited) E) as (t & U & Q3 & _). rewrite (unfolds_unique _ _ _ U (proj1 bx_unfolds)) in *. clear t U. rewrite O5 in *.
  destruct (C68_tables _ _ _ _ _ _ _ _ _ _ _ (proj1 bx_inhabited) E) as (t & U & Es & _). rewrite (unfolds_unique _ _ _ U (proj1 bx_unfolds)) in *. clear t U.
  assert (C : exists q, chance (bx_unfolded bx_task) [0; 2; 4] q /\ (q == 1 # 4)%Q).
  { eexists. split.
    - let x := eval vm_compute in (bx_unfolded bx_task) in change (bx_unfolded bx_task) with x. apply ch_seq. match goal with |- chance_seq (?t :: ?l) _ _ => apply (ch_some t l [0] [1; 3]); [constructor|] end. match goal with |- chance_seq (?t :: ?l) _ _ => apply (ch_some t l [1; 3] []); [|constructor] end.
      match goal with |- chance (NAlt [?u; ?t]) _ _ => apply (ch_alt [u] t [] [0; 2]) end. apply ch_seq. match goal with |- chance_seq (?t :: ?l) _ _ => apply (ch_some t l [0] [1]); [constructor|] end. match goal with |- chance_seq (?t :: ?l) _ _ => apply (ch_some t l [1] []); [|constructor] end.
      match goal with |- chance (NAlt [?u; ?t]) _ _ => apply (ch_alt [u] t [] [0]) end. constructor.
    - vm_compute. reflexivity. }
  destruct C as (q & C & Eq). assert (R : run (bx_unfolded bx_task) [0; 2; 4]) by (eapply chance_run; eauto). split; [|split; [|split]].
  - exact (Q1 _ R).
  - apply Q2. rewrite Es. vm_compute. lia.
  - apply Q0. exists [0; 2; 4]. split; [auto|]. vm_compute. reflexivity.
  - cbv zeta. apply (Qeq_trans _ q); [|exact Eq]. apply (Q3 [0; 2; 4] q [0; 2; 4] C). repeat constructor; eexists; (split; [eexists; split; [vm_compute; reflexivity|split; reflexivity]|reflexivity]).
Qed.
