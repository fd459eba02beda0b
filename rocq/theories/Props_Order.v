(** C126: tasks made of sequences only, among them those of the scripts. *)
From Coq Require Import Lia Lqa.
From Verif Require Import PyBase PyBaseFacts QBase PomdpModel PomdpSpec HtmModel HtmSpec HtmProofs DagSpec ConvModel NodeModel NodeSpec NameSpec ConvSpec NodeProofs NodeProofs2 NodeProofs3 NodeProofs4 Props_Conv EpiSpec Props_Epi OrderSpec OrderProofs StoolModel.
Local Open Scope list_scope.
Local Open Scope nat_scope.

Lemma seq_directly n k : S k < n -> directly (seq 0 n) k (S k).
Proof.
  intros H. exists (seq 0 k), (seq (S (S k)) (n - k - 2)). replace n with (k + S (S (n - k - 2))) at 1 by lia. rewrite seq_app. reflexivity.
Qed.
Lemma seq_ends n k : S k = n -> ends_with (seq 0 n) k.
Proof. intros <-. exists (seq 0 k). rewrite seq_S. reflexivity. Qed.
Lemma rows_leads (t : n2p collab) k : proper t -> rows t -> k < n_leaves t -> leads t k (if S k =? n_leaves t then None else Some (S k)) 1.
Proof.
  intros Pt R Hk. assert (Rn : run t (seq 0 (n_leaves t))) by (apply rows_run; auto). destruct (Nat.eqb_spec (S k) (n_leaves t)) as [E|E].
  - destruct (proj2 (leads_none_run t k Pt)) as [q Hq]; [eexists; split; [exact Rn|apply seq_ends; exact E]|]. pose proof (rows_leads_one t R _ _ _ Hq). subst q. exact Hq.
  - destruct (proj2 (leads_some_run t k (S k) Pt)) as [q Hq]; [eexists; split; [exact Rn|apply seq_directly; lia]|]. pose proof (rows_leads_one t R _ _ _ Hq). subst q. exact Hq.
Qed.
Lemma rows_next (t : n2p collab) k : proper t -> rows t -> k < n_leaves t -> exists o, leads t k o 1 /\ place t o = before_leaf (S k).
Proof.
  intros Pt R Hk. eexists. split; [apply (rows_leads t k Pt R Hk)|]. destruct (Nat.eqb_spec (S k) (n_leaves t)) as [E|E]; cbn [place]; [|reflexivity].
  unfold over, before_leaf, number. rewrite <- n_leaves_length, <- E. reflexivity.
Qed.
Lemma rows_begins (t : n2p collab) : proper t -> rows t -> enters t 0 1.
Proof.
  intros Pt R. destruct (run_ex t Pt) as [_ [r Hr]]. pose proof (run_ne t r Pt Hr) as Hn. destruct r as [|j r]; [congruence|].
  destruct (proj2 (enters_run t j Pt)) as [q Hq]; [exists (j :: r); split; [exact Hr|exists r; reflexivity]|]. destruct (rows_enters t R _ _ Hq). subst. exact Hq.
Qed.
Lemma rows_just_after (t : n2p collab) k s' : rows t -> k < n_leaves t -> just_after t k s' -> s' = 3 * S k.
Proof.
  intros R Hk [(r & j & Hr & Hd & ->)|(r & Hr & Hd & ->)].
  - apply (rows_run t R) in Hr. subst r. destruct Hd as (r1 & r2 & Hd).
    assert (A : nth_error (seq 0 (n_leaves t)) (length r1) = Some k) by (rewrite Hd, nth_error_app2, Nat.sub_diag by lia; reflexivity).
    assert (B : nth_error (seq 0 (n_leaves t)) (S (length r1)) = Some j) by (rewrite Hd, nth_error_app2 by lia; replace (S (length r1) - length r1) with 1 by lia; reflexivity).
    assert (L1 : length r1 < n_leaves t) by (rewrite <- (seq_length (n_leaves t) 0); apply nth_error_Some; congruence). assert (L2 : S (length r1) < n_leaves t) by (rewrite <- (seq_length (n_leaves t) 0); apply nth_error_Some; congruence).
    apply nth_error_nth with (d := 0) in A. apply nth_error_nth with (d := 0) in B. rewrite seq_nth in A, B by auto. unfold before_leaf. lia.
  - apply (rows_run t R) in Hr. subst r. destruct Hd as (r1 & Hd). assert (L : n_leaves t = S (length r1)) by (rewrite <- (seq_length (n_leaves t) 0), Hd, app_length; cbn; lia).
    unfold over, number. rewrite <- n_leaves_length. rewrite L, seq_S in *. apply app_inj_tail in Hd. destruct Hd as [_ Hd]. lia.
Qed.
Lemma rows_place (t : n2p collab) k o q : proper t -> rows t -> leads t k o q -> place t o = 3 * S k.
Proof.
  intros Pt R H. pose proof (leads_bound _ _ _ _ H) as Hk. apply (rows_just_after t k _ R Hk).
  destruct o as [j|]; [left; destruct (proj1 (leads_some_run t k j Pt) (ex_intro _ q H)) as (r & A & B); exists r, j; auto|right; destruct (proj1 (leads_none_run t k Pt) (ex_intro _ q H)) as (r & A & B); exists r; auto].
Qed.
Lemma firstn_seq k a n : firstn k (seq a n) = seq a (Nat.min k n).
Proof. revert a n. induction k as [|k IH]; intros a [|n]; try reflexivity. cbn. rewrite IH. reflexivity. Qed.

(** The executions of the task are just its actions in order. *)
Theorem C126_executions : forall (root : comb collab) l, in_order root l -> forall word, executes (fun a => a) root word <-> word = l.
Proof. intros root l H word. rewrite (in_order_executes _ _ _ H), map_id. tauto. Qed.
Print Assumptions C126_executions.

(** It can be converted, with all costs and probabilities, when the names of its actions differ. *)
Theorem C126_built : forall exp t_ask t_tell fl t_wait intr end_reward root l,
  constructed root -> inhabited root -> in_order root l -> Forall collaborative l -> NoDup (map (fun a => dashed (a_name a)) l) ->
  structured fl = false -> (loop fl = true -> reward_state fl = false) ->
  exists p, task_to_pomdp exp t_ask t_tell fl t_wait intr end_reward root true = Ok p.
Proof.
  intros exp t_ask t_tell fl t_wait intr end_reward root l HC HI HO HF HD Hs Hl.
  apply C66_usable_partial; auto.
  - intros a i p h. apply (in_order_leaves collaborative root l HO HF).
  - intros t U. destruct (unfolds_rows root l HO t U) as [R <-]. split; [exact HD|]. intros _. exists 0. intros r i Hr [r' ->]. apply (rows_run t R) in Hr. pose proof (unfolds_proper root t HI U) as Pt.
    destruct (n_leaves t) as [|n]; [discriminate Hr|]. cbn in Hr. congruence.
Qed.
Print Assumptions C126_built.

(** The state when k actions are done is 3 * k, from 0 at the start to the end.  Each action is done in turn: the robot
    is told to do it and succeeds, or the human agrees to and finishes; nothing else moves the task forward, and whatever is done
    and whatever happens, no action is skipped, repeated or done out of order. *)
Theorem C126_follows : forall exp t_ask t_tell fl t_wait intr end_reward root l solver p,
  inhabited root -> in_order root l -> task_to_pomdp exp t_ask t_tell fl t_wait intr end_reward root solver = Ok p ->
  nS p = 3 * length l + (if reward_state fl then 2 else 1) /\ nA p = 4 * length l + 1 /\
  (Start p 0 = 1%Q /\ forall s, (~ Start p s == 0)%Q -> s = 0) /\
  (forall k a, nth_error l k = Some a ->
     nth_error (states p) (3 * k) = Some (NStr ("init-" ++ dashed (a_name a))) /\
     nth_error (states p) (3 * k + 1) = Some (NStr ("H-" ++ dashed (a_name a))) /\
     nth_error (states p) (3 * k + 2) = Some (NStr ("R-" ++ dashed (a_name a))))%string /\
  (forall k a, k < length l -> a < nA p ->
     (forall s', s' <> 3 * k -> s' <> 3 * k + 1 -> s' <> 3 * k + 2 -> (Tr p a (3 * k) s' == 0)%Q /\ (s' <> 3 * S k -> (Tr p a (3 * k + 1) s' == 0)%Q /\ (Tr p a (3 * k + 2) s' == 0)%Q))) /\
  (forall k a q, nth_error l k = Some a -> a_class a = KCollab -> a_params a = Some q ->
     Tr p (tell_intention k) (3 * k) (3 * k + 2) = 1%Q /\ (Tr p (physical k) (3 * k + 2) (3 * S k) == 1 - fail_proba q)%Q /\
     Tr p (ask_intention k) (3 * k) (3 * k + 1) = (1 - no_proba q)%Q /\
     (deterministic fl = false -> (Tr p (ask_finished k) (3 * k + 1) (3 * S k) == 1 - exp (- t_ask / t_hum q))%Q) /\
     (deterministic fl = true -> (Tr p (ask_finished k) (3 * k + 1) (3 * S k) == 1)%Q)) /\
  forall ep, episode p ep -> Forall (fun s => s < 3 * length l) (removelast ep) ->
    exists n, n <= length l /\ gone_through leaf_of_state (3 * length l) ep = seq 0 n /\ (last ep 0 = 3 * length l -> n = length l).
Proof.
  intros exp t_ask t_tell fl t_wait intr end_reward root l solver p HI HO E.
  destruct (C67_moves _ _ _ _ _ _ _ _ _ _ HI E) as (t & U & M). pose proof (unfolds_proper root t HI U) as Pt. destruct (unfolds_rows root l HO t U) as [R El].
  destruct (C65_tables _ _ _ _ _ _ _ _ _ _ HI E) as (t' & U' & Es & Ea & _). assert (t' = t) as -> by (eapply unfolds_unique; eauto). clear U'.
  destruct (C67_follow _ _ _ _ _ _ _ _ _ _ HI E) as (t' & U' & W & _). assert (t' = t) as -> by (eapply unfolds_unique; eauto). clear U'.
  destruct (C67_start _ _ _ _ _ _ _ _ _ _ HI E) as (t' & U' & S1 & S2). assert (t' = t) as -> by (eapply unfolds_unique; eauto). clear U'.
  destruct (C87_names _ _ _ _ _ _ _ _ _ _ HI E) as (t' & U' & _ & N & _). assert (t' = t) as -> by (eapply unfolds_unique; eauto). clear U'.
  destruct (C117_episodes _ _ _ _ _ _ _ _ _ _ HI E) as (t' & U' & Ep). assert (t' = t) as -> by (eapply unfolds_unique; eauto). clear U'.
  assert (Eo : over t = 3 * length l) by (unfold over, number; rewrite El; reflexivity). rewrite El in *. assert (En : n_leaves t = length l) by (rewrite n_leaves_length, El; reflexivity).
  assert (JA : forall k s', k < length l -> just_after t k s' -> s' = 3 * S k) by (intros k s' Hk; apply (rows_just_after t k s' R); lia).
  assert (LF : forall k o o' q q', k < length l -> leads t k o q -> leads t k o' q' -> o = o').
  { intros k o o' q q' Hk H H'. assert (J : forall o q, leads t k o q -> place t o = 3 * S k /\ forall j, o = Some j -> j < length l).
    { clear - Pt R En Hk. intros o q H. split; [eapply rows_place; eauto|intros j Hj; rewrite <- En; eapply leads_bound_next; eauto]. }
    destruct (J _ _ H) as [A1 A2]. destruct (J _ _ H') as [B1 B2]. destruct o as [j|], o' as [j'|]; cbn [place] in A1, B1; unfold before_leaf in *; [f_equal; lia|specialize (A2 j eq_refl); lia|specialize (B2 j' eq_refl); lia|reflexivity]. }
  assert (Bo : forall k, k < length l -> 3 * k + 2 < nS p /\ 4 * k + 4 < nA p) by (intros k Hk; rewrite Es, Ea; destruct (reward_state fl); lia).
  split; [exact Es|]. split; [exact Ea|]. split; [|split; [|split; [|split]]].
  - split; [apply (S1 0 1%Q (rows_begins t Pt R))|]. intros s Hs. apply S2 in Hs. destruct Hs as (j & r & -> & Hr & r' & ->). apply (rows_run t R) in Hr. destruct (n_leaves t); [discriminate Hr|]. cbn in Hr. unfold before_leaf. injection Hr as -> _. reflexivity.
  - intros k a Hk. split; [|split]; apply N; left; exists k, a; rewrite El; (split; [exact Hk|]); auto.
  - intros k a Hk Ha s' D1 D2 D3. assert (No : ~ of_leaf k s') by (unfold of_leaf, before_leaf, human, robot; lia).
    assert (Z : forall s, of_leaf k s -> (s' <> 3 * S k -> (Tr p a s s' == 0)%Q)).
    { intros s Hs D. destruct (Qeq_dec (Tr p a s s') 0) as [Z|Z]; [exact Z|]. destruct (W k a s s' Hk Ha Hs Z) as [H|H]; [contradiction|]. apply JA in H; [contradiction|exact Hk]. }
    split; [|intros D; split; apply Z; auto; unfold of_leaf, human, robot; auto].
    destruct (M a (3 * k) s' Ha) as [_ M0]; [specialize (Bo k Hk); lia|]. rewrite M0; [reflexivity|]. intros q G.
    inversion G; subst; unfold before_leaf, human, robot in *; try lia; assert (number t = length l) by (unfold number; rewrite El; reflexivity); unfold over in *; lia.
  - intros k a q Ha Hc Hp. assert (Hk : k < length l) by (apply nth_error_Some; congruence). destruct (Bo k Hk) as [Bs Ba].
    assert (Hq : param t k q) by (exists a; rewrite El; auto). destruct (rows_next t k Pt R) as (o & Ho & Po); [lia|]. unfold before_leaf in Po.
    split; [|split; [|split; [|split]]].
    + apply (M (tell_intention k) (3 * k) (3 * k + 2)); [unfold tell_intention; lia|lia|]. apply (go_told _ _ _ _ _ _ _ k q Hq eq_refl).
    + rewrite <- Po. rewrite (proj1 (M (physical k) (3 * k + 2) (place t o) ltac:(unfold physical; lia) ltac:(lia)) _ (go_success _ _ _ _ _ _ _ k q o 1 Hq eq_refl Ho)). ring.
    + apply (M (ask_intention k) (3 * k) (3 * k + 1)); [unfold ask_intention; lia|lia|]. apply (go_yes _ _ _ _ _ _ _ k q Hq eq_refl).
    + intros D. rewrite <- Po. rewrite (proj1 (M (ask_finished k) (3 * k + 1) (place t o) ltac:(unfold ask_finished; lia) ltac:(lia)) _ (go_finished _ _ _ _ _ _ _ k q _ o 1 D Hq (la_finished _ _ _ _ _ _ Hq) Ho)). ring.
    + intros D. rewrite <- Po. rewrite (proj1 (M (ask_finished k) (3 * k + 1) (place t o) ltac:(unfold ask_finished; lia) ltac:(lia)) _ (go_asked _ _ _ _ _ _ _ k q [o] o D Hq eq_refl ltac:(constructor; [intros []|constructor]) ltac:(intros o'; split; [intros [<-|[]]; eexists; exact Ho|intros [q' Hq']; left; exact (LF _ _ _ _ _ Hk Ho Hq')])
        ltac:(left; reflexivity))). reflexivity.
  - intros ep He Hf. destruct (Ep ep He) as (r & word & _ & Hr & _ & H1 & H2); [rewrite Eo; exact Hf|]. apply (rows_run t R) in Hr. rewrite En in Hr. subst r. rewrite Eo in H1, H2. rewrite firstn_seq in H1.
    eexists. split; [|split; [exact H1|]]; [lia|]. intros Hl. specialize (H2 Hl). assert (length (gone_through leaf_of_state (3 * length l) ep) = length l) by (rewrite H2; apply seq_length). lia.
Qed.
Print Assumptions C126_follows.

(** The two tasks of the scripts are such tasks. *)
Lemma stool_root : exists t l, stool_task_sequential = Ok t /\ constructed t /\ inhabited t /\ in_order t l /\ Forall collaborative l /\ map a_name l = stool_steps.
Proof.
  eexists. eexists. split; [reflexivity|]. split; [|split; [|split; [|split]]].
  - eapply (constructed_comb Sequential); [|reflexivity].
    repeat (constructor; [first [apply constructed_leaf|eapply (constructed_comb Sequential); [|reflexivity]; repeat (constructor; [first [apply constructed_leaf|eapply (constructed_comb Sequential); [|reflexivity]; repeat (constructor; [apply constructed_leaf|]); constructor]|]); constructor]|]). constructor.
  - repeat (constructor; try discriminate).
  - eapply io_seq. repeat (constructor; [first [apply io_leaf|eapply io_seq; repeat (constructor; [first [apply io_leaf|eapply io_seq; repeat (constructor; [apply io_leaf|]); constructor]|]); constructor]|]). constructor.
  - cbn [concat app]. repeat (constructor; [eexists; split; reflexivity|]). constructor.
  - reflexivity.
Qed.
Lemma chair_root : exists t l, chair_task = Ok t /\ constructed t /\ inhabited t /\ in_order t l /\ Forall collaborative l /\ map a_name l = chair_steps.
Proof.
  eexists. eexists. split; [reflexivity|]. split; [|split; [|split; [|split]]].
  - eapply (constructed_comb Sequential); [|reflexivity].
    repeat (constructor; [first [apply constructed_leaf|eapply (constructed_comb Sequential); [|reflexivity]; repeat (constructor; [first [apply constructed_leaf|eapply (constructed_comb Sequential); [|reflexivity]; repeat (constructor; [apply constructed_leaf|]); constructor]|]); constructor]|]). constructor.
  - repeat (constructor; try discriminate).
  - eapply io_seq. repeat (constructor; [first [apply io_leaf|eapply io_seq; repeat (constructor; [first [apply io_leaf|eapply io_seq; repeat (constructor; [apply io_leaf|]); constructor]|]); constructor]|]). constructor.
  - cbn [concat app]. repeat (constructor; [eexists; split; reflexivity|]). constructor.
  - reflexivity.
Qed.
Lemma names_distinct l names : map (@a_name collab) l = names -> NoDup (map dashed names) -> NoDup (map (fun a => dashed (@a_name collab a)) l).
Proof. intros <-. rewrite map_map. auto. Qed.
Ltac no_dup := repeat (constructor; [cbn; intuition discriminate|]); constructor.

(** Both are done in the nine steps that they list, in this order, and give a model for all costs and flags that the
    conversion supports, so that C126_follows holds of it. *)
Theorem C126_stool : exists t l, stool_task_sequential = Ok t /\ inhabited t /\ in_order t l /\ map a_name l = stool_steps /\
  forall exp t_ask t_tell fl t_wait intr end_reward, structured fl = false -> (loop fl = true -> reward_state fl = false) ->
    exists p, task_to_pomdp exp t_ask t_tell fl t_wait intr end_reward t true = Ok p.
Proof.
  destruct stool_root as (t & l & E & C & I & O & F & N). exists t, l. repeat (split; [assumption|]). intros. apply (C126_built _ _ _ _ _ _ _ t l); auto. eapply names_distinct; [exact N|]. cbn. no_dup.
Qed.
Print Assumptions C126_stool.
Theorem C126_chair : exists t l, chair_task = Ok t /\ inhabited t /\ in_order t l /\ map a_name l = chair_steps /\
  forall exp t_ask t_tell fl t_wait intr end_reward, structured fl = false -> (loop fl = true -> reward_state fl = false) ->
    exists p, task_to_pomdp exp t_ask t_tell fl t_wait intr end_reward t true = Ok p.
Proof.
  destruct chair_root as (t & l & E & C & I & O & F & N). exists t, l. repeat (split; [assumption|]). intros. apply (C126_built _ _ _ _ _ _ _ t l); auto. eapply names_distinct; [exact N|]. cbn. no_dup.
Qed.
Print Assumptions C126_chair.

(** In the model of the stool: the first two steps. *)
Example C126_ex : forall exp, exists p, icra_pomdp exp = Ok p /\ nS p = 28 /\ Start p 0 = 1%Q /\
  nth_error (states p) 3 = Some (NStr "init-hold-central-frame") /\ (Tr p (physical 0) 2 3 == 9 # 10)%Q /\
  episode p [0; 2; 3] /\ gone_through leaf_of_state 27 [0; 2; 3] = seq 0 2.
Proof.
  intros exp. destruct C126_stool as (t & l & E & I & O & N & B). destruct (B exp T_ASK T_TELL script_flags T_WAIT C_INTR (1 # 10)%Q eq_refl ltac:(discriminate)) as [p Ep].
  destruct stool_root as (t' & l' & E' & _ & _ & O' & F & _). assert (t' = t) as -> by congruence. assert (l' = l) as -> by (apply (C126_executions t l O l'), (C126_executions t l' O' l'); reflexivity). clear E' O'.
  destruct (C126_follows _ _ _ _ _ _ _ _ _ _ _ I O Ep) as (H1 & H2 & [H3 _] & H4 & _ & H5 & _).
  assert (L : length l = 9) by (apply (f_equal (@length _)) in N; rewrite map_length in N; exact N). exists p. split; [unfold icra_pomdp; rewrite E; exact Ep|]. split; [rewrite H1, L; reflexivity|]. split; [exact H3|].
  assert (HE : exists a b l0, l = a :: b :: l0 /\ a_name b = "Hold central frame"%string /\ a_class a = KCollab /\ exists q, a_params a = Some q /\ fail_proba q = (1 # 10)%Q).
  { assert (X : exists l1, executes (fun a => a) t l1 /\ exists a b l0, l1 = a :: b :: l0 /\ a_name b = "Hold central frame"%string /\ a_class a = KCollab /\ exists q, a_params a = Some q /\ fail_proba q = (1 # 10)%Q).
    { revert E. intros E. apply (f_equal (fun r => match r with Ok x => x | Err _ => t end)) in E. cbn in E. rewrite <- E. eexists. split.
      - eapply exec_seq. repeat (constructor; [first [apply exec_leaf|eapply exec_seq; repeat (constructor; [first [apply exec_leaf|eapply exec_seq; repeat (constructor; [apply exec_leaf|]); constructor]|]); constructor]|]). constructor.
      - cbn [concat app]. eexists. eexists. eexists. split; [reflexivity|]. split; [reflexivity|]. split; [reflexivity|]. eexists. split; reflexivity. }
    destruct X as (l1 & X & Y). apply (C126_executions t l O) in X. subst l1. exact Y. }
  destruct HE as (a & b & l0 & -> & Nb & Ca & q & Pa & Fa). destruct (H4 1 b eq_refl) as [Hb _]. rewrite Nb in Hb. split; [exact Hb|]. destruct (H5 0 a q eq_refl Ca Pa) as (T1 & T2 & _).
  assert (T2' : (Tr p (physical 0) 2 3 == 9 # 10)%Q) by (change 3 with (3 * 1); change 2 with (3 * 0 + 2); rewrite T2, Fa; reflexivity). split; [exact T2'|]. split; [|reflexivity].
  apply (ep_move p [0] 2 (physical 0) 3).
  - apply (ep_move p [] 0 (tell_intention 0) 2); [apply ep_start; [lia|rewrite H3; discriminate]|rewrite H2, L; cbn; lia|lia|]. change (tell_intention 0) with (tell_intention 0) in T1. cbn [Nat.mul Nat.add] in T1. rewrite T1. discriminate.
  - rewrite H2, L. cbn. lia.
  - lia.
  - rewrite T2'. discriminate.
Qed.
