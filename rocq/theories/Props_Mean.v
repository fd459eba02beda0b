(** C128: the average cost of doing any task. *)
From Coq Require Import Lia Lqa Qabs.
From Verif Require Import PyBase PyBaseFacts QBase PomdpModel PomdpSpec PomdpProofs HtmModel HtmSpec HtmProofs DagSpec ConvModel NodeModel NodeSpec NameSpec ConvSpec NodeProofs NodeProofs2 NodeProofs3 NodeProofs4 ConvProofs2 ConvProofs3 ConvProofs4 Props_Conv EpiSpec EpiProofs2 Props_Epi AverageSpec AverageProofs Props_Average MeanSpec MeanProofs.
Local Open Scope list_scope.
Local Open Scope nat_scope.

Lemma wsum_map c l g : (wsum (map (fun x : nat * Q => ((3 * fst x)%nat, (c * snd x)%Q)) l) g == c * wsum l (fun j => g (3 * j)%nat))%Q.
Proof. induction l as [|x l IH]; [unfold wsum; cbn; ring|]. cbn [map]. rewrite !wsum_cons, IH. cbn [fst snd]. ring. Qed.
Lemma wsum_const c l g : (sum_over l snd == 1)%Q -> (wsum l (fun j => c + g j) == c + wsum l g)%Q.
Proof.
  intros E. assert (K : (wsum l (fun j => c + g j) == c * sum_over l snd + wsum l g)%Q); [|rewrite K, E; ring].
  clear E. induction l as [|x l IH]; [unfold wsum; cbn; ring|]. rewrite !wsum_cons, IH. cbn [sum_over fold_right]. fold (sum_over l snd). ring.
Qed.

Section Mean.
  Variables (exp : Q -> Q) (t_ask t_tell : Q) (fl : flags) (t_wait intr end_reward : Q) (t : n2p collab) (p : pomdp) (who : string -> bool).
  Hypothesis Pt : proper t.
  Hypothesis At : Forall (fun a => exists p, attrs a = Ok p) (leaves t).
  Hypothesis Es : nS p = 3 * n_leaves t + (if reward_state fl then 2 else 1).
  Hypothesis Ea : nA p = 4 * n_leaves t + 1.
  Hypothesis M : forall a s s', a < nA p -> s < nS p -> (forall x, goes exp t_wait t_ask t_tell fl t a s s' x -> Tr p a s s' = x) /\ ((forall x, ~ goes exp t_wait t_ask t_tell fl t a s s' x) -> Tr p a s s' = 0%Q).
  Hypothesis C : forall a s s', a < nA p -> s < nS p -> (exists c, costs t_wait t_ask t_tell intr end_reward fl t a s s' c) /\ forall c o, costs t_wait t_ask t_tell intr end_reward fl t a s s' c -> (at_ (p_R p) [a; s; s'; o] == - c)%Q.
  Hypothesis OB : forall a s', a < nA p -> s' < nS p -> (sum_n (nO p) (Ob p a s') == 1)%Q.
  Notation L := (n_leaves t).
  Notation fls := (flat t 0 [(L, 1%Q)] []).
  Notation durs := (durs t_wait t_ask t_tell t).
  Notation Row li a s := (row exp fl (par li) (li_k li) (li_next li) durs a s).
  Let act := shares_named who t.
  Let V n s := collected p act (3 * L) n s.
  Let rr : Q := match subtask_reward fl with Some r => r | None => 0%Q end.
  Ltac nums := unfold before_leaf, human, robot, physical, ask_intention, tell_intention, ask_finished, waiting in *.

  Lemma by_row li s n : In li fls -> mine (li_k li) s = true -> act s < nA p -> (V (S n) s == wsum (Row li (act s) s) (fun s' => at_ (p_R p) [act s; s; s'; 0%nat] + V n s'))%Q.
  Proof.
    intros Hl Hm Ha. pose proof (flat_range _ _ _ _ _ Hl) as Hr. pose proof (proj1 (mine_iff _ _) Hm) as Hs. assert (Hs' : s < nS p) by (rewrite Es; destruct (reward_state fl); lia).
    unfold V. cbn [collected]. rewrite (proj2 (Nat.eqb_neq s (3 * L))) by lia.
    rewrite (average_states p (act s) s _ (fun s' => at_ (p_R p) [act s; s; s'; 0%nat] + collected p act (3 * L) n s')%Q).
    - rewrite <- (wsum_look (Row li (act s) s) _ (nS p)).
      + apply sum_n_ext. intros s' _. apply Qmult_comp; [|reflexivity]. destruct (look_cases (Row li (act s) s) s') as [(q & Hq & ->)|[Hn ->]].
        * rewrite (proj1 (M (act s) s s' Ha Hs') q); [reflexivity|]. apply (row_goes exp t_wait t_ask t_tell fl t Pt At li (act s) s s' q Hl Hm); [unfold n_act; lia|exact Hq].
        * rewrite (proj2 (M (act s) s s' Ha Hs')); [reflexivity|]. intros q Hq. apply Hn. apply (goes_row exp t_wait t_ask t_tell fl t Pt At li (act s) s s' q Hl Hm) in Hq. apply (in_map fst) in Hq. exact Hq.
      + apply (row_nodup exp t_wait t_ask t_tell fl t Pt li _ s Hl).
      + intros x Hx. pose proof (row_bound exp t_wait t_ask t_tell fl t li _ s x Hl Hx). rewrite Es. destruct (reward_state fl); lia.
    - intros s' Hs''. apply OB; auto.
    - intros s' o _. destruct (C (act s) s s' Ha Hs') as [[c Hc] H]. rewrite (H c o Hc), (H c 0 Hc). reflexivity.
  Qed.

  Section Leaf.
    Variable li : @linfo collab.
    Hypothesis Hl : In li fls.
    Notation k := (li_k li).
    Notation q := (par li).
    Notation w := (does who (li_a li)).
    Notation N n := (leaving V (li_next li) n).
    Lemma leaf_at : nth_error (leaves t) k = Some (li_a li).
    Proof. destruct (In_nth_error _ _ Hl) as [i Hi]. pose proof (map_nth_error li_k _ _ Hi) as Ek. pose proof (map_nth_error li_a _ _ Hi) as E. rewrite flat_a in E. rewrite flat_k in Ek. assert (i = k); [|congruence].
      assert (Hb : i < L). { assert (i < length (seq 0 L)) by (apply nth_error_Some; congruence). rewrite seq_length in H. exact H. }
      pose proof (nth_error_nth _ _ 0 Ek) as X. rewrite seq_nth in X by auto. lia. Qed.
    Lemma act_before : act (3 * k) = if w then tell_intention k else ask_intention k.
    Proof. unfold act, shares_named. rewrite shares_before, leaf_at. reflexivity. Qed.
    Lemma kb : k < L.
    Proof. pose proof (flat_range _ _ _ _ _ Hl). lia. Qed.
    Lemma bonus_later j x : In (j, x) (li_next li) -> bonus fl k (3 * j) rr.
    Proof. intros H. destruct (next_good t Pt li Hl) as (_ & _ & _ & _ & B). specialize (B _ H). cbn [fst] in B. unfold bonus, rr. destruct (subtask_reward fl); [right; split; [unfold of_leaf; nums; lia|reflexivity]|reflexivity]. Qed.
    Lemma bonus_here s : of_leaf k s -> bonus fl k s 0.
    Proof. intros H. unfold bonus. destruct (subtask_reward fl); auto. Qed.
    Lemma next_one : (sum_over (li_next li) snd == 1)%Q.
    Proof. apply (next_good t Pt li Hl). Qed.
    Ltac as_intrinsic a := match goal with |- costs _ _ _ _ _ _ _ _ _ _ (?d + ?i - ?b)%Q => replace (d + i - b)%Q with (d + intrinsic i a - b)%Q by (unfold intrinsic; rewrite (proj2 (Nat.eqb_neq a waiting)) by (nums; lia); reflexivity) end.
    Lemma act_bound s : mine k s = true -> act s < nA p.
    Proof.
      intros Hm. pose proof kb. apply mine_cases in Hm. rewrite Ea. destruct Hm as [-> | [-> | -> ] ]; [rewrite act_before; destruct w; nums; lia| |]; unfold act, shares_named; [rewrite shares_human|rewrite shares_robot]; nums; lia.
    Qed.
    Lemma leaf_size s : mine k s = true -> s < nS p.
    Proof. intros Hm. pose proof kb. apply mine_iff in Hm. rewrite Es. destruct (reward_state fl); lia. Qed.

    Lemma step_robot' n : (V (S n) (3 * k + 2) == fail_proba q * V n (3 * k + 2) + (1 - fail_proba q) * N n + (- (t_rob q + intr) + (1 - fail_proba q) * rr))%Q.
    Proof.
      assert (Hm : mine k (3 * k + 2) = true) by (apply mine_iff; lia). pose proof (act_bound _ Hm) as Ha. pose proof (leaf_size _ Hm) as Hs. rewrite (by_row li _ n Hl Hm Ha).
      assert (Eact : act (3 * k + 2) = physical k) by (unfold act, shares_named; apply shares_robot). rewrite Eact in *. pose proof (param_par t At li Hl) as Pm.
      unfold row. rewrite (proj2 (Nat.eqb_neq (3 * k + 2) (3 * k))) by lia. rewrite (proj2 (Nat.eqb_neq (3 * k + 2) (3 * k + 1))) by lia. unfold physical at 1. rewrite Nat.eqb_refl. rewrite wsum_cons, wsum_map. cbn [fst snd].
      rewrite (wsum_ext (li_next li) _ (fun j => - (t_rob q + intr - rr) + V n (3 * j)%nat)%Q).
      - rewrite (wsum_const _ _ _ next_one). fold (N n). rewrite (proj2 (C (physical k) (3 * k + 2) (3 * k + 2) Ha Hs) (t_rob q + intr - 0)%Q); [unfold leaving; ring|]. apply (co_physical _ _ _ _ _ _ _ _ _ _ k q); auto. apply bonus_here. unfold of_leaf; nums; lia.
      - intros [j x] Hj. cbn [fst]. rewrite (proj2 (C (physical k) (3 * k + 2) (3 * j) Ha Hs) (t_rob q + intr - rr)%Q); [reflexivity|]. apply (co_physical _ _ _ _ _ _ _ _ _ _ k q); auto. eapply bonus_later; eauto.
    Qed.
    Lemma step_human' n : deterministic fl = false -> (V (S n) (3 * k + 1) == (1 - finish exp t_ask fl q) * V n (3 * k + 1) + (1 - (1 - finish exp t_ask fl q)) * N n + (- (t_ask + intr) + finish exp t_ask fl q * rr))%Q.
    Proof.
      intros D. assert (Hm : mine k (3 * k + 1) = true) by (apply mine_iff; lia). pose proof (act_bound _ Hm) as Ha. pose proof (leaf_size _ Hm) as Hs. rewrite (by_row li _ n Hl Hm Ha).
      assert (Eact : act (3 * k + 1) = ask_finished k) by (unfold act, shares_named; apply shares_human). rewrite Eact in *. pose proof (param_par t At li Hl) as Pm.
      assert (Ed : nth (ask_finished k) durs 0%Q = t_ask). { pose proof (durs_nth t_wait t_ask t_tell t At k q 3 Pm ltac:(lia)) as X. cbn [nth] in X. replace (ask_finished k) with (4 * k + 1 + 3) by (nums; lia). exact X. }
      unfold row. rewrite (proj2 (Nat.eqb_neq (3 * k + 1) (3 * k))) by lia. rewrite Nat.eqb_refl, D. cbn zeta. rewrite Ed. unfold finish. rewrite D. set (e := exp (- t_ask / t_hum q)%Q). rewrite wsum_cons, wsum_map. cbn [fst snd].
      rewrite (wsum_ext (li_next li) _ (fun j => - (t_ask + intr - rr) + V n (3 * j)%nat)%Q).
      - rewrite (wsum_const _ _ _ next_one). rewrite (proj2 (C (ask_finished k) (3 * k + 1) (3 * k + 1) Ha Hs) (t_ask + intr - 0)%Q); [unfold leaving; ring|]. as_intrinsic (ask_finished k). apply (co_time _ _ _ _ _ _ _ _ _ _ k q); auto; [unfold of_leaf; nums; lia|nums; lia|econstructor; eauto|apply bonus_here; unfold of_leaf; nums; lia].
      - intros [j x] Hj. cbn [fst]. rewrite (proj2 (C (ask_finished k) (3 * k + 1) (3 * j) Ha Hs) (t_ask + intr - rr)%Q); [reflexivity|]. as_intrinsic (ask_finished k). apply (co_time _ _ _ _ _ _ _ _ _ _ k q); auto; [unfold of_leaf; nums; lia|nums; lia|econstructor; eauto|eapply bonus_later; eauto].
    Qed.
    Lemma step_before' n : (V (S n) (3 * k) == if w then V n (3 * k + 2)%nat - (t_tell + intr) else no_proba q * V n (3 * k + 2)%nat + (1 - no_proba q) * V n (3 * k + 1)%nat - (t_ask + intr))%Q.
    Proof.
      assert (Hm : mine k (3 * k) = true) by (apply mine_iff; lia). pose proof (act_bound _ Hm) as Ha. pose proof (leaf_size _ Hm) as Hs. rewrite (by_row li _ n Hl Hm Ha). rewrite act_before in *. pose proof (param_par t At li Hl) as Pm. unfold row. rewrite Nat.eqb_refl. destruct w.
      - rewrite (proj2 (Nat.eqb_neq (tell_intention k) (4 * k + 2))) by (nums; lia). rewrite (proj2 (Nat.eqb_eq (tell_intention k) (4 * k + 3))) by (nums; lia). rewrite wsum_cons. unfold wsum at 1. cbn [fst snd sum_over fold_right].
        rewrite (proj2 (C (tell_intention k) (3 * k) (3 * k + 2) Ha Hs) (t_tell + intr - 0)%Q); [ring|]. as_intrinsic (tell_intention k). apply (co_time _ _ _ _ _ _ _ _ _ _ k q); auto; [unfold of_leaf; nums; lia|nums; lia|econstructor; eauto|apply bonus_here; unfold of_leaf; nums; lia].
      - rewrite (proj2 (Nat.eqb_eq (ask_intention k) (4 * k + 2))) by (nums; lia). rewrite !wsum_cons. unfold wsum at 1. cbn [fst snd sum_over fold_right].
        rewrite (proj2 (C (ask_intention k) (3 * k) (3 * k + 2) Ha Hs) (t_ask + intr - 0)%Q); [rewrite (proj2 (C (ask_intention k) (3 * k) (3 * k + 1) Ha Hs) (t_ask + intr - 0)%Q); [ring|]|];
          as_intrinsic (ask_intention k); apply (co_time _ _ _ _ _ _ _ _ _ _ k q); auto; try (unfold of_leaf; nums; lia); try (econstructor; eauto; fail); apply bonus_here; unfold of_leaf; nums; lia.
    Qed.
    Hypothesis HG : feasible exp t_ask fl who (li_a li).
    Lemma known_par : snd (known_as (li_a li)) = Some q.
    Proof. destruct (param_par t At li Hl) as (a & A1 & A2 & A3). rewrite leaf_at in A1. assert (a = li_a li) as -> by congruence. unfold known_as. rewrite A2. exact A3. Qed.
    Lemma limit' v : tends_to (leaving V (li_next li)) v -> tends_to (fun n => V n (3 * k)) (v - named_cost exp t_ask t_tell intr fl who (li_a li)).
    Proof.
      intros H. destruct (HG q known_par) as [Hf HH]. assert (HR := tends_attempts _ _ _ _ _ Hf step_robot' H).
      unfold named_cost. rewrite known_par. unfold action_cost. fold rr. pose proof step_before' as SB. destruct w eqn:W.
      - eapply tends_shift; [exact SB|]. eapply tends_ext; [intros n; reflexivity| |apply (tends_add _ (fun _ => (- (t_tell + intr))%Q) _ _ HR (tends_const _))]. unfold robot_cost. field. lra.
      - destruct (HH eq_refl) as [D Hh]. assert (HM := tends_attempts _ _ (1 - finish exp t_ask fl q) _ _ ltac:(lra) (fun n => step_human' n D) H).
        eapply tends_shift; [exact SB|]. eapply tends_ext; [intros n; reflexivity| |apply (tends_add _ (fun _ => (- (t_ask + intr))%Q) _ _ (tends_add _ _ _ _ (tends_scale _ _ (no_proba q) HR) (tends_scale _ _ (1 - no_proba q) HM)) (tends_const _))]. unfold robot_cost, human_cost. field. lra.
    Qed.
  End Leaf.
  Hypothesis HG : Forall (feasible exp t_ask fl who) (leaves t).
  Hypothesis HS : forall s, Start p s = look (map (fun x => (3 * fst x, snd x)) (inits t)) s.
  Lemma mean_limit : tends_to (collected_from_start p (shares_named who t) (3 * L)) (- tree_cost (named_cost exp t_ask t_tell intr fl who) t)%Q.
  Proof.
    assert (H : tends_to (leaving V (shift 0 (inits t))) (0 - tree_cost (named_cost exp t_ask t_tell intr fl who) t)%Q).
    { apply (tree_limit _ V fls) with (next := [(L, 1%Q)]) (after := []).
      - intros li Hl v. apply limit'; auto. rewrite Forall_forall in HG. apply HG. eapply nth_error_In, leaf_at, Hl.
      - exact Pt.
      - auto.
      - eapply tends_ext; [| |apply (tends_const 0%Q)]; [|reflexivity]. intros n. unfold leaving, wsum, V. cbn [sum_over fold_right fst snd]. destruct n; cbn [collected]; [ring|]. rewrite Nat.eqb_refl. ring. }
    eapply tends_ext; [| |exact H]; [|ring]. intros n. unfold collected_from_start, leaving. fold act. fold (V n).
    rewrite (sum_n_ext (nS p) _ (fun s => look (map (fun x : nat * Q => ((3 * fst x)%nat, snd x)) (inits t)) s * V n s)%Q) by (intros s _; rewrite HS; reflexivity).
    rewrite wsum_look.
    - unfold shift, wsum. rewrite !sum_map. reflexivity.
    - rewrite map_map. cbn [fst]. rewrite <- (map_map fst (Nat.mul 3)). apply FinFun.Injective_map_NoDup; [intros x y; lia|apply inits_NoDup].
    - intros x Hx. apply in_map_iff in Hx. destruct Hx as (y & <- & Hy). apply inits_bound in Hy. cbn [fst]. rewrite Es. destruct (reward_state fl); lia.
  Qed.
End Mean.

Lemma named_kept exp t_ask t_tell intr fl who i a a' : action_copy (order_fmt i) a = Ok a' ->
  named_cost exp t_ask t_tell intr fl who a' = named_cost exp t_ask t_tell intr fl who a /\ (feasible exp t_ask fl who a -> feasible exp t_ask fl who a').
Proof. intros H. apply known_kept in H. unfold named_cost, feasible, does. rewrite H. auto. Qed.

(** However the actions are shared between the robot and the human, the average sum of costs until the end tends to the average
    cost of the task. *)
Theorem C128_average : forall exp t_ask t_tell fl t_wait intr end_reward root solver p who,
  inhabited root -> task_to_pomdp exp t_ask t_tell fl t_wait intr end_reward root solver = Ok p -> all_leaves (feasible exp t_ask fl who) root ->
  exists t, unfolds root t /\
    tends_to (collected_from_start p (shares_named who t) (3 * length (leaves t))) (- mean_cost (named_cost exp t_ask t_tell intr fl who) root).
Proof.
  intros exp t_ask t_tell fl t_wait intr end_reward root solver p who HI E HG.
  destruct (conv_inv _ _ _ _ _ _ _ _ _ _ HI E) as (t & T & O & R & S & U & Pt & At & _ & _ & _ & HS & _ & _ & _ & _ & _ & PS & _).
  destruct (C67_moves _ _ _ _ _ _ _ _ _ _ HI E) as (t' & U' & M). assert (t' = t) as -> by (eapply unfolds_unique; eauto). clear U'.
  destruct (C65_tables _ _ _ _ _ _ _ _ _ _ HI E) as (t' & U' & Es & Ea & _ & _ & _ & HOb & _). assert (t' = t) as -> by (eapply unfolds_unique; eauto). clear U'.
  destruct (C85_costs _ _ _ _ _ _ _ _ _ _ HI E) as (t' & U' & C). assert (t' = t) as -> by (eapply unfolds_unique; eauto). clear U'.
  exists t. split; [exact U|]. rewrite <- n_leaves_length in *.
  destruct (unfolds_cost (named_cost exp t_ask t_tell intr fl who) (feasible exp t_ask fl who) (named_kept exp t_ask t_tell intr fl who) root t U) as [EC GL].
  eapply tends_ext; [intros n; reflexivity| |apply (mean_limit exp t_ask t_tell fl t_wait intr end_reward t p who Pt At Es Ea M C)].
  - rewrite EC. reflexivity.
  - intros a s' Ha Hs. apply HOb; auto.
  - apply GL. exact HG.
  - intros s. rewrite PS. apply HS.
Qed.
Print Assumptions C128_average.

(** A leg is mounted, then B and C are done in any order, and the human does B and C; of the alternatives A and B, the human does B. *)
Definition ex_who (n : string) : bool := negb (String.eqb n "B" || String.eqb n "C").
Example C128_ex : exists p, task_to_pomdp ex_exp 1 1 (ex_flags false false false false) 1 1 10 ex_task true = Ok p /\ inhabited ex_task /\
  all_leaves (feasible ex_exp 1 (ex_flags false false false false) ex_who) ex_task /\
  (mean_cost (named_cost ex_exp 1 1 1 (ex_flags false false false false) ex_who) ex_task == 168 # 10)%Q /\
  (mean_cost (named_cost ex_exp 1 1 1 (ex_flags false false false false) ex_who) ex_either == 545 # 100)%Q.
Proof.
  destruct ex_plain as [p E]. exists p. split; [exact E|]. split; [exact ex_task_inhabited|]. split; [|split; vm_compute; reflexivity].
  intros a i p' h H q Hq. cbn in H. repeat (destruct H as [H|H]; [first [discriminate H|inversion H; subst; injection Hq as <-; split; [split; vm_compute; congruence|intros _; split; [reflexivity|split; vm_compute; congruence]]]|]); destruct H.
Qed.
