(** C106: the jobs of the evaluation of supportive policies. *)
From Verif Require Import PyBase QBase HtmModel HtmSpec SuppModel EvalModel ExpModel ExpSpec RunModel SuppLawModel RunSpec RunProofs RunProofs2 PoolModel PoolSpec Props_Run Props_Exp JobModel JobSpec JobProofs JobProofs2.
From Verif Require ScriptSpec.
From Coq Require Import Lia Lqa Permutation.
Local Open Scope list_scope.
Local Open Scope nat_scope.

(** *** From the run of an experiment to the job *)
Section Runs.
  Context {X : Type}.
  Variables (pi : config -> probabilities -> spomdp -> pdict -> res X) (pw : X -> pval -> res X) (pol : nat -> epolicy X).
  Variables (l : list (op (job X))) (w : ExpModel.world) (e : nat) (debug : bool) (init : pdict -> res (job X)) (horizon : Z) (c : chance) (opens : string -> bool).
  Hypothesis R : reachable l w.
  Hypothesis He : e < length (exps w).
  Let hk := job_hooks pw pol init horizon c.
  Let d := params_of (run_of w e debug hk opens) e.
  Lemma job_params k : ExpModel.lookup d k = used w e debug k.
  Proof. apply (C105_run (job X) l w e debug hk opens R He). Qed.
  Lemma job_warmup_given : exists n, ExpModel.lookup d "n_warmup" = Some n.
  Proof.
    rewrite job_params. unfold used. assert (K : parameter w e "n_warmup" <> None) by (apply (C104_present (job X) l w e "n_warmup" R He); cbn; auto).
    destruct debug; [unfold over; cbn; eauto|]. destruct (parameter w e "n_warmup"); [eauto|contradiction].
  Qed.
  Lemma job_success : succeeds w e debug hk opens ->
    exists s s1 t evs n v, init d = Ok s /\ ExpModel.lookup d "n_warmup" = Some n /\ job_warmup pw c s n = Ok (s1, t) /\
      used w e debug "n_evaluations" = Some v /\ job_evaluate pol c horizon s1 v = Ok evs /\ evaluations_of (run_of w e debug hk opens) e evs.
  Proof.
    intros S0. destruct (C105_success (job X) l w e debug hk opens R He S0) as (s & s1 & t & v & (St1 & (n & St2 & St3) & m & St4 & St5) & _ & _ & Ev & _).
    exists s, s1, t, v, n, m. change (params_of (fst (apply (Run e debug hk opens) w)) e) with d in *. rewrite job_params in St4. auto 10.
  Qed.
  Lemma job_runs s s1 t evs v : init d = Ok s -> (forall n, job_warmup pw c s n = Ok (s1, t)) -> used w e debug "n_evaluations" = Some v -> job_evaluate pol c horizon s1 v = Ok evs ->
    (forall p, path_of w e = Some p -> opens p = true /\ writable (used w e debug)) -> succeeds w e debug hk opens.
  Proof.
    intros H1 H2 H3 H4 H5. apply (C105_run (job X) l w e debug hk opens R He). destruct job_warmup_given as [n Hn].
    exists s, s1, t, evs. split; [|split; [reflexivity|exact H5]]. split; [exact H1|]. split; [exists n; split; [exact Hn|apply H2]|]. exists v. split; [|exact H4]. rewrite <- H3. apply job_params.
  Qed.
  Lemma job_fails x : init d = Err x -> raises w e debug hk opens x /\ same_files w (run_of w e debug hk opens).
  Proof.
    intros H. unfold raises, run_of. destruct (snd (apply (Run e debug hk opens) w)) as [pb|] eqn:O.
    - pose proof (C105_cause (job X) l w e debug hk opens pb R He O) as F. change (params_of (fst (apply (Run e debug hk opens) w)) e) with d in F.
      assert (NS : forall s s1 t v, ~ stages hk d s s1 t v) by (intros s s1 t v (A & _); cbn in A; congruence).
      split; [|destruct (C105_failure (job X) l w e debug hk opens R He) as [K|(p & _ & _ & _ & (s & s1 & t & v & St) & _)]; [congruence|exact K|destruct (NS _ _ _ _ St)]].
      inversion F as [x' A|s n x' A B|s n s1 t m x' A B|s s1 t v x' St|s s1 t v p St|s s1 t v p k St]; subst; try (cbn in A; congruence); destruct (NS _ _ _ _ St).
    - destruct (C105_success (job X) l w e debug hk opens R He O) as (s & s1 & t & v & (A & _) & _). change (params_of (fst (apply (Run e debug hk opens) w)) e) with d in A. cbn in A. congruence.
  Qed.
  (** A run with a scripted policy *)
  Lemma by_process j v k evs : integer v = Ok (Z.of_nat k) -> job_evaluate pol c horizon j v = Ok evs ->
    exists g, Permutation evs (map g (seq 0 k)) /\ forall p, p < k -> one_evaluation pol c horizon j p = Ok (g p).
  Proof.
    intros Ev E. destruct (evaluate_inv _ _ _ _ _ _ E) as (z & Ez & P). assert (z = Z.of_nat k) as -> by congruence. rewrite Nat2Z.id in P.
    set (dummy := {| ev_record := {| r_return := 0; r_states := []; r_actions := []; r_observations := []; r_rewards := [] |}; ev_elapsed := 0; ev_calls := 0 |}).
    set (h := fun r : res evaluation => match r with Ok x => x | Err _ => dummy end).
    exists (fun p => h (one_evaluation pol c horizon j p)). split.
    - apply (Permutation_map h) in P. rewrite !map_map in P. cbn [h] in P. rewrite map_id in P. exact P.
    - intros p Hp. assert (K : In (one_evaluation pol c horizon j p) (map Ok evs)). { apply (Permutation_in _ (Permutation_sym P)), in_map, in_seq. lia. }
      apply in_map_iff in K. destruct K as (x & <- & _). reflexivity.
  Qed.
  Lemma run_script ordn t m cf pr n holds s0 k : is_order ordn -> mk_supportive ordn t = Ok m -> cf_preferences cf = 1 ->
    new_script (actions m) observations (Z.of_nat n) holds = Ok s0 -> In "bring leg"%string (actions m) -> holds <> [] -> incl holds ["hold H"; "hold V"]%string ->
    init d = Ok {| jb_config := cf; jb_probabilities := pr; jb_model := m; jb_runner := Script s0 0 |} ->
    has_integer (used w e debug) "n_evaluations" (Z.of_nat k) -> healthy c k -> (forall p, path_of w e = Some p -> opens p = true /\ writable (used w e debug)) ->
    succeeds w e debug hk opens /\ exists s1 evs g, ScriptSpec.after s0 [ScriptSpec.Look (ch_warmup c 0)] = Some s1 /\
      evaluations_of (run_of w e debug hk opens) e evs /\ Permutation evs (map g (seq 0 k)) /\
      forall p, p < k -> one_evaluation pol c horizon {| jb_config := cf; jb_probabilities := pr; jb_model := m; jb_runner := Script s1 1 |} p = Ok (g p).
  Proof.
    intros Ho Em Hc New Hleg Hne Hh Hi (q & Hq & Ez) Hk Hp. unfold has_number in Hq. assert (Ev : integer (VJson (JNum q)) = Ok (Z.of_nat k)) by (apply integer_iff; eauto).
    destruct (warm pw cf pr m holds (Z.of_nat n) s0 c (VJson JNull) New Hleg Hne Hh) as (s1 & _ & A).
    assert (W : forall v, job_warmup pw c {| jb_config := cf; jb_probabilities := pr; jb_model := m; jb_runner := Script s0 0 |} v = Ok ({| jb_config := cf; jb_probabilities := pr; jb_model := m; jb_runner := Script s1 1 |}, ch_clock c)).
    { intros v. destruct (warm pw cf pr m holds (Z.of_nat n) s0 c v New Hleg Hne Hh) as (s1' & W1 & W2). assert (s1' = s1) as -> by congruence. exact W1. }
    destruct (evaluate_ok pol c horizon {| jb_config := cf; jb_probabilities := pr; jb_model := m; jb_runner := Script s1 1 |} _ _ Ev) as (evs & E).
    { rewrite Nat2Z.id. exact Hk. } { intros p _. eapply script_one; eauto. }
    pose proof (job_runs _ _ _ _ _ Hi W Hq E Hp) as S0. split; [exact S0|].
    destruct (job_success S0) as (j0 & j1 & t' & evs' & n' & v & J1 & J2 & J3 & J4 & J5 & J6). rewrite Hi in J1. injection J1 as <-. rewrite W in J3. injection J3 as <- <-.
    assert (v = VJson (JNum q)) as -> by congruence. assert (evs' = evs) as -> by congruence. destruct (by_process _ _ _ _ Ev E) as (g & G1 & G2).
    exists s1, evs, g. auto.
  Qed.
End Runs.

(** *** C106 *)
(** The scripted policies on the tasks of the multitask job: the run succeeds, each evaluation follows the script of the policy, its return is
    the sum of its rewards, and an evaluation that ends has assembled all legs.  The policy of the sequence never ends on the other tasks. *)
Theorem C106_multitask : forall X (pi : config -> probabilities -> spomdp -> pdict -> res X) pw pol ordn (l : list (op (job X))) w e debug c opens task policy n k,
  is_order ordn -> reachable l w -> e < length (exps w) -> let f := used w e debug in
  In task ["sequence"; "uniform"; "alternative"]%string -> has_text f "task" task -> In policy ["repeat"; "random"]%string -> has_text f "policy" policy ->
  (task = "sequence"%string -> has_integer f "n_subtasks" (Z.of_nat n) /\ 1 <= n) -> has_integer f "n_evaluations" (Z.of_nat k) -> healthy c k ->
  (forall p, path_of w e = Some p -> opens p = true /\ writable f) ->
  let hk := multitask_job pi pw pol ordn c in
  succeeds w e debug hk opens /\
  exists t m evs, task_of task n = Ok t /\ mk_supportive ordn t = Ok m /\ evaluations_of (run_of w e debug hk opens) e evs /\ length evs = k /\
  forall v, In v evs -> let cf := multitask_config task in let rec := ev_record v in
    scripted cf m (script_legs task policy n) (script_holds policy) 200 rec /\ summed rec /\
    (r_return rec <= 18 * inject_Z (Z.of_nat (legs_of task n)) + 10)%Q /\
    (reaches_end cf m rec -> leaves_finished cf m (turns_of m rec) = legs_of task n) /\
    (policy = "repeat"%string -> task <> "sequence"%string -> length (r_actions rec) = 200 /\ ~ reaches_end cf m rec /\ (r_return rec <= 72)%Q).
Proof.
  intros X pi pw pol ordn l w e debug c opens task policy n k Ho R He f Hi Ht Hp Hpt Hn Hk Hc Hw hk.
  set (d := params_of (run_of w e debug hk opens) e). assert (D : forall x, ExpModel.lookup d x = f x) by (intros x; apply (job_params pw pol l w e debug (multitask_init pi ordn) 200%Z c opens R He)).
  destruct (multitask_script pi ordn Ho d task policy n Hi) as (t & m & s0 & Et & Em & G & Hleg & New & Ei).
  { unfold text_of. rewrite D. exact Ht. }
  { intros K. destruct (Hn K) as ((q & Hq & Ez) & K'). exists (VJson (JNum q)). split; [rewrite D; exact Hq|]. split; [apply integer_iff; eauto|exact K']. }
  { exact Hp. } { unfold text_of. rewrite D. exact Hpt. }
  destruct (multitask_best task Hi) as (Hc1 & Hcost & B1 & B2).
  assert (Hne : script_holds policy <> []) by (unfold script_holds; destruct (String.eqb policy "random"); discriminate).
  assert (Hh : incl (script_holds policy) ["hold H"; "hold V"]%string) by (unfold script_holds; destruct (String.eqb policy "random"); [intros x Hx; exact Hx|intros x [<-|[]]; left; reflexivity]).
  destruct (run_script pw pol l w e debug (multitask_init pi ordn) 200%Z c opens R He ordn t m (multitask_config task) multitask_probabilities (script_legs task policy n) (script_holds policy) s0 k Ho Em Hc1 New Hleg Hne Hh Ei Hk Hc Hw) as (S0 & s1 & evs & g & Ha & Hev & P & Hg).
  split; [exact S0|]. exists t, m, evs. split; [exact Et|]. split; [exact Em|]. split; [exact Hev|]. split; [rewrite (Permutation_length P), map_length, seq_length; reflexivity|].
  intros v Hv cf rec. apply (Permutation_in _ P) in Hv. apply in_map_iff in Hv. destruct Hv as (p & <- & Hpk). apply in_seq in Hpk. specialize (Hg p ltac:(lia)).
  destruct (script_facts pol cf multitask_probabilities ordn t m _ _ s0 s1 c Ho Em Hc1 New Hleg Hne Hh Ha 200%Z p _ Hg) as [F1 F2]. split; [exact F1|].
  split; [apply (one_summed _ _ _ _ _ _ Hg)|].
  destruct G as (_ & _ & Words & _).
  destruct (one_bound pol c 200%Z {| jb_config := cf; jb_probabilities := multitask_probabilities; jb_model := m; jb_runner := Script s1 1 |} p (g p) ordn t (legs_of task n) Ho Em Hc1 Hcost) as (O1 & O2 & O3 & O4);
    [cbn [jb_config]; fold cf in B1; lra|cbn [jb_config]; fold cf in B2; lra|exact Words|exact Hg|].
  cbn [jb_config jb_model] in *. fold cf rec in O1, O2, O3, O4, B1, B2. split; [rewrite B1, B2 in O1; lra|]. split; [exact O3|].
  intros -> Hs. destruct F2 as [F2 F3].
  { intros word W. rewrite (Words word W). destruct Hi as [<-|[<-|[<-|[]]]]; [contradiction|cbn; lia|cbn; lia]. }
  split; [exact F2|]. split; [exact F3|]. specialize (O4 F3). rewrite B1 in O4. assert (K : legs_of task n = 4) by (destruct Hi as [<-|[<-|[<-|[]]]]; [contradiction|reflexivity|reflexivity]). rewrite K in O4. fold cf in rec. change (inject_Z (Z.of_nat 4)) with 4%Q in O4. lra.
Qed.
Print Assumptions C106_multitask.

Lemma warm_same {X} (pw : X -> pval -> res X) c j n j' t : job_warmup pw c j n = Ok (j', t) -> jb_config j' = jb_config j /\ jb_model j' = jb_model j.
Proof.
  unfold job_warmup. match goal with |- (do r <- ?x; _) = _ -> _ => destruct x as [r|] end; cbn [bind]; [|discriminate]. intros [= <- <-]. auto.
Qed.
(** The bounds on the returns, whatever the policy *)
Theorem C106_bound : forall X (pi : config -> probabilities -> spomdp -> pdict -> res X) pw pol ordn (l : list (op (job X))) w e debug c opens,
  is_order ordn -> reachable l w -> e < length (exps w) -> let f := used w e debug in
  (let hk := multitask_job pi pw pol ordn c in succeeds w e debug hk opens ->
   exists task n k evs, In task ["sequence"; "uniform"; "alternative"]%string /\ has_text f "task" task /\ (task = "sequence"%string -> has_integer f "n_subtasks" (Z.of_nat n) /\ 1 <= n) /\
     has_integer f "n_evaluations" k /\ evaluations_of (run_of w e debug hk opens) e evs /\ length evs = Z.to_nat k /\
     forall v, In v evs -> summed (ev_record v) /\ length (r_actions (ev_record v)) <= 200 /\ (r_return (ev_record v) <= 18 * inject_Z (Z.of_nat (legs_of task n)) + 10)%Q) /\
  (let hk := preference_job pi pw pol ordn c in succeeds w e debug hk opens ->
   exists k evs, has_integer f "n_evaluations" k /\ evaluations_of (run_of w e debug hk opens) e evs /\ length evs = Z.to_nat k /\
     forall v, In v evs -> summed (ev_record v) /\ length (r_actions (ev_record v)) <= 15 /\ (r_return (ev_record v) <= 48)%Q) /\
  (let hk := pomcp_job pi pw pol ordn c in succeeds w e debug hk opens ->
   exists k evs i, has_integer f "n_evaluations" k /\ evaluations_of (run_of w e debug hk opens) e evs /\ length evs = Z.to_nat k /\ f "intermediate-rewards"%string = Some i /\
     forall v, In v evs -> summed (ev_record v) /\ length (r_actions (ev_record v)) <= 200 /\ (r_return (ev_record v) <= 184)%Q /\ (~ off i -> (r_return (ev_record v) <= 174)%Q)).
Proof.
  intros X pi pw pol ordn l w e debug c opens Ho R He f.
  assert (G : forall init horizon, let hk := job_hooks pw pol init horizon c in succeeds w e debug hk opens ->
    exists j k evs, init (params_of (run_of w e debug hk opens) e) = Ok j /\ has_integer f "n_evaluations" k /\ evaluations_of (run_of w e debug hk opens) e evs /\ length evs = Z.to_nat k /\
    forall v, In v evs -> summed (ev_record v) /\ length (r_actions (ev_record v)) <= Z.to_nat horizon /\
      forall t n, mk_supportive ordn t = Ok (jb_model j) -> cf_preferences (jb_config j) = 1 -> no_negative_cost (jb_config j) -> (0 <= best_leaf (jb_config j))%Q -> (0 <= r_final (jb_config j))%Q ->
        (forall word, DagSpec.executes (fun a => a) t word -> length word = n) -> (r_return (ev_record v) <= inject_Z (Z.of_nat n) * best_leaf (jb_config j) + r_final (jb_config j))%Q).
  { intros init horizon hk S0. destruct (job_success pw pol l w e debug init horizon c opens R He S0) as (s & s1 & t & evs & n & v & J1 & _ & J3 & J4 & J5 & J6).
    destruct (warm_same _ _ _ _ _ _ J3) as [Wc Wm]. destruct (evaluate_facts _ _ _ _ _ _ J5) as (z & Z1 & Z2 & Z3). apply integer_iff in Z1. destruct Z1 as (q & -> & Eq).
    exists s, z, evs. split; [exact J1|]. split; [exists q; split; [exact J4|exact Eq]|]. split; [exact J6|]. split; [exact Z2|].
    intros x Hx. destruct (Z3 x Hx) as (p & _ & Hp). split; [apply (one_summed _ _ _ _ _ _ Hp)|]. split; [apply (one_horizon _ _ _ _ _ _ Hp)|].
    intros t0 n0 Em H1 H2 H3 H4 H5. rewrite <- Wc, <- Wm in *. apply (one_bound pol c horizon s1 p x ordn t0 n0 Ho Em H1 H2 H3 H4 H5 Hp). }
  assert (D : forall init horizon x, ExpModel.lookup (params_of (run_of w e debug (job_hooks pw pol init horizon c) opens) e) x = f x) by (intros init horizon x; apply (job_params pw pol l w e debug init horizon c opens R He)).
  split; [|split]; intros hk S0.
  - destruct (G (multitask_init pi ordn) 200%Z S0) as (j & k & evs & J1 & J2 & J3 & J4 & J5).
    destruct (multitask_valid pi ordn _ j J1) as (task & n & Hi & Ht & Hn).
    destruct (multitask_task pi ordn Ho _ task n Hi Ht Hn) as (t & m & _ & Em & (_ & _ & Words & _) & Ei). rewrite Ei in J1.
    assert (Ej : jb_config j = multitask_config task /\ jb_model j = m).
    { revert J1. destruct (get_parameter _ _) as [v|]; cbn [bind]; [|discriminate]. match goal with |- (do r <- ?x; _) = _ -> _ => destruct x as [r|] end; cbn [bind]; [|discriminate]. intros [= <-]. auto. }
    destruct Ej as [Ec Ej]. exists task, n, k, evs. split; [exact Hi|]. unfold text_of in Ht. rewrite D in Ht. split; [exact Ht|]. split.
    { intros K. destruct (Hn K) as (v & V1 & V2 & V3). rewrite D in V1. apply integer_iff in V2. destruct V2 as (q & -> & V2). split; [exists q; split; [exact V1|exact V2]|exact V3]. }
    split; [exact J2|]. split; [exact J3|]. split; [exact J4|]. intros v Hv. destruct (J5 v Hv) as (K1 & K2 & K3). split; [exact K1|]. split; [exact K2|].
    destruct (multitask_best task Hi) as (Hc1 & Hcost & B1 & B2). rewrite Ec, Ej in K3. specialize (K3 t (legs_of task n) Em Hc1 Hcost ltac:(lra) ltac:(lra) Words). rewrite B1, B2 in K3. lra.
  - destruct (G (preference_init pi ordn) 15%Z S0) as (j & k & evs & J1 & J2 & J3 & J4 & J5). destruct (preference_valid pi ordn _ j J1) as [Em Ec].
    destruct (one_leg_good ordn Ho) as (_ & _ & Words & _). exists k, evs. repeat (split; [assumption|]). intros v Hv. destruct (J5 v Hv) as (K1 & K2 & K3). split; [exact K1|]. split; [exact K2|].
    rewrite Ec in K3. specialize (K3 one_leg 1 Em eq_refl). assert (B : (best_leaf preference_config == 38)%Q /\ (r_final preference_config == 10)%Q) by (split; vm_compute; reflexivity). destruct B as [B1 B2].
    specialize (K3 ltac:(repeat split; vm_compute; discriminate) ltac:(lra) ltac:(lra) Words). rewrite B1, B2 in K3. change (inject_Z (Z.of_nat 1)) with 1%Q in K3. lra.
  - destruct (G (pomcp_job_init pi ordn) 200%Z S0) as (j & k & evs & J1 & J2 & J3 & J4 & J5). destruct (pomcp_valid pi ordn _ j J1) as (t & i & Et & Em & Hi & Ec). rewrite D in Hi.
    exists k, evs, i. repeat (split; [assumption|]). intros v Hv. destruct (J5 v Hv) as (K1 & K2 & K3). split; [exact K1|]. split; [exact K2|]. specialize (K3 t 8 Em). rewrite Ec in K3.
    assert (B : (best_leaf (stool_config (true_value i)) == if true_value i then 18 else 8)%Q /\ (r_final (stool_config (true_value i)) == if true_value i then 30 else 120)%Q) by (destruct (true_value i); split; vm_compute; reflexivity). destruct B as [B1 B2].
    specialize (K3 ltac:(destruct (true_value i); reflexivity) ltac:(destruct (true_value i); repeat split; vm_compute; discriminate) ltac:(destruct (true_value i); lra) ltac:(destruct (true_value i); lra) (fun word => stool_words t word Et)).
    rewrite B1, B2 in K3. change (inject_Z (Z.of_nat 8)) with 8%Q in K3. split; [destruct (true_value i); lra|]. intros No.
    assert (true_value i = true) as TV; [|rewrite TV in K3; lra]. destruct i as [j'| | |]; [|reflexivity|reflexivity|reflexivity]. cbn [true_value]. destruct j' as [|q|b|s|l'|d']; cbn [truthy].
    + destruct No; constructor.
    + destruct (Qeq_bool q 0) eqn:Q0; [|reflexivity]. apply Qeq_bool_eq in Q0. destruct No. constructor. exact Q0.
    + destruct b; [reflexivity|destruct No; constructor].
    + destruct (String.eqb_spec s ""%string) as [->|]; [destruct No; constructor|reflexivity].
    + destruct l'; [destruct No; constructor|reflexivity].
    + destruct d'; [destruct No; constructor|reflexivity].
Qed.
Print Assumptions C106_bound.

(** The policy of the sequence on its task when nothing unlikely happens: what is done in process p and its return *)
Theorem C106_smooth : forall X (pi : config -> probabilities -> spomdp -> pdict -> res X) pw pol ordn (l : list (op (job X))) w e debug c opens n k,
  is_order ordn -> reachable l w -> e < length (exps w) -> let f := used w e debug in
  has_text f "task" "sequence" -> has_text f "policy" "repeat" -> has_integer f "n_subtasks" (Z.of_nat n) -> 1 <= n -> 2 * n + 7 <= 200 ->
  has_integer f "n_evaluations" (Z.of_nat k) -> healthy c k -> (forall p, path_of w e = Some p -> opens p = true /\ writable f) ->
  let hk := multitask_job pi pw pol ordn c in
  succeeds w e debug hk opens /\
  exists t m evs g, task_long_sequence n = Ok t /\ mk_supportive ordn t = Ok m /\ evaluations_of (run_of w e debug hk opens) e evs /\ Permutation evs (map g (seq 0 k)) /\
  forall p, p < k -> (forall i, ordinary m (ch_step c p i)) -> (first_preference c p < 1)%Q ->
    let rec := ev_record (g p) in
    map t_name (turns_of m rec) = smooth_names n /\ (r_return rec == 17 * inject_Z (Z.of_nat n) + 4)%Q /\ reaches_end (multitask_config "sequence") m rec.
Proof.
  intros X pi pw pol ordn l w e debug c opens n k Ho R He f Ht Hpt Hn Hn1 Hn2 Hk Hc Hw hk.
  set (d := params_of (run_of w e debug hk opens) e). assert (D : forall x, ExpModel.lookup d x = f x) by (intros x; apply (job_params pw pol l w e debug (multitask_init pi ordn) 200%Z c opens R He)).
  assert (Hi : In "sequence"%string tasks) by (left; reflexivity).
  destruct (multitask_script pi ordn Ho d "sequence" "repeat" n Hi) as (t & m & s0 & Et & Em & G & Hleg & New & Ei).
  { unfold text_of. rewrite D. exact Ht. }
  { intros K. destruct Hn as (q & Hq & Ez). exists (VJson (JNum q)). split; [rewrite D; exact Hq|]. split; [apply integer_iff; eauto|exact Hn1]. }
  { left. reflexivity. } { unfold text_of. rewrite D. exact Hpt. }
  destruct (multitask_best "sequence" Hi) as (Hc1 & Hcost & B1 & B2).
  change (script_legs "sequence" "repeat" n) with n in *. change (script_holds "repeat") with ["hold H"%string] in *.
  assert (Hh : incl ["hold H"%string] ["hold H"; "hold V"]%string) by (intros x [<-|[]]; left; reflexivity).
  destruct (run_script pw pol l w e debug (multitask_init pi ordn) 200%Z c opens R He ordn t m (multitask_config "sequence") multitask_probabilities n ["hold H"%string] s0 k Ho Em Hc1 New Hleg ltac:(discriminate) Hh Ei Hk Hc Hw) as (S0 & s1 & evs & g & Ha & Hev & P & Hg).
  split; [exact S0|]. exists t, m, evs, g. split; [exact Et|]. split; [exact Em|]. split; [exact Hev|]. split; [exact P|].
  intros p Hp Ord Hf rec. specialize (Hg p Hp). destruct (sequence_good ordn n Ho Hn1) as (t' & Et' & _ & Tree & Words & _). change (task_of "sequence" n) with (task_long_sequence n) in Et. assert (t' = t) as -> by congruence.
  destruct (smooth_one pol (multitask_config "sequence") multitask_probabilities 1%Q ordn t m n s0 s1 c Ho Em Hc1 New Ha Tree Words ltac:(vm_compute; discriminate) ltac:(vm_compute; discriminate) ltac:(vm_compute; discriminate) eq_refl 200%Z p (g p) Hg Ord Hf ltac:(lia)) as (F1 & F2 & F3).
  split; [exact F1|]. split; [|exact F3]. unfold rec. rewrite F2, total_smooth. rewrite Nat2Z.inj_add, inject_Z_plus. change (inject_Z (Z.of_nat 6)) with 6%Q. change (r_subtask (multitask_config "sequence")) with 10%Q. change (r_preference (multitask_config "sequence")) with 10%Q. change (cost_hold (multitask_config "sequence")) with 2%Q. change (r_final (multitask_config "sequence")) with 10%Q. change (cost_intrinsic (multitask_config "sequence")) with 1%Q. ring.
Qed.
Print Assumptions C106_smooth.

(** The policy that always holds, for one leg and one preference that does not change: with a human who wants it held, and with another, for whom
    the policy asks to hold until the horizon. *)
Theorem C106_preference : forall X (pi : config -> probabilities -> spomdp -> pdict -> res X) pw pol ordn (l : list (op (job X))) w e debug c opens pp k,
  is_order ordn -> reachable l w -> e < length (exps w) -> let f := used w e debug in
  has_number f "p_preference" pp -> f "p_change_preference"%string = None \/ (exists ch, has_number f "p_change_preference" ch /\ (ch <= 0)%Q) -> has_text f "policy" "always-hold" ->
  has_integer f "n_evaluations" (Z.of_nat k) -> healthy c k -> (forall p, path_of w e = Some p -> opens p = true /\ writable f) ->
  let hk := preference_job pi pw pol ordn c in
  succeeds w e debug hk opens /\
  exists m evs g, mk_supportive ordn (leaf_of (assemble_leg "leg")) = Ok m /\ evaluations_of (run_of w e debug hk opens) e evs /\ Permutation evs (map g (seq 0 k)) /\
  forall p, p < k -> (forall i, ordinary m (ch_step c p i)) ->
    let rec := ev_record (g p) in
    ((first_preference c p < pp)%Q -> map t_name (turns_of m rec) = smooth_names 1 /\ (r_return rec == 41)%Q /\ reaches_end preference_config m rec) /\
    ((pp <= first_preference c p)%Q -> map t_name (turns_of m rec) = refused_names 15 /\ (r_return rec == - (26))%Q /\ ~ reaches_end preference_config m rec).
Proof.
  intros X pi pw pol ordn l w e debug c opens pp k Ho R He f Hpp Hch Hpt Hk Hc Hw hk.
  set (d := params_of (run_of w e debug hk opens) e). assert (D : forall x, ExpModel.lookup d x = f x) by (intros x; apply (job_params pw pol l w e debug (preference_init pi ordn) 15%Z c opens R He)).
  assert (exists ch, changes d = Ok ch /\ (ch <= 0)%Q) as (ch & Ech & Hc0).
  { unfold changes. rewrite D. destruct Hch as [->|(ch & -> & K)]; [exists 0%Q; split; [reflexivity|lra]|exists ch; split; [reflexivity|exact K]]. }
  destruct (preference_task pi ordn Ho d pp ch) as (m & Em & Ei); [rewrite D; exact Hpp|exact Ech|].
  destruct (one_leg_good ordn Ho) as (_ & Tree & Words & HX).
  destruct (good_script ordn one_leg 1 1 m 1%Z ["hold H"%string] Ho (weaken _ _ _ _ _ _ (one_leg_good ordn Ho) (fun q H => proj1 H)) Em) as (Hleg & Hns & s0 & New); [intros x [<-|[]]; left; reflexivity|].
  assert (Hh : incl ["hold H"%string] ["hold H"; "hold V"]%string) by (intros x [<-|[]]; left; reflexivity).
  assert (Ej : preference_init pi ordn d = Ok {| jb_config := preference_config; jb_probabilities := preference_probabilities pp ch; jb_model := m; jb_runner := Script s0 0 |}).
  { rewrite Ei. unfold get_parameter. rewrite D. unfold has_text in Hpt. rewrite Hpt. cbn [bind]. rewrite !is_text_same. cbn [String.eqb Ascii.eqb Bool.eqb]. unfold long_sequence. rewrite Hns. change (Z.of_nat 1) with 1%Z. rewrite New. reflexivity. }
  destruct (run_script pw pol l w e debug (preference_init pi ordn) 15%Z c opens R He ordn one_leg m preference_config (preference_probabilities pp ch) 1 ["hold H"%string] s0 k Ho Em eq_refl New Hleg ltac:(discriminate) Hh Ej Hk Hc Hw) as (S0 & s1 & evs & g & Ha & Hev & P & Hg).
  split; [exact S0|]. exists m, evs, g. split; [exact Em|]. split; [exact Hev|]. split; [exact P|].
  intros p Hp Ord rec. specialize (Hg p Hp). split; intros Hf.
  - destruct (smooth_one pol preference_config (preference_probabilities pp ch) pp ordn one_leg m 1 s0 s1 c Ho Em eq_refl New Ha Tree Words ltac:(vm_compute; discriminate) Hc0 ltac:(vm_compute; discriminate) eq_refl 15%Z p (g p) Hg Ord Hf ltac:(lia)) as (F1 & F2 & F3).
    split; [exact F1|]. split; [|exact F3]. unfold rec. rewrite F2. vm_compute. reflexivity.
  - destruct (refused_one pol preference_config (preference_probabilities pp ch) pp ordn one_leg m 1 s0 s1 c Ho Em eq_refl New Ha Words ltac:(vm_compute; discriminate) Hc0 ltac:(vm_compute; discriminate) eq_refl Hleg 15%Z p (g p) Hg Ord Hf) as (_ & F1 & F2 & F3).
    split; [exact F1|]. split; [|exact F3]. unfold rec. rewrite F2. vm_compute. reflexivity.
Qed.
Print Assumptions C106_preference.

(** The policy that never holds cannot be run. *)
Theorem C106_never_hold : forall X (pi : config -> probabilities -> spomdp -> pdict -> res X) pw pol ordn (l : list (op (job X))) w e debug c opens pp,
  is_order ordn -> reachable l w -> e < length (exps w) -> let f := used w e debug in
  has_number f "p_preference" pp -> f "p_change_preference"%string = None \/ (exists ch, has_number f "p_change_preference" ch) -> has_text f "policy" "never-hold" ->
  let hk := preference_job pi pw pol ordn c in raises w e debug hk opens EAttr /\ same_files w (run_of w e debug hk opens).
Proof.
  intros X pi pw pol ordn l w e debug c opens pp Ho R He f Hpp Hch Hpt hk. apply (job_fails pw pol l w e debug (preference_init pi ordn) 15%Z c opens R He).
  change (job_hooks pw pol (preference_init pi ordn) 15 c) with hk. set (d := params_of (run_of w e debug hk opens) e). assert (D : forall x, ExpModel.lookup d x = f x) by (intros x; apply (job_params pw pol l w e debug (preference_init pi ordn) 15%Z c opens R He)).
  assert (exists ch, changes d = Ok ch) as (ch & Ech). { unfold changes. rewrite D. destruct Hch as [->|(ch & ->)]; eexists; reflexivity. }
  destruct (preference_task pi ordn Ho d pp ch) as (m & Em & Ei); [rewrite D; exact Hpp|exact Ech|].
  destruct (good_script ordn one_leg 1 1 m 1%Z ["hold H"%string] Ho (weaken _ _ _ _ _ _ (one_leg_good ordn Ho) (fun q H => proj1 H)) Em) as (Hleg & Hns & s0 & New); [intros x [<-|[]]; left; reflexivity|].
  rewrite Ei. unfold get_parameter. rewrite D. unfold has_text in Hpt. rewrite Hpt. cbn [bind]. rewrite !is_text_same. cbn [String.eqb Ascii.eqb Bool.eqb]. unfold long_sequence. rewrite Hns. change (Z.of_nat 1) with 1%Z. rewrite New. reflexivity.
Qed.
Print Assumptions C106_never_hold.

(** Parameters that are refused: the exception, before anything is written *)
Theorem C106_refused : forall X (pi : config -> probabilities -> spomdp -> pdict -> res X) pw pol ordn (l : list (op (job X))) w e debug c opens x,
  is_order ordn -> reachable l w -> e < length (exps w) -> refused (used w e debug) x ->
  let hk := multitask_job pi pw pol ordn c in raises w e debug hk opens x /\ same_files w (run_of w e debug hk opens).
Proof.
  intros X pi pw pol ordn l w e debug c opens x Ho R He H hk. apply (job_fails pw pol l w e debug (multitask_init pi ordn) 200%Z c opens R He).
  change (job_hooks pw pol (multitask_init pi ordn) 200 c) with hk. set (d := params_of (run_of w e debug hk opens) e).
  assert (D : forall x, ExpModel.lookup d x = used w e debug x) by (intros y; apply (job_params pw pol l w e debug (multitask_init pi ordn) 200%Z c opens R He)).
  clearbody d. set (f := used w e debug) in *. clearbody f.
  assert (V : valid_task f -> exists task m n, multitask_init pi ordn d =
      do policy <- get_parameter d "policy";
      do r <- (if is_text policy "pomcp" then do x <- pi (multitask_config task) multitask_probabilities m d; Ok (Pomcp x)
               else if is_text policy "repeat" then do s <- long_sequence m; Ok (Script s 0)
               else if is_text policy "random" then do s <- alternatives m n; Ok (Script s 0)
               else Err ENotImpl);
      Ok {| jb_config := multitask_config task; jb_probabilities := multitask_probabilities; jb_model := m; jb_runner := r |}).
  { intros (task & Hi & Ht & Hn). assert (exists n, task = "sequence"%string -> exists v, ExpModel.lookup d "n_subtasks" = Some v /\ integer v = Ok (Z.of_nat n) /\ 1 <= n) as (n & Hn').
    { destruct (String.eqb_spec task "sequence") as [K|K]; [|exists 0; intros K'; contradiction]. destruct (Hn K) as (z & (q & Hq & Ez) & Hz). exists (Z.to_nat z). intros _. exists (VJson (JNum q)).
      rewrite D. split; [exact Hq|]. split; [apply integer_iff; exists q; rewrite Z2Nat.id by lia; auto|lia]. }
    destruct (multitask_task pi ordn Ho d task n Hi) as (t & m & _ & _ & _ & Ei); [unfold text_of; rewrite D; exact Ht|exact Hn'|]. exists task, m, (Z.of_nat (legs_of task n)). exact Ei. }
  destruct H as [H|v H1 H2|s H1 H2|H1 H2|v H1 H2 H3|z H1 (q & H2 & H4) H3|Hv H|v Hv H1 H2].
  - unfold multitask_init, get_parameter at 1. rewrite D, H. reflexivity.
  - unfold multitask_init, get_parameter at 1. rewrite D, H1. cbn [bind]. assert (K : forall s, is_text v s = false). { intros s. destruct (is_text v s) eqn:E; [|reflexivity]. apply is_text_iff in E. destruct (H2 _ E). } rewrite !K. destruct v as [[]| | |]; try reflexivity. destruct (H2 s eq_refl).
  - unfold multitask_init, get_parameter at 1. unfold has_text in H1. rewrite D, H1. cbn [bind]. assert (K : forall s', In s' job_tasks -> is_text (VJson (JText s)) s' = false). { intros s' K. rewrite is_text_same. apply String.eqb_neq. intros ->. contradiction. } rewrite !K by (cbn; tauto). reflexivity.
  - unfold multitask_init. unfold get_parameter at 1 2. unfold has_text in H1. rewrite !D, H1, H2. reflexivity.
  - unfold multitask_init. unfold get_parameter at 1 2. unfold has_text in H1. rewrite !D, H1, H2. cbn [bind]. rewrite is_text_same. cbn [String.eqb Ascii.eqb Bool.eqb bind].
    assert (K : integer v = Err EType). { destruct (integer v) as [z|er] eqn:E; [|destruct v as [[]| | |]; cbn in E; try congruence; destruct (Z.eqb _ _); congruence]. apply integer_iff in E. destruct E as (q & -> & E). destruct (H3 z). exists q. split; [exact H2|exact E]. }
    rewrite K. reflexivity.
  - unfold multitask_init. unfold get_parameter at 1 2. unfold has_text, has_number in *. rewrite !D, H1, H2. cbn [bind]. rewrite !is_text_same. cbn [String.eqb Ascii.eqb Bool.eqb].
    assert (K : integer (VJson (JNum q)) = Ok z) by (apply integer_iff; eauto). rewrite K. cbn [bind]. replace (Z.to_nat z) with 0 by lia. destruct (task_long_sequence 0) as [t|] eqn:Et; [|cbv in Et; discriminate]. cbn [bind]. rewrite (no_task ordn t Et). reflexivity.
  - destruct (V Hv) as (task & m & n & ->). unfold get_parameter at 1. rewrite D, H. reflexivity.
  - destruct (V Hv) as (task & m & n & ->). unfold get_parameter at 1. rewrite D, H1. cbn [bind].
    assert (K : forall s, In s ["pomcp"; "repeat"; "random"]%string -> is_text v s = false). { intros s K. destruct (is_text v s) eqn:E; [|reflexivity]. apply is_text_iff in E. destruct (H2 s K E). } rewrite !K by (cbn; tauto). reflexivity.
Qed.
Print Assumptions C106_refused.

(** *** Examples *)
(** Three repetitions: the preferences drawn first are 1/10, 95/100 and 1/2, nothing else happens. *)
Definition jx_numbers (q : Q) : numbers := {| n_objects := [1 # 2; 1 # 2; 1 # 2; 1 # 2]%Q; n_preferences := [q]; n_luck := 1 # 2; n_index := 0; n_consume := [1%Q; 1%Q; 1%Q; 1%Q; 1%Q; 1%Q; 1%Q; 1%Q] |}.
Definition jx_chance : chance :=
  {| ch_choices := fun p k => p + k; ch_start := fun p => jx_numbers (nth p [1 # 10; 95 # 100; 1 # 2]%Q 0%Q); ch_step := fun _ _ => jx_numbers (1 # 2); ch_warmup := fun _ => 1; ch_clock := 1 # 3;
     ch_elapsed := fun p => inject_Z (Z.of_nat p); ch_calls := fun p => p; ch_seeds := fun p => Z.of_nat p; ch_processors := 2;
     ch_events := fun k => match k with 9 => [Push 1; Exit 1 0] | 30 => [Push 2; Push 0] | 31 => [Exit 2 0; Exit 0 0] | _ => [] end; ch_length := 60 |}.
(** A POMCP policy that waits for ever *)
Definition jx_pomcp (p : nat) : epolicy unit := {| ep_reset := fun x => Ok x; ep_action := fun x => Ok ("wait"%string, x); ep_step := fun x _ => Ok x |}.
Definition jx_init (_ : config) (_ : probabilities) (_ : spomdp) (_ : pdict) : res unit := Ok tt.
Definition jx_ops (own : list (string * option json)) : list (op (job unit)) := [DefClass 0 (Some (multitask_defaults ++ own)); Create 1 None].
Definition jx_world own : ExpModel.world := after_all (jx_ops own) (imported []).
Definition jx_sequence := [("task", Some (JText "sequence")); ("policy", Some (JText "repeat")); ("n_subtasks", Some (JNum 3)); ("n_evaluations", Some (JNum 3))]%string.
Definition jx_preference (policy : string) := [("policy", Some (JText policy)); ("p_preference", Some (JNum (9 # 10))); ("n_evaluations", Some (JNum 3))]%string.
Definition jx_returns (w : ExpModel.world) : list Q := match result w 0 "evaluations" with Some (VEvals l) => map (fun v => Qred (r_return (ev_record v))) l | _ => [] end.
Definition jx_order (l : list nat) : list nat := l.
Definition jx_multitask := multitask_job jx_init (fun x _ => Ok x) jx_pomcp jx_order jx_chance.
Definition jx_held := preference_job jx_init (fun x _ => Ok x) jx_pomcp jx_order jx_chance.
Definition jx_stool := pomcp_job jx_init (fun x _ => Ok x) jx_pomcp jx_order jx_chance.
Example C106_ex_hypotheses : is_order jx_order /\ reachable (jx_ops jx_sequence) (jx_world jx_sequence) /\ length (exps (jx_world jx_sequence)) = 1 /\ healthy jx_chance 3 /\
  let f := used (jx_world jx_sequence) 0 false in
  has_text f "task" "sequence" /\ has_text f "policy" "repeat" /\ has_integer f "n_subtasks" (Z.of_nat 3) /\ has_integer f "n_evaluations" (Z.of_nat 3) /\ path_of (jx_world jx_sequence) 0 = None.
Proof.
  split; [intros l; reflexivity|]. split; [exists []; reflexivity|]. split; [reflexivity|]. split; [vm_compute; reflexivity|]. cbv zeta.
  split; [reflexivity|]. split; [reflexivity|]. split; [exists 3%Q; split; reflexivity|]. split; [exists 3%Q; split; reflexivity|reflexivity].
Qed.
(** The steps are ordinary, and the returns are 17 * 3 + 4. *)
Example C106_ex_smooth : (forall t m, task_long_sequence 3 = Ok t -> mk_supportive jx_order t = Ok m -> forall p i, ordinary m (ch_step jx_chance p i)) /\
  (forall p, p < 3 -> (first_preference jx_chance p < 1)%Q) /\
  jx_returns (run_of (jx_world jx_sequence) 0 false jx_multitask (fun _ => true)) = [55; 55; 55]%Q.
Proof.
  split; [|split; [|vm_compute; reflexivity]].
  - intros t m Et Em. assert (length (objects m) = 4) as L.
    { assert (match task_long_sequence 3 with Ok t => match mk_supportive jx_order t with Ok m => length (objects m) | Err _ => 0 end | Err _ => 0 end = 4) as K by (vm_compute; reflexivity). rewrite Et, Em in K. exact K. }
    intros p i. unfold ordinary. rewrite L. cbn. repeat split; repeat constructor; cbn; lra.
  - intros p Hp. do 3 (destruct p as [|p]; [vm_compute; reflexivity|]). lia.
Qed.
(** Other policies and tasks *)
Definition jx_named (task policy : string) := [("task", Some (JText task)); ("policy", Some (JText policy)); ("n_subtasks", Some (JNum 3)); ("n_evaluations", Some (JNum 3))]%string.
Example C106_ex_policies :
  map (fun tp => jx_returns (run_of (jx_world (jx_named (fst tp) (snd tp))) 0 false jx_multitask (fun _ => true)))
    [("alternative", "random"); ("alternative", "repeat"); ("sequence", "random"); ("sequence", "pomcp")]%string =
  [[62; 52; 52]; [- (1927); - (1927); - (1927)]; [55; 53; 53]; [- (95); - (95); - (95)]]%Q.
Proof. vm_compute. reflexivity. Qed.
Example C106_ex_stool : succeeds (jx_world (jx_preference "pomcp")) 0 false jx_stool (fun _ => true) /\
  jx_returns (run_of (jx_world (jx_preference "pomcp")) 0 false jx_stool (fun _ => true)) = [- (45); - (45); - (45)]%Q.
Proof. split; vm_compute; reflexivity. Qed.
(** A human who does not want the leg to be held: the first preference drawn by process 1 is above 9/10. *)
Example C106_ex_preference : let f := used (jx_world (jx_preference "always-hold")) 0 false in
  has_number f "p_preference" (9 # 10) /\ f "p_change_preference"%string = None /\ has_text f "policy" "always-hold" /\
  map (first_preference jx_chance) [0; 1; 2] = [1 # 10; 95 # 100; 1 # 2]%Q /\
  jx_returns (run_of (jx_world (jx_preference "always-hold")) 0 false jx_held (fun _ => true)) = [- (26); 41; 41]%Q.
Proof. repeat (split; [reflexivity|]). vm_compute. reflexivity. Qed.
Example C106_ex_never : has_text (used (jx_world (jx_preference "never-hold")) 0 false) "policy" "never-hold" /\
  snd (apply (Run 0 false jx_held (fun _ => true)) (jx_world (jx_preference "never-hold"))) = Some (Raises EAttr).
Proof. split; [reflexivity|]. vm_compute. reflexivity. Qed.
Example C106_ex_refused : refused (used (jx_world (jx_named "stool" "repeat")) 0 false) EValue /\ refused (used (jx_world (jx_named "uniform" "always-hold")) 0 false) ENotImpl /\
  refused (used (jx_world (jx_named "sequence" "repeat" ++ [("n_subtasks"%string, Some (JNum 0))])%list) 0 false) EValue /\
  snd (apply (Run 0 false jx_multitask (fun _ => true)) (jx_world (jx_named "stool" "repeat"))) = Some (Raises EValue) /\
  snd (apply (Run 0 false jx_multitask (fun _ => true)) (jx_world (jx_named "uniform" "always-hold"))) = Some (Raises ENotImpl).
Proof.
  split; [apply (task_unknown _ "stool"); [reflexivity|intros [K|[K|[K|[]]]]; discriminate]|].
  split; [apply (policy_unknown _ (VJson (JText "always-hold"))); [exists "uniform"%string; split; [right; left; reflexivity|]; split; [reflexivity|discriminate]|reflexivity|intros s [<-|[<-|[<-|[]]]]; discriminate]|].
  split; [apply (no_legs _ 0%Z); [reflexivity|exists 0%Q; split; reflexivity|lia]|]. split; vm_compute; reflexivity.
Qed.
