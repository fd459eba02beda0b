(** Proofs for C106: runs of the jobs. *)
From Verif Require Import PyBase PyBaseFacts QBase HtmModel HtmSpec DagModel DagSpec SuppModel SuppSpec EvalModel EvalSpec ExpModel ExpSpec RunModel SuppLawModel RunSpec RunProofs RunProofs2 PoolModel PoolSpec Props_Pool Props_Run JobModel JobSpec JobProofs.
From Verif Require ScriptModel ScriptSpec ScriptProofs Props_Supp Props_Eval.
From Coq Require Import Lia Lqa Permutation.
Import HtmSpec.
Local Open Scope list_scope.
Local Open Scope nat_scope.

Lemma integer_iff v z : integer v = Ok z <-> exists q, v = VJson (JNum q) /\ (q == inject_Z z)%Q.
Proof.
  split.
  - destruct v as [[]| | |]; cbn [integer]; try discriminate. destruct (Z.eqb_spec (Qnum q mod Zpos (Qden q)) 0) as [K|K]; [|discriminate]. intros [= <-]. exists q. split; [reflexivity|].
    unfold Qeq, inject_Z. cbn [Qnum Qden]. rewrite Z.mul_1_r. pose proof (Z.div_mod (Qnum q) (Zpos (Qden q)) ltac:(discriminate)) as H. rewrite K in H. lia.
  - intros (q & -> & H). unfold Qeq, inject_Z in H. cbn [Qnum Qden] in H. rewrite Z.mul_1_r in H. cbn [integer]. rewrite H, Z.mod_mul, Z.div_mul by discriminate. reflexivity.
Qed.
Lemma mapM_id {A} (l : list (res A)) : forall r, mapM (fun x => x) l = Ok r <-> l = map Ok r.
Proof.
  induction l as [|x l IH]; intros r; cbn [mapM]; [split; [intros [= <-]; reflexivity|destruct r; [reflexivity|discriminate]]|].
  destruct x as [y|e]; cbn [bind]; [|split; [discriminate|destruct r; discriminate]]. destruct (mapM (fun x => x) l) as [r'|e]; cbn [bind].
  - destruct (IH r') as [H _]. rewrite (H eq_refl). split; [intros [= <-]; reflexivity|]. destruct r as [|y' r]; [discriminate|]. cbn [map]. intros [= -> K]. f_equal. f_equal. apply IH in K || idtac. revert K. clear. revert r. induction r' as [|a r' IH']; intros [|b r]; cbn; try discriminate; intros K; [reflexivity|]. injection K as -> K. f_equal. auto.
  - split; [discriminate|]. destruct r as [|y' r]; [discriminate|]. cbn [map]. intros [= -> K]. apply IH in K. discriminate.
Qed.
Section Jobs.
  Context {X : Type}.
  Variable pomcp : nat -> epolicy X.
  Lemma evaluate_inv c horizon (j : job X) v evs : job_evaluate pomcp c horizon j v = Ok evs ->
    exists z, integer v = Ok z /\ Permutation (map Ok evs) (map (one_evaluation pomcp c horizon j) (seq 0 (Z.to_nat z))).
  Proof.
    unfold job_evaluate. destruct (integer v) as [z|]; cbn [bind]; [|discriminate]. set (s := exec _ _ _ _ _ _). destruct (where_ s) eqn:W; try discriminate. intros H. exists z. split; [reflexivity|].
    apply mapM_id in H. destruct (C72_results _ _ _ _ _ _ _ (W : returned s)) as (_ & _ & P). fold s in P. rewrite H in P. exact P.
  Qed.
  Lemma evaluate_ok c horizon (j : job X) v z : integer v = Ok z -> healthy c (Z.to_nat z) -> (forall p, p < Z.to_nat z -> exists x, one_evaluation pomcp c horizon j p = Ok x) ->
    exists evs, job_evaluate pomcp c horizon j v = Ok evs.
  Proof.
    intros Ez Hh H. unfold job_evaluate. rewrite Ez. cbn [bind]. set (s := exec _ _ _ _ _ _).
    assert (W : where_ s = PDone). { rewrite <- Hh. symmetry. unfold s. apply (alike_exec (fun _ _ => tt) (fun p (_ : Z) => one_evaluation pomcp c horizon j p) (ch_seeds c) (ch_processors c) (Z.to_nat z) (ch_events c) (ch_length c)). }
    rewrite W. destruct (C72_results _ _ _ _ _ _ _ (W : returned s)) as (_ & _ & P). fold s in P.
    assert (G : exists evs, results s = map Ok evs).
    { assert (F : forall x, In x (results s) -> exists y, x = Ok y). { intros x Hx. apply (Permutation_in _ P) in Hx. apply in_map_iff in Hx. destruct Hx as (p & <- & Hp). apply in_seq in Hp. apply H. lia. }
      revert F. clear. induction (results s) as [|x l IH]; intros F; [exists []; reflexivity|]. destruct (F x (or_introl eq_refl)) as [y ->]. destruct IH as [evs ->]; [intros; apply F; right; auto|]. exists (y :: evs). reflexivity. }
    destruct G as [evs G]. exists evs. apply mapM_id. exact G.
  Qed.
  Lemma evaluate_facts c horizon (j : job X) v evs : job_evaluate pomcp c horizon j v = Ok evs -> exists z, integer v = Ok z /\ length evs = Z.to_nat z /\
    forall x, In x evs -> exists p, p < Z.to_nat z /\ one_evaluation pomcp c horizon j p = Ok x.
  Proof.
    intros H. destruct (evaluate_inv _ _ _ _ _ H) as (z & Ez & P). exists z. split; [exact Ez|]. split.
    - apply Permutation_length in P. rewrite !map_length, seq_length in P. exact P.
    - intros x Hx. assert (K : In (Ok x) (map (one_evaluation pomcp c horizon j) (seq 0 (Z.to_nat z)))) by (apply (Permutation_in _ P), in_map; exact Hx).
      apply in_map_iff in K. destruct K as (p & K & Hp). apply in_seq in Hp. exists p. split; [lia|exact K].
  Qed.

  (** One evaluation, as an evaluation on a supportive model with known outcomes. *)
  Lemma one_inv c horizon (j : job X) p v : one_evaluation pomcp c horizon j p = Ok v ->
    exists ds, (forall k, exists y, ds k = trim (jb_config j) (jb_model j) (step_draws (jb_config j) (jb_model j) (jb_probabilities j) (ch_step c p k) true y)) /\
    let sm := supportive_model (jb_config j) (jb_model j) 1 (start_draws (jb_probabilities j) (ch_start c p)) ds in
    let final := model_is_final (jb_config j) (jb_model j) in
    match jb_runner j with
    | Script s k => exists q, simulate_one_evaluation final sm (script_policy (ch_choices c p)) (s, k) horizon true = Ok (ev_record v, q)
    | Pomcp x => exists q, simulate_one_evaluation final sm (pomcp p) x horizon true = Ok (ev_record v, q)
    end.
  Proof.
    unfold one_evaluation. destruct (jb_runner j) as [s k|x].
    - destruct (simulate_drawn (jb_config j) (jb_model j) (jb_probabilities j) 1 (ch_start c p) (ch_step c p) _ (script_policy (ch_choices c p)) (s, k) horizon true) as (ds & D1 & D2). rewrite D2. intros H. exists ds. split; [exact D1|]. cbn zeta.
      clear D2. destruct (simulate_one_evaluation _ _ _ _ _ _) as [[rec q]|]; cbn [bind] in H; [|discriminate]. exists q. apply (f_equal (fun r => match r with Ok y => ev_record y | Err _ => rec end)) in H. cbn in H. rewrite <- H. reflexivity.
    - destruct (simulate_drawn (jb_config j) (jb_model j) (jb_probabilities j) 1 (ch_start c p) (ch_step c p) _ (pomcp p) x horizon true) as (ds & D1 & D2). rewrite D2. intros H. exists ds. split; [exact D1|]. cbn zeta.
      clear D2. destruct (simulate_one_evaluation _ _ _ _ _ _) as [[rec q]|]; cbn [bind] in H; [|discriminate]. exists q. apply (f_equal (fun r => match r with Ok y => ev_record y | Err _ => rec end)) in H. cbn in H. rewrite <- H. reflexivity.
  Qed.
  (** The return is the sum of the rewards, whatever the policy. *)
  Lemma discounted_1 l : (discounted 1 l == total l)%Q.
  Proof. induction l as [|r l IH]; [reflexivity|]. cbn [discounted total]. rewrite IH. ring. Qed.
  Lemma total_rev l : (total (rev l) == total l)%Q.
  Proof. induction l as [|r l IH]; [reflexivity|]. cbn [rev total]. rewrite total_app, IH. cbn [total]. ring. Qed.
  Lemma return_total {P} final (cf : config) m d0 ds (pol : epolicy P) p H rec q : simulate_one_evaluation final (supportive_model cf m 1 d0 ds) pol p H true = Ok (rec, q) -> summed rec.
  Proof.
    intros Er. destruct (Props_Eval.C71_return_partial _ _ _ _ _ _ _ _ _ _ Er) as [R _]. cbn [em_discount supportive_model] in R. unfold summed. rewrite R, discounted_1. apply total_rev.
  Qed.
  Lemma one_summed c horizon (j : job X) p v : one_evaluation pomcp c horizon j p = Ok v -> summed (ev_record v).
  Proof. intros H. destruct (one_inv _ _ _ _ _ H) as (ds & _ & G). cbn zeta in G. destruct (jb_runner j); destruct G as [q G]; eapply return_total; exact G. Qed.
  Lemma one_horizon c horizon (j : job X) p v : one_evaluation pomcp c horizon j p = Ok v -> length (r_actions (ev_record v)) <= Z.to_nat horizon.
  Proof.
    intros H. destruct (one_inv _ _ _ _ _ H) as (ds & _ & G). cbn zeta in G. destruct (jb_runner j); destruct G as [q G];
    destruct (Props_Eval.C70_record _ _ _ _ _ _ _ _ _ _ G) as (p0 & s0 & l & _ & _ & _ & _ & R5 & _ & _ & R8 & _); rewrite R5, map_length; lia.
  Qed.
  (** The bound of C103 *)
  Lemma one_bound c horizon (j : job X) p v ordn t n : is_order ordn -> mk_supportive ordn t = Ok (jb_model j) -> cf_preferences (jb_config j) = 1 -> no_negative_cost (jb_config j) ->
    (0 <= best_leaf (jb_config j))%Q -> (0 <= r_final (jb_config j))%Q -> (forall word, executes (fun a => a) t word -> length word = n) -> one_evaluation pomcp c horizon j p = Ok v ->
    (r_return (ev_record v) <= inject_Z (Z.of_nat n) * best_leaf (jb_config j) + r_final (jb_config j))%Q /\
    leaves_finished (jb_config j) (jb_model j) (turns_of (jb_model j) (ev_record v)) <= n /\
    (reaches_end (jb_config j) (jb_model j) (ev_record v) -> leaves_finished (jb_config j) (jb_model j) (turns_of (jb_model j) (ev_record v)) = n) /\
    (~ reaches_end (jb_config j) (jb_model j) (ev_record v) -> (r_return (ev_record v) <= inject_Z (Z.of_nat n) * best_leaf (jb_config j))%Q).
  Proof.
    intros Ho Em Hc Hn Hb Hf Hw H. pose proof (one_summed _ _ _ _ _ H) as R. destruct (one_inv _ _ _ _ _ H) as (ds & _ & G). cbn zeta in G.
    assert (exists P (pol : epolicy P) p' q, simulate_one_evaluation (model_is_final (jb_config j) (jb_model j)) (supportive_model (jb_config j) (jb_model j) 1 (start_draws (jb_probabilities j) (ch_start c p)) ds) pol p' horizon true = Ok (ev_record v, q)) as (P & pol & p' & q & Er)
      by (destruct (jb_runner j); destruct G as [q G]; do 4 eexists; exact G).
    destruct (C103_bound P pol p' (jb_config j) ordn t _ 1%Q _ ds horizon true _ q Ho Em ltac:(lia) Hn Er) as (B1 & word & W1 & W2 & W3). rewrite (Hw word W1) in W2, W3.
    assert (B2 : (inject_Z (Z.of_nat (leaves_finished (jb_config j) (jb_model j) (turns_of (jb_model j) (ev_record v)))) * best_leaf (jb_config j) <= inject_Z (Z.of_nat n) * best_leaf (jb_config j))%Q).
    { apply Qmult_le_compat_r; [|exact Hb]. rewrite <- Zle_Qle. lia. }
    unfold summed in R. rewrite R. split; [|split; [exact W2|split]].
    - destruct (existsb _ _); lra.
    - intros (x & Hx & Fx). apply W3. apply existsb_exists. eauto.
    - intros Hx. destruct (existsb (model_is_final (jb_config j) (jb_model j)) (r_states (ev_record v))) eqn:Eb; [|lra]. exfalso. apply existsb_exists in Eb. apply Hx. exact Eb.
  Qed.
End Jobs.

(** *** Scripts *)
Lemma warm {X} (pw : X -> pval -> res X) cf pr m holds n_tasks s0 c n : new_script (actions m) observations n_tasks holds = Ok s0 -> In "bring leg"%string (actions m) -> holds <> [] -> incl holds ["hold H"; "hold V"]%string ->
  exists s1, job_warmup pw c {| jb_config := cf; jb_probabilities := pr; jb_model := m; jb_runner := Script s0 0 |} n =
    Ok ({| jb_config := cf; jb_probabilities := pr; jb_model := m; jb_runner := Script s1 1 |}, ch_clock c) /\ ScriptSpec.after s0 [ScriptSpec.Look (ch_warmup c 0)] = Some s1.
Proof.
  intros New Hleg Hne Hh. unfold job_warmup. cbn [jb_runner jb_config jb_probabilities jb_model].
  destruct (ScriptProofs.reaches_total (Z.to_nat n_tasks) observations []) as [pos R].
  destruct (ScriptProofs.after_ok (actions m) observations n_tasks holds Hleg Hne Hh s0 New [] pos R) as (s' & b0 & b1 & b2 & c0 & c1 & c2 & lg & w & nx & Es & I). cbn in Es. injection Es as <-.
  destruct (ScriptProofs.get_ok (actions m) observations n_tasks holds Hleg Hne Hh s0 New s0 pos _ _ _ _ _ _ _ _ _ (ch_warmup c 0) I) as (x & H1 & _). cbn [ScriptSpec.after].
  destruct (script_get_action s0 (ch_warmup c 0)) as [s1 r1]. cbn [fst snd] in *. subst r1. exists s1. split; reflexivity.
Qed.
Section Scripted.
  Context {X : Type}.
  Variables (pomcp : nat -> epolicy X) (cf : config) (pr : probabilities) (ordn : list nat -> list nat) (t : stree) (m : spomdp) (n : nat) (holds : list string) (s0 s1 : ScriptModel.script) (c : chance).
  Hypothesis Ho : is_order ordn.
  Hypothesis Em : mk_supportive ordn t = Ok m.
  Hypothesis Hc : cf_preferences cf = 1.
  Hypothesis New : new_script (actions m) observations (Z.of_nat n) holds = Ok s0.
  Hypothesis Hleg : In "bring leg"%string (actions m).
  Hypothesis Hne : holds <> [].
  Hypothesis Hh : incl holds ["hold H"; "hold V"]%string.
  Hypothesis After : ScriptSpec.after s0 [ScriptSpec.Look (ch_warmup c 0)] = Some s1.
  Let j : job X := {| jb_config := cf; jb_probabilities := pr; jb_model := m; jb_runner := Script s1 1 |}.
  Lemma script_one horizon p : exists v, one_evaluation pomcp c horizon j p = Ok v.
  Proof.
    unfold one_evaluation. cbn [j jb_runner jb_config jb_model jb_probabilities].
    destruct (simulate_drawn cf m pr 1 (ch_start c p) (ch_step c p) _ (script_policy (ch_choices c p)) (s1, 1) horizon true) as (ds & D1 & D2). rewrite D2.
    destruct (C101_follows cf ordn t m _ holds s0 _ s1 1 (ch_choices c p) 1%Q (start_draws pr (ch_start c p)) ds horizon true Ho Em ltac:(lia) New Hleg Hne Hh After) as (rec & q & Er & _).
    rewrite Er. cbn [bind]. eexists. reflexivity.
  Qed.
  Lemma script_facts horizon p v : one_evaluation pomcp c horizon j p = Ok v ->
    scripted cf m n holds (Z.to_nat horizon) (ev_record v) /\
    ((forall word, executes (fun a => a) t word -> length word < n) -> length (r_actions (ev_record v)) = Z.to_nat horizon /\ ~ reaches_end cf m (ev_record v)).
  Proof.
    intros H. pose proof (one_horizon _ _ _ _ _ _ H) as HH. destruct (one_inv _ _ _ _ _ _ H) as (ds & D1 & q & D2). cbn [j jb_runner jb_config jb_model jb_probabilities] in *.
    destruct (C101_follows cf ordn t m _ holds s0 _ s1 1 (ch_choices c p) 1%Q (start_draws pr (ch_start c p)) ds horizon true Ho Em ltac:(lia) New Hleg Hne Hh After) as (rec & q' & Er & F1 & F2 & F3).
    rewrite D2 in Er. injection Er as <- <-. rewrite Nat2Z.id in F2. split.
    - split; [exact HH|]. split; [exact F1|]. split; [exact F2|]. intros x Hx. apply F3. exact Hx.
    - intros Hw. destruct (C102_never cf ordn t m _ holds s0 _ s1 1 (ch_choices c p) 1%Q (start_draws pr (ch_start c p)) ds horizon true _ _ Ho Em ltac:(lia) New Hleg Hne Hh After ltac:(rewrite Nat2Z.id; exact Hw) D2) as [N1 N2].
      split; [exact N1|]. intros (x & Hx & Fx). rewrite (N2 x Hx) in Fx. discriminate.
  Qed.
End Scripted.

(** *** The tasks *)
Definition tasks : list string := ["sequence"; "uniform"; "alternative"]%string.
Lemma task_good ordn task n : is_order ordn -> In task tasks -> (task = "sequence"%string -> 1 <= n) ->
  exists t, task_of task n = Ok t /\ good_task ordn t (legs_of task n) (subtasks_of task n) (fun q => sp_conditions q = leg_conditions).
Proof.
  intros Ho Ht Hn. destruct Ht as [<-|[<-|[<-|[]]]].
  - destruct (sequence_good ordn n Ho (Hn eq_refl)) as (t & Et & G1 & G2 & G3 & G4). exists t. split; [exact Et|]. split; [exact G1|]. split; [|split; [exact G3|exact G4]].
    intros a i p h Hin. destruct (G2 a i p h Hin) as (q & Q1 & Q2 & _). eauto.
  - destruct (product_hv_length 4) as [L1 L2]. destruct (seqs_good ordn (product_hv 4) 4 Ho ltac:(lia)) as (t & Et & G); [intros K; rewrite K in L1; discriminate|exact L2|]. exists t. split; [exact Et|]. exact G.
  - destruct (seqs_good ordn [["h"; "v"; "v"; "v"]; ["h"; "h"; "h"; "h"]; ["v"; "h"; "h"; "v"]; ["v"; "v"; "h"; "v"]]%string 4 Ho ltac:(lia)) as (t & Et & G); [discriminate| |].
    + intros w [<-|[<-|[<-|[<-|[]]]]]; reflexivity.
    + exists t. split; [exact Et|]. exact G.
Qed.
Lemma no_task ordn t : task_long_sequence 0 = Ok t -> mk_supportive ordn t = Err EValue.
Proof. intros [= <-]. reflexivity. Qed.
Lemma good_script ordn t k n m N holds : is_order ordn -> good_task ordn t k n (fun q => sp_conditions q = leg_conditions) -> mk_supportive ordn t = Ok m -> incl holds ["hold H"; "hold V"]%string ->
  In "bring leg"%string (actions m) /\ (n_htm_states m - 2)%Z = Z.of_nat n /\ exists s0, new_script (actions m) observations N holds = Ok s0.
Proof.
  intros Ho (_ & G2 & G3 & G4) Em Hh.
  assert (HL : forall x q, In x (htm_nodes m) -> action_params x = Ok q -> sp_conditions q = leg_conditions).
  { apply (nodes_params ordn t m (fun q => sp_conditions q = leg_conditions) Em). intros a i p h Hin q Eq. destruct (G2 a i p h Hin) as (q' & E1 & E2). congruence. }
  destruct (legs_actions ordn t m Ho Em HL) as [HB HN]. split; [exact HB|]. split; [rewrite (leaves_count ordn t m Ho Em); f_equal; exact G4|]. apply HN. exact Hh.
Qed.
Definition multitask_probabilities : probabilities := with_probabilities class_probabilities (p_changed_by_human class_probabilities) 0 [1%Q].
Section Init.
  Context {X : Type}.
  Variable pomcp_init : config -> probabilities -> spomdp -> pdict -> res X.
  Variable ordn : list nat -> list nat.
  Hypothesis Ho : is_order ordn.
  Definition text_of (d : pdict) (k s : string) : Prop := ExpModel.lookup d k = Some (VJson (JText s)).
  Lemma is_text_iff v s : is_text v s = true <-> v = VJson (JText s).
  Proof. destruct v as [[]| | |]; cbn [is_text]; try (split; discriminate). rewrite String.eqb_eq. split; [intros ->; reflexivity|intros [= ->]; reflexivity]. Qed.
  Lemma is_text_same s s' : is_text (VJson (JText s)) s' = String.eqb s s'.
  Proof. reflexivity. Qed.
  (** Everything that init_run does for a valid task *)
  Lemma multitask_task d task n : In task tasks -> text_of d "task" task -> (task = "sequence"%string -> exists v, ExpModel.lookup d "n_subtasks" = Some v /\ integer v = Ok (Z.of_nat n) /\ 1 <= n) ->
    exists t m, task_of task n = Ok t /\ mk_supportive ordn t = Ok m /\ good_task ordn t (legs_of task n) (subtasks_of task n) (fun q => sp_conditions q = leg_conditions) /\
    multitask_init pomcp_init ordn d =
      do policy <- get_parameter d "policy";
      do r <- (if is_text policy "pomcp" then do x <- pomcp_init (multitask_config task) multitask_probabilities m d; Ok (Pomcp x)
               else if is_text policy "repeat" then do s <- long_sequence m; Ok (Script s 0)
               else if is_text policy "random" then do s <- alternatives m (Z.of_nat (legs_of task n)); Ok (Script s 0)
               else Err ENotImpl);
      Ok {| jb_config := multitask_config task; jb_probabilities := multitask_probabilities; jb_model := m; jb_runner := r |}.
  Proof.
    intros Hi Ht Hn. destruct (task_good ordn task n Ho Hi) as (t & Et & G). { intros K. destruct (Hn K) as (_ & _ & _ & K'). exact K'. }
    pose proof G as ((m & Em) & _). exists t, m. split; [exact Et|]. split; [exact Em|]. split; [exact G|].
    unfold multitask_init, get_parameter at 1. unfold text_of in Ht. rewrite Ht. cbn [bind]. rewrite !is_text_same.
    destruct Hi as [<-|[<-|[<-|[]]]]; cbn [String.eqb Ascii.eqb Bool.eqb].
    - destruct (Hn eq_refl) as (v & V1 & V2 & V3). unfold get_parameter at 1. rewrite V1. cbn [bind]. rewrite V2. cbn [bind]. rewrite Nat2Z.id. change (task_of "sequence" n) with (task_long_sequence n) in Et. rewrite Et. cbn [bind]. rewrite Em. reflexivity.
    - change (task_of "uniform" n) with (task_uniform 4) in Et. rewrite Et. cbn [bind]. rewrite Em. reflexivity.
    - change (task_of "alternative" n) with (task_alternative) in Et. rewrite Et. cbn [bind]. rewrite Em. reflexivity.
  Qed.
  (** The values for which init_run gets that far *)
  Lemma multitask_valid d (j : job X) : multitask_init pomcp_init ordn d = Ok j ->
    exists task n, In task tasks /\ text_of d "task" task /\ (task = "sequence"%string -> exists v, ExpModel.lookup d "n_subtasks" = Some v /\ integer v = Ok (Z.of_nat n) /\ 1 <= n).
  Proof.
    unfold multitask_init, get_parameter at 1, text_of. destruct (ExpModel.lookup d "task") as [v|]; cbn [bind]; [|discriminate].
    destruct (is_text v "sequence") eqn:E1; [|destruct (is_text v "uniform") eqn:E2; [|destruct (is_text v "alternative") eqn:E3]].
    - apply is_text_iff in E1. subst v. unfold get_parameter at 1. destruct (ExpModel.lookup d "n_subtasks") as [v|] eqn:V1; cbn [bind]; [|discriminate]. destruct (integer v) as [z|] eqn:V2; cbn [bind]; [|discriminate].
      intros H. exists "sequence"%string, (Z.to_nat z). split; [left; reflexivity|]. split; [reflexivity|]. intros _. exists v. split; [reflexivity|].
      assert (K : (0 < z)%Z). { destruct (Z.ltb_spec 0 z) as [K|K]; [exact K|]. replace (Z.to_nat z) with 0 in H by lia. destruct (task_long_sequence 0) as [t|] eqn:Et; cbn [bind] in H; [|discriminate]. rewrite (no_task ordn t Et) in H. discriminate. }
      rewrite Z2Nat.id by lia. split; [exact V2|lia].
    - apply is_text_iff in E2. subst v. intros _. exists "uniform"%string, 0. repeat split; [right; left; reflexivity|discriminate].
    - apply is_text_iff in E3. subst v. intros _. exists "alternative"%string, 0. repeat split; [right; right; left; reflexivity|discriminate].
    - destruct v as [[]| | |]; cbn [bind]; discriminate.
  Qed.
  (** The scripted policies *)
  Lemma multitask_script d task policy n : In task tasks -> text_of d "task" task -> (task = "sequence"%string -> exists v, ExpModel.lookup d "n_subtasks" = Some v /\ integer v = Ok (Z.of_nat n) /\ 1 <= n) ->
    In policy ["repeat"; "random"]%string -> text_of d "policy" policy ->
    exists t m s0, task_of task n = Ok t /\ mk_supportive ordn t = Ok m /\ good_task ordn t (legs_of task n) (subtasks_of task n) (fun q => sp_conditions q = leg_conditions) /\
    In "bring leg"%string (actions m) /\ new_script (actions m) observations (Z.of_nat (script_legs task policy n)) (script_holds policy) = Ok s0 /\
    multitask_init pomcp_init ordn d = Ok {| jb_config := multitask_config task; jb_probabilities := multitask_probabilities; jb_model := m; jb_runner := Script s0 0 |}.
  Proof.
    intros Hi Ht Hn Hp Hpt. destruct (multitask_task d task n Hi Ht Hn) as (t & m & Et & Em & G & E). exists t, m.
    destruct (good_script ordn t _ _ m (Z.of_nat (script_legs task policy n)) (script_holds policy) Ho G Em) as (G1 & G2 & s0 & G3).
    { unfold script_holds. destruct (String.eqb policy "random"); [intros x Hx; exact Hx|intros x [<-|[]]; left; reflexivity]. }
    exists s0. repeat (split; [assumption|]). rewrite E. unfold get_parameter. unfold text_of in Hpt. rewrite Hpt. cbn [bind]. rewrite !is_text_same.
    destruct Hp as [<-|[<-|[]]]; cbn [String.eqb Ascii.eqb Bool.eqb].
    - unfold long_sequence. rewrite G2. change (script_holds "repeat") with ["hold H"%string] in G3. change (script_legs task "repeat" n) with (subtasks_of task n) in G3. rewrite G3. reflexivity.
    - change (script_legs task "random" n) with (legs_of task n) in G3. change (script_holds "random") with ["hold H"; "hold V"]%string in G3. apply alternatives_new in G3. rewrite G3. reflexivity.
  Qed.
End Init.
Lemma multitask_best task : In task tasks -> cf_preferences (multitask_config task) = 1 /\ no_negative_cost (multitask_config task) /\ (best_leaf (multitask_config task) == 18)%Q /\ (r_final (multitask_config task) == 10)%Q.
Proof. intros [<-|[<-|[<-|[]]]]; (split; [reflexivity|]); (split; [repeat split; vm_compute; discriminate|]); split; vm_compute; reflexivity. Qed.

(** *** When nothing unlikely happens *)
Section Ordinary.
  Context {X : Type}.
  Variables (pomcp : nat -> epolicy X) (cf : config) (pr : probabilities) (p0 : Q) (ordn : list nat -> list nat) (t : stree) (m : spomdp) (n : nat) (s0 s1 : ScriptModel.script) (c : chance).
  Hypothesis Ho : is_order ordn.
  Hypothesis Em : mk_supportive ordn t = Ok m.
  Hypothesis Hc : cf_preferences cf = 1.
  Hypothesis New : new_script (actions m) observations (Z.of_nat n) ["hold H"%string] = Ok s0.
  Hypothesis After : ScriptSpec.after s0 [ScriptSpec.Look (ch_warmup c 0)] = Some s1.
  Hypothesis Tree : forall a i p h, In (Leaf a i p h) (preorder t) -> exists q, a_params a = Some q /\ sp_conditions q = leg_conditions /\ sp_hold q = Some "h"%string.
  Hypothesis Words : forall word, executes (fun a => a) t word -> length word = n.
  Hypothesis P1 : (p_changed_by_human pr <= 1 # 100)%Q.
  Hypothesis P2 : (p_change_preference pr <= 0)%Q.
  Hypothesis P3 : (p_fail pr <= 1 # 100)%Q.
  Hypothesis P4 : p_preferences pr = [p0].
  Hypothesis Hleg : In "bring leg"%string (actions m).
  Let j : job X := {| jb_config := cf; jb_probabilities := pr; jb_model := m; jb_runner := Script s1 1 |}.
  Variables (horizon : Z) (p : nat) (v : evaluation).
  Hypothesis H : one_evaluation pomcp c horizon j p = Ok v.
  Hypothesis Ord : forall k, ordinary m (ch_step c p k).
  Lemma smooth_one : (first_preference c p < p0)%Q -> (Z.of_nat (2 * n + 7) <= horizon)%Z ->
    map t_name (turns_of m (ev_record v)) = smooth_names n /\ (r_return (ev_record v) == total (smooth_rewards cf n))%Q /\ reaches_end cf m (ev_record v).
  Proof.
    intros Hp Hh. pose proof (one_summed _ _ _ _ _ _ H) as HS. unfold summed in HS. destruct (one_inv _ _ _ _ _ _ H) as (ds & D1 & q & D2). cbn [j jb_runner jb_config jb_model jb_probabilities] in *.
    assert (Hq : forall k, quiet (ds k)). { intros k. destruct (D1 k) as [y ->]. apply trim_quiet; auto. }
    assert (Hd : d_preference (start_draws pr (ch_start c p)) 0 = true).
    { cbn [start_draws d_preference]. rewrite P4. cbn [nth]. unfold below. fold (first_preference c p). destruct (Qle_bool p0 (first_preference c p)) eqn:K; [|reflexivity]. apply Qle_bool_iff in K. lra. }
    destruct (C102_quiet cf ordn t m n s0 _ s1 1 (ch_choices c p) 1%Q (start_draws pr (ch_start c p)) ds horizon true Ho Em ltac:(lia) Tree Words New After Hd Hq Hh) as (rec & q' & Er & F1 & F2 & l & x & F3 & F4).
    rewrite D2 in Er. injection Er as <- <-. split; [exact F1|]. split; [rewrite HS; apply total_eq; exact F2|]. exists x. split; [rewrite F3; apply in_or_app; right; left; reflexivity|exact F4].
  Qed.
  Lemma refused_one : (p0 <= first_preference c p)%Q ->
    length (turns_of m (ev_record v)) = Z.to_nat horizon /\
    map t_name (turns_of m (ev_record v)) = firstn (Z.to_nat horizon) (first_names ++ repeat "hold H"%string (Z.to_nat horizon)) /\
    (r_return (ev_record v) == total (firstn (Z.to_nat horizon) (repeat (- cost_intrinsic cf)%Q 4 ++ repeat (- cost_hold cf)%Q (Z.to_nat horizon))))%Q /\ ~ reaches_end cf m (ev_record v).
  Proof.
    intros Hp. pose proof (one_summed _ _ _ _ _ _ H) as HS. unfold summed in HS. destruct (one_inv _ _ _ _ _ _ H) as (ds & D1 & q & D2). cbn [j jb_runner jb_config jb_model jb_probabilities] in *.
    assert (Hq : forall k, quiet (ds k)). { intros k. destruct (D1 k) as [y ->]. apply trim_quiet; auto. }
    assert (Hd : d_preference (start_draws pr (ch_start c p)) 0 = false).
    { cbn [start_draws d_preference]. rewrite P4. cbn [nth]. unfold below. fold (first_preference c p). apply Qle_bool_iff in Hp. rewrite Hp. reflexivity. }
    destruct (SuppProofs4.mk_facts _ _ _ Ho Em) as (nodes & succs & init & ps & Ed & B & D).
    assert (Hne : ["hold H"%string] <> []) by discriminate. assert (Hh : incl ["hold H"%string] ["hold H"; "hold V"]%string) by (intros x [<-|[]]; left; reflexivity).
    assert (Hc1 : 1 <= cf_preferences cf) by lia.
    destruct (J_after m (Z.of_nat n) ["hold H"%string] s0 New Hleg Hne Hh (ch_choices c p) _ s1 1 After) as (p1 & Ep & Hj).
    destruct (Props_Eval.C70_record _ _ _ _ _ _ _ _ _ _ D2) as (p0' & st0 & l & R1 & R2 & R3 & R4 & R5 & R6 & R7 & R8 & R9 & R10).
    assert (p0' = p1) as -> by congruence. destruct (SuppProofs4.start_sound cf m _ _ _ _ B D (start_draws pr (ch_start c p))) as (s' & i & Es & Hi & Hr). cbn [supportive_model em_start] in R2. assert (s' = st0) as -> by congruence.
    assert (HT : turns_of m (ev_record v) = turns_from (actions m) observations st0 l) by (unfold turns_of; rewrite R4, R5, R6, R7; apply turns_map). rewrite HT.
    assert (HU : U cf m st0). { eexists _, i. split; [exact Hr|]. split; [unfold wants_hold; rewrite Hc; exact Hd|reflexivity]. }
    assert (Hn : 1 <= n).
    { destruct (Props_Supp.C34_episodes cf ordn t m Ho Em Hc1 [] st0 (episode_start cf m _ _ Es)) as (word & W1 & _ & _ & W4). destruct W4 as (a & W4 & _); [|rewrite <- (Words word W1); destruct word; [discriminate|cbn; lia]].
      destruct HU as (w & i' & U1 & _ & U3). rewrite (SuppProofs4.reads_htm cf m _ _ U1), U3. destruct U1 as (_ & _ & U1 & _). specialize (U1 i' U3). cbn. unfold htm_clean. lia. }
    destruct (trace_refused cf ordn t m Ho Em Hc1 nodes succs init ps B D n s0 Hn New Hleg (ch_choices c p) 1%Q (start_draws pr (ch_start c p)) ds Hq _ _ _ _ _ R3 0 ltac:(lia) Hj HU) as (T1 & T2 & T3). cbn [skipn Nat.sub] in T1, T2.
    assert (HL : length l = Z.to_nat horizon). { destruct R10 as [R10|(l1 & x & El & Fx)]; [exact R10|]. rewrite Forall_forall in T3. rewrite (T3 x) in Fx; [discriminate|]. rewrite El. apply in_or_app. right. left. reflexivity. }
    rewrite HL in T1, T2. split; [rewrite turns_from_length; exact HL|]. split; [exact T1|]. split; [rewrite HS, R7; apply total_eq; exact T2|].
    intros (x & Hx & Fx). rewrite R4 in Hx. destruct Hx as [<-|Hx].
    - destruct HU as (w & i' & U1 & _ & U3). apply (final_iff cf m _ _ U1) in Fx. congruence.
    - apply in_map_iff in Hx. destruct Hx as (y & <- & Hy). rewrite Forall_forall in T3. rewrite (T3 y Hy) in Fx. discriminate.
  Qed.
End Ordinary.

(** *** The tasks of the other jobs *)
Definition one_leg : stree := leaf_of (assemble_leg "leg").
Lemma one_leg_good ordn : is_order ordn -> good_task ordn one_leg 1 1 (fun q => sp_conditions q = leg_conditions /\ sp_hold q = Some "h"%string).
Proof.
  intros Ho. split; [|split; [|split]].
  - apply (Props_Supp.C80_builds_partial ordn _ Ho); [constructor|]. split; [|split].
    + intros x [<-|[]]. left. repeat eexists.
    + intros ch i p m0 h pr [Hx|[]]. discriminate.
    + intros a i p h [Hx|[]]. injection Hx as <- _ _ _. split; [reflexivity|discriminate].
  - intros a i p h [Hx|[]]. injection Hx as <- _ _ _. eexists. repeat split.
  - intros word H. inversion H; subst. reflexivity.
  - reflexivity.
Qed.
Lemma weaken ordn t k n G (G' : sparams -> Prop) : good_task ordn t k n G -> (forall q, G q -> G' q) -> good_task ordn t k n G'.
Proof. intros (G1 & G2 & G3 & G4) H. split; [exact G1|]. split; [|split; assumption]. intros a i p h Hin. destruct (G2 a i p h Hin) as (q & Q1 & Q2). eauto. Qed.
Lemma seqs_word ls word i p nm h pr : executes (fun a => a) (Node Sequential (map seq_leaves ls) i p nm h pr : stree) word -> word = concat ls.
Proof.
  intros H. inversion H as [|ch i0 p0 n0 h0 pr0 ws F| |]; subst. clear H. revert ws F. induction ls as [|l ls IH]; intros ws F; inversion F as [|? ? ? ? F1 F2]; subst; [reflexivity|].
  cbn [concat]. f_equal; [apply seq_word; exact F1|]. apply IH. exact F2.
Qed.
Lemma stool_words t word : task_stool = Ok t -> executes (fun a => a) t word -> length word = 8.
Proof.
  intros Et H. set (part := fun i => let leg := ("leg-" ++ str_nat i)%string in [assemble_leg leg; assemble_leg_to_top leg (i =? 0)]).
  assert (t = Node Sequential (map seq_leaves (map part (seq 0 4))) None None "unnamed" false None) as -> by (injection Et as <-; reflexivity).
  rewrite (seqs_word _ _ _ _ _ _ _ H). reflexivity.
Qed.
Section Init2.
  Context {X : Type}.
  Variable pomcp_init : config -> probabilities -> spomdp -> pdict -> res X.
  Variable ordn : list nat -> list nat.
  Hypothesis Ho : is_order ordn.
  Definition changes (d : pdict) : res Q := match ExpModel.lookup d "p_change_preference" with Some v => number v | None => Ok 0%Q end.
  Definition preference_probabilities (p ch : Q) : probabilities := with_probabilities class_probabilities 0 ch [p].
  Lemma preference_task d p ch : ExpModel.lookup d "p_preference" = Some (VJson (JNum p)) -> changes d = Ok ch ->
    exists m, mk_supportive ordn one_leg = Ok m /\
    preference_init pomcp_init ordn d =
      do policy <- get_parameter d "policy";
      do r <- (if is_text policy "pomcp" then do x <- pomcp_init preference_config (preference_probabilities p ch) m d; Ok (Pomcp x)
               else if is_text policy "always-hold" then do s <- long_sequence m; Ok (Script s 0)
               else if is_text policy "never-hold" then do s <- long_sequence m; Err EAttr
               else Err ENotImpl);
      Ok {| jb_config := preference_config; jb_probabilities := preference_probabilities p ch; jb_model := m; jb_runner := r |}.
  Proof.
    intros Hp Hc. destruct (one_leg_good ordn Ho) as ((m & Em) & _). exists m. split; [exact Em|]. unfold preference_init. change (leaf_of (assemble_leg "leg")) with one_leg. rewrite Em. cbn [bind].
    unfold get_parameter at 1. rewrite Hp. cbn [bind number]. fold (changes d). rewrite Hc. reflexivity.
  Qed.
  Lemma preference_valid d (j : job X) : preference_init pomcp_init ordn d = Ok j ->
    mk_supportive ordn one_leg = Ok (jb_model j) /\ jb_config j = preference_config.
  Proof.
    unfold preference_init. change (leaf_of (assemble_leg "leg")) with one_leg. destruct (mk_supportive ordn one_leg) as [m|] eqn:Em; cbn [bind]; [|discriminate].
    destruct (get_parameter d "p_preference") as [v|]; cbn [bind]; [|discriminate]. destruct (number v) as [p|]; cbn [bind]; [|discriminate]. fold (changes d). destruct (changes d) as [ch|]; cbn [bind]; [|discriminate].
    destruct (get_parameter d "policy") as [pol|]; cbn [bind]; [|discriminate]. match goal with |- (do r <- ?e; _) = _ -> _ => destruct e as [r|] end; cbn [bind]; [|discriminate]. intros [= <-]. split; reflexivity.
  Qed.
  Definition stool_config (intermediate : bool) : config := if intermediate then rewards 10 30 10 false 2 else rewards 0 120 10 false 2.
  Lemma pomcp_valid d (j : job X) : pomcp_job_init pomcp_init ordn d = Ok j ->
    exists t v, task_stool = Ok t /\ mk_supportive ordn t = Ok (jb_model j) /\ ExpModel.lookup d "intermediate-rewards" = Some v /\ jb_config j = stool_config (true_value v).
  Proof.
    unfold pomcp_job_init. destruct task_stool as [t|] eqn:Et; cbn [bind]; [|discriminate]. destruct (mk_supportive ordn t) as [m|] eqn:Em; cbn [bind]; [|discriminate].
    destruct (get_parameter d "p_preference") as [v|]; cbn [bind]; [|discriminate]. destruct (number v) as [p|]; cbn [bind]; [|discriminate].
    unfold get_parameter. destruct (ExpModel.lookup d "intermediate-rewards") as [i|]; cbn [bind]; [|discriminate].
    match goal with |- (do r <- ?e; _) = _ -> _ => destruct e as [ch|] end; cbn [bind]; [|discriminate]. match goal with |- (do x <- ?e; _) = _ -> _ => destruct e as [x|] end; cbn [bind]; [|discriminate].
    intros [= <-]. exists t, i. repeat (split; [assumption || reflexivity|]). unfold stool_config. destruct (true_value i); reflexivity.
  Qed.
End Init2.
