(** The jobs samples/supportive_evaluation_{multitask,preference,pomcp}_job.py: subclasses of SupportiveExperiment.
    The stages of [run] are the hooks of [ExpModel]. *)
From Verif Require Export ExpModel RunModel SuppLawModel.
From Verif Require Import PoolModel.
Local Open Scope list_scope.
Local Open Scope nat_scope.

(** [self.parameters[k]] *)
Definition get_parameter (d : pdict) (k : string) : res pval := match ExpModel.lookup d k with Some v => Ok v | None => Err EKey end.
(** [v == s] for a text s *)
Definition is_text (v : pval) (s : string) : bool := match v with VJson (JText x) => String.eqb x s | _ => false end.
(** A value used as an integer (in range).  Simplification: a float with an integral value is accepted. *)
Definition integer (v : pval) : res Z :=
  match v with VJson (JNum q) => if Z.eqb (Qnum q mod Zpos (Qden q)) 0 then Ok (Qnum q / Zpos (Qden q))%Z else Err EType | _ => Err EType end.
(** A value used as a probability.  Simplification: another type fails here, and not when it is first compared with a number. *)
Definition number (v : pval) : res Q := match v with VJson (JNum q) => Ok q | _ => Err EType end.

(** The model seen by simulate_one_evaluation (evaluation.py 58-95) with what np.random returns: [x0] for sample_start, [xs k]
    for the k-th sample_transition. *)
Definition drawn_model (cf : config) (m : spomdp) (pr : probabilities) (disc : Q) (x0 : numbers) (xs : nat -> numbers) : emodel Z :=
  {| em_actions := actions m; em_observations := observations; em_discount := disc;
     em_start := drawn_start cf m pr x0;
     em_transition := fun k a s => drawn_transition cf m pr (xs k) true (Z.of_nat a) s |}.

Section Jobs.
  (** POMCPPolicyRunner: what init_pomcp_policy builds (evaluation.py 179-191) and what it does is arbitrary here. *)
  Context {X : Type}.
  Variable pomcp_init : config -> probabilities -> spomdp -> pdict -> res X.
  Variable pomcp_warmup : X -> pval -> res X.
  Variable pomcp : nat -> epolicy X.
  (** The order of iteration of sets of nodes (supportive.py) *)
  Variable ordn : list nat -> list nat.

  (** self.model and self.policy; the policy is scripted, or POMCP *)
  Inductive runner := Script (s : script) (chosen : nat) | Pomcp (x : X).
  Record job := { jb_config : config; jb_probabilities : probabilities; jb_model : spomdp; jb_runner : runner }.

  (** Instance attributes set on the model *)
  Definition with_rewards (cf : config) (sub final pref : Q) (indep : bool) (hold : Q) : config :=
    {| r_subtask := sub; r_final := final; r_preference := pref; reward_independent_preference := indep;
       cost_get := cost_get cf; cost_intrinsic := cost_intrinsic cf; cost_hold := hold; cf_preferences := cf_preferences cf |}.
  Definition with_probabilities (pr : probabilities) (human change : Q) (prefs : list Q) : probabilities :=
    {| p_fail := p_fail pr; p_consume_all := p_consume_all pr; p_changed_by_human := human; p_change_preference := change; p_preferences := prefs |}.

  (** init_run of supportive_evaluation_multitask_job.py, 65-94 *)
  Definition multitask_init (d : pdict) : res job :=
    do task <- get_parameter d "task";
    do (n, t) <- (if is_text task "sequence"
                  then do v <- get_parameter d "n_subtasks"; do n <- integer v; do t <- task_long_sequence (Z.to_nat n); Ok (n, t)
                  else if is_text task "uniform" then do t <- task_uniform 4; Ok (4%Z, t)
                  else if is_text task "alternative" then do t <- task_alternative; Ok (4%Z, t)
                  else match task with VJson (JText _) => Err EValue | _ => Err EType end);
    do m <- mk_supportive ordn t;
    let pr := with_probabilities class_probabilities (p_changed_by_human class_probabilities) 0 [1%Q] in
    let cf := if is_text task "sequence"
              then with_rewards default_config (r_subtask default_config) 10 (r_preference default_config) false (cost_hold default_config)
              else with_rewards default_config (r_subtask default_config) 10 18 false 10 in
    do policy <- get_parameter d "policy";
    do r <- (if is_text policy "pomcp" then do x <- pomcp_init cf pr m d; Ok (Pomcp x)
             else if is_text policy "repeat" then do s <- long_sequence m; Ok (Script s 0)
             else if is_text policy "random" then do s <- alternatives m n; Ok (Script s 0)
             else Err ENotImpl);
    Ok {| jb_config := cf; jb_probabilities := pr; jb_model := m; jb_runner := r |}.

  (** init_run of supportive_evaluation_preference_job.py, 14-38.  [_a_next] is a property without setter (policy.py 56-58): setting it,
      36, is an AttributeError. *)
  Definition preference_init (d : pdict) : res job :=
    do m <- mk_supportive ordn (leaf_of (assemble_leg "leg"));
    do v <- get_parameter d "p_preference";
    do p <- number v;
    do c <- match ExpModel.lookup d "p_change_preference" with Some v => number v | None => Ok 0%Q end;
    let pr := with_probabilities class_probabilities 0 c [p] in
    let cf := with_rewards default_config 10 10 30 true (cost_hold default_config) in
    do policy <- get_parameter d "policy";
    do r <- (if is_text policy "pomcp" then do x <- pomcp_init cf pr m d; Ok (Pomcp x)
             else if is_text policy "always-hold" then do s <- long_sequence m; Ok (Script s 0)
             else if is_text policy "never-hold" then do s <- long_sequence m; Err EAttr
             else Err ENotImpl);
    Ok {| jb_config := cf; jb_probabilities := pr; jb_model := m; jb_runner := r |}.

  (** The task of supportive_evaluation_pomcp_job.py, 13-18, and its init_run, 11-32.  [if v:] for the intermediate rewards *)
  Definition stool_part (i : nat) : res stree :=
    let leg := ("leg-" ++ str_nat i)%string in
    combine_as Sequential [leaf_of (assemble_leg leg); leaf_of (assemble_leg_to_top leg (i =? 0))].
  Definition task_stool : res stree := do ch <- mapM stool_part (seq 0 4); combine_as Sequential ch.
  Definition true_value (v : pval) : bool := match v with VJson j => truthy j | VDict _ => true | VEvals _ => true | VObject => true end.
  Definition pomcp_job_init (d : pdict) : res job :=
    do t <- task_stool;
    do m <- mk_supportive ordn t;
    do v <- get_parameter d "p_preference";
    do p <- number v;
    do i <- get_parameter d "intermediate-rewards";
    do c <- match ExpModel.lookup d "p_change_preference" with Some v => number v | None => Ok (p_change_preference class_probabilities) end;
    let pr := with_probabilities class_probabilities (p_changed_by_human class_probabilities) c [p] in
    let cf := if true_value i
              then with_rewards default_config 10 30 (r_preference default_config) false (cost_hold default_config)
              else with_rewards default_config 0 120 (r_preference default_config) false (cost_hold default_config) in
    do x <- pomcp_init cf pr m d;
    Ok {| jb_config := cf; jb_probabilities := pr; jb_model := m; jb_runner := Pomcp x |}.

  (** What is random, or given by the system, in a run: *)
  Record chance := {
    ch_choices : nat -> nat -> nat;     (* the choices between actions in process p (policy.py 57-58) *)
    ch_start : nat -> numbers;          (* np.random in sample_start of process p *)
    ch_step : nat -> nat -> numbers;    (* np.random in the k-th sample_transition of process p *)
    ch_warmup : nat -> nat;             (* the choices made during the warmup *)
    ch_clock : Q;                       (* the time taken by the warmup *)
    ch_elapsed : nat -> Q;              (* the time and the number of calls of process p *)
    ch_calls : nat -> nat;
    ch_seeds : nat -> Z;                (* the pool: seeds, number of processors, what happens to processes, *)
    ch_processors : nat;
    ch_events : nat -> list event;
    ch_length : nat }.                  (* and how long the parent runs *)
  (** warmup, evaluation.py 149-152 *)
  Definition job_warmup (c : chance) (j : job) (n : pval) : res (job * Q) :=
    do r <- match jb_runner j with
            | Script s k => match script_get_action s (ch_warmup c k) with (s', Ok _) => Ok (Script s' (S k)) | (_, Err e) => Err e end
            | Pomcp x => do y <- pomcp_warmup x n; Ok (Pomcp y)
            end;
    Ok ({| jb_config := jb_config j; jb_probabilities := jb_probabilities j; jb_model := jb_model j; jb_runner := r |}, ch_clock c).
  (** The function repeated by evaluate (evaluation.py 98-102), in process number p: the process works on a copy of the policy.  The discount
      of the models is 1 (supportive.py 288). *)
  Definition one_evaluation (c : chance) (horizon : Z) (j : job) (p : nat) : res evaluation :=
    let em := drawn_model (jb_config j) (jb_model j) (jb_probabilities j) 1 (ch_start c p) (ch_step c p) in
    let final := model_is_final (jb_config j) (jb_model j) in
    do rec <- match jb_runner j with
              | Script s k => do (rec, _) <- simulate_one_evaluation final em (script_policy (ch_choices c p)) (s, k) horizon true; Ok rec
              | Pomcp x => do (rec, _) <- simulate_one_evaluation final em (pomcp p) x horizon true; Ok rec
              end;
    Ok {| ev_record := rec; ev_elapsed := ch_elapsed c p; ev_calls := ch_calls c p |}.
  (** evaluate, evaluation.py 98-102, by [repeat] in separate processes.  A parent that is not done within [ch_length] steps is
      EFuel; a process that fails makes the parent fail (EAssert stands for RuntimeError and queue.Empty), or fail to collect a result. *)
  Definition job_evaluate (c : chance) (horizon : Z) (j : job) (v : pval) : res (list evaluation) :=
    do n <- integer v;
    let s := exec (fun p _ => one_evaluation c horizon j p) (ch_seeds c) (ch_processors c) (Z.to_nat n) (ch_events c) (ch_length c) in
    match where_ s with
    | PDone => mapM (fun x => x) (results s)
    | PFailed _ => Err EAssert
    | _ => Err EFuel
    end.
  (** The three jobs: init_run, EVALUATE_ARGUMENTS (preference job, 12; the default horizon is 200, evaluation.py 98) and finish_run, which
      logs an average (multitask job, 96-98). *)
  Definition job_hooks (init : pdict -> res job) (horizon : Z) (c : chance) : hooks job :=
    {| h_init := init; h_warmup := job_warmup c; h_evaluate := job_evaluate c horizon; h_finish := fun _ _ => Ok tt |}.
  Definition multitask_job : chance -> hooks job := job_hooks multitask_init 200.
  Definition preference_job : chance -> hooks job := job_hooks preference_init 15.
  Definition pomcp_job : chance -> hooks job := job_hooks pomcp_job_init 200.
  (** DEFAULT_PARAMETERS of the multitask job, 57-63 *)
  Definition multitask_defaults : list (string * option json) :=
    [("n_subtasks", Some (JNum 20)); ("task", Some (JText "alternative")); ("policy", Some (JText "random")); ("n_evaluations", Some (JNum 100))]%string.
End Jobs.
Arguments runner : clear implicits.
Arguments job : clear implicits.
