(** Specification for C106: the jobs of the evaluation of supportive policies. *)
From Verif Require Import PyBase QBase SuppModel EvalModel ExpModel RunModel SuppLawModel RunSpec ExpSpec PoolModel PoolSpec JobModel.
Local Open Scope list_scope.
Local Open Scope nat_scope.

(** Parameters of a run *)
Definition has_text (f : string -> option pval) (k s : string) : Prop := f k = Some (VJson (JText s)).
Definition has_number (f : string -> option pval) (k : string) (q : Q) : Prop := f k = Some (VJson (JNum q)).
Definition has_integer (f : string -> option pval) (k : string) (z : Z) : Prop := exists q, has_number f k q /\ (q == inject_Z z)%Q.

(** The processes of n repetitions all return and the parent has the time to collect their results (C72 says when). *)
Definition healthy (c : chance) (n : nat) : Prop :=
  returned (exec (fun _ _ => tt) (ch_seeds c) (ch_processors c) n (ch_events c) (ch_length c)).
(** Nothing unlikely happens: as many numbers are drawn as there are objects and preferences, none is below 0.01 (0 for preferences),
    and that on which a refusal or an answer depends is not 0.9 or above. *)
Definition ordinary (m : spomdp) (x : numbers) : Prop :=
  length (n_objects x) = length (objects m) /\ Forall (fun q => (1 # 100) <= q)%Q (n_objects x) /\
  length (n_preferences x) = 1 /\ Forall (fun q => 0 <= q)%Q (n_preferences x) /\ ((1 # 100) <= n_luck x)%Q /\ (n_luck x < 9 # 10)%Q.
(** The number drawn for the first preference at the start *)
Definition first_preference (c : chance) (p : nat) : Q := nth 0 (n_preferences (ch_start c p)) 0%Q.

(** The tasks of the multitask job by name, the number of legs to assemble, and the number of subtasks over all branches *)
Definition task_of (task : string) (n : nat) : res stree :=
  if String.eqb task "sequence" then task_long_sequence n else if String.eqb task "uniform" then task_uniform 4 else task_alternative.
Definition legs_of (task : string) (n : nat) : nat := if String.eqb task "sequence" then n else 4.
Definition subtasks_of (task : string) (n : nat) : nat :=
  if String.eqb task "sequence" then n else if String.eqb task "uniform" then 64 else 16.
(** The scripts of the policies: number of legs and actions for holding *)
Definition script_legs (task policy : string) (n : nat) : nat := if String.eqb policy "random" then legs_of task n else subtasks_of task n.
Definition script_holds (policy : string) : list string := if String.eqb policy "random" then ["hold H"; "hold V"]%string else ["hold H"%string].

(** A record of an evaluation that follows a script on a model, in at most h turns: *)
Definition scripted (cf : config) (m : spomdp) (legs : nat) (holds : list string) (h : nat) (rec : record Z) : Prop :=
  length (r_actions rec) <= h /\ length (turns_of m rec) = length (r_actions rec) /\ follows_script legs holds (turns_of m rec) /\
  forall x, In x (turns_of m rec) -> In (t_obs x) ["none"; "fail"; "not-found"]%string.
(** The return is the sum of the rewards. *)
Definition summed (rec : record Z) : Prop := (r_return rec == total (r_rewards rec))%Q.
Definition reaches_end (cf : config) (m : spomdp) (rec : record Z) : Prop := exists x, In x (r_states rec) /\ model_is_final cf m x = true.

(** The values set by the jobs. *)
Definition rewards (sub final pref : Q) (indep : bool) (hold : Q) : config :=
  {| r_subtask := sub; r_final := final; r_preference := pref; reward_independent_preference := indep; cost_get := 15; cost_intrinsic := 1;
     cost_hold := hold; cf_preferences := 1 |}.
Definition multitask_config (task : string) : config := if String.eqb task "sequence" then rewards 10 10 10 false 2 else rewards 10 10 18 false 10.
Definition preference_config : config := rewards 10 10 30 true 2.
(** A parameter that switches nothing on: Python's false values *)
Inductive off : pval -> Prop :=
| off_none : off (VJson JNull)
| off_false : off (VJson (JBool false))
| off_zero q : (q == 0)%Q -> off (VJson (JNum q))
| off_text : off (VJson (JText ""))
| off_list : off (VJson (JList []))
| off_dict : off (VJson (JDict [])).
(** The evaluations of a finished run *)
Definition evaluations_of (w : ExpModel.world) (e : nat) (l : list evaluation) : Prop := result w e "evaluations" = Some (VEvals l).
(** A run that ends without exception, or with this one *)
Definition run_of {S} (w : ExpModel.world) (e : nat) (debug : bool) (hk : hooks S) (opens : string -> bool) : ExpModel.world := fst (apply (Run e debug hk opens) w).
Definition succeeds {S} (w : ExpModel.world) (e : nat) (debug : bool) (hk : hooks S) (opens : string -> bool) : Prop := snd (apply (Run e debug hk opens) w) = None.
Definition raises {S} (w : ExpModel.world) (e : nat) (debug : bool) (hk : hooks S) (opens : string -> bool) (x : exn) : Prop := snd (apply (Run e debug hk opens) w) = Some (Raises x).
(** Making a script hold for a human who does not want it *)
Definition refused_names (n : nat) : list string := ["bring screws"; "bring screwdriver"; "bring joints"; "bring leg"]%string ++ repeat "hold H"%string (n - 4).
(** The values of the parameters refused by the multitask job *)
Definition job_tasks : list string := ["sequence"; "uniform"; "alternative"]%string.
Definition valid_task (f : string -> option pval) : Prop :=
  exists task, In task job_tasks /\ has_text f "task" task /\ (task = "sequence"%string -> exists n, has_integer f "n_subtasks" n /\ (1 <= n)%Z).
Inductive refused (f : string -> option pval) : exn -> Prop :=
| no_task_given : f "task"%string = None -> refused f EKey
| task_not_text v : f "task"%string = Some v -> (forall s, v <> VJson (JText s)) -> refused f EType
| task_unknown s : has_text f "task" s -> ~ In s job_tasks -> refused f EValue
| no_number_given : has_text f "task" "sequence" -> f "n_subtasks"%string = None -> refused f EKey
| number_not_integer v : has_text f "task" "sequence" -> f "n_subtasks"%string = Some v -> (forall z, ~ has_integer f "n_subtasks" z) -> refused f EType
| no_legs z : has_text f "task" "sequence" -> has_integer f "n_subtasks" z -> (z <= 0)%Z -> refused f EValue
| no_policy_given : valid_task f -> f "policy"%string = None -> refused f EKey
| policy_unknown v : valid_task f -> f "policy"%string = Some v -> (forall s, In s ["pomcp"; "repeat"; "random"]%string -> v <> VJson (JText s)) -> refused f ENotImpl.
