(** Specification for C120: jobs that run at the same time. *)
From Verif Require Import PyBase ExpModel ExpSpec LaunchModel.
Local Open Scope list_scope.
Local Open Scope nat_scope.

(** Names of jobs that give every job its own files under the path: *)
Definition separate (path : string) (config : string -> string) (names : list string) : Prop :=
  (forall n m, In n names -> In m names -> config n = config m -> n = m) /\
  (forall n m, In n names -> In m names -> config n <> result_path path m) /\
  (forall n, In n names -> starts_slash n = false).
(** Process i runs, under this name. *)
Definition runs_as {S} (s : system S) (i : nat) (n : string) : Prop := exists p, nth_error (sy_running s) i = Some (Some p) /\ pr_name p = n.
Definition file_of {S} (s : system S) (p : string) : option file := lookup (sy_files s) p.
(** The defaults of a class are JSON. *)
Definition json_only (own : option (list (string * option json))) : Prop := forall o kv, own = Some o -> In kv o -> snd kv <> None.
(** init_run only looks parameters up: their order does not matter. *)
Definition reads_values {S} (hk : hooks S) : Prop := forall d d', (forall k, lookup d k = lookup d' k) -> h_init hk d = h_init hk d'.
Section Events.
  Context {S : Type}.
  Variables (path : string) (config : string -> string) (own : option (list (string * option json))).
  (** This event writes the results of n: the process ends without exception, or it is killed while it writes. *)
  Definition finishes (s : system S) (i : nat) (n : string) : Prop := exists p, nth_error (sy_running s) i = Some (Some p) /\ pr_name p = n /\ snd (process_run path config own p) = None.
  Definition writes (s : system S) (ev : event S) (n : string) : Prop :=
    match ev with Start _ _ _ => False | End i => finishes s i n | Kill i w => w = true /\ runs_as s i n end.
  (** Only jobs of the launcher are started. *)
  Definition own_jobs (names : list string) (l : list (event S)) : Prop := forall n hk opens, In (Start n hk opens) l -> In n names.
  (** The parameters of a job: those of the launcher over the defaults of its class over those of SupportiveExperiment. *)
  Definition job_parameters (d : list (string * json)) (k : string) : option pval :=
    match last_value d k with
    | Some j => Some (VJson j)
    | None => match (match own with Some o => written o k | None => None end) with Some v => Some v | None => lookup base_parameters k end
    end.
  (** The last thing written about n among the events, from s: the results of process i, which had these hooks. *)
  Definition latest (s : system S) (evs : list (event S)) (n : string) (p : process S) : Prop :=
    exists evs1 i evs2, evs = evs1 ++ End i :: evs2 /\ nth_error (sy_running (steps path config own s evs1)) i = Some (Some p) /\ pr_name p = n /\
      snd (process_run path config own p) = None /\
      forall evs3 ev evs4, evs2 = evs3 ++ ev :: evs4 -> ~ writes (steps path config own s (evs1 ++ End i :: evs3)) ev n.
  (** What the hooks of a process do with the parameters f: its evaluations. *)
  Definition made (p : process S) (f : string -> option pval) (t : Q) (v : list evaluation) : Prop :=
    exists s s1 d, (forall k, lookup d k = f k) /\ stages (pr_hooks p) d s s1 t v /\ h_finish (pr_hooks p) s1 v = Ok tt.
End Events.

(** The experiments of the launchers *)
Inductive multitask_experiment : string -> list (string * json) -> Prop :=
| by_task task pol : In task ["sequence"; "uniform"; "alternative"]%string -> In pol ["pomcp"; "repeat"; "random"]%string ->
    multitask_experiment (task ++ "-" ++ pol) [("task", JText task); ("policy", JText pol)]%string.
Definition decimal (n : nat) : string := HtmModel.str_nat n.
Definition rewards_mark (s : bool) : string := if s then "-s" else "-ns".
Definition whole (n : nat) : json := JNum (inject_Z (Z.of_nat n)).
Inductive pomcp_experiment : string -> list (string * json) -> Prop :=
| by_transitions l s : In l [3; 5; 7; 10; 15; 20; 25; 30; 35; 40; 60; 80; 100] ->
    pomcp_experiment ("transitions-" ++ decimal l ++ rewards_mark s) [("horizon-type", JText "transitions"); ("horizon-length", whole l); ("intermediate-rewards", JBool s)]%string
| by_htm l s : 1 <= l <= 9 ->
    pomcp_experiment ("htm-" ++ decimal l ++ rewards_mark s) [("horizon-type", JText "htm"); ("horizon-length", whole l); ("intermediate-rewards", JBool s)]%string
| by_iterations i r : In i [15; 20; 30] \/ (exists k, i = 50 * k /\ 1 <= k <= 20) -> In r [1; 5; 10; 30; 50; 75; 100] ->
    pomcp_experiment ("iterations-" ++ decimal i ++ "-" ++ decimal r) [("iterations", whole i); ("rollout-iterations", whole r)]%string.
Inductive preference_experiment (show : Q -> string) : string -> list (string * json) -> Prop :=
| by_preference i pol : i <= 20 -> In pol ["never-hold"; "always-hold"; "pomcp"]%string ->
    preference_experiment show ("preferences-" ++ show (Z.of_nat i # 20) ++ "-" ++ pol) [("p_preference", JNum (Z.of_nat i # 20)); ("policy", JText pol); ("n_evaluations", JNum 100)]%string.
