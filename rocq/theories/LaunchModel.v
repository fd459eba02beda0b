(** Launchers of experiments: ExpLauncher, task_models/evaluation.py 227-262, and its three subclasses,
    samples/supportive_evaluation_{multitask,pomcp,preference}.py.  The jobs are processes that run at the same time. *)
From Verif Require Import HtmModel.
From Verif Require Export PyBase ExpModel.
Local Open Scope list_scope.
Local Open Scope nat_scope.

(** self.exps: names and parameters.  [dict(exps)] keeps the last parameters of a name that occurs twice; self.jobs has the same keys. *)
Definition launcher := list (string * list (string * json)).
Definition as_dict (l : launcher) : launcher := update [] l.
Definition jint (n : nat) : json := JNum (inject_Z (Z.of_nat n)).

(** init_jobs of MultitaskLauncher, supportive_evaluation_multitask.py 22-23 and 31-37 *)
Definition multitask_policies : list string := ["pomcp"; "repeat"; "random"]%string.
Definition multitask_tasks : list string := ["sequence"; "uniform"; "alternative"]%string.
Definition multitask_name (task pol : string) : string := (task ++ "-" ++ pol)%string.
Definition multitask_exps : launcher :=
  flat_map (fun task => map (fun pol => (multitask_name task pol, [("task"%string, JText task); ("policy"%string, JText pol)])) multitask_policies) multitask_tasks.

(** init_jobs of POMCPLauncher, supportive_evaluation_pomcp.py 15-19 and 26-42 *)
Definition lengths_transitions : list nat := [3; 5; 7; 10; 15; 20; 25; 30; 35; 40; 60; 80; 100].
Definition lengths_htm : list nat := seq 1 9.
Definition iterations : list nat := [15; 20; 30] ++ map (fun i => 50 * S i) (seq 0 20).
Definition rollout_iterations : list nat := [1; 5; 10; 30; 50; 75; 100].
Definition horizon_name (t : string) (l : nat) (s : bool) : string := (t ++ "-" ++ str_nat l ++ "-" ++ (if s then "s" else "ns"))%string.
Definition iterations_name (i r : nat) : string := ("iterations-" ++ str_nat i ++ "-" ++ str_nat r)%string.
Definition pomcp_exps : launcher :=
  flat_map (fun tl : string * nat => let (t, l) := tl in
    map (fun s => (horizon_name t l s, [("horizon-type"%string, JText t); ("horizon-length"%string, jint l); ("intermediate-rewards"%string, JBool s)])) [true; false])
    (combine (repeat "transitions"%string (length lengths_transitions) ++ repeat "htm"%string (length lengths_htm)) (lengths_transitions ++ lengths_htm))
  ++ flat_map (fun i => map (fun r => (iterations_name i r, [("iterations"%string, jint i); ("rollout-iterations"%string, jint r)])) rollout_iterations) iterations.

(** init_jobs of PreferenceLauncher, supportive_evaluation_preference.py 25-26 and 33-39.  [show] is Python's text of a float.
    Simplification: the 21 numbers of np.arange(0, 1.001, .05) are exact. *)
Definition preference_policies : list string := ["never-hold"; "always-hold"; "pomcp"]%string.
Definition preference_numbers : list Q := map (fun i => Z.of_nat i # 20) (seq 0 21).
Definition preference_name (show : Q -> string) (p : Q) (pol : string) : string := ("preferences-" ++ show p ++ "-" ++ pol)%string.
Definition preference_exps (show : Q -> string) : launcher :=
  flat_map (fun p => map (fun pol => (preference_name show p pol, [("p_preference"%string, JNum p); ("policy"%string, JText pol); ("n_evaluations"%string, JNum 100)]))
    preference_policies) preference_numbers.

(** The names looked up in the results: print_results and plot_results, multitask 39-67; plot_results, pomcp 44-113; preference 41-59. *)
Definition multitask_read : list string := flat_map (fun task => map (multitask_name task) multitask_policies) multitask_tasks.
Definition pomcp_read : list string :=
  flat_map (fun s => map (fun h => horizon_name "transitions" h s) lengths_transitions) [false; true] ++
  flat_map (fun s => map (fun h => horizon_name "htm" h s) lengths_htm) [false; true] ++
  flat_map (fun r => map (fun i => iterations_name i r) iterations) rollout_iterations.
Definition preference_read (show : Q -> string) : list string := flat_map (fun pol => map (fun p => preference_name show p pol) preference_numbers) preference_policies.

Section Launch.
  Context {S : Type}.
  (** args.path and the property [config] of expjobs' Job for the name of a job: outside this code. *)
  Variable path : string.
  Variable config : string -> string.
  (** DEFAULT_PARAMETERS of the class of the jobs, if it has its own *)
  Variable own : option (list (string * option json)).

  (** action_prepare, 255-258: the configuration of each experiment is written. *)
  Fixpoint action_prepare (opens : string -> bool) (l : launcher) (fs : list (string * file)) : list (string * file) * outcome :=
    match l with
    | [] => (fs, None)
    | (name, d) :: l => if opens (config name) then action_prepare opens l (assign fs (config name) (Some (JDict d))) else (fs, Some CannotOpen)
    end.

  (** A job is a process that runs the script with the arguments config, path and name (run_from_arguments, 204-224): what it
      draws and computes is in its hooks. *)
  Record process := { pr_name : string; pr_hooks : hooks S; pr_opens : string -> bool; pr_files : list (string * file) (* the files when it starts *) }.
  Definition process_run (p : process) : world * outcome :=
    run_from_arguments (pr_opens p) (pr_hooks p) (after_all [DefClass 0 own : op S] (imported (pr_files p))) 1 (Some (config (pr_name p))) (Some path) (Some (pr_name p)) false.
  (** The files and the processes that run. *)
  Record system := { sy_files : list (string * file); sy_running : list (option process) }.
  Inductive event :=
  | Start (name : string) (hk : hooks S) (opens : string -> bool)   (* a process reads its configuration *)
  | End (i : nat)                                                    (* process number i does the rest: it may write its file of results *)
  | Kill (i : nat) (writing : bool).                                 (* or it is killed, perhaps while it writes this file *)
  Definition stop (l : list (option process)) (i : nat) : list (option process) := replace l i None.
  (** Reading the configuration is the first thing a process does with files, and writing the results the last one: what happens to
      other files in between does not matter to it.  A process that fails writes nothing (C120_failure). *)
  Definition step (s : system) (ev : event) : system :=
    match ev with
    | Start name hk opens => {| sy_files := sy_files s; sy_running := sy_running s ++ [Some {| pr_name := name; pr_hooks := hk; pr_opens := opens; pr_files := sy_files s |}] |}
    | End i =>
        match nth_error (sy_running s) i with
        | Some (Some p) =>
            let r := process_run p in let out := result_path path (pr_name p) in
            {| sy_files := match snd r, lookup (files (fst r)) out with None, Some f => assign (sy_files s) out f | _, _ => sy_files s end; sy_running := stop (sy_running s) i |}
        | _ => s
        end
    | Kill i writing =>
        match nth_error (sy_running s) i with
        | Some (Some p) => {| sy_files := if writing then assign (sy_files s) (result_path path (pr_name p)) None else sy_files s; sy_running := stop (sy_running s) i |}
        | _ => s
        end
    end.
  Fixpoint steps (s : system) (l : list event) : system := match l with [] => s | ev :: l => steps (step s ev) l end.
  Definition ready (fs : list (string * file)) : system := {| sy_files := fs; sy_running := [] |}.

  (** get_results, 251-253 *)
  Fixpoint collect (fs : list (string * file)) (names : list string) : list (string * (list json * list json * list json)) + problem :=
    match names with
    | [] => inl []
    | n :: names =>
        match get_results (imported fs) path n with
        | inl (Ok r) => match collect fs names with inl rs => inl ((n, r) :: rs) | inr e => inr e end
        | inl (Err e) => inr (Raises e)
        | inr e => inr e
        end
    end.
End Launch.
Arguments process : clear implicits.
Arguments system : clear implicits.
Arguments event : clear implicits.
