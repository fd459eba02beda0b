(** Specification for C104 and C105: what a program sees of experiments. *)
From Verif Require Import PyBase EvalModel ExpModel.
Local Open Scope list_scope.
Local Open Scope nat_scope.

(** The worlds a program can reach after importing the module, whatever files there are. *)
Definition reachable {S} (l : list (op S)) (w : world) : Prop := exists files, w = after_all l (imported files).

(** What is seen: DEFAULT_PARAMETERS[k] of class number c, d[k] for the i-th dictionary of the caller, parameters[k] and
    results[k] of experiment e. *)
Definition default_of (w : world) (c : nat) (k : string) : option pval :=
  match nth_error (classes w) c with Some a => lookup (nth a (heap w) []) k | None => None end.
Definition given_of (w : world) (i : nat) (k : string) : option pval :=
  match nth_error (given w) i with Some a => lookup (nth a (heap w) []) k | None => None end.
Definition parameter (w : world) (e : nat) (k : string) : option pval :=
  match nth_error (exps w) e with Some x => lookup (nth (e_params x) (heap w) []) k | None => None end.
Definition result (w : world) (e : nat) (k : string) : option pval :=
  match nth_error (exps w) e with Some x => lookup (nth (e_results x) (heap w) []) k | None => None end.
Definition path_of (w : world) (e : nat) : option string := match nth_error (exps w) e with Some x => e_path x | None => None end.
(** results['parameters'][k] *)
Definition shown (w : world) (e : nat) (k : string) : option pval :=
  match result w e "parameters" with Some (VDict a) => lookup (nth a (heap w) []) k | _ => None end.

(** Values of one dictionary before those of another. *)
Definition over (f g : string -> option pval) (k : string) : option pval := match f k with Some v => Some v | None => g k end.
(** The last value of k in a list of items *)
Fixpoint last_value {V} (d : list (string * V)) (k : string) : option V :=
  match d with
  | [] => None
  | (k', v) :: d => match last_value d k with Some x => Some x | None => if String.eqb k' k then Some v else None end
  end.
Definition as_value (v : option json) : pval := match v with Some j => VJson j | None => VObject end.
Definition written (d : list (string * option json)) (k : string) : option pval := option_map as_value (last_value d k).
Definition debug_value (k : string) : option pval :=
  if String.eqb k "n_warmup" then Some (VJson (JNum 2))
  else if String.eqb k "n_evaluations" then Some (VJson (JNum 2))
  else if String.eqb k "iterations" then Some (VJson (JNum 10))
  else if String.eqb k "n_particles" then Some (VJson (JNum 20))
  else if String.eqb k "horizon-length" then Some (VJson (JNum 2)) else None.

(** The operations that may change the parameters of experiment e; that change the i-th dictionary; that run experiment e. *)
Definition touches {S} (e : nat) (o : op S) : Prop :=
  match o with SetParam e' _ _ => e' = e | Debug e' => e' = e | Run e' true _ _ => e' = e | _ => False end.
Definition touches_given {S} (i : nat) (o : op S) : Prop := match o with SetItem i' _ _ => i' = i | _ => False end.
Definition runs {S} (e : nat) (o : op S) : Prop := match o with Run e' _ _ _ => e' = e | _ => False end.

(** The default parameters of SupportiveExperiment *)
Inductive is_default : string -> json -> Prop :=
| default_warmup : is_default "n_warmup" (JNum 2000)
| default_evaluations : is_default "n_evaluations" (JNum 20)
| default_iterations : is_default "iterations" (JNum 1000)
| default_rollouts : is_default "rollout-iterations" (JNum 1)
| default_exploration : is_default "exploration" (JNum 50)
| default_relative : is_default "relative-explo" (JBool false)
| default_values : is_default "belief-values" (JBool false)
| default_particles : is_default "n_particles" (JNum 150)
| default_horizon : is_default "horizon-type" (JText "transitions")
| default_length : is_default "horizon-length" (JNum 20)
| default_intermediate : is_default "intermediate-rewards" (JBool false)
| default_preference : is_default "p_preference" (JNum (3 # 10))
| default_policy : is_default "policy" (JText "pomcp").
(** The parameters of a run: with the debug values if asked for. *)
Definition used (w : world) (e : nat) (debug : bool) (k : string) : option pval :=
  if debug then over debug_value (parameter w e) k else parameter w e k.
(** All values can be written. *)
Definition writable (f : string -> option pval) : Prop := forall k, f k <> Some VObject.
(** What a file holds under key k *)
Definition in_file (w : world) (p : string) (k : string) : option json :=
  match lookup (files w) p with Some (Some (JDict d)) => lookup d k | _ => None end.
(** The dictionary [parameters] of experiment e *)
Definition params_of (w : world) (e : nat) : pdict := match nth_error (exps w) e with Some x => nth (e_params x) (heap w) [] | None => [] end.
(** The parameters that every experiment has *)
Definition base_keys : list string :=
  ["n_warmup"; "n_evaluations"; "iterations"; "rollout-iterations"; "exploration"; "relative-explo"; "belief-values"; "n_particles";
   "horizon-type"; "horizon-length"; "intermediate-rewards"; "p_preference"; "policy"]%string.
(** Operations that may write the file p *)
Definition may_write {S} (w : world) (o : op S) (p : string) : Prop :=
  match o with Run e _ _ _ => path_of w e = Some p | Prepare _ config _ => config = p | _ => False end.
(** The JSON value j describes the evaluation v. *)
Definition field (j : json) (k : string) : option json := match j with JDict d => lookup d k | _ => None end.
Definition numbers {X} (f : X -> Q) (l : list X) : json := JList (map (fun x => JNum (f x)) l).
Definition describes (j : json) (v : evaluation) : Prop :=
  field j "return" = Some (JNum (r_return (ev_record v))) /\ field j "elapsed-time" = Some (JNum (ev_elapsed v)) /\
  field j "simulator-calls" = Some (JNum (inject_Z (Z.of_nat (ev_calls v)))) /\
  field j "rewards" = Some (numbers (fun q => q) (r_rewards (ev_record v))) /\
  field j "states" = Some (numbers inject_Z (r_states (ev_record v))) /\
  field j "actions" = Some (numbers (fun n => inject_Z (Z.of_nat n)) (r_actions (ev_record v))) /\
  field j "observations" = Some (numbers (fun n => inject_Z (Z.of_nat n)) (r_observations (ev_record v))).
(** What the hooks of an experiment do with the parameters d: the time of the warmup and the evaluations. *)
Definition stages {S} (hk : hooks S) (d : pdict) (s s1 : S) (t : Q) (l : list evaluation) : Prop :=
  h_init hk d = Ok s /\ (exists n, lookup d "n_warmup" = Some n /\ h_warmup hk s n = Ok (s1, t)) /\
  exists m, lookup d "n_evaluations" = Some m /\ h_evaluate hk s1 m = Ok l.
(** Two worlds hold the same files. *)
Definition same_files (w w' : world) : Prop := forall p, lookup (files w') p = lookup (files w) p.
(** A file that holds the outcome of a run with the parameters f. *)
Definition holds (w : world) (p : string) (f : string -> option pval) (t : Q) (l : list evaluation) : Prop :=
  in_file w p "t_warmup" = Some (JNum t) /\
  (exists js, in_file w p "evaluations" = Some (JList js) /\ Forall2 describes js l) /\
  exists d, in_file w p "parameters" = Some (JDict d) /\ forall k, option_map VJson (lookup d k) = f k.
(** No operation of l, done from w, may write the file p. *)
Definition untouched {S} (l : list (op S)) (w : world) (p : string) : Prop :=
  forall l1 o l2, l = l1 ++ o :: l2 -> ~ may_write (after_all l1 w) o p.
(** The returns, times and numbers of calls of evaluations, as read from a file *)
Definition readings (l : list evaluation) : list json * list json * list json :=
  (map (fun v => JNum (r_return (ev_record v))) l, map (fun v => JNum (ev_elapsed v)) l, map (fun v => JNum (inject_Z (Z.of_nat (ev_calls v)))) l).
(** Why a run fails: an exception of one of its stages, the file that cannot be opened, or a parameter that cannot be written *)
Inductive fails {S} (opens : string -> bool) (hk : hooks S) (d : pdict) (path : option string) : problem -> Prop :=
| in_init e : h_init hk d = Err e -> fails opens hk d path (Raises e)
| in_warmup s n e : h_init hk d = Ok s -> lookup d "n_warmup" = Some n -> h_warmup hk s n = Err e -> fails opens hk d path (Raises e)
| in_evaluate s n s1 t m e : h_init hk d = Ok s -> lookup d "n_warmup" = Some n -> h_warmup hk s n = Ok (s1, t) ->
    lookup d "n_evaluations" = Some m -> h_evaluate hk s1 m = Err e -> fails opens hk d path (Raises e)
| in_finish s s1 t l e : stages hk d s s1 t l -> h_finish hk s1 l = Err e -> fails opens hk d path (Raises e)
| in_open s s1 t l p : stages hk d s s1 t l -> h_finish hk s1 l = Ok tt -> path = Some p -> opens p = false -> fails opens hk d path CannotOpen
| in_write s s1 t l p k : stages hk d s s1 t l -> h_finish hk s1 l = Ok tt -> path = Some p -> opens p = true -> lookup d k = Some VObject -> fails opens hk d path (Raises EType).
