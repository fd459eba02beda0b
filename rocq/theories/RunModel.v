(** The scripted policies as evaluated on supportive models: task_models/policy.py 35-115 and
    samples/supportive_evaluation_multitask_job.py 45-51, passed to simulate_one_evaluation (evaluation.py 58-95);
    the supported actions of task_models/supportive.py 53-116. *)
From Verif Require Export ScriptModel EvalModel SuppModel.
Local Open Scope list_scope.
Local Open Scope nat_scope.

(** The policy object with the number of random choices made so far (policy.py 57-58); [choices k] is the k-th one.
    Simplification: a choice is numbered at each get_action, though it is only made for holding. *)
Definition script_policy (choices : nat -> nat) : epolicy (script * nat) :=
  {| ep_reset := fun p => do s <- script_reset (fst p); Ok (s, snd p);
     ep_action := fun p => match script_get_action (fst p) (choices (snd p)) with
                           | (s, Ok nm) => Ok (nm, (s, S (snd p)))
                           | (_, Err e) => Err e
                           end;
     ep_step := fun p o => match script_step (fst p) o with
                           | (s, Ok _) => Ok (s, snd p)
                           | (_, Err e) => Err e
                           end |}.

(** PolicyLongSupportiveSequence(model), policy.py 44-51 *)
Definition long_sequence (m : spomdp) : res script := new_script (actions m) observations (n_htm_states m - 2) ["hold H"%string].
(** PolicySupportiveAlternatives(model, sequence_length), samples/supportive_evaluation_multitask_job.py 47-51: the
    constructor of the superclass, then two attributes are replaced. *)
Definition alternatives (m : spomdp) (sequence_length : Z) : res script :=
  do s <- long_sequence m;
  do nx <- mapM (ScriptModel.index (actions m)) ["hold H"; "hold V"]%string;
  Ok {| sc_actions := sc_actions s; sc_observations := sc_observations s; sc_wait := sc_wait s; sc_n_tasks := sequence_length; sc_next := nx;
        sc_history := sc_history s; sc_to_bring := sc_to_bring s; sc_to_clean := sc_to_clean s; sc_needs_leg := sc_needs_leg s;
        sc_last := sc_last s; sc_n_done := sc_n_done s |}.

(** The supported actions of supportive.py 53-116: name, hold and conditions. *)
Definition supported (name : string) (hold : option string) (conditions : list (cond * string)) : action sparams :=
  {| a_class := KSupported; a_name := name; a_agent := "None"; a_params := Some {| sp_conditions := conditions; sp_hold := hold |} |}.
Definition bring_top : action sparams := supported "Bring Top" None [(CConsumes, "top"%string)].
Definition leg_conditions : list (cond * string) :=
  [(CUses, "joints"); (CConsumes, "leg"); (CUses, "screwdriver"); (CUses, "screws")]%string.
Definition assemble_leg (leg : string) : action sparams := supported ("Assemble " ++ leg) (Some "h"%string) leg_conditions.
Definition assemble_foot (leg : string) : action sparams := supported ("Assemble foot on " ++ leg) (Some "h"%string) leg_conditions.
Definition assemble_top_joint (leg : string) : action sparams :=
  supported ("Assemble joint on " ++ leg) (Some "h"%string) [(CUses, "joints"); (CUses, "screwdriver"); (CUses, "screws")]%string.
Definition assemble_leg_to_top (leg : string) (bring_top : bool) : action sparams :=
  supported ("Assemble " ++ leg ++ " to top") (Some "v"%string)
    ((if bring_top then [(CConsumes, "top"%string)] else []) ++ [(CUses, "screwdriver"%string); (CUses, "screws"%string)]).
(** CustomHoldLegAssembly, samples/supportive_evaluation_multitask_job.py 20-24 *)
Definition custom_hold (obj : string) (hold : option string) : action sparams := supported ("Assemble " ++ obj) hold leg_conditions.

(** LeafCombination(action) and the combinations built from a list of children, with default arguments (task.py 405-411, 440-447). *)
Definition leaf_of (a : action sparams) : stree := Leaf a None None false.
Definition combine_as (k : ckind) (ch : list stree) : res stree := mk_comb k ch None None "unnamed" false None.
(** task_long_sequence(n), samples/supportive_evaluation_multitask_job.py 13-17 *)
Definition task_long_sequence (n : nat) : res stree :=
  combine_as Sequential (map (fun i => leaf_of (assemble_leg ("leg-" ++ str_nat i)%string)) (seq 0 n)).
(** task_seq, 28-31 and 37-40; a string is the list of its characters *)
Definition task_seq (support_seq : list string) : res stree :=
  combine_as Sequential (map (fun s => leaf_of (custom_hold "leg" (Some s))) support_seq).
Definition task_seqs (l : list (list string)) : res stree := do ch <- mapM task_seq l; combine_as Alternative ch.
(** itertools.product('hv', repeat=n) *)
Fixpoint product_hv (n : nat) : list (list string) :=
  match n with
  | O => [[]]
  | S n => flat_map (fun x => map (cons x) (product_hv n)) ["h"; "v"]%string
  end.
(** task_uniform(n), 27-33, and task_alternative(), 36-42 *)
Definition task_uniform (n : nat) : res stree := task_seqs (product_hv n).
Definition task_alternative : res stree :=
  task_seqs [["h"; "v"; "v"; "v"]; ["h"; "h"; "h"; "h"]; ["v"; "h"; "h"; "v"]; ["v"; "v"; "h"; "v"]]%string.
