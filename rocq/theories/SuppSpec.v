(** Specification for C32 to C38: what the documentation of SupportivePOMDP (supportive.py 231-249, 262-283)
    says of one step of the simulation, on states read through their features. *)
From Verif Require Import QBase PyBase HtmModel CodecModel SuppModel.

(** Actions of the robot, and their names in [actions]. *)
Inductive robot := Wait | HoldH | HoldV | Ask | Bring (o : string) | Clear (o : string).
Definition robot_name (a : robot) : string :=
  match a with
  | Wait => "wait" | HoldH => "hold H" | HoldV => "hold V" | Ask => "ask hold"
  | Bring o => "bring " ++ o | Clear o => "clear " ++ o
  end%string.

(** Where the human is: performing a leaf of the task, cleaning, or done. *)
Inductive stage := Doing (i : nat) | Cleaning | Finished.
Record world := { w_stage : stage; w_prefs : list bool; w_holding : bool; w_has : string -> bool }.

(** The state integer s stands for the world w. *)
Definition stage_index (m : spomdp) (g : stage) : Z :=
  match g with Doing i => Z.of_nat i | Cleaning => htm_clean m | Finished => htm_final m end.
Definition reads (cf : config) (m : spomdp) (s : Z) (w : world) : Prop :=
  let x := int_to_state cf m s in
  (0 <= s < model_n_states cf m)%Z /\
  htm x = stage_index m (w_stage w) /\ (forall i, w_stage w = Doing i -> (i < length (htm_nodes m))%nat) /\
  length (w_prefs w) = cf_preferences cf /\
  (forall i b, nth_error (w_prefs w) i = Some b -> has_preference x i = Z.b2z b) /\
  has_body_feature x 0 = Z.b2z (w_holding w) /\
  (forall i o, nth_error (objects m) i = Some o -> has_object x i = Z.b2z (w_has w o)).

(** The human wants help to hold. *)
Definition wants_hold (w : world) : bool := nth 0 (w_prefs w) false.

(** Meeting the conditions of an action one after the other: objects that are absent are fetched by the
    human (the number counts them); then consumed objects are absent, used objects present, partly consumed
    objects either, and nothing else changes. *)
Inductive meets : list (cond * string) -> (string -> bool) -> (string -> bool) -> nat -> Prop :=
| meets_nil h : meets [] h h 0
| meets_cons c o t h h1 h' n :
    (forall o', o' <> o -> h1 o' = h o') ->
    (c = CConsumes -> h1 o = false) -> (c = CUses -> h1 o = true) -> (c = COther -> h1 o = h o) ->
    meets t h1 h' n ->
    meets ((c, o) :: t) h h' ((if h o then 0 else 1) + n).

Section Documented.
  Variable cf : config.
  (** The graph of leaves of the task (C26, C27), and the names of the objects. *)
  Variable nodes : list (sparams).
  Variable succs : list (list nat).
  Variable objs : list string.

  Local Open Scope Q_scope.

  (** The human finishes leaf i and starts a successor, or cleans when there is none; [n] objects had to be
      fetched. *)
  Definition completes (i : nat) (w w' : world) (n : nat) : Prop :=
    (exists p, nth_error nodes i = Some p /\ meets (sp_conditions p) (w_has w) (w_has w') n) /\
    (exists l, nth_error succs i = Some l /\
               ((l = [] /\ w_stage w' = Cleaning) \/ exists j, In j l /\ w_stage w' = Doing j)) /\
    w_prefs w' = w_prefs w /\ w_holding w' = w_holding w.

  Definition with_stage (w : world) (g : stage) : world :=
    {| w_stage := g; w_prefs := w_prefs w; w_holding := w_holding w; w_has := w_has w |}.
  Definition with_object (w : world) (o : string) (b : bool) : world :=
    {| w_stage := w_stage w; w_prefs := w_prefs w; w_holding := w_holding w;
       w_has := fun o' => if String.eqb o' o then b else w_has w o' |}.

  Definition present_count (w : world) : nat := length (filter (w_has w) objs).

  (** Holding this way helps with leaf i. *)
  Definition helps (w : world) (a : robot) (i : nat) : Prop :=
    wants_hold w = true /\
    exists p, nth_error nodes i = Some p /\
      ((sp_hold p = Some "h"%string /\ a = HoldH) \/ (sp_hold p = Some "v"%string /\ a = HoldV)).

  (** Extra reward when the human does not want help, for models that ask for it. *)
  Definition compensation (w : world) : Q :=
    if reward_independent_preference cf && negb (wants_hold w) then r_preference cf - cost_hold cf else 0.

  Definition is_hold (a : robot) : Prop := a = HoldH \/ a = HoldV.
  Definition missing_cost (n : nat) : Q := inject_Z (Z.of_nat n) * cost_get cf.

  (** One step; [rnd] allows the unlikely outcomes. *)
  Inductive documented (rnd : bool) : world -> robot -> world -> string -> Q -> Prop :=
  | finished_wait w r : w_stage w = Finished -> r == 0 -> documented rnd w Wait w "none" r
  | finished_hold w a r : w_stage w = Finished -> is_hold a -> r == - cost_hold cf -> documented rnd w a w "none" r
  | cleaning_wait w r : w_stage w = Cleaning -> r == r_final cf - missing_cost (present_count w) ->
      documented rnd w Wait (with_stage w Finished) "none" r
  | cleaning_hold w a r : w_stage w = Cleaning -> is_hold a -> r == - cost_hold cf -> documented rnd w a w "fail" r
  | leaf_wait w i w' n r : w_stage w = Doing i -> completes i w w' n ->
      r == r_subtask cf - missing_cost n + compensation w -> documented rnd w Wait w' "none" r
  | leaf_help w a i w' n r : w_stage w = Doing i -> helps w a i -> completes i w w' n ->
      r == r_subtask cf - missing_cost n + r_preference cf - cost_hold cf -> documented rnd w a w' "none" r
  | leaf_undesired w a i r : w_stage w = Doing i -> is_hold a -> ~ helps w a i -> r == - cost_hold cf ->
      documented rnd w a w "fail" r
  | leaf_lucky w a i w' n r : rnd = true -> w_stage w = Doing i -> is_hold a -> ~ helps w a i -> completes i w w' n ->
      r == r_subtask cf - missing_cost n + compensation w - cost_hold cf -> documented rnd w a w' "none" r
  | ask_answer w r : r == - cost_intrinsic cf -> documented rnd w Ask w (if wants_hold w then "yes" else "no") r
  | ask_silent w r : rnd = true -> r == - cost_intrinsic cf -> documented rnd w Ask w "none" r
  | bring_useless w o r : w_has w o = true -> r == - cost_intrinsic cf -> documented rnd w (Bring o) w "not-found" r
  | clear_useless w o r : w_has w o = false -> r == - cost_intrinsic cf -> documented rnd w (Clear o) w "not-found" r
  | bring_done w o r : w_has w o = false -> r == - cost_intrinsic cf -> documented rnd w (Bring o) (with_object w o true) "none" r
  | clear_done w o r : w_has w o = true -> r == - cost_intrinsic cf -> documented rnd w (Clear o) (with_object w o false) "none" r
  | bring_fails w o r : rnd = true -> w_has w o = false -> r == - cost_intrinsic cf -> documented rnd w (Bring o) w "fail" r
  | clear_fails w o r : rnd = true -> w_has w o = true -> r == - cost_intrinsic cf -> documented rnd w (Clear o) w "fail" r.

  (** Spontaneous changes before a random step: objects and preferences may change, nothing else. *)
  Definition disturbed (w w1 : world) : Prop :=
    w_stage w1 = w_stage w /\ w_holding w1 = w_holding w /\ length (w_prefs w1) = length (w_prefs w).
End Documented.

(** Same world, for all objects of the model. *)
Definition same_world (objs : list string) (w w' : world) : Prop :=
  w_stage w = w_stage w' /\ w_prefs w = w_prefs w' /\ w_holding w = w_holding w' /\
  (forall o, In o objs -> w_has w o = w_has w' o).

(** Episodes: start states and successive states for any actions and random outcomes, with the list of the
    leaves left so far. *)
Definition left_leaf (cf : config) (m : spomdp) (s s' : Z) : list nat :=
  let h := htm (int_to_state cf m s) in
  if Z.eqb h (htm (int_to_state cf m s')) || Z.leb (htm_clean m) h then [] else [Z.to_nat h].
Inductive episode (cf : config) (m : spomdp) : list nat -> Z -> Prop :=
| episode_start d s : sample_start cf m d = Ok s -> episode cf m [] s
| episode_step done s d random a s' o r : episode cf m done s -> sample_transition cf m d random a s = Ok (s', o, r) ->
    episode cf m (done ++ left_leaf cf m s s') s'.

(** Successive states from a given state. *)
Inductive run (cf : config) (m : spomdp) : Z -> list Z -> Prop :=
| run_nil s : run cf m s []
| run_cons s s' d random a o r l : sample_transition cf m d random a s = Ok (s', o, r) -> run cf m s' l -> run cf m s (s' :: l).

(** Number of consecutive states whose HTM feature differs. *)
Fixpoint htm_changes (cf : config) (m : spomdp) (s : Z) (l : list Z) : nat :=
  match l with
  | [] => 0
  | s' :: t => (if Z.eqb (htm (int_to_state cf m s)) (htm (int_to_state cf m s')) then 0 else 1) + htm_changes cf m s' t
  end.

(** The last condition of an action on object o is c. *)
Definition decides (cs : list (cond * string)) (c : cond) (o : string) : Prop :=
  exists l1 l2, cs = l1 ++ (c, o) :: l2 /\ forall c', ~ In (c', o) l2.
