(** Model of PolicyLongSupportiveSequence, task_models/policy.py 4-115, and of PolicySupportiveAlternatives,
    samples/supportive_evaluation_multitask_job.py 45-51. *)
From Coq Require Export String ZArith.
From Verif Require Export PyBase.
Local Open Scope list_scope.
Local Open Scope nat_scope.

(** [l.index(x)]: ValueError *)
Fixpoint index_from (i : nat) (l : list string) (x : string) : res nat :=
  match l with [] => Err EValue | y :: l => if String.eqb y x then Ok i else index_from (S i) l x end.
Definition index (l : list string) (x : string) : res nat := index_from 0 l x.
(** [l.remove(x)]: the first occurrence; ValueError *)
Fixpoint remove_first (x : nat) (l : list nat) : res (list nat) :=
  match l with [] => Err EValue | y :: l => if y =? x then Ok l else do l' <- remove_first x l; Ok (y :: l') end.

(** self.tools, 49 *)
Definition tools : list string := ["screws"; "screwdriver"; "joints"]%string.
Definition bring (o : string) : string := ("bring " ++ o)%string.
Definition clear (o : string) : string := ("clear " ++ o)%string.

(** The attributes of the policy. *)
Record script := {
  sc_actions : list string; sc_observations : list string;                 (* of the model, 23-29 *)
  sc_wait : nat; sc_n_tasks : Z; sc_next : list nat;                       (* 46-50 *)
  sc_history : list nat; sc_to_bring : list nat; sc_to_clean : list nat;   (* 70-76 *)
  sc_needs_leg : bool; sc_last : option nat; sc_n_done : Z }.

(** reset, 70-76, with 31-32 *)
Definition script_reset (s : script) : res script :=
  do b <- mapM (fun o => index (sc_actions s) (bring o)) tools;
  do c <- mapM (fun o => index (sc_actions s) (clear o)) tools;
  Ok {| sc_actions := sc_actions s; sc_observations := sc_observations s; sc_wait := sc_wait s; sc_n_tasks := sc_n_tasks s; sc_next := sc_next s;
        sc_history := []; sc_to_bring := b; sc_to_clean := c; sc_needs_leg := true; sc_last := None; sc_n_done := 0 |}.
(** __init__, 44-51: [n_tasks] is [model.n_htm_states - 2] and [holds] is ['hold H']; for the alternatives they are
    the length of the sequence and ['hold H', 'hold V']. *)
Definition new_script (actions observations : list string) (n_tasks : Z) (holds : list string) : res script :=
  do w <- index actions "wait";
  do _ <- index observations "none";
  do nx <- mapM (index actions) holds;
  script_reset {| sc_actions := actions; sc_observations := observations; sc_wait := w; sc_n_tasks := n_tasks; sc_next := nx;
                  sc_history := []; sc_to_bring := []; sc_to_clean := []; sc_needs_leg := true; sc_last := None; sc_n_done := 0 |}.

(** The action chosen by get_action, 78-90; [draw] is the random choice of 57-58 (ValueError on an empty list). *)
Definition choice (l : list nat) (draw : nat) : res nat := match l with [] => Err EValue | _ => Ok (nth (draw mod length l) l 0) end.
Definition script_action (s : script) (draw : nat) : res nat :=
  match sc_to_bring s with
  | a :: _ => Ok a
  | [] =>
      if (sc_n_done s <? sc_n_tasks s)%Z
      then if sc_needs_leg s then index (sc_actions s) (bring "leg") else choice (sc_next s) draw
      else match sc_to_clean s with a :: _ => Ok a | [] => Ok (sc_wait s) end
  end.
Definition set_last (s : script) (a : nat) : script :=
  {| sc_actions := sc_actions s; sc_observations := sc_observations s; sc_wait := sc_wait s; sc_n_tasks := sc_n_tasks s; sc_next := sc_next s;
     sc_history := sc_history s; sc_to_bring := sc_to_bring s; sc_to_clean := sc_to_clean s; sc_needs_leg := sc_needs_leg s; sc_last := Some a; sc_n_done := sc_n_done s |}.
(** get_action, 78-91 *)
Definition script_get_action (s : script) (draw : nat) : script * res string :=
  match script_action s draw with
  | Err e => (s, Err e)
  | Ok a => (set_last s a, match nth_error (sc_actions s) a with Some n => Ok n | None => Err EIndex end)
  end.

Definition set_progress (s : script) (b c : list nat) (leg : bool) (d : Z) : script :=
  {| sc_actions := sc_actions s; sc_observations := sc_observations s; sc_wait := sc_wait s; sc_n_tasks := sc_n_tasks s; sc_next := sc_next s;
     sc_history := sc_history s; sc_to_bring := b; sc_to_clean := c; sc_needs_leg := leg; sc_last := sc_last s; sc_n_done := d |}.
Definition extend_history (s : script) (l : list nat) : script :=
  {| sc_actions := sc_actions s; sc_observations := sc_observations s; sc_wait := sc_wait s; sc_n_tasks := sc_n_tasks s; sc_next := sc_next s;
     sc_history := sc_history s ++ l; sc_to_bring := sc_to_bring s; sc_to_clean := sc_to_clean s; sc_needs_leg := sc_needs_leg s; sc_last := sc_last s; sc_n_done := sc_n_done s |}.
(** What step does when the observation is 'none' or 'not-found', 99-113. *)
Definition script_done (s : script) (last : nat) (none : bool) : res script :=
  do b <- mapM (fun o => index (sc_actions s) (bring o)) tools;
  if mem last b
  then do l <- remove_first last (sc_to_bring s); Ok (set_progress s l (sc_to_clean s) (sc_needs_leg s) (sc_n_done s))
  else
    do c <- mapM (fun o => index (sc_actions s) (clear o)) tools;
    if mem last c
    then do l <- remove_first last (sc_to_clean s); Ok (set_progress s (sc_to_bring s) l (sc_needs_leg s) (sc_n_done s))
    else
      do leg <- index (sc_actions s) (bring "leg");
      if last =? leg then Ok (set_progress s (sc_to_bring s) (sc_to_clean s) false (sc_n_done s))
      else if mem last (sc_next s) && none then Ok (set_progress s (sc_to_bring s) (sc_to_clean s) true (sc_n_done s + 1))
      else if last =? sc_wait s then Ok s
      else Err EUnexpected.
(** step, 93-115, with 38-42 *)
Definition script_step (s : script) (o : string) : script * res unit :=
  match sc_last s with
  | None => (s, Err EValue)
  | Some last =>
      match index (sc_observations s) o with
      | Err e => (s, Err e)
      | Ok i =>
          let s := extend_history s [last; i] in
          if String.eqb o "fail" then (s, Ok tt)
          else if String.eqb o "none" || String.eqb o "not-found"
               then match script_done s last (String.eqb o "none") with Ok s' => (s', Ok tt) | Err e => (s, Err e) end
               else (s, Err EUnexpected)
      end
  end.
