(** Model of the warm-up of samples/pomcp.py 116-125 and samples/supportive.py 47-56: rounds of search from the start, and what is shown of each. *)
From Verif Require Import PyBase QBase PomdpModel PomcpModel SharedModel.
Local Open Scope list_scope.
Local Open Scope nat_scope.

Section Warm.
  Context {X St B H : Type}.
  Variable P : search X St B H.
  (** samples/pomcp.py 119-121: [pol.tree.root.children[pol._last_action].value if pol._last_action is not None else 0.0] *)
  Definition current_value (r : runner B) : res Q :=
    match r_last r with
    | None => Ok 0%Q
    | Some a => match nth_error (o_kids (r_root r)) a with
                | None => Err EIndex
                | Some None => Err EAttr
                | Some (Some c) => Ok (avg_value (a_avg c))
                end
    end.
  (** The loop: what is shown in each round (the best action so far and its value), the runner, and the best action or an exception.
      Simplification: the text and the percentage are not modelled. *)
  Fixpoint warm_up (rounds iterations fuel : nat) (best : option name) (r : runner B) (x : X) : list (option name * Q) * runner B * X * res (option name) :=
    match rounds with
    | 0 => ([], r, x, Ok best)
    | S rounds =>
        match current_value r with
        | Err e => ([], r, x, Err e)
        | Ok v =>
            let '(r, x, a) := get_action P iterations fuel r x in
            match a with
            | Err e => ([(best, v)], r, x, Err e)
            | Ok nm => let '(l, r, x, e) := warm_up rounds iterations fuel (Some nm) r x in ((best, v) :: l, r, x, e)
            end
        end
    end.
End Warm.

Section WarmShared.
  Context {X St B H : Type}.
  Variable P : search X St B H.
  Variable same : B -> B -> bool.
  (** The same with belief_values, as in samples/pomcp.py 102: the root is the first node of the store *)
  Definition s_current_value (r : srunner B) : res Q :=
    match sr_last r with
    | None => Ok 0%Q
    | Some a => match nth_error (sr_store r) 0 with
                | None => Err EKey
                | Some n => match nth_error (sn_kids n) a with
                            | None => Err EIndex
                            | Some None => Err EAttr
                            | Some (Some k) => Ok (avg_value (k_avg k))
                            end
                end
    end.
  Fixpoint s_warm_up (rounds iterations fuel : nat) (best : option name) (r : srunner B) (x : X) : list (option name * Q) * srunner B * X * res (option name) :=
    match rounds with
    | 0 => ([], r, x, Ok best)
    | S rounds =>
        match s_current_value r with
        | Err e => ([], r, x, Err e)
        | Ok v =>
            let '(r, x, a) := s_get_action P same iterations fuel r x in
            match a with
            | Err e => ([(best, v)], r, x, Err e)
            | Ok nm => let '(l, r, x, e) := s_warm_up rounds iterations fuel (Some nm) r x in ((best, v) :: l, r, x, e)
            end
        end
    end.
End WarmShared.
