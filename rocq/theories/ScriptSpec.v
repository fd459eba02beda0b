(** Specification for C73: the script that the policy follows. *)
From Verif Require Import PyBase ScriptModel.
Local Open Scope list_scope.
Local Open Scope nat_scope.

Section Spec.
  (** The number of subtasks and the actions that hold. *)
  Variable n : nat.
  Variable holds : list string.
  (** The script: each item is the list of the actions that do.  After its end, the policy waits. *)
  Definition items : list (list string) :=
    [["bring screws"]; ["bring screwdriver"]; ["bring joints"]]%string ++ concat (repeat [["bring leg"%string]; holds] n) ++
    [["clear screws"]; ["clear screwdriver"]; ["clear joints"]]%string.
  Definition item (pos : nat) : list string := nth pos items ["wait"%string].
  (** The item is done when nothing special is observed, also when an object is not found; but holding needs 'none'. *)
  (** the items that hold are numbers 4, 6, ... *)
  Definition holding (pos : nat) : Prop := exists i, i < n /\ pos = 2 * i + 4.
  Definition completes (pos : nat) (o : string) : Prop := o = "none"%string \/ (o = "not-found"%string /\ ~ holding pos).
  (** What a call to step raises: nothing, or an exception. *)
  Definition answer (observations : list string) (pos : nat) (o : string) (r : res unit) : Prop :=
    (~ In o observations -> r = Err EValue) /\
    (In o observations -> o = "fail"%string \/ completes pos o -> r = Ok tt) /\
    (In o observations -> o <> "fail"%string -> ~ completes pos o -> r = Err EUnexpected).
  (** The place in the script after a use of the policy: actions asked for (Look), actions followed by an observation
      (Turn) and resets (Again).  [ts] is the list of uses, last one first. *)
  Inductive use := Look (draw : nat) | Turn (draw : nat) (o : string) | Again.
  Inductive reaches (observations : list string) : list use -> nat -> Prop :=
  | re_new : reaches observations [] 0
  | re_look d ts pos : reaches observations ts pos -> reaches observations (Look d :: ts) pos
  | re_next d o ts pos : reaches observations ts pos -> In o observations -> completes pos o -> reaches observations (Turn d o :: ts) (S pos)
  | re_same d o ts pos : reaches observations ts pos -> ~ (In o observations /\ completes pos o) -> reaches observations (Turn d o :: ts) pos
  | re_again ts pos : reaches observations ts pos -> reaches observations (Again :: ts) 0.
End Spec.
(** The actions that the policy looks for when it is built. *)
Definition looked_for : list string :=
  ["wait"; "bring screws"; "bring screwdriver"; "bring joints"; "clear screws"; "clear screwdriver"; "clear joints"]%string.

(** The policy after these uses; None if reset fails. *)
Fixpoint after (s : script) (ts : list use) : option script :=
  match ts with
  | [] => Some s
  | u :: ts =>
      match after s ts with
      | None => None
      | Some s => match u with
                  | Look d => Some (fst (script_get_action s d))
                  | Turn d o => Some (fst (script_step (fst (script_get_action s d)) o))
                  | Again => match script_reset s with Ok s => Some s | Err _ => None end
                  end
      end
  end.
