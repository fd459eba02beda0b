(** Specification for C70: the exceptions of an evaluation. *)
From Verif Require Import QBase PyBase EvalModel EvalSpec.
Local Open Scope list_scope.

(** The next step of a simulation raises the exception e: the policy does when asked for an action; the action it names is
    not one of the model (ValueError); the model does; the observation drawn has no name (IndexError); the policy
    does when told the observation. *)
Inductive breaks {St P} (m : emodel St) (pol : epolicy P) (k : nat) (p : P) (s : St) (e : exn) : Prop :=
| breaks_action : ep_action pol p = Err e -> breaks m pol k p s e
| breaks_unknown nm p1 : ep_action pol p = Ok (nm, p1) -> ~ In nm (em_actions m) -> e = EValue -> breaks m pol k p s e
| breaks_transition nm p1 a : ep_action pol p = Ok (nm, p1) ->
    nth_error (em_actions m) a = Some nm -> (forall j, (j < a)%nat -> nth_error (em_actions m) j <> Some nm) ->
    em_transition m k a s = Err e -> breaks m pol k p s e
| breaks_observation nm p1 a s' o r : ep_action pol p = Ok (nm, p1) ->
    nth_error (em_actions m) a = Some nm -> (forall j, (j < a)%nat -> nth_error (em_actions m) j <> Some nm) ->
    em_transition m k a s = Ok (s', o, r) -> (length (em_observations m) <= o)%nat -> e = EIndex -> breaks m pol k p s e
| breaks_step nm p1 a s' o r ob : ep_action pol p = Ok (nm, p1) ->
    nth_error (em_actions m) a = Some nm -> (forall j, (j < a)%nat -> nth_error (em_actions m) j <> Some nm) ->
    em_transition m k a s = Ok (s', o, r) -> nth_error (em_observations m) o = Some ob -> ep_step pol p1 ob = Err e -> breaks m pol k p s e.
