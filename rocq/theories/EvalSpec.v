(** Specification for C39, C70 and C71. *)
From Verif Require Import QBase PyBase EvalModel.

(** A history is a list of pairs (state, next state). *)
Fixpoint count_changes {St} (htm_of : St -> Z) (hist : list (St * St)) : nat :=
  match hist with
  | [] => 0
  | (s, s') :: t => (if Z.eqb (htm_of s) (htm_of s') then 0 else 1) + count_changes htm_of t
  end.

(** What happens in a simulation: at each step the policy names an action, the model makes a transition with
    that action from the current state, and the policy is told the observation. A step is recorded as
    (action, next state, observation, reward). *)
Definition step (St : Type) : Type := nat * St * nat * Q.
Definition s_action {St} (x : step St) : nat := fst (fst (fst x)).
Definition s_state {St} (x : step St) : St := snd (fst (fst x)).
Definition s_observation {St} (x : step St) : nat := snd (fst x).
Definition s_reward {St} (x : step St) : Q := snd x.

Inductive trace {St P} (m : emodel St) (pol : epolicy P) : nat -> P -> St -> list (step St) -> P -> Prop :=
| trace_nil k p s : trace m pol k p s [] p
| trace_cons k p s nm p1 a s' o r ob p2 l q :
    ep_action pol p = Ok (nm, p1) ->
    nth_error (em_actions m) a = Some nm -> (forall j, (j < a)%nat -> nth_error (em_actions m) j <> Some nm) ->
    em_transition m k a s = Ok (s', o, r) ->
    nth_error (em_observations m) o = Some ob ->
    ep_step pol p1 ob = Ok p2 ->
    trace m pol (S k) p2 s' l q ->
    trace m pol k p s ((a, s', o, r) :: l) q.

(** The discounted return. *)
Fixpoint discounted (gamma : Q) (rs : list Q) : Q :=
  match rs with [] => 0 | r :: t => r + gamma * discounted gamma t end.
