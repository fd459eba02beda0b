(** Model of the horizons (task_models/lib/pomcp.py 39-55, task_models/supportive.py 527-548,
    task_models/evaluation.py 19-38) and of simulate_one_evaluation (evaluation.py 58-95). *)
From Verif Require Export PyBase QBase.
From Verif Require Import CodecModel SuppModel.

(** *** Horizons *)

(** NTransitionsHorizon, pomcp.py 39-51: __init__, is_reached, decrement (its arguments are ignored), copy *)
Record nt_horizon := { nt_n : Z }.
Definition nt_init (n : Z) : nt_horizon := {| nt_n := n |}.
Definition nt_reached (h : nt_horizon) : bool := (nt_n h <=? 0)%Z.
Definition nt_decrement (h : nt_horizon) : nt_horizon := {| nt_n := nt_n h - 1 |}.
Definition nt_copy (h : nt_horizon) : nt_horizon := nt_init (nt_n h).

Section Horizons.
  (** States, and what the horizons read of them: [model._int_to_state(s).htm] and
      [model._int_to_state(s).is_final()]. *)
  Variable St : Type.
  Variable htm_of : St -> Z.
  Variable final : St -> bool.

  (** NHTMHorizon, supportive.py 527-544; the model attribute never changes and is a parameter here. *)
  Record ht_horizon := { ht_n : Z }.
  Definition ht_init (n : Z) : ht_horizon := {| ht_n := n |}.
  Definition ht_reached (h : ht_horizon) : bool := (ht_n h <=? 0)%Z.
  Definition ht_decrement (h : ht_horizon) (s new_s : St) : ht_horizon :=
    let n := if negb (Z.eqb (htm_of s) (htm_of new_s)) then (ht_n h - 1)%Z else ht_n h in
    {| ht_n := if final new_s then 0%Z else n |}.
  Definition ht_copy (h : ht_horizon) : ht_horizon := ht_init (ht_n h).

  (** FinishedOrNTransitionsHorizon, evaluation.py 19-34 *)
  Record fo_horizon := { fo_n : Z; fo_final : bool }.
  Definition fo_init (n : Z) : fo_horizon := {| fo_n := n; fo_final := false |}.
  Definition fo_reached (h : fo_horizon) : bool := (fo_n h <=? 0)%Z || fo_final h.
  Definition fo_decrement (h : fo_horizon) (s new_s : St) : fo_horizon :=
    {| fo_n := fo_n h - 1; fo_final := final new_s |}.
  Definition fo_copy (h : fo_horizon) : fo_horizon := fo_init (fo_n h).

  (** *** simulate_one_evaluation, evaluation.py 58-95 *)

  (** The model: its action and observation names and discount, the start state drawn by sample_start and
      the outcome of the k-th call of sample_transition; either may raise. *)
  Record emodel := {
    em_actions : list string; em_observations : list string; em_discount : Q;
    em_start : res St; em_transition : nat -> nat -> St -> res (St * nat * Q) }.

  (** The policy: reset, get_action and step on its own state. *)
  Record epolicy (P : Type) := {
    ep_reset : P -> res P; ep_action : P -> res (string * P); ep_step : P -> string -> res P }.
  Arguments ep_reset {P}. Arguments ep_action {P}. Arguments ep_step {P}.

  Record record := { r_return : Q; r_states : list St; r_actions : list nat; r_observations : list nat; r_rewards : list Q }.

  Section Run.
    Variable m : emodel.
    Variable P : Type.
    Variable pol : epolicy P.
    Variable gamma : Q.

    (** The while loop, lines 73-83: [k] transitions were made; the recorded lists are in reverse order, the last state first.
        Out of fuel is the value EFuel, excluded by the theorems. *)
    Fixpoint eval_loop (fuel : nat) (k : nat) (h : fo_horizon) (p : P) (s : St) (hs : list St) (ha ho : list nat) (hr : list Q) (ret : Q)
      : res (record * P) :=
      if fo_reached h then Ok ({| r_return := ret; r_states := rev (s :: hs); r_actions := rev ha; r_observations := rev ho; r_rewards := rev hr |}, p)
      else match fuel with
      | O => Err EFuel
      | S fuel =>
        do (nm, p1) <- ep_action pol p;
        do a <- (match index_of String.eqb nm (em_actions m) with Some i => Ok i | None => Err EValue end);
        do (s', o, r) <- em_transition m k a s;
        do ob <- (match nth_error (em_observations m) o with Some x => Ok x | None => Err EIndex end);
        do p2 <- ep_step pol p1 ob;
        eval_loop fuel (S k) (fo_decrement h s s') p2 s' (s :: hs) (a :: ha) (o :: ho) (r :: hr) (r + gamma * ret)%Q
      end.
  End Run.

  (** lines 58-72 and 84-95; logging, timing and the number of simulator calls are not modelled. *)
  Definition simulate_one_evaluation {P} (m : emodel) (pol : epolicy P) (p : P) (max_horizon : Z) (discount : bool) : res (record * P) :=
    let gamma := if discount then em_discount m else 1%Q in
    do p0 <- ep_reset pol p;
    do s0 <- em_start m;
    eval_loop m P pol gamma (Z.to_nat max_horizon) 0 (fo_init max_horizon) p0 s0 [] [] [] [] 0%Q.
End Horizons.
Arguments ht_decrement {St}. Arguments fo_decrement {St}. Arguments simulate_one_evaluation {St} _ {P}.
Arguments em_actions {St}. Arguments em_observations {St}. Arguments em_discount {St}. Arguments em_start {St}. Arguments em_transition {St}.
Arguments r_return {St}. Arguments r_states {St}. Arguments r_actions {St}. Arguments r_observations {St}. Arguments r_rewards {St}.
Arguments ep_reset {P}. Arguments ep_action {P}. Arguments ep_step {P}. Arguments eval_loop {St} _ _ {P}.

(** The supportive model as evaluated: [ds k] are the random outcomes of the k-th call. *)
Definition supportive_model (cf : config) (m : spomdp) (disc : Q) (d0 : draws) (ds : nat -> draws) : emodel Z :=
  {| em_actions := actions m; em_observations := observations; em_discount := disc;
     em_start := sample_start cf m d0;
     em_transition := fun k a s => sample_transition cf m (ds k) true (Z.of_nat a) s |}.
