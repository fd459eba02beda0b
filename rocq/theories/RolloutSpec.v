(** Specification for C99: searches over independent random draws, and values of the random policy. *)
From Verif Require Import PyBase QBase PomdpModel PomdpSpec BeliefModel EvalModel PomcpModel LawSpec.
Local Open Scope list_scope.
Local Open Scope nat_scope.

(** Expected discounted reward of n transitions from a state, with actions drawn uniformly *)
Fixpoint random_value (p : pomdp) (n s : nat) : Q :=
  match n with
  | O => 0%Q
  | S n => sum_n (nA p) (fun a => 1 / inject_Z (Z.of_nat (nA p)) *
             sum_n (nS p) (fun s' => sum_n (nO p) (fun o => Tr p a s s' * Ob p a s' o * (at_ (p_R p) [a; s; s'; o] + p_discount p * random_value p n s'))))%Q
  end.
(** The same from a belief, and when the first action is given *)
Definition random_from (p : pomdp) (n : nat) (b : nat -> Q) : Q := sum_n (nS p) (fun s => b s * random_value p n s)%Q.
Definition random_after (p : pomdp) (n : nat) (b : nat -> Q) (a : nat) : Q :=
  sum_n (nS p) (fun s => b s * sum_n (nS p) (fun s' => sum_n (nO p) (fun o => Tr p a s s' * Ob p a s' o * (at_ (p_R p) [a; s; s'; o] + p_discount p * random_value p n s'))))%Q.

(** The searches of POMCPPolicyRunner over a POMDP, where the world is a sequence of draws and each use takes the next one: an index
    and two numbers. *)
Section Tape.
  Context {W B : Type}.
  Variables (p : pomdp) (idx : W -> nat) (u v : W -> Q).
  Variables (start : list W -> res B * list W) (sample : B -> list W -> res nat * list W) (succ : B -> nat -> nat -> list W -> res B * list W).
  Variables (horizon : Z) (exploration : Q) (relative : bool) (bonus : nat -> nat -> Q) (rollout_it : nat) (alpha : Q).
  Definition tape_transition (a s : nat) (x : list W) : res (nat * nat * Q) * list W :=
    match x with [] => (Err EFuel, []) | w :: t => (pomdp_sample_transition p (u w) (v w) (Z.of_nat a) (Z.of_nat s), t) end.
  Definition tape_search : search (list W) nat B nt_horizon := {|
    s_actions := p_actions p; s_observations := p_observations p; s_discount := p_discount p; s_transition := tape_transition;
    s_start := start; s_sample := sample; s_succ := succ;
    s_rand := next_index idx; s_horizon := nt_init horizon; s_reached := nt_reached; s_decrement := fun h _ _ _ _ => nt_decrement h; s_copy := nt_copy;
    s_exploration := exploration; s_relative := relative; s_bonus := bonus; s_rollouts := rollout_it; s_alpha := alpha |}.
End Tape.
(** belief='array' *)
Definition exact_tape {W} (p : pomdp) (idx : W -> nat) (u v : W -> Q) : Z -> Q -> bool -> (nat -> nat -> Q) -> nat -> Q -> search (list W) nat (list Q) nt_horizon :=
  tape_search p idx u v (fun x => (array_belief (row (p_start p) []), x))
    (fun b x => match x with [] => (Err EFuel, []) | w :: t => (array_sample b (u w), t) end)
    (fun b a o x => (array_successor p (Z.of_nat a) (Z.of_nat o) b, x)).
(** belief='particle' *)
Definition particle_tape {W} (p : pomdp) (idx : W -> nat) (u v : W -> Q) (n_particles : nat) : Z -> Q -> bool -> (nat -> nat -> Q) -> nat -> Q -> search (list W) nat (list nat) nt_horizon :=
  tape_search p idx u v (fun x => particle_belief (next_index idx) n_particles (fun x => match x with [] => (Err EFuel, []) | w :: t => (pomdp_sample_start p (u w), t) end) x)
    (fun b x => particle_sample (next_index idx) b n_particles x)
    (fun b a o x => successor (next_index idx) (next_step (pomdp_out p u v)) n_particles b (Z.of_nat a) (Z.of_nat o) x).

(** What the draws must be uniform for: the tables, a belief and those that follow it *)
Definition search_marks (p : pomdp) (b : list Q) : list Q :=
  model_marks p ++ row_marks (fun s => nth s b 0%Q) (nS p) ++
  flat_map (fun a => flat_map (fun o => match belief_update p (Z.of_nat a) (Z.of_nat o) b with
                                        | Ok nb => row_marks (fun s => nth s nb 0%Q) (nS p)
                                        | Err _ => []
                                        end) (seq 0 (nO p))) (seq 0 (nA p)).
