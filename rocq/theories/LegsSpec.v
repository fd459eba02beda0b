(** Specification for C115: what the tasks of the experiments ask from the human. *)
From Verif Require Import PyBase HtmModel SuppModel.
From Coq Require Import DecimalString.
Local Open Scope list_scope.
Local Open Scope nat_scope.

(** A step of the human: its name, how it prefers things to be held, and what it needs. *)
Definition human_step : Type := string * option (option string * list (cond * string)).
Definition asks (name : string) (hold : option string) (needs : list (cond * string)) : human_step := (name, Some (hold, needs)).
(** The step that an action of a task describes *)
Definition step_of (a : action sparams) : human_step := (a_name a, option_map (fun p => (sp_hold p, sp_conditions p)) (a_params a)).

Definition leg_needs : list (cond * string) := [(CUses, "joints"); (CConsumes, "leg"); (CUses, "screwdriver"); (CUses, "screws")]%string.
Definition leg_name (i : nat) : string := ("leg-" ++ NilZero.string_of_uint (Nat.to_uint i))%string.
(** Assemble n legs, one after the other *)
Definition legs (n : nat) : list human_step := map (fun i => asks ("Assemble " ++ leg_name i) (Some "h"%string) leg_needs) (seq 0 n).
(** Assemble a leg for each way to hold *)
Definition held (ways : list string) : list human_step := map (fun h => asks "Assemble leg" (Some h) leg_needs) ways.
Definition hold_ways (n : nat) (ways : list string) : Prop := length ways = n /\ forall h, In h ways -> h = "h"%string \/ h = "v"%string.
(** The four sequences of the task 'alternative' *)
Definition four_ways : list (list string) := [["h"; "v"; "v"; "v"]; ["h"; "h"; "h"; "h"]; ["v"; "h"; "h"; "v"]; ["v"; "v"; "h"; "v"]]%string.
(** The stool: each of four legs is assembled and fixed to the top, which is brought for the first. *)
Definition stool : list human_step :=
  flat_map (fun i => [asks ("Assemble " ++ leg_name i) (Some "h"%string) leg_needs;
                      asks ("Assemble " ++ leg_name i ++ " to top") (Some "v"%string)
                           (match i with 0 => [(CConsumes, "top"%string)] | _ => [] end ++ [(CUses, "screwdriver"%string); (CUses, "screws"%string)])]) [0; 1; 2; 3].

(** Names of the actions of the robot *)
Definition leg_actions : list string :=
  ["wait"; "hold H"; "hold V"; "ask hold"; "bring joints"; "clear joints"; "bring leg"; "bring screwdriver"; "clear screwdriver"; "bring screws"; "clear screws"]%string.
Definition stool_actions : list string := (leg_actions ++ ["bring top"])%list%string.
