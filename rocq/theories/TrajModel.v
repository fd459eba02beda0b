(** Playing a trajectory: POMCPPolicyRunner.run_trajectory (lib/pomcp.py 492-517), the texts of states (supportive.py 128-138)
    and of beliefs (lib/belief.py 118-125). *)
From Verif Require Export PyBase QBase CodecModel SuppModel EvalModel.
From Verif Require TowerModel.
From Coq Require Import Ascii String.
From Verif Require Import PyBase.
Local Open Scope list_scope.
Local Open Scope nat_scope.

Definition str_int : Z -> string := TowerModel.str_int.
Fixpoint repeat_char (c : ascii) (n : nat) : string := match n with O => EmptyString | S n => String c (repeat_char c n) end.
(** ['{: >{w}}'.format(s)] *)
Definition align_right (w : nat) (s : string) : string := (repeat_char " "%char (w - String.length s) ++ s)%string.
(** [''.join(l)], [' '.join(l)] *)
Definition join (sep : string) (l : list string) : string := String.concat sep l.

(** __str__, supportive.py 128-138 *)
Definition state_text (x : sstate) : string :=
  let bits := fun (get : sstate -> nat -> Z) n => join "" (map (fun i => str_int (get x i)) (seq 0 n)) in
  ("<" ++ align_right (String.length (str_int (n_states x - 1))) (str_int (st x)) ++ ": " ++ str_int (htm x) ++ " " ++
   bits has_preference (shift_htm x - shift_pref x) ++ " " ++ bits has_body_feature (shift_pref x - shift_body x) ++ " " ++
   bits has_object (shift_body x) ++ ">")%string.
(** SupportivePOMDP.states, supportive.py 351-354 *)
Definition state_names (cf : config) (m : spomdp) : list string :=
  map (fun i => state_text (int_to_state cf m (Z.of_nat i))) (seq 0 (Z.to_nat (n_states (int_to_state cf m 0)))).

(** The nearest integer, the even one of two *)
Definition round (q : Q) : Z :=
  let f := (Qnum q / Zpos (Qden q))%Z in
  match Z.compare (2 * (Qnum q mod Zpos (Qden q))) (Zpos (Qden q)) with
  | Lt => f | Gt => (f + 1)%Z | Eq => if Z.even f then f else (f + 1)%Z
  end.
(** ['{:0.1f}'.format(x)]: a negative number keeps its sign when it is rounded to 0. *)
Definition one_decimal (x : Q) : string :=
  let n := round (10 * (if Qle_bool 0 x then x else - x)) in
  ((if Qle_bool 0 x then "" else "-") ++ str_int (n / 10) ++ "." ++ str_int (n mod 10))%string.
(** [s[1:]] *)
Definition rest (s : string) : string := match s with EmptyString => EmptyString | String _ s => s end.
(** _format_p and format_belief_array, lib/belief.py 118-125 *)
Definition format_p (x : Q) : string := let s := one_decimal x in if String.eqb s "1.0" then "1." else rest s.
Definition format_belief_array (b : list Q) : string := join " " (map format_p b).

(** What the logger is given: the texts, with the reward, the belief in preferences (shown with two decimals) and the total as numbers *)
Inductive entry :=
| New
| Turn (s : string) (a : string) (s' : string) (o : string) (r : Q)
| Belief (b : string) (p : Q)
| Total (r : Q).

Section Trajectory.
  (** The model, with the outcome of each call of sample_transition; the runner, with the array of its belief *)
  Context {P : Type}.
  Variable cf : config.
  Variable m : spomdp.
  Variable em : emodel Z.
  Variable pol : epolicy P.
  Variable belief : P -> res (list Q).

  (** The text about the belief, 511-514 *)
  Definition belief_line (p : P) : res entry :=
    do array <- belief p;
    do q <- belief_quotient (int_to_state cf m 0) array;
    do array2 <- belief p;
    do prefs <- belief_preferences (int_to_state cf m 0) array2;
    do v <- match prefs with v :: _ => Ok v | [] => Err EIndex end;
    Ok (Belief (format_belief_array q) v).
  (** The loop, 502-516, with what was logged.  Out of fuel is EFuel. *)
  Fixpoint traj_loop (fuel k : nat) (p : P) (s : Z) (R : Q) (log : list entry) : list entry * P * res Q :=
    if model_is_final cf m s then (log, p, Ok R)
    else match fuel with
    | O => (log, p, Err EFuel)
    | S fuel =>
      match ep_action pol p with
      | Err e => (log, p, Err e)
      | Ok (a, p1) =>
        match index_of String.eqb a (em_actions em) with
        | None => (log, p1, Err EValue)
        | Some i =>
          match em_transition em k i s with
          | Err e => (log, p1, Err e)
          | Ok (s', o, r) =>
            match nth_error (em_observations em) o with
            | None => (log, p1, Err EIndex)
            | Some ob =>
              match ep_step pol p1 ob with
              | Err e => (log, p1, Err e)
              | Ok p2 =>
                let log := log ++ [Turn (state_text (int_to_state cf m s)) a (state_text (int_to_state cf m s')) ob r] in
                match belief_line p2 with
                | Err e => (log, p2, Err e)
                | Ok b => traj_loop fuel (S k) p2 s' (R + r)%Q (log ++ [b])
                end
              end
            end
          end
        end
      end
    end.
  (** run_trajectory, 492-517 *)
  Definition run_trajectory (fuel : nat) (p : P) : list entry * P * res unit :=
    match ep_reset pol p with
    | Err e => ([New], p, Err e)
    | Ok p0 =>
      match em_start em with
      | Err e => ([New], p0, Err e)
      | Ok s => match traj_loop fuel 0 p0 s 0 [New] with
                | (log, p, Ok R) => (log ++ [Total R], p, Ok tt)
                | (log, p, Err e) => (log, p, Err e)
                end
      end
    end.
End Trajectory.
