(** Specification for C107 and C108: what is written about a trajectory, and the names of states. *)
From Coq Require Import Ascii String DecimalString Qabs.
From Verif Require Import PyBase QBase CodecModel CodecSpec SuppModel EvalModel EvalSpec TrajModel.
Local Open Scope list_scope.
Local Open Scope nat_scope.

(** *** Texts *)
(** A number in base 10 *)
Definition numeral (k : Z) : string := NilZero.string_of_int (Z.to_int k).
Fixpoint spaces (n : nat) : string := match n with O => "" | S n => String " " (spaces n) end.
Fixpoint bit_text (l : list bool) : string := match l with [] => "" | b :: l => String (if b then "1" else "0")%char (bit_text l) end.
(** The name of the state with features f, among n states: its number, aligned to the right in as many characters as the last number needs, then its features. *)
Definition names (n : Z) (f : features) (t : string) : Prop :=
  exists k, k + String.length (numeral (encode f)) = String.length (numeral (n - 1)) /\
  t = ("<" ++ spaces k ++ numeral (encode f) ++ ": " ++ numeral (f_htm f) ++ " " ++ bit_text (f_prefs f) ++ " " ++ bit_text (f_body f) ++ " " ++ bit_text (f_objs f) ++ ">")%string.

(** n is the integer closest to q, the even one of two. *)
Definition closest (q : Q) (n : Z) : Prop := (Qabs (q - inject_Z n) <= 1 # 2)%Q /\ ((Qabs (q - inject_Z n) == 1 # 2)%Q -> Z.Even n).
(** A number with one decimal; as soon as it is negative it has a sign. *)
Definition decimal (x : Q) (t : string) : Prop :=
  exists d u : Z, (0 <= d)%Z /\ (0 <= u < 10)%Z /\ closest (10 * Qabs x) (10 * d + u) /\
  t = ((if Qlt_le_dec x 0 then "-" else "") ++ numeral d ++ "." ++ numeral u)%string.
(** It is shown without its first character, but 1.0 as 1. *)
Definition shown (x : Q) (t : string) : Prop :=
  decimal x "1.0" /\ t = "1."%string \/ exists c, decimal x (String c t) /\ String c t <> "1.0"%string.
(** Texts separated by spaces *)
Inductive spaced : list string -> string -> Prop :=
| spaced_none : spaced [] ""
| spaced_one t : spaced [t] t
| spaced_more t u l s : spaced (u :: l) s -> spaced (t :: u :: l) (t ++ String " " s).

(** A probability in two characters: the closest tenth *)
Definition tenth_text (d : Z) : string := if Z.eqb d 10 then "1." else String "." (numeral d).

(** *** Trajectories *)
Section Trajectory.
  Context {P : Type}.
  Variable cf : config.
  Variable m : spomdp.
  Variable em : emodel Z.
  Variable pol : epolicy P.
  Variable belief : P -> res (list Q).
  (** The state number s of the model *)
  Let state (s : Z) : sstate := mk_sstate (n_htm_states m) (cf_preferences cf) 1 (length (objects m)) s.
  Let finished (s : Z) : Prop := htm (state s) = (n_htm_states m - 1)%Z.

  (** The name of state s, if there is such a state *)
  Definition named (s : Z) (t : string) : Prop := (0 <= s < n_states (state 0))%Z -> exists f,
    features_of (n_htm_states m) (cf_preferences cf) 1 (length (objects m)) f /\ encode f = s /\ names (n_states (state 0)) f t.

  (** The line about a belief: for each HTM state its probability, then the probability of the last preference. *)
  Definition tells (array : list Q) (e : entry) : Prop := exists q ts t v,
    e = Belief t v /\ Z.of_nat (length array) = n_states (state 0) /\ cf_preferences cf <> 0 /\
    length q = Z.to_nat (n_htm_states m) /\
    (forall h x, nth_error q h = Some x -> (x == mass array (fun s => Z.eqb (htm (state s)) (Z.of_nat h)))%Q) /\
    Forall2 shown q ts /\ spaced ts t /\
    (v == mass array (fun s => Z.eqb (has_preference (state s) (cf_preferences cf - 1)) 1))%Q.

  (** The policy names an action, the model makes a transition, the policy is told what was observed. *)
  Definition turn (k : nat) (p : P) (s : Z) (a : string) (i : nat) (s' : Z) (o : nat) (ob : string) (r : Q) (p2 : P) : Prop :=
    exists p1, ep_action pol p = Ok (a, p1) /\
    nth_error (em_actions em) i = Some a /\ (forall j, j < i -> nth_error (em_actions em) j <> Some a) /\
    em_transition em k i s = Ok (s', o, r) /\ nth_error (em_observations em) o = Some ob /\ ep_step pol p1 ob = Ok p2.

  (** From state s, which is the k-th, the turns l are made and told in the log; no state is final before a turn. *)
  Inductive written : nat -> P -> Z -> list (step Z) -> list entry -> P -> Z -> Prop :=
  | written_nil k p s : written k p s [] [] p s
  | written_turn k p s a i s' o ob r p2 array t t' b l es q z :
      ~ finished s -> turn k p s a i s' o ob r p2 -> named s t -> named s' t' -> belief p2 = Ok array -> tells array b ->
      written (S k) p2 s' l es q z ->
      written k p s ((i, s', o, r) :: l) (Turn t a t' ob r :: b :: es) q z.

  (** Why a trajectory stops at its k-th turn, in state s, without reaching the end, with what was told of that turn *)
  Inductive stuck (k : nat) (p : P) (s : Z) : list entry -> P -> exn -> Prop :=
  | stuck_action e : ep_action pol p = Err e -> stuck k p s [] p e
  | stuck_unknown a p1 : ep_action pol p = Ok (a, p1) -> ~ In a (em_actions em) -> stuck k p s [] p1 EValue
  | stuck_transition a i p1 e : ep_action pol p = Ok (a, p1) -> nth_error (em_actions em) i = Some a ->
      em_transition em k i s = Err e -> stuck k p s [] p1 e
  | stuck_observation a i p1 s' o r : ep_action pol p = Ok (a, p1) -> nth_error (em_actions em) i = Some a ->
      em_transition em k i s = Ok (s', o, r) -> length (em_observations em) <= o -> stuck k p s [] p1 EIndex
  | stuck_step a i p1 s' o ob r e : ep_action pol p = Ok (a, p1) -> nth_error (em_actions em) i = Some a ->
      em_transition em k i s = Ok (s', o, r) -> nth_error (em_observations em) o = Some ob -> ep_step pol p1 ob = Err e ->
      stuck k p s [] p1 e
  | stuck_belief a i s' o ob r p2 t t' e : turn k p s a i s' o ob r p2 -> named s t -> named s' t' ->
      (belief p2 = Err e \/
       exists array, belief p2 = Ok array /\
         (Z.of_nat (length array) <> n_states (state 0) /\ e = EAssert \/
          Z.of_nat (length array) = n_states (state 0) /\ cf_preferences cf = 0 /\ e = EIndex)) ->
      stuck k p s [Turn t a t' ob r] p2 e.
End Trajectory.

(** The rewards told in a log *)
Definition rewards (log : list entry) : list Q := flat_map (fun e => match e with Turn _ _ _ _ r => [r] | _ => [] end) log.
