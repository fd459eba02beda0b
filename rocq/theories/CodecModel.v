(** Model of _SupportivePOMDPState, task_models/supportive.py 117-228. *)
From Verif Require Export QBase.
From Coq Require Export ZArith.

(** Attributes of the object. Simplification: the Python (or numpy) integer s is an unbounded Z; overflow
    of numpy int64 is not modelled. *)
Record sstate := { shift_body : nat; shift_pref : nat; shift_htm : nat; final_htm : Z; st : Z }.

(** __init__, 121-126. *)
Definition mk_sstate (n_htm_states : Z) (n_preferences n_body_features n_objects : nat) (s : Z) : sstate :=
  {| shift_body := n_objects;
     shift_pref := n_objects + n_body_features;
     shift_htm := n_objects + n_body_features + n_preferences;
     final_htm := n_htm_states - 1;
     st := s |}.

(** [self.s = s] *)
Definition with_s (x : sstate) (s : Z) : sstate :=
  {| shift_body := shift_body x; shift_pref := shift_pref x; shift_htm := shift_htm x; final_htm := final_htm x; st := s |}.

(** n_objects 141-142, n_body_features 145-146, n_preferences 149-150, n_htm 153-154 *)
Definition n_objects (x : sstate) : nat := shift_body x.
Definition n_body_features (x : sstate) : nat := shift_pref x - shift_body x.
Definition n_preferences (x : sstate) : nat := shift_htm x - shift_pref x.
Definition n_htm (x : sstate) : Z := (final_htm x + 1)%Z.

(** htm, 157-158, and its setter, 161-162 *)
Definition htm (x : sstate) : Z := Z.shiftr (st x) (Z.of_nat (shift_htm x)).
Definition set_htm (x : sstate) (n : Z) : sstate :=
  with_s x (st x + (Z.shiftl n (Z.of_nat (shift_htm x)) - Z.shiftl (htm x) (Z.of_nat (shift_htm x))))%Z.

(** n_states, 165-166; is_final, 168-169 *)
Definition n_states (x : sstate) : Z := ((final_htm x + 1) * 2 ^ Z.of_nat (shift_htm x))%Z.
Definition is_final (x : sstate) : bool := Z.eqb (htm x) (final_htm x).

(** _get_bit, 171-172; _set_bit, 174-175 *)
Definition get_bit (x : sstate) (i : nat) : Z := (Z.shiftr (st x) (Z.of_nat i) mod 2)%Z.
Definition set_bit (x : sstate) (i : nat) (b : Z) : sstate :=
  with_s x (st x + (Z.shiftl b (Z.of_nat i) - Z.shiftl (get_bit x i) (Z.of_nat i)))%Z.

(** 177-190 *)
Definition has_preference (x : sstate) (i : nat) : Z := get_bit x (shift_pref x + i).
Definition set_preference (x : sstate) (i : nat) (pref : Z) : sstate := set_bit x (shift_pref x + i) pref.
Definition has_body_feature (x : sstate) (i : nat) : Z := get_bit x (shift_body x + i).
Definition set_body_feature (x : sstate) (i : nat) (b : Z) : sstate := set_bit x (shift_body x + i) b.
Definition has_object (x : sstate) (i : nat) : Z := get_bit x i.
Definition set_object (x : sstate) (i : nat) (b : Z) : sstate := set_bit x i b.

(** belief_quotient, 195-199. [reshape((n_htm, n)).sum(axis=1)]: row h holds the entries h*n .. h*n+n-1. *)
Definition belief_quotient (x : sstate) (array : list Q) : res (list Q) :=
  let n := (2 ^ shift_htm x)%nat in
  let nh := Z.to_nat (n_htm x) in
  if Nat.eqb (length array) (nh * n)
  then Ok (map (fun h => sumQ (firstn n (skipn (h * n) array))) (seq 0 nh))
  else Err EAssert.

(** belief_preferences, 201-214. After [reshape], entry (h, j, l) is the entry (h * 2^n_p + j) * n + l of
    the array, where j reads the n_p axes of size 2 as a binary number, first axis most significant;
    [sum_all_but(pp, axis)] sums the entries of pp whose digit on that axis is 1 (index -1 of 2).
    Simplification: [arr[iii]] with a list of slices is read as [arr[tuple(iii)]], as numpy did when the
    code was written. *)
Definition belief_preferences (x : sstate) (array : list Q) : res (list Q) :=
  let n := (2 ^ shift_pref x)%nat in
  let n_p := n_preferences x in
  let nh := Z.to_nat (n_htm x) in
  if Nat.eqb (length array) (nh * 2 ^ n_p * n)
  then let pp := fun j => sum_n nh (fun h => sum_n n (fun l => nth ((h * 2 ^ n_p + j) * n + l) array 0%Q)) in
       Ok (map (fun axis => sum_over (filter (fun j => Nat.odd (j / 2 ^ (n_p - 1 - axis))) (seq 0 (2 ^ n_p))) pp)
               (seq 0 n_p))
  else Err EAssert.

(** The loops of random_object_changes, 216-219, and random_preference_changes, 221-224; [draws] are the
    comparisons [np.random.random(n) < p]: the features drawn true are flipped, in increasing order. *)
Fixpoint flip_drawn (set : sstate -> nat -> Z -> sstate) (get : sstate -> nat -> Z) (i : nat) (draws : list bool) (x : sstate) : sstate :=
  match draws with
  | [] => x
  | d :: t => flip_drawn set get (S i) t (if d then set x i (1 - get x i)%Z else x)
  end.
Definition random_object_changes (draws : list bool) (x : sstate) : sstate := flip_drawn set_bit get_bit 0 draws x.
Definition random_preference_changes (draws : list bool) (x : sstate) : sstate :=
  flip_drawn set_preference has_preference 0 draws x.

(** copy, 226-228 *)
Definition copy_state (x : sstate) : sstate :=
  mk_sstate (n_htm x + 1) (n_preferences x) (n_body_features x) (n_objects x) (st x).
