(** Specification for C28 to C31: a supportive state is a tuple of features. *)
From Verif Require Import QBase CodecModel.

(** Number with given binary digits, least significant first. *)
Fixpoint bits_value (l : list bool) : Z :=
  match l with [] => 0 | b :: t => Z.b2z b + 2 * bits_value t end%Z.

Record features := { f_htm : Z; f_prefs : list bool; f_body : list bool; f_objs : list bool }.

(** Features of a model with [nh] HTM values, [np] preferences, [nb] body features and [no] objects. *)
Definition features_of (nh : Z) (np nb no : nat) (f : features) : Prop :=
  (0 <= f_htm f < nh)%Z /\ length (f_prefs f) = np /\ length (f_body f) = nb /\ length (f_objs f) = no.

(** The integer of a tuple: objects, then body features, then preferences, then the HTM node. *)
Definition encode (f : features) : Z :=
  (bits_value (f_objs f ++ f_body f ++ f_prefs f)
   + f_htm f * 2 ^ Z.of_nat (length (f_objs f) + length (f_body f) + length (f_prefs f)))%Z.

(** What the getters of a state show. *)
Definition shows_features (x : sstate) (f : features) : Prop :=
  htm x = f_htm f /\
  (forall i b, nth_error (f_prefs f) i = Some b -> has_preference x i = Z.b2z b) /\
  (forall i b, nth_error (f_body f) i = Some b -> has_body_feature x i = Z.b2z b) /\
  (forall i b, nth_error (f_objs f) i = Some b -> has_object x i = Z.b2z b).

(** Replace entry i. *)
Fixpoint replace {A} (i : nat) (x : A) (l : list A) : list A :=
  match l, i with [], _ => [] | _ :: t, O => x :: t | y :: t, S j => y :: replace j x t end.

(** Replace one group of features. *)
Definition upd_prefs f l := {| f_htm := f_htm f; f_prefs := l; f_body := f_body f; f_objs := f_objs f |}.
Definition upd_body f l := {| f_htm := f_htm f; f_prefs := f_prefs f; f_body := l; f_objs := f_objs f |}.
Definition upd_objs f l := {| f_htm := f_htm f; f_prefs := f_prefs f; f_body := f_body f; f_objs := l |}.
Definition upd_htm f h := {| f_htm := h; f_prefs := f_prefs f; f_body := f_body f; f_objs := f_objs f |}.

(** Flip the entries drawn. *)
Definition flip (draws l : list bool) : list bool := map (fun db => xorb (fst db) (snd db)) (combine draws l).

(** Mass that a belief gives to the states satisfying p. *)
Definition mass (array : list Q) (p : Z -> bool) : Q :=
  sum_over (filter (fun s => p (Z.of_nat s)) (seq 0 (length array))) (fun s => nth s array 0%Q).
