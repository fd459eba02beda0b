(** Specification for C41 and C42. *)
From Verif Require Import QBase PyBase.
Local Open Scope nat_scope.

(** Successive calls of a sampler that all succeed: results and final world. *)
Inductive calls {X} (smp : X -> res nat * X) : X -> list nat -> X -> Prop :=
| calls_none x : calls smp x [] x
| calls_one x s y l z : smp x = (Ok s, y) -> calls smp y l z -> calls smp x (s :: l) z.

(** Frequency of a state among particles. *)
Definition frequency (parts : list nat) (s : nat) : Q :=
  (inject_Z (Z.of_nat (count_occ Nat.eq_dec parts s)) / inject_Z (Z.of_nat (length parts)))%Q.
