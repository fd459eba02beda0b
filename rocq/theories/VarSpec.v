(** What plots of a mean with its deviation should show: defined from the samples only. *)
From Coq Require Import List ZArith QArith Reals Qreals.
Import ListNotations.

Definition total (l : list Q) : Q := fold_right Qplus 0%Q l.
(** [m] is the mean of the samples *)
Definition is_mean (l : list Q) (m : Q) : Prop := (m * inject_Z (Z.of_nat (length l)) == total l)%Q.
(** [s] is their standard deviation: its square is the mean of the squares of the distances to the mean *)
Definition is_deviation (l : list Q) (s : R) : Prop :=
  (0 <= s)%R /\ exists m v, is_mean l m /\ is_mean (map (fun y => (y - m) * (y - m))%Q l) v /\ (s * s)%R = Q2R v.
