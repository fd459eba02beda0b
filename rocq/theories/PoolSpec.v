(** Specification for C72: what can be seen of a run of RepeatPool. *)
From Verif Require Import PoolModel.
Local Open Scope nat_scope.

Section Spec.
  Context {A : Type}.
  Definition started (s : st A) : nat := length (procs (wd s)).
  (** Process p has been started and is in status x. *)
  Definition is_in (s : st A) (p : nat) (x : status) : Prop := exists seed, nth_error (procs (wd s)) p = Some (seed, x).
  Definition alive (s : st A) (p : nat) : Prop := exists b, is_in s p (Alive b).
  Definition dead (s : st A) (p : nat) : Prop := exists c b, is_in s p (Dead c b).
  (** Process p has exited with a positive code; without giving its result. *)
  Definition crashed (s : st A) (p : nat) : Prop := exists c b, is_in s p (Dead c b) /\ (0 < c)%Z.
  Definition lost (s : st A) (p : nat) : Prop := exists c, is_in s p (Dead c false).
  Definition returned (s : st A) : Prop := where_ s = PDone.
  Definition raised (s : st A) (f : failure) : Prop := where_ s = PFailed f.
  (** Every process that is started ends at some time. *)
  Definition all_end (run : nat -> st A) : Prop := forall k p, p < started (run k) -> exists k', dead (run k') p.
  (** Every process that ends gives its result and exits with code 0. *)
  Definition no_fault (run : nat -> st A) : Prop := forall k p c b, is_in (run k) p (Dead c b) -> c = 0%Z /\ b = true.
End Spec.
