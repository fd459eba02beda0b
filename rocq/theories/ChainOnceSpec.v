(** Specification of the chains that may be found twice, for C15. *)
From Verif Require Import PyBase ChainSpec.
From Coq Require Import Relations.

Section ChainOnceSpec.
  Context {N : Type}.
  Variable edge : N -> N -> Prop.

  (** [v] can be reached from [u] without going through [n]. *)
  Definition reach_off (n u v : N) : Prop := u <> n /\ clos_refl_trans N (fun a b => edge a b /\ b <> n) u v.

  (** [x] follows two nodes [m] and [n]; it is all that follows [n], and [m] can be found before [n]. *)
  Definition entered_again (initial x : N) : Prop :=
    exists m n, m <> n /\ edge m x /\ only_succ edge n x /\ reach edge initial n /\ reach_off n initial m.

  (** From such a node one is led to [h] without any choice. *)
  Definition found_again (initial h : N) : Prop :=
    exists x, entered_again initial x /\ clos_refl_trans N (only_succ edge) x h.
End ChainOnceSpec.

(** [c] is at two places of [out]. *)
Definition twice {X} (c : X) (out : list X) : Prop :=
  exists i j, i <> j /\ nth_error out i = Some c /\ nth_error out j = Some c.
