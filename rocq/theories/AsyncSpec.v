(** Specification for C64 and C84: executions of the asynchronous runner. *)
From Verif Require Import PyBase QBase PomdpModel PomcpModel PomcpSpec AsyncModel.
Local Open Scope list_scope.
Local Open Scope nat_scope.

Section Spec.
  Context {X St B H : Type}.
  Variable P : search X St B H.
  Variables iterations fuel : nat.

  (** Executions from the creation of the runner with start belief b; the most recent event is first.  Choices
      are what get_action returns, recorded with the node of the user at the time. *)
  Inductive happened := Chose (n : path) (a : nat) | Explored (n : path) (a : option nat) | Stopped.
  Definition stop_dec (x y : happened) : {x = y} + {x <> y}.
  Proof. repeat decide equality. Defined.
  Inductive execution (b : B) : list happened -> astate X B -> Prop :=
  | ex_init x r x' : s_start P x = (Ok b, x') -> r_init P x = (Ok r, x') -> execution b [] (a_init r x')
  | ex_step l st lb st' : execution b l st -> astep P iterations fuel st lb st' ->
      execution b (match lb with
                   | LChoose (Some a) => Chose (r_node (a_runner st)) a :: l
                   | LExplore n a => Explored n a :: l
                   | LStop => Stopped :: l
                   | LTau | LCall | LChoose None => l end) st'
  (** the world may change in between: other uses of the source of randomness *)
  | ex_world l r x t k us th x' : execution b l (Build_astate r x t k us th) -> execution b l (Build_astate r x' t k us th).

  (** The last choice of the user. *)
  Fixpoint last_choice (l : list happened) : option (path * nat) :=
    match l with [] => None | Chose n a :: _ => Some (n, a) | _ :: l => last_choice l end.
  (** The last choice of the user at node n. *)
  Definition path_dec (x y : path) : {x = y} + {x <> y}.
  Proof. repeat decide equality. Defined.
  Fixpoint last_at (n : path) (l : list happened) : option nat :=
    match l with [] => None | Chose n' a :: l => if path_dec n' n then Some a else last_at n l | _ :: l => last_at n l end.
  (** Explorations after the first stop. *)
  Fixpoint after_stop (l : list happened) : nat :=
    match l with [] => 0 | Explored _ _ :: l => if in_dec stop_dec Stopped l then S (after_stop l) else after_stop l | _ :: l => after_stop l end.
  (** n steps of the system, in all of which the user is in stop, waiting for the explorer to finish. *)
  Inductive joining : nat -> astate X B -> astate X B -> Prop :=
  | jo_none st : a_user st = UJoin -> joining 0 st st
  | jo_step n st lb st1 st2 : a_user st = UJoin -> astep P iterations fuel st lb st1 -> joining n st1 st2 -> joining (S n) st st2.
  (** Is a critical section running? *)
  Definition user_inside (st : astate X B) : Prop := exists c, a_user st = UIn c.
  Definition thread_inside (st : astate X B) : Prop := a_thread st = TIn \/ a_thread st = TOut.
End Spec.
