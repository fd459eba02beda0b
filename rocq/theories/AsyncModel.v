(** Model of AsyncPOMCPPolicyRunner (task_models/lib/pomcp.py 520-593): the user thread and the exploring
    thread, as a transition system whose steps are the critical sections of [execute] and [run] and the code
    between them.  One user thread.  Simplification: a step or a reset of the runner, which happen outside the
    lock, and an exploration are each one step of the system; sleeping is not modelled.  [__del__], 591-592,
    calls stop. *)
From Verif Require Export PyBase QBase.
From Verif Require Import PomdpModel PomcpModel.
Local Open Scope list_scope.
Local Open Scope nat_scope.

Definition path := list (nat * nat).

(** _Thread.__init__, 526-532 *)
Record explorer := { t_node : path; t_action : option nat; t_done : bool }.
(** set_node, 547-549; set_action, 551-552; _stop, 534-535 *)
Definition set_node (n : path) (t : explorer) : explorer := {| t_node := n; t_action := None; t_done := t_done t |}.
Definition set_action (a : option nat) (t : explorer) : explorer := {| t_node := t_node t; t_action := a; t_done := t_done t |}.
Definition set_done (t : explorer) : explorer := {| t_node := t_node t; t_action := t_action t; t_done := true |}.

(** Functions run by the user under the lock, 540-545 *)
Inductive section := SGet | SNode (n : path) | SAction (a : option nat) | SStop.
(** Where the user is: between calls, waiting for the lock, holding it, joining, 582-586. *)
Inductive user := UIdle | UWait (c : section) | UIn (c : section) | UJoin.
(** Where the explorer is: waiting for the lock, holding it before and after [explore], finished or dead, 557-563 *)
Inductive thread := TWait | TIn | TOut | TDead.
Inductive owner := OUser | OThread.

Section Async.
  Context {X St B H : Type}.
  Variable P : search X St B H.
  (** self.iterations, and the fuel of simulations *)
  Variables iterations fuel : nat.

  Record astate := { a_runner : runner B; a_world : X; a_explorer : explorer; a_lock : option owner; a_user : user; a_thread : thread }.

  (** __init__, 565-568 *)
  Definition a_init (r : runner B) (x : X) : astate :=
    {| a_runner := r; a_world := x; a_explorer := {| t_node := []; t_action := None; t_done := false |}; a_lock := None; a_user := UIdle; a_thread := TWait |}.

  (** What happens in a step, for the specification; [get_action] returns when its second section ends. *)
  Inductive label := LTau | LChoose (a : option nat) | LExplore (n : path) (a : option nat) | LStop | LCall.

  Inductive astep : astate -> label -> astate -> Prop :=
  (* step, 570-572: the step of the runner, then set_node unless it raised *)
  | as_step r x t k th ob r' x' : r_step P ob r x = (r', x', Ok tt) ->
      astep (Build_astate r x t k UIdle th) LCall (Build_astate r' x' t k (UWait (SNode (r_node r'))) th)
  | as_step_fail r x t k th ob r' x' e : r_step P ob r x = (r', x', Err e) ->
      astep (Build_astate r x t k UIdle th) LCall (Build_astate r' x' t k UIdle th)
  (* reset, 574-576 *)
  | as_reset r x t k th :
      astep (Build_astate r x t k UIdle th) LCall (Build_astate (r_reset (r_root r)) x t k (UWait (SNode [])) th)
  (* get_action, 578-582, and stop, 584-587 *)
  | as_get r x t k th : astep (Build_astate r x t k UIdle th) LCall (Build_astate r x t k (UWait SGet) th)
  | as_stop r x t k th : astep (Build_astate r x t k UIdle th) LCall (Build_astate r x t k (UWait SStop) th)
  (* with self._lock, 543-545 *)
  | as_lock r x t th c : astep (Build_astate r x t None (UWait c) th) LTau (Build_astate r x t (Some OUser) (UIn c) th)
  | as_in_node r x t k th n : astep (Build_astate r x t k (UIn (SNode n)) th) LTau (Build_astate r x (set_node n t) None UIdle th)
  | as_in_action r x t k th a : astep (Build_astate r x t k (UIn (SAction a)) th) (LChoose a) (Build_astate r x (set_action a t) None UIdle th)
  | as_in_get r x t k th r' x' nm : get_action P iterations fuel r x = (r', x', Ok nm) ->
      astep (Build_astate r x t k (UIn SGet) th) LTau (Build_astate r' x' t None (UWait (SAction (r_last r'))) th)
  | as_in_get_fail r x t k th r' x' e : get_action P iterations fuel r x = (r', x', Err e) ->
      astep (Build_astate r x t k (UIn SGet) th) LTau (Build_astate r' x' t None UIdle th)
  | as_in_stop r x t k th : astep (Build_astate r x t k (UIn SStop) th) LStop (Build_astate r x (set_done t) None UJoin th)
  | as_join r x t k : astep (Build_astate r x t k UJoin TDead) LTau (Build_astate r x t k UIdle TDead)
  (* run, 557-563, and explore, 554-555 *)
  | as_t_lock r x t us : astep (Build_astate r x t None us TWait) LTau (Build_astate r x t (Some OThread) us TIn)
  | as_t_explore r x t k us root x' v : at_node (simulate_from_node P fuel (t_action t)) (r_root r) (t_node t) x = (root, x', Ok v) ->
      astep (Build_astate r x t k us TIn) (LExplore (t_node t) (t_action t))
            (Build_astate {| r_root := root; r_history := r_history r; r_node := r_node r; r_last := r_last r |} x' t k us TOut)
  | as_t_explore_fail r x t k us root x' e : at_node (simulate_from_node P fuel (t_action t)) (r_root r) (t_node t) x = (root, x', Err e) ->
      astep (Build_astate r x t k us TIn) (LExplore (t_node t) (t_action t))
            (Build_astate {| r_root := root; r_history := r_history r; r_node := r_node r; r_last := r_last r |} x' t None us TDead)
  | as_t_release r x t k us : astep (Build_astate r x t k us TOut) LTau (Build_astate r x t None us (if t_done t then TDead else TWait))
  .
End Async.
Arguments astate : clear implicits.
