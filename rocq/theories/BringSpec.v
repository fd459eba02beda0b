(** Specification for C68, C69 and C89 to C92: the POMDP of a task whose leaves bring objects, in terms of the
    leaves of its unfolding (NodeSpec) and of their runs.  There is one state for each leaf, with its number: the
    leaf is the next one to do.  The last state is the end of the task. *)
From Verif Require Import PyBase QBase HtmModel HtmSpec PomdpModel PomdpSpec NodeModel NodeSpec NameSpec.
Local Open Scope list_scope.
Local Open Scope nat_scope.

Section Spec.
  Variables cost_com cost_get cost_err end_reward : Q.
  Variable objects : list string.
  Variables loop no_answer : bool.
  Variable t : n2p string.

  (** Leaf k brings object x. *)
  Definition wants (k : nat) (x : string) : Prop := exists a, nth_error (leaves t) k = Some a /\ a_class a = KBring /\ a_params a = Some x.
  (** Action a brings object x; asks whether object x is needed. *)
  Definition fetches (a : nat) (x : string) : Prop := nth_error objects a = Some x.
  Definition asks (a : nat) (x : string) : Prop := exists i, a = length objects + i /\ nth_error objects i = Some x.
  Definition finish : nat := length (leaves t).
  Definition site (o : option nat) : nat := match o with Some j => j | None => finish end.

  (** In state s, action a leads to s' with probability q. *)
  Inductive moves (a : nat) : nat -> nat -> Q -> Prop :=
  | mo_right k x o q : wants k x -> fetches a x -> leads t k o q -> moves a k (site o) q
  | mo_other k x : wants k x -> ~ fetches a x -> moves a k k 1
  | mo_end : loop = false -> moves a finish finish 1
  | mo_again l j : loop = true -> NoDup l -> (forall j, In j l <-> exists r, run t r /\ starts_with r j) -> In j l ->
      moves a finish j (1 / inject_Z (Z.of_nat (length l))).

  (** s' is a state in which x has just been brought. *)
  Definition just_brought (x : string) (s' : nat) : Prop :=
    exists k, wants k x /\ ((exists r, run t r /\ directly r k s') \/ (exists r, run t r /\ ends_with r k /\ s' = finish)).
  (** Action a, reaching s', is observed as o with probability q: none, yes, no, error. *)
  Definition b_none : nat := 0. Definition b_yes : nat := 1. Definition b_no : nat := 2. Definition b_error : nat := 3.
  Inductive observed (a s' : nat) : nat -> Q -> Prop :=
  | ob_good x : fetches a x -> just_brought x s' -> observed a s' b_none (9 # 10)
  | ob_good_error x : fetches a x -> just_brought x s' -> observed a s' b_error (1 # 10)
  | ob_error x : fetches a x -> ~ just_brought x s' -> observed a s' b_error 1
  | ob_yes x : no_answer = false -> asks a x -> wants s' x -> observed a s' b_yes 1
  | ob_no x : no_answer = false -> asks a x -> ~ wants s' x -> observed a s' b_no 1
  | ob_maybe_yes x : no_answer = true -> asks a x -> wants s' x -> observed a s' b_yes (9 # 10)
  | ob_maybe_no x : no_answer = true -> asks a x -> ~ wants s' x -> observed a s' b_no (9 # 10)
  | ob_silent x : no_answer = true -> asks a x -> observed a s' b_none (1 # 10).

  (** Doing a in s and reaching s' costs c. *)
  Definition succeeds (a s s' : nat) : Prop := exists x o q, wants s x /\ fetches a x /\ leads t s o q /\ s' = site o.
  Inductive effort (a s s' : nat) : Q -> Prop :=
  | ef_ask x : asks a x -> effort a s s' cost_com
  | ef_get x : fetches a x -> succeeds a s s' -> effort a s s' cost_get
  | ef_err x : fetches a x -> ~ succeeds a s s' -> effort a s s' cost_err.
  Inductive spends (a s s' : nat) : Q -> Prop :=
  | sp_loop_end : loop = true -> s = finish -> spends a s s' (- end_reward)
  | sp_loop c : loop = true -> s <> finish -> effort a s s' c -> spends a s s' c
  | sp_stay : loop = false -> s = finish -> s' = finish -> spends a s s' 0
  | sp_end c : loop = false -> s <> finish -> s' = finish -> effort a s s' c -> spends a s s' (c - end_reward)
  | sp_other c : loop = false -> s' <> finish -> effort a s s' c -> spends a s s' c.

  (** Names. *)
  Definition bring_state_name (s : nat) (n : string) : Prop :=
    (exists a, nth_error (leaves t) s = Some a /\ n = "before-" ++ dashed (a_name a))%string \/ (s = finish /\ n = "end"%string).
  Definition bring_action_name (i : nat) (n : string) : Prop :=
    (exists x, fetches i x /\ n = "get-" ++ x)%string \/ (exists x, asks i x /\ n = "ask-" ++ x)%string.
End Spec.

(** A leaf that brings a known object. *)
Definition brings (objects : list string) (a : action string) : Prop := exists x, a_class a = KBring /\ a_params a = Some x /\ In x objects.
Definition leaves_satisfy (G : action string -> Prop) (c : comb string) : Prop := forall a i p h, In (Leaf a i p h) (HtmSpec.preorder c) -> G a.
(** The names of the leaves differ, up to case and spaces. *)
Definition names_differ (t : n2p string) : Prop := NoDup (map (fun a => dashed (a_name a)) (leaves t)).
(** The task has a parallel combination. *)
Definition has_parallel (c : comb string) : Prop := exists ch i p n h pr, In (Node Parallel ch i p n h pr) (HtmSpec.preorder c).
