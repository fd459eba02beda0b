(** Specification for C50 to C56 and C83. *)
From Verif Require Import PyBase QBase PomdpModel PomdpSpec PolicyModel.
Local Open Scope list_scope.
Local Open Scope nat_scope.

(** Scalar product, and the first of the rows with the greatest scalar product. *)
Definition scalar (r b : list Q) : Q := sum_n (length b) (fun i => nth i r 0 * nth i b 0)%Q.
Definition best (values : list (list Q)) (b : list Q) (n : nat) : Prop :=
  n < length values /\
  (forall m, m < length values -> (scalar (nth m values []) b <= scalar (nth n values []) b)%Q) /\
  (forall m, m < n -> (scalar (nth m values []) b < scalar (nth n values []) b)%Q).

(** Entry of the transition table for node n and observation o (observations are distinct). *)
Definition entry_at (g : graph_policy) (n : nat) (o : name) (t : option Z) : Prop :=
  exists j row, nth_error (g_observations g) j = Some o /\ nth_error (g_trans g) n = Some row /\ nth_error row j = Some t.

(** Following a table along observations. *)
Inductive follows (g : graph_policy) : nat -> list name -> nat -> Prop :=
| fw_nil n : follows g n [] n
| fw_cons n o m rest k : entry_at g n o (Some (Z.of_nat m)) -> follows g m rest k -> follows g n (o :: rest) k.

(** A policy on the tables of a POMDP: one row of values per node, known actions and observations. *)
Record policy_for (g : graph_policy) (p : pomdp) : Prop := {
  pf_values : length (g_values g) = length (g_actions g);
  pf_rows : Forall (fun r => length r = nS p) (g_values g);
  pf_some : 0 < length (g_actions g);
  pf_actions : incl (g_actions g) (p_actions p) }.

(** The belief runner after a history: node and action are those of the best node for the belief. *)
Definition at_belief (g : graph_policy) (b : list Q) (r : brunner) : Prop :=
  b_belief r = b /\ exists n, b_node r = Some (Z.of_nat n) /\ best (g_values g) b n.
Definition action_for (g : graph_policy) (p : pomdp) (b : list Q) (a : nat) : Prop :=
  exists n nm, best (g_values g) b n /\ nth_error (g_actions g) n = Some nm /\ nth_error (p_actions p) a = Some nm.

(** Bayes rule: the belief after doing a and observing o. *)
Definition posterior (p : pomdp) (b : list Q) (a o : nat) (nb : list Q) : Prop :=
  length nb = nS p /\ forall s', s' < nS p -> (nth s' nb 0 == prob_end p b a s' o / prob_obs p b a o)%Q.

(** Steps of a runner along a list of observations, up to the first exception. *)
Fixpoint run {S : Type} (step : name -> S -> S * res unit) (obs : list name) (s : S) : S * res unit :=
  match obs with
  | [] => (s, Ok tt)
  | o :: rest => match step o s with (s', Ok _) => run step rest s' | (s', Err e) => (s', Err e) end
  end.

(** Outputs of the solver accepted by load_policy_from. *)
Definition loadable (p : pomdp) (vf : list Z * list (list Q)) (pg : list Z * list (list (option Z))) : Prop :=
  fst vf = fst pg /\ fst vf <> [] /\
  (forall a, In a (fst vf) -> - Z.of_nat (nA p) <= a < Z.of_nat (nA p))%Z /\
  (exists row t, In row (snd pg) /\ In (Some t) row) /\
  (forall row t, In row (snd pg) -> In (Some t) row -> (t <= Z.of_nat (length (snd pg)))%Z) /\
  length (snd pg) = length (fst vf) /\ (forall row, In row (snd pg) -> length row = nO p) /\
  snd vf <> [] /\ (forall row, In row (snd vf) -> length row = length (start_list p)).

(** The observation histories along which the policy can be run, with the actions it takes and the belief
    given by Bayes rule. *)
Inductive filtered (g : graph_policy) (p : pomdp) : list Q -> list name -> list Q -> Prop :=
| fi_nil b : filtered g p b [] b
| fi_cons b o rest a io nb b' : action_for g p b a -> nth_error (p_observations p) io = Some o ->
    ~ (prob_obs p b a io == 0)%Q -> posterior p b a io nb ->
    filtered g p nb rest b' -> filtered g p b (o :: rest) b'.

(** Trees of height h: one child for each observation of positive probability. *)
Inductive is_tree (g : graph_policy) (p : pomdp) : nat -> list Q -> ttree -> Prop :=
| it_leaf b n nm : best (g_values g) b n -> nth_error (g_actions g) n = Some nm -> is_tree g p 0 b (TNode b nm (Z.of_nat n) [] [])
| it_node h b n nm a ios children : best (g_values g) b n -> nth_error (g_actions g) n = Some nm -> nth_error (p_actions p) a = Some nm ->
    (* the possible observations, in the order of the POMDP *)
    ios = filter (fun io => negb (Qeq_bool (prob_obs p b a io) 0)) (seq 0 (nO p)) ->
    are_trees g p h b a ios children ->
    is_tree g p (S h) b (TNode b nm (Z.of_nat n) (map (fun io => nth io (p_observations p) (NInt 0)) ios) children)
with are_trees (g : graph_policy) (p : pomdp) : nat -> list Q -> nat -> list nat -> list ttree -> Prop :=
| at_nil h b a : are_trees g p h b a [] []
| at_cons h b a io ios nb t ts : posterior p b a io nb -> is_tree g p h nb t ->
    are_trees g p h b a ios ts -> are_trees g p h b a (io :: ios) (t :: ts).

(** The belief concentrated on a state. *)
Definition certain (n s : nat) : list Q := map (fun i => if Nat.eqb i s then 1%Q else 0%Q) (seq 0 n).

(** Squared distance between beliefs. *)
Definition distance2 (u v : list Q) : Q := sum_n (length u) (fun i => (nth i u 0 - nth i v 0) * (nth i u 0 - nth i v 0))%Q.

(** Root of a tree. *)
Definition root (t : ttree) : list Q := match t with TNode b _ _ _ _ => b end.
(** Possible start states. *)
Definition possible_start (p : pomdp) (s : nat) : Prop := s < length (start_list p) /\ ~ (nth s (start_list p) 0 == 0)%Q.

(** Every transition of a policy leads to one of its nodes, and the tables have the right sizes. *)
Definition closed (g : graph_policy) : Prop := forall row z, In row (g_trans g) -> In (Some z) row -> (0 <= z < Z.of_nat (length (g_actions g)))%Z.
Definition shaped (g : graph_policy) : Prop := length (g_trans g) = length (g_actions g) /\ forall row, In row (g_trans g) -> length row = length (g_observations g).

(** The name of the action numbered a, counted from the end when a is negative. *)
Definition action_name (p : pomdp) (a : Z) (x : name) : Prop := nth_error (p_actions p) (Z.to_nat (a mod Z.of_nat (nA p))) = Some x.
