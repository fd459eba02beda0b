(** Specification for C40 and C43 to C47: distributions, Bayes rule and accepted tables, in terms of the
    entries of the arrays. *)
From Verif Require Import QBase PyBase PomdpModel.
Local Open Scope nat_scope.

Section Tables.
  Variable p : pomdp.
  Definition nS := length (states p).
  Definition nA := length (p_actions p).
  Definition nO := length (p_observations p).
  Definition Tr (a s s' : nat) : Q := at_ (p_T p) [a; s; s'].
  Definition Ob (a s' o : nat) : Q := at_ (p_O p) [a; s'; o].
  Definition Start (s : nat) : Q := at_ (p_start p) [s].

  Definition well_shaped : Prop :=
    shape (p_start p) = [nS] /\ shape (p_T p) = [nA; nS; nS] /\ shape (p_O p) = [nA; nS; nO] /\ shape (p_R p) = [nA; nS; nS; nO].

  (** Rows are probability distributions. *)
  Definition stochastic : Prop :=
    (forall a s s', a < nA -> s < nS -> s' < nS -> (0 <= Tr a s s')%Q) /\
    (forall a s, a < nA -> s < nS -> (sum_n nS (Tr a s) == 1)%Q) /\
    (forall a s' o, a < nA -> s' < nS -> o < nO -> (0 <= Ob a s' o)%Q) /\
    (forall a s', a < nA -> s' < nS -> (sum_n nO (Ob a s') == 1)%Q).

  (** A belief is a probability distribution over states. *)
  Definition distribution (b : list Q) : Prop :=
    length b = nS /\ (forall s, s < nS -> (0 <= nth s b 0)%Q) /\ (sum_n nS (fun s => nth s b 0%Q) == 1)%Q.

  (** Probability, starting from b and doing a, of being in s, going to s' and observing o. *)
  Definition joint (b : list Q) (a s s' o : nat) : Q := (nth s b 0 * Tr a s s' * Ob a s' o)%Q.
  Definition prob_end (b : list Q) (a s' o : nat) : Q := sum_n nS (fun s => joint b a s s' o).
  Definition prob_obs (b : list Q) (a o : nat) : Q := sum_n nS (fun s' => prob_end b a s' o).

  (** Probability of a whole path of states s0 -> path, with the given actions and observations. *)
  Fixpoint path_weight (s : nat) (hist : list (nat * nat)) (path : list nat) : Q :=
    match hist, path with
    | [], [] => 1
    | (a, o) :: h, s' :: t => Tr a s s' * Ob a s' o * path_weight s' h t
    | _, _ => 0
    end.
  (** All sequences of k states. *)
  Fixpoint paths (k : nat) : list (list nat) :=
    match k with 0 => [[]] | S k => flat_map (fun s => map (cons s) (paths k)) (seq 0 nS) end.
  (** Probability of the history and of ending in state e. *)
  Definition history_end (b : list Q) (hist : list (nat * nat)) (e : nat) : Q :=
    sum_n nS (fun s0 => sum_over (paths (length hist))
      (fun path => if Nat.eqb (last path s0) e then nth s0 b 0 * path_weight s0 hist path else 0))%Q.
  Definition history (b : list Q) (hist : list (nat * nat)) : Q := sum_n nS (history_end b hist).

  (** Updating a belief along a history. *)
  Fixpoint filter_belief (b : list Q) (hist : list (nat * nat)) : res (list Q) :=
    match hist with
    | [] => Ok b
    | (a, o) :: h => do b' <- belief_update p (Z.of_nat a) (Z.of_nat o) b; filter_belief b' h
    end.

  (** Probability, in state s doing a, of going to s' and observing o. *)
  Definition step_prob (a s s' o : nat) : Q := (Tr a s s' * Ob a s' o)%Q.
End Tables.

(** What the constructor accepts. *)
Definition about_one (x : Q) : Prop := (Qabs (x - 1) <= 1001 # 100000000)%Q.
Definition named (given : option (list name)) (l : list name) : Prop :=
  match given with Some g => l = g | None => l = map (fun i => NInt (Z.of_nat i)) (seq 0 (length l)) end.
Definition accepts (T O R start : array) (discount : Q) (ns na no : list name) (values : string) : Prop :=
  (values = "reward" \/ values = "cost")%string /\
  shape start = [length ns] /\ shape T = [length na; length ns; length ns] /\
  shape O = [length na; length ns; length no] /\ shape R = [length na; length ns; length ns; length no] /\
  about_one (sum_n (length ns) (fun s => at_ start [s])) /\
  (forall a s, a < length na -> s < length ns -> about_one (sum_n (length ns) (fun s' => at_ T [a; s; s']))) /\
  (forall a s, a < length na -> s < length ns -> about_one (sum_n (length no) (fun o => at_ O [a; s; o]))) /\
  NoDup ns /\ NoDup na /\ NoDup no /\
  (0 <= discount <= 1)%Q.

(** Same table. *)
Definition same_array (a b : array) : Prop := shape a = shape b /\ forall idx, In idx (indices (shape a)) -> at_ a idx = at_ b idx.

(** z units of 1e-5 is the number nearest to x (even when there are two). *)
Definition nearest (x : Q) (z : Z) : Prop :=
  (Qabs (x * 100000 - inject_Z z) <= 1 # 2)%Q /\ ((Qabs (x * 100000 - inject_Z z) == 1 # 2)%Q -> Z.even z = true).
