(** Finite probability spaces, for C97 and later. *)
From Verif Require Import QBase PyBase PomdpModel PomdpSpec.
Local Open Scope list_scope.
Local Open Scope nat_scope.

(** Elements with their probabilities *)
Definition space (W : Type) := list (Q * W).
Definition is_space {W} (sp : space W) : Prop := (forall q w, In (q, w) sp -> 0 <= q)%Q /\ (sum_over sp fst == 1)%Q.
(** Expected value, and probability of an event *)
Definition mean {W} (sp : space W) (f : W -> Q) : Q := sum_over sp (fun qw => fst qw * f (snd qw))%Q.
Definition prob {W} (sp : space W) (P : W -> bool) : Q := mean sp (fun w => if P w then 1 else 0)%Q.

(** Independent draws: two of them, and sequences of N draws from the same space *)
Definition pairs {W V} (sp : space W) (sp' : space V) : space (W * V) :=
  flat_map (fun qw => map (fun qv => ((fst qw * fst qv)%Q, (snd qw, snd qv))) sp') sp.
Fixpoint tapes {W} (sp : space W) (N : nat) : space (list W) :=
  match N with
  | 0 => [(1%Q, [])]
  | S N => flat_map (fun qw => map (fun qt => ((fst qw * fst qt)%Q, snd qw :: snd qt)) (tapes sp N)) sp
  end.

(** A draw is uniform in [0, 1), as far as the marks can tell. *)
Definition uniform {W} (sp : space W) (draw : W -> Q) (marks : list Q) : Prop :=
  (forall q w, In (q, w) sp -> 0 <= draw w < 1)%Q /\
  forall c, In c marks -> (prob sp (fun w => negb (Qle_bool c (draw w))) == c)%Q.
(** The n numbers 0, 1/n, 2/n, ... with equal probabilities *)
Definition grid (n : nat) : space Q := map (fun k => (1 / inject_Z (Z.of_nat n), inject_Z (Z.of_nat k) / inject_Z (Z.of_nat n))%Q) (seq 0 n).
(** An index drawn among j elements is uniform, for all j up to n. *)
Definition fair {W} (sp : space W) (idx : W -> nat) (n : nat) : Prop :=
  forall j k, 0 < j <= n -> k < j -> (prob sp (fun w => Nat.eqb (idx w mod j) k) == 1 / inject_Z (Z.of_nat j))%Q.
Definition dice (n : nat) : space nat := map (fun k => (1 / inject_Z (Z.of_nat n), k)%Q) (seq 0 n).

(** Powers *)
Fixpoint pow (q : Q) (n : nat) : Q := match n with 0 => 1 | S n => q * pow q n end.

(** A sequence of draws as the world of the models: each use takes the next draw. *)
Definition next_index {W} (idx : W -> nat) (x : list W) : nat * list W := match x with [] => (0, []) | w :: t => (idx w, t) end.
Definition next_step {W} (out : Z -> nat -> W -> res (nat * Z * Q)) (a : Z) (s : nat) (x : list W) : res (nat * Z * Q) * list W :=
  match x with [] => (Err EFuel, []) | w :: t => (out a s w, t) end.

(** The outcome is to go to s2 and to observe o. *)
Definition goes {R} (s2 : nat) (o : Z) (r : res (nat * Z * R)) : bool :=
  match r with Ok (s, o', _) => Nat.eqb s s2 && Z.eqb o' o | Err _ => false end.

(** The marks of a distribution on the numbers below n: its cumulated probabilities *)
Definition row_marks (f : nat -> Q) (n : nat) : list Q := map (fun k => sum_n k f) (seq 0 (S n)).
(** The marks of all tables of a POMDP *)
Definition model_marks (p : pomdp) : list Q :=
  row_marks (Start p) (nS p) ++
  flat_map (fun a => flat_map (fun s => row_marks (Tr p a s) (nS p) ++ row_marks (Ob p a s) (nO p)) (seq 0 (nS p))) (seq 0 (nA p)).

(** *** Particle beliefs *)
(** Chance that a particle chosen at random goes to s2 with observation o, and chance of the observation *)
Definition chance {W} (sp : space W) (out : Z -> nat -> W -> res (nat * Z * Q)) (parts : list nat) (a o : Z) (s2 : nat) : Q :=
  (sum_over parts (fun s => prob sp (fun w => goes s2 o (out a s w))) / inject_Z (Z.of_nat (length parts)))%Q.
Definition chance_obs {W} (sp : space W) (out : Z -> nat -> W -> res (nat * Z * Q)) (ns : nat) (parts : list nat) (a o : Z) : Q :=
  sum_n ns (chance sp out parts a o).
(** The simulator never raises and stays among ns states, from the particles. *)
Definition simulates {W} (sp : space W) (out : Z -> nat -> W -> res (nat * Z * Q)) (ns : nat) (parts : list nat) (a : Z) : Prop :=
  forall q w s, In (q, w) sp -> In s parts -> exists s2 o r, out a s w = Ok (s2, o, r) /\ s2 < ns.
(** Probabilities of independent events *)
Definition product {A} (l : list A) (f : A -> Q) : Q := fold_right (fun x acc => f x * acc)%Q 1%Q l.
(** The next draw for a sampler *)
Definition next_start {W} (start : W -> nat) (x : list W) : res nat * list W := match x with [] => (Err EFuel, []) | w :: t => (Ok (start w), t) end.
(** A POMDP as the simulator, for draws of two numbers *)
Definition pomdp_out {W} (p : pomdp) (u v : W -> Q) (a : Z) (s : nat) (w : W) : res (nat * Z * Q) :=
  do (s', o, r) <- pomdp_sample_transition p (u w) (v w) a (Z.of_nat s); Ok (s', Z.of_nat o, r).
