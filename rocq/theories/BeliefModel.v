(** Model of task_models/lib/belief.py.  Randomness and the simulator are a world of an arbitrary type X: a
    source of natural numbers, and a transition function that may raise and may change the world. *)
From Verif Require Import QBase PyBase PomdpModel.
Local Open Scope nat_scope.

(** *** ArrayBelief, belief.py 18-35 *)

(** ArrayBelief.__init__, 20-22 *)
Definition vector (l : list Q) : array := {| shape := [length l]; at_ := fun idx => match idx with [i] => nth i l 0%Q | _ => 0%Q end |}.
Definition array_belief (l : list Q) : res (list Q) := do _ <- assert_normal (vector l); Ok l.
(** ArrayBelief.sample, 31-32; u is the draw *)
Definition array_sample (b : list Q) (u : Q) : res nat := random_choice b u.
(** ArrayBelief.successor, 34-35 *)
Definition array_successor (p : pomdp) (a o : Z) (b : list Q) : res (list Q) := do nb <- belief_update p a o b; array_belief nb.

Section Particles.
  Variable X : Type.
  (** the random source: [np.random.choice(n)] is any natural number modulo n, 104 *)
  Variable rand : X -> nat * X.
  Definition choice (n : nat) (x : X) : res nat * X :=
    let (r, x) := rand x in match n with 0 => (Err EValue, x) | _ => (Ok (r mod n), x) end.

  (** *** ParticleBelief, belief.py 76-116 *)
  Definition sampler := X -> res nat * X.

  (** ParticleBelief.sample(_max_index), 101-104 *)
  Definition particle_sample (parts : list nat) (max_index : nat) : sampler :=
    fun x => let (r, x) := choice max_index x in
             match r with
             | Err e => (Err e, x)
             | Ok i => match nth_error parts i with Some s => (Ok s, x) | None => (Err EIndex, x) end
             end.

  (** The while loop of _populate, 86-87; k is the number of particles still to draw, and the particles
      found so far are returned also when the sampler raises. *)
  Fixpoint fill (k : nat) (smp : list nat -> sampler) (parts : list nat) (x : X) : list nat * res unit * X :=
    match k with
    | 0 => (parts, Ok tt, x)
    | S k => let (r, x) := smp parts x in
             match r with
             | Ok s => fill k smp (parts ++ [s]) x
             | Err e => (parts, Err e, x)
             end
    end.

  (** _populate, 84-99.  The sampler is called again only for the first pass; the second pass draws among
      the n_part first particles, which exist (so that a second MaxSamplesReached cannot happen). *)
  Definition populate (n_particles : nat) (smp : sampler) (x : X) : list nat * res unit * X :=
    let '(parts, r, x) := fill n_particles (fun _ => smp) [] x in
    match r with
    | Err EMaxSamples =>
        let n_part := length parts in
        if 0 <? n_part then
          fill (n_particles - n_part) (fun parts => particle_sample parts n_part) parts x
        else (parts, Err EMaxSamples, x)
    | _ => (parts, r, x)
    end.

  (** ParticleBelief.__init__, 78-82 *)
  Definition particle_belief (n_particles : nat) (smp : sampler) (x : X) : res (list nat) * X :=
    let '(parts, r, x) := populate n_particles smp x in
    match r with Ok _ => (Ok parts, x) | Err e => (Err e, x) end.

  (** *** _SuccessorSampler, belief.py 53-73 *)
  Variable step : Z -> nat -> X -> res (nat * Z * Q) * X.  (* model.sample_transition *)

  (** __call__ and _sample, 63-73; belief.sample() draws among n_particles; the counter is part of the state of the sampler *)
  Fixpoint successor_call (fuel n_particles : nat) (parts : list nat) (a o : Z) (max_samples n_sampled : nat) (x : X) : res nat * nat * X :=
    match fuel with
    | 0 => (Err EFuel, n_sampled, x)
    | S fuel =>
        let n_sampled := S n_sampled in
        if max_samples <? n_sampled then (Err EMaxSamples, n_sampled, x)
        else
          let (r, x) := particle_sample parts n_particles x in
          match r with
          | Err e => (Err e, n_sampled, x)
          | Ok s =>
              let (t, x) := step a s x in
              match t with
              | Err e => (Err e, n_sampled, x)
              | Ok (s', o', _) => if Z.eqb o' o then (Ok s', n_sampled, x) else successor_call fuel n_particles parts a o max_samples n_sampled x
              end
          end
    end.
End Particles.
Arguments choice {X}. Arguments particle_sample {X}. Arguments fill {X}. Arguments populate {X}. Arguments particle_belief {X}. Arguments successor_call {X}.

(** ParticleBelief.successor, 106-109: the sampler with its counter is an object of the world. *)
Definition successor {X} (rand : X -> nat * X) (step : Z -> nat -> X -> res (nat * Z * Q) * X) (n_particles : nat) (parts : list nat) (a o : Z) (x : X) : res (list nat) * X :=
  let max_samples := 100 * n_particles in
  let rand' (nx : nat * X) := let (r, x) := rand (snd nx) in (r, (fst nx, x)) in
  let smp (nx : nat * X) := let '(r, n, x) := successor_call rand step (S max_samples) n_particles parts a o max_samples (fst nx) (snd nx) in (r, (n, x)) in
  let (r, nx) := particle_belief rand' n_particles smp (0, x) in
  (r, snd nx).

(** array, 111-116: [a[i] += 1] raises IndexError out of range; [a.sum() or 1.] *)
Definition particle_array (n_states : nat) (parts : list nat) : res (list Q) :=
  if forallb (fun i => i <? n_states) parts then
    let a := map (fun s => inject_Z (Z.of_nat (count_occ Nat.eq_dec parts s))) (seq 0 n_states) in
    let total := sumQ a in
    let total := if Qeq_bool total 0 then 1%Q else total in
    Ok (map (fun x => x / total)%Q a)
  else Err EIndex.
