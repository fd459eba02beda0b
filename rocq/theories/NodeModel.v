(** Model of what task_models/task_to_pomdp.py and task_models/bring_next_to_pomdp.py share: the trees of
    converters of the nodes of a task (task_to_pomdp.py 104-121, 289-382; bring_next_to_pomdp.py 49-60, 100-175). *)
From Verif Require Export PyBase QBase HtmModel PomdpModel.
Local Open Scope list_scope.
Local Open Scope nat_scope.

(** [str.lower] on ASCII letters (other letters are kept: simplification) and [.replace(' ', '-')]:
    _name_radix, task_to_pomdp.py 50-51 *)
Definition lower_ascii (c : ascii) : ascii :=
  let n := nat_of_ascii c in if (65 <=? n) && (n <=? 90) then ascii_of_nat (n + 32) else c.
Fixpoint name_radix (s : string) : string :=
  match s with
  | EmptyString => EmptyString
  | String c t => String (if Ascii.eqb c " "%char then "-"%char else lower_ascii c) (name_radix t)
  end.

(** [np.cumsum([0] + [len(x) for x in l[:-1]])] without the 0 of an empty list, which is not used:
    _start_indices_from, task_to_pomdp.py 282-286.  [lens] are the lengths. *)
Fixpoint start_indices_from (i : nat) (lens : list nat) : list nat :=
  match lens with [] => [] | n :: t => i :: start_indices_from (i + n) t end.
Definition start_indices (lens : list nat) : list nat := start_indices_from 0 lens.

(** [uniform(n)], task_to_pomdp.py 13-14 *)
Definition uniform (n : nat) : list Q := repeat (1 / inject_Z (Z.of_nat n))%Q n.

Section Nodes.
  Context {P : Type}.

  (** _LeafToPOMDP, _SequenceToPOMDP and _AlternativesToPOMDP: what they hold that is not computed *)
  Inductive n2p := NLeaf (a : action P) | NSeq (children : list n2p) | NAlt (children : list n2p).

  (** _NodeToPOMDP.from_node, task_to_pomdp.py 104-121, bring_next_to_pomdp.py 49-60, with the constructors of
      parents (291-302, 102-107).  [leaf] is the constructor of leaves.  The recursion goes through the fresh tree
      of to_alternative: fuel, see [levels]. *)
  Fixpoint from_node (leaf : action P -> res unit) (fuel : nat) (node : comb P) : res n2p :=
    match fuel with
    | 0 => Err EFuel
    | S fuel =>
        match node with
        | Leaf a _ _ _ => do _ <- leaf a; Ok (NLeaf a)
        | Node Sequential ch _ _ _ _ _ => do l <- mapM (from_node leaf fuel) ch; Ok (NSeq l)
        | Node Alternative ch _ _ _ _ _ => do l <- mapM (from_node leaf fuel) ch; Ok (NAlt l)
        | Node Parallel ch _ _ name hl _ =>
            do alt <- to_alternative ch name hl;
            match alt with
            | Node _ ch' _ _ _ _ _ => do l <- mapM (from_node leaf fuel) ch'; Ok (NAlt l)
            | Leaf _ _ _ _ => Err EFuel (* to_alternative returns a combination *)
            end
        end
    end.
  (** Fuel that is always enough (NodeProofs.from_node_fuel). *)
  Fixpoint levels (c : comb P) : nat :=
    match c with
    | Leaf _ _ _ _ => 1
    | Node k ch _ _ _ _ _ => (match k with Parallel => 2 | _ => 1 end) + fold_right (fun c m => Nat.max (levels c) m) 0 ch
    end.

  (** Number of leaves. *)
  Fixpoint n_leaves (n : n2p) : nat :=
    match n with NLeaf _ => 1 | NSeq l | NAlt l => fold_right (fun c m => n_leaves c + m) 0 l end.

  (** Number of states: [w] per leaf (3 in task_to_pomdp.py, 1 in bring_next_to_pomdp.py); this is
      [len(self.states)], 297-299 and 105-107 *)
  Variable w : nat.
  Definition n_states (n : n2p) : nat := w * n_leaves n.

  (** init and start: task_to_pomdp.py 129-130, 316-322, 358-369; bring_next_to_pomdp.py 65-66, 117-123, 152-162 *)
  Fixpoint init (n : n2p) : res (list nat) :=
    match n with
    | NLeaf _ => Ok [0]
    | NSeq [] => Err EIndex
    | NSeq (c :: _) => init c
    | NAlt l =>
        do ls <- (fix go (l : list n2p) (indices : list nat) : res (list (list nat)) :=
                    match l, indices with
                    | c :: l, s :: indices => do i <- init c; do r <- go l indices; Ok (map (fun i => s + i) i :: r)
                    | _, _ => Ok []
                    end) l (start_indices (map n_states l));
        Ok (concat ls)
    end.
  Fixpoint start (n : n2p) : res (list Q) :=
    match n with
    | NLeaf _ => Ok [1%Q]
    | NSeq [] => Err EIndex
    | NSeq (c :: _) => start c
    | NAlt l =>
        do ls <- (fix go (l : list n2p) (ps : list Q) : res (list (list Q)) :=
                    match l, ps with
                    | c :: l, p :: ps => do i <- start c; do r <- go l ps; Ok (map (fun x => x * p)%Q i :: r)
                    | _, _ => Ok []
                    end) l (uniform (length l));
        Ok (concat ls)
    end.

  (** _next_init_children, task_to_pomdp.py 324-329, bring_next_to_pomdp.py 125-130 *)
  Definition next_init_children (children : list n2p) (s_start : nat) (s_next : list nat) : res (list (list nat)) :=
    do l <- mapM (fun cs : n2p * nat => do i <- init (fst cs); Ok (map (fun s => s_start + snd cs + s) i))
                 (combine (tl children) (tl (start_indices (map n_states children))));
    Ok (l ++ [s_next]).
  (** next_probas, task_to_pomdp.py 334, bring_next_to_pomdp.py 134 *)
  Definition next_probas (children : list n2p) (s_next_probas : list Q) : res (list (list Q)) :=
    do l <- mapM start (tl children); Ok (l ++ [s_next_probas]).
End Nodes.
Arguments n2p P : clear implicits.
