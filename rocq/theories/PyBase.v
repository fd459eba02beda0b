(** Common vocabulary of the models: Python exceptions as values, sets and
    dictionaries as lists.

    Nothing here models a particular line of /repo; it is the encoding of the
    Python data types that all models share.

    Simplification: Python equality of hashable objects ([__eq__]/[__hash__]) is
    modelled by decidable Leibniz equality, i.e. keys are assumed to have lawful
    equality and hash (properties C79 say when the repository's classes do). *)
From Coq Require Export List Bool Arith Lia Permutation.
Export ListNotations.

(** Python exceptions that the modelled code raises or lets through. *)
Inductive exn :=
| EValue        (* ValueError *)
| EKey          (* KeyError *)
| EIndex        (* IndexError *)
| EType         (* TypeError *)
| EAttr         (* AttributeError *)
| EZeroDiv      (* ZeroDivisionError *)
| EAssert       (* AssertionError *)
| ENotImpl      (* NotImplementedError *)
| ERuntime      (* RuntimeError *)
| EImpossible   (* POMDP.Impossible / Impossible *)
| EMaxSamples   (* MaxSamplesReached *)
| EUnexpected   (* PolicyRunner.UnexpectedObservation *)
| EEmpty        (* queue.Empty *)
| EParse        (* ValueFunctionParseError *)
| EImport       (* ImportError *)
| EFuel.        (* not a Python exception: the fuel of a model function ran out *)

(** Result of a Python call: a value or a raised exception. *)
Inductive res (A : Type) :=
| Ok (a : A)
| Err (e : exn).
Arguments Ok {A} a.
Arguments Err {A} e.

Definition bind {A B} (r : res A) (f : A -> res B) : res B :=
  match r with Ok a => f a | Err e => Err e end.

Notation "'do' x <- r ; k" := (bind r (fun x => k))
  (at level 200, x pattern, r at level 100, k at level 200).

Definition is_ok {A} (r : res A) : bool := match r with Ok _ => true | Err _ => false end.

(** [[f x for x in l]] with exceptions. *)
Section MapM.
  Context {A B : Type}.
  Variable f : A -> res B.
  Fixpoint mapM (l : list A) : res (list B) :=
    match l with
    | [] => Ok []
    | x :: t => do y <- f x; do ys <- mapM t; Ok (y :: ys)
    end.
End MapM.

(** [for x in l: state = f(state, x)] with exceptions. *)
Section FoldM.
  Context {A S : Type}.
  Variable f : S -> A -> res S.
  Fixpoint foldM (l : list A) (s : S) : res S :=
    match l with
    | [] => Ok s
    | x :: t => do s' <- f s x; foldM t s'
    end.
End FoldM.

Class EqDec (A : Type) := eq_dec : forall x y : A, {x = y} + {x <> y}.

#[global] Instance EqDec_nat : EqDec nat := Nat.eq_dec.
#[global] Instance EqDec_prod {A B} `{EqDec A} `{EqDec B} : EqDec (A * B).
Proof. intros [a b] [c d]; destruct (eq_dec a c); destruct (eq_dec b d);
       solve [left; congruence | right; congruence]. Defined.
#[global] Instance EqDec_option {A} `{EqDec A} : EqDec (option A).
Proof. intros [x|] [y|]; try (right; congruence); try (left; congruence);
       destruct (eq_dec x y); solve [left; congruence | right; congruence]. Defined.
#[global] Instance EqDec_list {A} `{EqDec A} : EqDec (list A).
Proof. intros x y; apply list_eq_dec; exact eq_dec. Defined.

Section Sets.
  Context {A : Type} `{EqDec A}.

  (** [x in l] for a list or a set. *)
  Definition mem (x : A) (l : list A) : bool := if in_dec eq_dec x l then true else false.

  (** [l.add(x)] for a set. *)
  Definition set_add (x : A) (l : list A) : list A := if mem x l then l else l ++ [x].

  (** set minus one element; [set.remove] raises when absent, see users. *)
  Definition set_del (x : A) (l : list A) : list A := filter (fun y => negb (if eq_dec x y then true else false)) l.

  (** [set(l)] *)
  Definition set_of (l : list A) : list A := fold_left (fun acc x => set_add x acc) l [].

  (** [a.union(b)], [a.intersection(b)], [a.difference(b)] *)
  Definition set_union (a b : list A) : list A := fold_left (fun acc x => set_add x acc) b a.
  Definition set_inter (a b : list A) : list A := filter (fun x => mem x b) a.
  Definition set_diff (a b : list A) : list A := filter (fun x => negb (mem x b)) a.

  (** [a == b] for sets *)
  Definition set_eqb (a b : list A) : bool :=
    forallb (fun x => mem x b) a && forallb (fun x => mem x a) b.
End Sets.

Section Dicts.
  Context {K V : Type} `{EqDec K}.

  (** Dictionaries are association lists with distinct keys, in insertion order. *)
  Fixpoint lookup (k : K) (d : list (K * V)) : option V :=
    match d with
    | [] => None
    | (k', v) :: t => if eq_dec k k' then Some v else lookup k t
    end.

  (** [d[k] = v] *)
  Fixpoint upd (k : K) (v : V) (d : list (K * V)) : list (K * V) :=
    match d with
    | [] => [(k, v)]
    | (k', v') :: t => if eq_dec k k' then (k', v) :: t else (k', v') :: upd k v t
    end.

  (** [d[k]] *)
  Definition getitem (k : K) (d : list (K * V)) : res V :=
    match lookup k d with Some v => Ok v | None => Err EKey end.

  Definition keys (d : list (K * V)) : list K := map fst d.
End Dicts.

(** An iteration order for Python sets: any function that permutes its input.
    Theorems quantify over it. *)
Definition is_order {A} (ord : list A -> list A) : Prop := forall l, Permutation (ord l) l.
