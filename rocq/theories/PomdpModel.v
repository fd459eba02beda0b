(** Model of the tables of task_models/lib/pomdp.py: numpy arrays, POMDP (116-336) and _dump_1d_array. *)
From Verif Require Export PyBase QBase.
From Coq Require Export Qround String.
Export List ListNotations.
Local Open Scope list_scope.
Local Open Scope nat_scope.

(** *** numpy arrays *)

(** An array: its shape and its entries by multi-index; entries outside of the shape are meaningless.
    Simplification: exact rationals instead of floats, no NaN nor infinity. *)
Record array := { shape : list nat; at_ : list nat -> Q }.

(** All multi-indices of a shape. *)
Fixpoint indices (sh : list nat) : list (list nat) :=
  match sh with
  | [] => [[]]
  | n :: t => flat_map (fun i => map (cons i) (indices t)) (seq 0 n)
  end.

(** [a.sum(-1)] *)
Definition sum_last (a : array) : array :=
  {| shape := removelast (shape a); at_ := fun idx => sum_n (last (shape a) 0) (fun k => at_ a (idx ++ [k])) |}.

(** Entry-wise negation, addition of a number, and [a / b[..., None]] (no division by zero check: numpy only
    warns; in exact arithmetic x / 0 = 0, excluded in the statements). *)
Definition neg (a : array) : array := {| shape := shape a; at_ := fun idx => (- at_ a idx)%Q |}.
Definition add_number (a : array) (p : Q) : array := {| shape := shape a; at_ := fun idx => (at_ a idx + p)%Q |}.
Definition div_rows (a b : array) : array := {| shape := shape a; at_ := fun idx => (at_ a idx / at_ b (removelast idx))%Q |}.

(** [np.allclose(a, 1.)]: |x - 1| <= atol + rtol * |1| with the default tolerances 1e-8 and 1e-5. *)
Definition close_to_one (x : Q) : bool := Qle_bool (Qabs (x - 1)) (1001 # 100000000).
Definition allclose_one (a : array) : bool := forallb (fun idx => close_to_one (at_ a idx)) (indices (shape a)).

(** assert_normal, lib/utils.py 6-9 *)
Definition assert_normal (a : array) : res unit := if allclose_one (sum_last a) then Ok tt else Err EValue.

(** Nested Python lists of numbers, [tolist] and [np.asarray]; ragged lists are an error here (numpy makes
    arrays of objects out of them). *)
Inductive nested := Num (q : Q) | Lst (l : list nested).
Fixpoint tolist_at (sh : list nat) (f : list nat -> Q) : nested :=
  match sh with
  | [] => Num (f [])
  | n :: t => Lst (map (fun i => tolist_at t (fun idx => f (i :: idx))) (seq 0 n))
  end.
Definition tolist (a : array) : nested := tolist_at (shape a) (at_ a).
Definition list_nat_eqb : list nat -> list nat -> bool := fun a b => if list_eq_dec Nat.eq_dec a b then true else false.
(** Shape of a nested list: that of its first element, if all have the same. *)
Fixpoint nshape (x : nested) : res (list nat) :=
  match x with
  | Num _ => Ok []
  | Lst l =>
      do shs <- (fix go l := match l with [] => Ok [] | y :: t => do s <- nshape y; do r <- go t; Ok (s :: r) end) l;
      match shs with
      | [] => Ok [0]
      | s :: r => if forallb (list_nat_eqb s) r then Ok (length l :: s) else Err EValue
      end
  end.
Fixpoint nat_of (x : nested) (idx : list nat) {struct idx} : Q :=
  match idx, x with
  | [], Num q => q
  | i :: t, Lst l => match nth_error l i with Some y => nat_of y t | None => 0%Q end
  | _, _ => 0%Q
  end.
Definition asarray (x : nested) : res array := do sh <- nshape x; Ok {| shape := sh; at_ := nat_of x |}.

(** *** POMDP *)

(** Names of states, actions and observations: strings or integers. *)
Inductive name := NInt (z : Z) | NStr (s : string).
Definition name_eqb (a b : name) : bool :=
  match a, b with NInt x, NInt y => Z.eqb x y | NStr x, NStr y => String.eqb x y | _, _ => false end.
(** The attributes _s, _a, _o, pomdp.py 182-198: a list of names or a number. *)
Inductive names := NCount (n : nat) | NList (l : list name).
(** _as_list, pomdp.py 69-73 *)
Definition as_list (x : names) : list name :=
  match x with NCount n => map (fun i => NInt (Z.of_nat i)) (seq 0 n) | NList l => l end.

Record pomdp := {
  p_T : array; p_O : array; p_R : array; p_start : array; p_discount : Q;
  p_s : names; p_a : names; p_o : names }.

(** properties states, actions, observations and their numbers, pomdp.py 200-222 *)
Definition states (p : pomdp) : list name := as_list (p_s p).
Definition p_actions (p : pomdp) : list name := as_list (p_a p).
Definition p_observations (p : pomdp) : list name := as_list (p_o p).

(** assert_no_dup, pomdp.py 245-250: [len(set(lst)) == len(lst)] *)
Fixpoint no_dup (l : list name) : bool :=
  match l with [] => true | x :: t => negb (existsb (name_eqb x) t) && no_dup t end.

Definition assert_shape (a : array) (sh : list nat) : res unit := if list_nat_eqb (shape a) sh then Ok tt else Err EValue.

(** __init__, pomdp.py 155-180 with _assert_shapes (224-238), _assert_normal (240-243) and _assert_unique
    (245-257). [solver] tells whether the executable pomdp-solve was found (ImportError otherwise). *)
Definition mk_pomdp (T O R start : array) (discount : Q) (states actions observations : option (list name)) (values : string) (solver : bool)
  : res pomdp :=
  match shape O with
  | [a; s; o] =>
      let ns := match states with Some l => NList l | None => NCount s end in
      let na := match actions with Some l => NList l | None => NCount a end in
      let no := match observations with Some l => NList l | None => NCount o end in
      do R' <- (if String.eqb values "reward"%string then Ok R else if String.eqb values "cost"%string then Ok (neg R) else Err EValue);
      let s := length (as_list ns) in let a := length (as_list na) in let o := length (as_list no) in
      do _ <- assert_shape start [s];
      do _ <- assert_shape T [a; s; s];
      do _ <- assert_shape O [a; s; o];
      do _ <- assert_shape R' [a; s; s; o];
      do _ <- assert_normal start;
      do _ <- assert_normal T;
      do _ <- assert_normal O;
      if negb (no_dup (as_list ns) && no_dup (as_list na) && no_dup (as_list no)) then Err EValue
      else if negb (Qle_bool discount 1) || negb (Qle_bool 0 discount) then Err EValue
      else if negb solver then Err EImport
      else Ok {| p_T := T; p_O := O; p_R := R'; p_start := start; p_discount := discount; p_s := ns; p_a := na; p_o := no |}
  | _ => Err EValue       (* the shape cannot be unpacked *)
  end.

(** Index of an axis of length n by a Python integer. *)
Definition axis (n : nat) (i : Z) : res nat :=
  let j := if (i <? 0)%Z then (i + Z.of_nat n)%Z else i in
  if ((j <? 0) || (Z.of_nat n <=? j))%Z then Err EIndex else Ok (Z.to_nat j).

(** belief_update, pomdp.py 259-264; a belief is a one-dimensional array, here the list of its entries. *)
Definition belief_update (p : pomdp) (a o : Z) (b : list Q) : res (list Q) :=
  let n := length (states p) in
  do a <- axis (length (p_actions p)) a;
  if negb (Nat.eqb (length b) n) then Err EValue else
  do o <- axis (length (p_observations p)) o;
  let nb := map (fun s' => (sum_n n (fun s => nth s b 0 * at_ (p_T p) [a; s; s']) * at_ (p_O p) [a; s'; o])%Q) (seq 0 n) in
  let s := sumQ nb in
  if Qeq_bool s 0 then Err EImpossible else Ok (map (fun x => x / s)%Q nb).

(** [np.random.choice(len(p), p=p)] for a uniform draw u in [0, 1): the number of cumulated probabilities
    (divided by their total) that are <= u. ValueError for negative entries and for sums that are not one up
    to sqrt(eps) = 2^-26. *)
Fixpoint cumsum (acc : Q) (l : list Q) : list Q := match l with [] => [] | x :: t => (acc + x)%Q :: cumsum (acc + x)%Q t end.
Definition random_choice (p : list Q) (u : Q) : res nat :=
  if negb (forallb (fun x => Qle_bool 0 x) p) then Err EValue
  else if negb (Qle_bool (Qabs (sumQ p - 1)) (1 # 67108864)) then Err EValue
  else Ok (length (filter (fun c => Qle_bool (c / sumQ p)%Q u) (cumsum 0 p))).

(** Row of an array: [a[idx, :]] *)
Definition row (a : array) (idx : list nat) : list Q := map (fun k => at_ a (idx ++ [k])) (seq 0 (last (shape a) 0)).

(** sample_transition, pomdp.py 266-270, and sample_start, 272-273, for uniform draws u, v in [0, 1). *)
Definition pomdp_sample_transition (p : pomdp) (u v : Q) (a s : Z) : res (nat * nat * Q) :=
  do a <- axis (length (p_actions p)) a;
  do s <- axis (length (states p)) s;
  do new_s <- random_choice (row (p_T p) [a; s]) u;
  do o <- random_choice (row (p_O p) [a; new_s]) v;
  Ok (new_s, o, at_ (p_R p) [a; s; new_s; o]).
Definition pomdp_sample_start (p : pomdp) (u : Q) : res nat := random_choice (row (p_start p) []) u.

(** to_dict, pomdp.py 296-305, and from_dict, 314-319. *)
Record pomdp_dict := {
  d_T : nested; d_O : nested; d_R : nested; d_start : nested; d_discount : Q;
  d_states : list name; d_actions : list name; d_observations : list name }.
Definition to_dict (p : pomdp) : pomdp_dict :=
  {| d_T := tolist (p_T p); d_O := tolist (p_O p); d_R := tolist (p_R p); d_start := tolist (p_start p);
     d_discount := p_discount p; d_states := states p; d_actions := p_actions p; d_observations := p_observations p |}.
Definition from_dict (d : pomdp_dict) (solver : bool) : res pomdp :=
  do T <- asarray (d_T d);
  do Ob <- asarray (d_O d);
  do R <- asarray (d_R d);
  do start <- asarray (d_start d);
  mk_pomdp T Ob R start (d_discount d) (Some (d_states d)) (Some (d_actions d)) (Some (d_observations d)) "reward"%string solver.

(** randomize, pomdp.py 332-336 *)
Definition randomize (p : pomdp) (p_unexpected : Q) : pomdp :=
  let T := add_number (p_T p) p_unexpected in
  let O := add_number (p_O p) p_unexpected in
  {| p_T := div_rows T (sum_last T); p_O := div_rows O (sum_last O); p_R := p_R p; p_start := p_start p;
     p_discount := p_discount p; p_s := p_s p; p_a := p_a p; p_o := p_o p |}.

(** *** _dump_1d_array, pomdp.py 87-94 *)

(** [np.around(x, decimals=5)] in units of 1e-5: to the nearest, ties to even. *)
Definition rint (x : Q) : Z :=
  let f := Qfloor x in
  let d := (x - inject_Z f)%Q in
  if negb (Qle_bool (1 # 2) d) then f
  else if negb (Qle_bool d (1 # 2)) then (f + 1)%Z
  else if Z.even f then f else (f + 1)%Z.
Definition around5 (x : Q) : Z := rint (x * 100000).

(** [np.argmax(l)]: the first index of the greatest entry. *)
Fixpoint argmax_from (i : nat) (best : nat) (v : Z) (l : list Z) : nat :=
  match l with
  | [] => best
  | x :: t => if (v <? x)%Z then argmax_from (S i) i x t else argmax_from (S i) best v t
  end.
Definition argmax (l : list Z) : res nat := match l with [] => Err EValue | x :: t => Ok (argmax_from 1 0 x t) end.

(** The printed numbers, in units of 1e-5 (they are multiples of it, so that printing with five decimals is
    exact). Simplification: the sign of zero is not modelled. *)
Definition dump_1d_array (a : list Q) : res (list Z) :=
  let trunc_sum := around5 (sumQ a) in
  let trunc := map around5 a in
  do imax <- argmax trunc;
  Ok (firstn imax trunc ++ (nth imax trunc 0%Z + (trunc_sum - fold_right Z.add 0%Z trunc))%Z :: skipn (S imax) trunc).
