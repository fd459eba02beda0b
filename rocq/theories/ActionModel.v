(** Model of task_models/action.py (conditions and pre/post-condition actions), and of the equality and the hash of
    AbstractAction and MetaAction (task_models/task.py 218-231 and 329-365), ArrayBelief (lib/belief.py 18-29) and
    NDimensionalState (state.py 11-42). *)
From Coq Require Export String QArith ZArith.
From Verif Require Export PyBase.
Local Open Scope list_scope.
Local Open Scope nat_scope.

(** *** Arrays of one dimension.  Simplification: numbers are exact and finite; the only other value of a float that
    matters is the zero with a minus sign, which equals zero. *)
Inductive dtype := DInt | DFloat.
Inductive cell := Num (q : Q) | NegZero.
Record arr := { a_dtype : dtype; a_cells : list cell }.
Definition val (c : cell) : Q := match c with Num q => q | NegZero => 0 end.
Definition vals (a : arr) : list Q := map val (a_cells a).
(** An elementwise operation with numpy's rule for shapes: a dimension of length one is repeated; ValueError. *)
Definition broadcast {A} (f : Q -> Q -> A) (l l' : list Q) : res (list A) :=
  match l, l' with
  | [x], _ => Ok (map (fun y => f x y) l')
  | _, [y] => Ok (map (fun x => f x y) l)
  | _, _ => if length l =? length l' then Ok (map (fun p => f (fst p) (snd p)) (combine l l')) else Err EValue
  end.
(** [np.array_equal] *)
Definition array_equal (a b : arr) : bool :=
  (length (a_cells a) =? length (a_cells b)) && forallb (fun p => Qeq_bool (fst p) (snd p)) (combine (vals a) (vals b)).
(** What [a.tostring()] depends on: the type and each number with its sign (the bytes themselves are not modelled). *)
Definition canon (c : cell) : cell := match c with Num q => Num (Qred q) | NegZero => NegZero end.
Definition tostring (a : arr) : dtype * list cell := (a_dtype a, map canon (a_cells a)).

(** *** Conditions.  [Presence] is a PartPresenceCondition, a subclass with the same methods. *)
Inductive cclass := Plain | Presence.
Inductive cond := CMask (cls : cclass) (mask value : arr) | CAll.
(** Condition.__init__, 20-24 *)
Definition new_cond (cls : cclass) (mask value : arr) : res cond :=
  do l <- broadcast (fun m v => (1 - m) * v)%Q (vals mask) (vals value);
  if existsb (fun x => negb (Qeq_bool x 0)) l then Err EValue else Ok (CMask cls mask value).
Section Check.
  (** The error when shapes differ in [==]: AttributeError of [False.all()] in old versions of numpy, ValueError in
      recent ones. *)
  Variable mismatch : exn.
  (** check, 34-35 and 51-52; the state is given by its features. *)
  Definition cond_check (c : cond) (features : list Q) : res bool :=
    match c with
    | CAll => Ok true
    | CMask _ mask value =>
        do l <- broadcast Qmult features (vals mask);
        match broadcast Qeq_bool l (vals value) with Ok bs => Ok (forallb (fun b => b) bs) | Err _ => Err mismatch end
    end.
  (** PrePostConditionAction.check, 93-94; the features of the states are computed when needed. *)
  Definition prepost_check (pre post : cond) (before after : res (list Q)) : res bool :=
    let check c s := match c with CAll => Ok true | _ => do f <- s; cond_check c f end in
    do b <- check pre before;
    if b then check post after else Ok false.
End Check.

(** *** Python's [==]: when the class of the right operand derives from the class of the left one, its method is
    called first; none of the methods below returns NotImplemented. *)
(** Condition.__eq__ (29-32) and MatchAllCondition.__eq__ (48-49): AttributeError for the mask of MatchAllCondition *)
Definition cond_eq_method (c d : cond) : res bool :=
  match c, d with
  | CMask _ m v, CMask _ m' v' => Ok (array_equal m m' && array_equal v v')
  | CMask _ _ _, CAll => Err EAttr
  | CAll, CAll => Ok true
  | CAll, CMask _ _ _ => Ok false
  end.
Definition cond_derives (d c : cond) : bool :=
  match c, d with CMask Plain _ _, CAll => true | CMask Plain _ _, CMask Presence _ _ => true | _, _ => false end.
Definition cond_eq (c d : cond) : res bool := if cond_derives d c then cond_eq_method d c else cond_eq_method c d.

(** *** Actions.  [Abs sub n]: an AbstractAction ([sub] is false) or an instance of a subclass that does not redefine
    [__eq__] (CollaborativeAction, SupportedAction...).  [Meta kind set actions n]: a MetaAction; its attribute
    actions is a list, or a set that is iterated in the order given here; [n] is its name. *)
Inductive act :=
| PrePost (place : bool) (pre post : cond) (n : string)
| Abs (sub : bool) (n : string)
| Meta (kind : string) (set : bool) (actions : list act) (n : string).
Definition act_name (a : act) : string := match a with PrePost _ _ _ n | Abs _ n | Meta _ _ _ n => n end.
(** MetaAction.SEP, 331-334 *)
Definition sep (kind : string) : res string :=
  if String.eqb kind "sequence" then Ok "→"%string else if String.eqb kind "parallel" then Ok "||"%string
  else if String.eqb kind "alternative" then Ok "∨"%string else Err EKey.
(** MetaAction.__init__ and _name, 336-339 and 363-365 *)
Definition new_meta (kind : string) (set : bool) (actions : list act) : res act :=
  do s <- sep kind;
  Ok (Meta kind set actions ("(" ++ String.concat s (map act_name actions) ++ ")")%string).

Section Hash.
  (** Python's hash of strings, of byte strings, of the integer 0 and of tuples (from the hashes of their items). *)
  Variable hash_str : string -> Z.
  Variable hash_bytes : dtype * list cell -> Z.
  Variable hash_int : Z -> Z.
  Variable hash_tuple : list Z -> Z.
  (** Condition.__hash__ and MatchAllCondition.__hash__, 26-27 and 45-46 *)
  Definition cond_hash (c : cond) : Z :=
    match c with CMask _ m v => hash_tuple [hash_bytes (tostring m); hash_bytes (tostring v)] | CAll => hash_int 0 end.
  (** PrePostConditionAction.__hash__, 85-86; AbstractAction.__hash__ and MetaAction.__hash__, task.py 220-221 and
      346-347 *)
  Definition act_hash (a : act) : Z :=
    match a with PrePost _ pre post _ => hash_tuple [cond_hash pre; cond_hash post] | Abs _ n | Meta _ _ _ n => hash_str n end.

  (** [a == b] of two lists: at the first items that differ; [x in s] of a set: an item with the same hash that is
      equal.  (The test of identity made before is no loss: see act_eq_refl.) *)
  Section Collections.
    Variable eq : act -> act -> res bool.
    Fixpoint list_eq (l l' : list act) : res bool :=
      match l, l' with x :: l, y :: l' => do b <- eq x y; if b then list_eq l l' else Ok false | _, _ => Ok true end.
    Fixpoint contains (x : act) (s : list act) : res bool :=
      match s with
      | [] => Ok false
      | y :: s => if (act_hash x =? act_hash y)%Z then do b <- eq x y; if b then Ok true else contains x s else contains x s
      end.
    Fixpoint all_in (l s : list act) : res bool :=
      match l with [] => Ok true | x :: l => do b <- contains x s; if b then all_in l s else Ok false end.
  End Collections.
  (** PrePostConditionAction.__eq__ (88-91), AbstractAction.__eq__ (task.py 223-224), MetaAction.__eq__ (341-344).
      [fuel] bounds the nesting of MetaActions. *)
  Fixpoint act_eq (fuel : nat) (a b : act) : res bool :=
    match fuel with
    | O => Err EFuel
    | S fuel =>
        let meth (a b : act) : res bool :=
          match a, b with
          | PrePost _ p q _, PrePost _ p' q' _ => do x <- cond_eq p p'; if x then cond_eq q q' else Ok false
          | PrePost _ _ _ _, _ => Err EAttr
          | Abs _ n, Abs _ n' | Abs _ n, Meta _ _ _ n' => Ok (String.eqb n n')
          | Abs _ _, PrePost _ _ _ _ => Ok false
          | Meta k s l _, Meta k' s' l' _ =>
              if negb (String.eqb k k') then Ok false
              else if negb (Bool.eqb s s') || negb (length l =? length l') then Ok false
              else if s then all_in (act_eq fuel) l l' else list_eq (act_eq fuel) l l'
          | Meta _ _ _ _, _ => Ok false
          end in
        let derives := match a, b with
                       | PrePost false _ _ _, PrePost true _ _ _ | Abs false _, Abs true _ | Abs false _, Meta _ _ _ _ => true
                       | _, _ => false end in
        if derives then meth b a else meth a b
    end.

  (** *** ArrayBelief, 24-29: the arrays are compared with the rule for shapes. *)
  Variable mismatch : exn.
  Definition belief_eq (a b : arr) : res bool :=
    match broadcast Qeq_bool (vals a) (vals b) with Ok l => Ok (forallb (fun x => x) l) | Err _ => Err mismatch end.
  Definition belief_hash (a : arr) : Z := hash_bytes (tostring a).
  (** *** NDimensionalState, state.py 24-25 and 33-34: [raise NotImplemented] is a TypeError. *)
  Definition ndim_eq (a b : arr) : res bool := Err EType.
  Definition ndim_hash (a : arr) : Z := hash_bytes (tostring a).
End Hash.
