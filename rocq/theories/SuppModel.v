(** Model of SupportivePOMDP, task_models/supportive.py 48-114 and 231-524. *)
From Verif Require Export DagModel QBase CodecModel.

(** CONSUMES, USES, CONSUMES_SOME, supportive.py 48-50; [COther] is any other value, that the code
    silently accepts. *)
Inductive cond := CConsumes | CUses | CSome | COther.

(** Attributes [conditions] and [hold] of a supported action, supportive.py 53-114; [sp_hold] is the
    attribute hold (None or a string). *)
Record sparams := { sp_conditions : list (cond * string); sp_hold : option string }.

Definition stree := comb sparams.

(** Class attributes, supportive.py 264-283, that subclasses may override; [cf_preferences] is the number
    of preferences. Simplification: probabilities are not modelled, all draws are possible. *)
Record config := {
  r_subtask : Q; r_final : Q; r_preference : Q; reward_independent_preference : bool;
  cost_get : Q; cost_intrinsic : Q; cost_hold : Q; cf_preferences : nat }.

Definition default_config : config :=
  {| r_subtask := 10; r_final := 100; r_preference := 10; reward_independent_preference := false;
     cost_get := 15; cost_intrinsic := 1; cost_hold := 2; cf_preferences := 1 |}.

(** Attributes of the model object; nodes are stored with their conditions and hold attribute. *)
Record spomdp := {
  htm_nodes : list stree;
  htm_succs : list (list nat);
  htm_init : list nat;
  objects : list string;
  clearable : list bool;
  htm_conditions : list (list (cond * nat));
  a_bring : list Z;               (* _a_bring *)
  a_clear : list (option Z);      (* _a_clear *)
  n_actions : Z }.

(** [n.action.conditions] and [n.action.hold]: AttributeError when the action is not a supported action
    that defines them. *)
Definition action_params (n : stree) : res sparams :=
  match n with
  | Leaf a _ _ _ => match a_class a, a_params a with KSupported, Some p => Ok p | _, _ => Err EAttr end
  | Node _ _ _ _ _ _ _ => Err EAttr
  end.

(** [l.index(x)] *)
Fixpoint index_of {A} (eqb : A -> A -> bool) (x : A) (l : list A) : option nat :=
  match l with
  | [] => None
  | y :: t => if eqb x y then Some 0%nat else option_map S (index_of eqb x t)
  end.

(** get_object_id, supportive.py 306-311 *)
Definition get_object_id (name : string) (objs : list string) (clr : list bool) : list string * list bool * nat :=
  match index_of String.eqb name objs with
  | Some i => (objs, clr, i)
  | None => (objs ++ [name], clr ++ [false], length objs)
  end.

(** The inner loop of _populate_conditions, supportive.py 318-322 *)
Fixpoint add_conditions (cs : list (cond * string)) (objs : list string) (clr : list bool)
  : list string * list bool * list (cond * nat) :=
  match cs with
  | [] => (objs, clr, [])
  | (c, o) :: t =>
      let '(objs1, clr1, i) := get_object_id o objs clr in
      let clr2 := match c with CUses | CSome => set_nth i true clr1 | _ => clr1 end in
      let '(objs3, clr3, rest) := add_conditions t objs1 clr2 in
      (objs3, clr3, (c, i) :: rest)
  end.

(** _populate_conditions, supportive.py 313-322 *)
Fixpoint populate_conditions (nodes : list stree) (objs : list string) (clr : list bool)
  : res (list string * list bool * list (list (cond * nat))) :=
  match nodes with
  | [] => Ok (objs, clr, [])
  | n :: t =>
      do p <- action_params n;
      let '(objs1, clr1, cs) := add_conditions (sp_conditions p) objs clr in
      do (objs2, clr2, rest) <- populate_conditions t objs1 clr1;
      Ok (objs2, clr2, cs :: rest)
  end.

(** _init_object_actions_indices, supportive.py 381-393; [j] is the next free index. *)
Fixpoint object_actions (clr : list bool) (j : Z) : list Z * list (option Z) :=
  match clr with
  | [] => ([], [])
  | c :: t =>
      if c then let '(b, k) := object_actions t (j + 2) in (j :: b, Some (j + 1)%Z :: k)
      else let '(b, k) := object_actions t (j + 1) in (j :: b, None :: k)
  end.

Definition skip_to_a_obj : Z := 4.

Section Supp.
  Variable ordn : list nat -> list nat.

  (** __init__, supportive.py 288-300 *)
  Definition mk_supportive (htm : stree) : res spomdp :=
    do (nodes, succs, init) <- htm_to_dag ordn htm;
    do (objs, clr, conds) <- populate_conditions nodes [] [];
    let '(b, k) := object_actions clr skip_to_a_obj in
    Ok {| htm_nodes := nodes;
          htm_succs := map (fun s => match s with [] => [length nodes] | _ => s end) succs;
          htm_init := init;
          objects := objs;
          clearable := clr;
          htm_conditions := conds;
          a_bring := b; a_clear := k;
          n_actions := (skip_to_a_obj + Z.of_nat (length objs) + Z.of_nat (count_occ Bool.bool_dec clr true))%Z |}.
End Supp.

(** n_htm_states, htm_clean, htm_final, supportive.py 324-338 *)
Definition n_htm_states (m : spomdp) : Z := Z.of_nat (length (htm_nodes m) + 2).
Definition htm_clean (m : spomdp) : Z := Z.of_nat (length (htm_nodes m)).
Definition htm_final (m : spomdp) : Z := Z.of_nat (length (htm_nodes m) + 1).

(** The action names, supportive.py 361-366 *)
Definition actions (m : spomdp) : list string :=
  ["wait"; "hold H"; "hold V"; "ask hold"]%string ++
  concat (map (fun oc : string * bool => ("bring " ++ fst oc)%string :: (if snd oc then [("clear " ++ fst oc)%string] else []))
              (combine (objects m) (clearable m))).

Section Transition.
  Variable cf : config.
  Variable m : spomdp.

  (** _int_to_state, supportive.py 302-304 *)
  Definition int_to_state (s : Z) : sstate := mk_sstate (n_htm_states m) (cf_preferences cf) 1 (length (objects m)) s.

  (** The attribute n_states, supportive.py 296-297 *)
  Definition model_n_states : Z := (n_htm_states m * 2 ^ Z.of_nat (cf_preferences cf + 1 + length (objects m)))%Z.

  (** is_final, supportive.py 340-341 *)
  Definition model_is_final (s : Z) : bool := is_final (int_to_state s).

  (** Python [l[i]] for an integer i. *)
  Definition py_nth {A} (l : list A) (i : Z) : res A :=
    let j := if (i <? 0)%Z then (i + Z.of_nat (length l))%Z else i in
    if (j <? 0)%Z then Err EIndex
    else match nth_error l (Z.to_nat j) with Some x => Ok x | None => Err EIndex end.

  (** The random outcomes of one call: which objects and preferences change, which successor is chosen,
      whether an undesired hold fails (random() < .98), whether the human answers (random() < 0.9 or 0.95), whether an object
      action fails (random() < p_fail), and for each condition whether all is consumed. *)
  Record draws := {
    d_object : nat -> bool; d_preference : nat -> bool; d_succ : nat;
    d_hold : bool; d_answer : bool; d_fail : bool; d_consume : nat -> bool }.

  (** [np.random.choice(l)]: ValueError when l is empty. *)
  Definition choose {A} (l : list A) (k : nat) : res A :=
    match nth_error l (k mod length l) with Some x => Ok x | None => Err EValue end.

  (** _update_for_condition, supportive.py 420-435, iterated over the conditions of a node by
      _update_for_transition, supportive.py 376-377; [k] numbers the conditions (for the draws). *)
  Fixpoint update_for_conditions (d : draws) (k : nat) (cs : list (cond * nat)) (x : sstate) : sstate * Q :=
    match cs with
    | [] => (x, 0)
    | (c, o) :: t =>
        let r := if Z.eqb (has_object x o) 0 then - cost_get cf else 0 in
        let x' := match c with
                  | CConsumes => set_object x o 0
                  | CSome => set_object x o (if d_consume d k then 0 else 1)
                  | CUses => set_object x o 1
                  | COther => x
                  end in
        let (x'', r') := update_for_conditions d (S k) t x' in
        (x'', r + r')
    end%Q.

  (** _update_for_transition, supportive.py 371-377 *)
  Definition update_for_transition (d : draws) (x : sstate) (node : Z) : res (sstate * Q) :=
    do l <- py_nth (htm_succs m) node;
    do h <- choose l (d_succ d);
    do cs <- py_nth (htm_conditions m) node;
    Ok (update_for_conditions d 0 cs (set_htm x (Z.of_nat h))).

  (** _obj_from_action, supportive.py 395-402; _is_bring, 404-405 *)
  Definition obj_from_action (a : Z) : res nat :=
    match index_of Z.eqb a (a_bring m) with
    | Some i => Ok i
    | None => match index_of (fun x y => match x, y with Some u, Some v => Z.eqb u v | _, _ => false end) (Some a) (a_clear m) with
              | Some i => Ok i
              | None => Err EValue
              end
    end.
  (** _bring, supportive.py 407-410, and _clear, 412-418 *)
  Definition bring_action (o : nat) : res Z := py_nth (a_bring m) (Z.of_nat o).
  Definition clear_action (o : nat) : res Z :=
    do k <- py_nth (a_clear m) (Z.of_nat o);
    match k with Some a => Ok a | None => Err EValue end.
  Definition is_bring (a : Z) : bool := match index_of Z.eqb a (a_bring m) with Some _ => true | None => false end.

  (** The observation constants and names, supportive.py 256-260, 285 *)
  Definition observations : list string := ["none"; "fail"; "not-found"; "yes"; "no"]%string.
  Definition O_NONE : nat := 0.
  Definition O_FAIL : nat := 1.
  Definition O_NOT_FOUND : nat := 2.
  Definition O_YES : nat := 3.
  Definition O_NO : nat := 4.

  (** sum of [_cost_get(o) * has_object(o)] over the objects, supportive.py 454-455 *)
  Definition left_over (x : sstate) : Q :=
    sum_n (length (objects m)) (fun o => cost_get cf * inject_Z (has_object x o)).

  (** sample_transition, supportive.py 437-509; the counter of simulator calls is not modelled. *)
  Definition sample_transition (d : draws) (random : bool) (a s : Z) : res (Z * nat * Q) :=
    let x0 := int_to_state s in
    let x := if random
             then random_preference_changes (map (d_preference d) (seq 0 (cf_preferences cf)))
                    (random_object_changes (map (d_object d) (seq 0 (length (objects m)))) x0)
             else x0 in
    let nx := int_to_state (st x) in
    if Z.eqb a 0 || Z.eqb a 1 || Z.eqb a 2 then
      let r := if Z.eqb a 0 then 0%Q else (- cost_hold cf)%Q in
      if is_final x then Ok (st nx, O_NONE, r)
      else if Z.eqb (htm x) (htm_clean m) then
        if Z.eqb a 0 then Ok (st (set_htm nx (htm_final m)), O_NONE, (r - left_over x + r_final cf)%Q)
        else Ok (st nx, O_FAIL, r)
      else
        do n <- py_nth (htm_nodes m) (htm x);
        do p <- action_params n;
        let pref := negb (Z.eqb (has_preference x 0) 0) in
        let helps := pref && match sp_hold p with
                             | Some h => (String.eqb h "h" && Z.eqb a 1) || (String.eqb h "v" && Z.eqb a 2)
                             | None => false
                             end in
        let fails := negb helps && (Z.eqb a 1 || Z.eqb a 2) && (negb random || d_hold d) in
        let r1 := if helps then (r + r_preference cf)%Q else r in
        if fails then Ok (st nx, O_FAIL, r1)
        else do (x', rc) <- update_for_transition d nx (htm x);
             Ok (st x', O_NONE,
                 (r1 + rc + r_subtask cf + (if reward_independent_preference cf && negb pref then r_preference cf - cost_hold cf else 0))%Q)
    else if Z.eqb a 3 then
      let yes := negb (Z.eqb (has_preference x 0) 0) in
      Ok (st nx, (if negb random || d_answer d then (if yes then O_YES else O_NO) else O_NONE), (- cost_intrinsic cf)%Q)
    else
      do o <- obj_from_action a;
      let b := if is_bring a then 1%Z else 0%Z in
      if Z.eqb (has_object x o) b then Ok (st nx, O_NOT_FOUND, (- cost_intrinsic cf)%Q)
      else if random && d_fail d then Ok (st nx, O_FAIL, (- cost_intrinsic cf)%Q)
      else Ok (st (set_object nx o b), O_NONE, (- cost_intrinsic cf)%Q).

  (** sample_start, supportive.py 511-520: [d_preference] are the comparisons with
      p_preferences, assumed to have as many entries as preferences. *)
  Fixpoint start_preferences (d : draws) (i n : nat) (x : sstate) : sstate :=
    match n with
    | 0%nat => x
    | S k => start_preferences d (S i) k (set_preference x i (if d_preference d i then 1 else 0)%Z)
    end.
  Definition sample_start (d : draws) : res Z :=
    do h <- choose (htm_init m) (d_succ d);
    let x := set_htm (int_to_state 0) (Z.of_nat h) in
    let x := start_preferences d 0 (cf_preferences cf) x in
    Ok (st (random_object_changes (map (d_object d) (seq 0 (length (objects m)))) x)).
End Transition.
