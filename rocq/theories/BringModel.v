(** Model of task_models/bring_next_to_pomdp.py: from a task whose leaves bring objects to a POMDP. *)
From Verif Require Export NodeModel ConvModel.
Local Open Scope list_scope.
Local Open Scope nat_scope.

(** CollaborativeAction, bring_next_to_pomdp.py 14-18: the parameter of the action is the name of its object.
    [leaf.action.obj], 74: other actions (also copies of these ones) do not have this attribute. *)
Definition obj_of (a : action string) : res string :=
  match a_class a, a_params a with KBring, Some o => Ok o | _, _ => Err EAttr end.
(** _LeafToPOMDP.__init__, 71-77 *)
Definition bring_leaf (a : action string) : res unit := do _ <- obj_of a; Ok tt.
(** observations, 23-31 *)
Definition o_maybe_yes : list Q := [1 # 10; 9 # 10; 0; 0]%Q.
Definition o_maybe_no : list Q := [1 # 10; 0; 9 # 10; 0]%Q.
Definition o_maybe_good : list Q := [9 # 10; 0; 0; 1 # 10]%Q.

(** [{a: i for i, a in enumerate(actions)}[a]], 198: the last index; KeyError *)
Fixpoint last_index_from (i : nat) (x : string) (l : list string) : option nat :=
  match l with
  | [] => None
  | y :: l => match last_index_from (S i) x l with Some j => Some j | None => if String.eqb y x then Some i else None end
  end.
Definition action_index (actions : list string) (x : string) : res nat :=
  match last_index_from 0 x actions with Some i => Ok i | None => Err EKey end.

Section Bring.
  (** HTMToPOMDP.__init__, 179-204 *)
  Variables cost_com cost_get cost_err end_reward : Q.
  Variable objects : list string.
  Variables loop no_answer : bool.
  (** discount, 186-191 *)
  Definition bring_discount (discount : option Q) : Q := match discount with Some d => d | None => if loop then (9 # 10)%Q else 1%Q end.
  (** actions, 192-194; the indices of the actions of object number i are i and [len(objects) + i], 195-196 *)
  Definition bring_actions : list string := map (fun o => "get-" ++ o)%string objects ++ map (fun o => "ask-" ++ o)%string objects.
  Definition is_get (a : nat) : bool := a <? length objects.
  Definition is_ask (a : nat) : bool := (length objects <=? a) && (a <? length objects + length objects).

  (** *** _LeafToPOMDP, 63-98 *)
  Definition get_of (a : action string) : res nat := do o <- obj_of a; action_index bring_actions ("get-" ++ o)%string.
  Definition ask_of (a : action string) : res nat := do o <- obj_of a; action_index bring_actions ("ask-" ++ o)%string.
  (** update_T, 79-83 *)
  Definition bring_leaf_T (a : action string) (T : tensor) (s_start : nat) (s_next : list nat) (s_next_probas : list Q) : res tensor :=
    let T := put3 (fun _ s s' => (s =? s_start) && (s' =? s_start)) (fun _ _ _ => 1%Q) T in
    do get <- get_of a;
    let T := put3 (fun a s s' => (a =? get) && (s =? s_start) && (s' =? s_start)) (fun _ _ _ => 0%Q) T in
    do _ <- same_length s_next s_next_probas;
    Ok (put3 (fun a s s' => (a =? get) && (s =? s_start) && mem s' s_next) (fun _ _ s' => assigned s_next s_next_probas s') T).
  (** update_O, 85-93 *)
  Definition bring_leaf_O (a : action string) (O : tensor) (s_start : nat) (s_next : list nat) : res tensor :=
    do get <- get_of a;
    do ask <- ask_of a;
    let O := put3 (fun a s _ => (a =? get) && mem s s_next) (vec o_maybe_good) O in
    Ok (put3 (fun a s _ => (a =? ask) && (s =? s_start)) (vec (if no_answer then o_maybe_yes else o_yes)) O).
  (** update_R, 95-97 *)
  Definition bring_leaf_R (a : action string) (R : tensor4) (s_start : nat) (s_next : list nat) : res tensor4 :=
    do get <- get_of a;
    Ok (put4 (fun a s s' _ => (a =? get) && (s =? s_start) && mem s' s_next) (fun _ _ _ _ => cost_get) R).

  (** *** Parents, 100-175; the updates only differ by the update of the leaves: [upd a X s_start s_next s_next_probas]
      (update_O and update_R do not use the probabilities) *)
  Fixpoint bring_states (n : n2p string) : list string :=
    match n with NLeaf a => ["before-" ++ name_radix (a_name a)]%string | NSeq l | NAlt l => flat_map bring_states l end.
  Definition bring_indices (l : list (n2p string)) : list nat := start_indices (map (n_states 1) l).
  Section Update.
    Context {X : Type}.
    Variable upd : action string -> X -> nat -> list nat -> list Q -> res X.
    (** update_T, update_O and update_R, 133-148 and 164-175 *)
    Fixpoint bring_update (n : n2p string) (x : X) (s_start : nat) (s_next : list nat) (s_next_probas : list Q) : res X :=
      match n with
      | NLeaf a => upd a x s_start s_next s_next_probas
      | NSeq l =>
          do next_inits <- next_init_children 1 l s_start s_next;
          do probas <- next_probas l s_next_probas;
          (fix go (l : list (n2p string)) (si : list nat) (ni : list (list nat)) (np : list (list Q)) (x : X) : res X :=
             match l, si, ni, np with
             | [], _, _, _ => Ok x
             | c :: l, so :: si, nx :: ni, pr :: np => do x <- bring_update c x (s_start + so) nx pr; go l si ni np x
             | _, _, _, _ => Err EIndex
             end) l (bring_indices l) next_inits probas x
      | NAlt l =>
          (fix go (l : list (n2p string)) (si : list nat) (x : X) : res X :=
             match l, si with
             | [], _ => Ok x
             | c :: l, so :: si => do x <- bring_update c x (s_start + so) s_next s_next_probas; go l si x
             | _, _ => Err EIndex
             end) l (bring_indices l) x
      end.
  End Update.
  Definition bring_update_T := bring_update bring_leaf_T.
  Definition bring_update_O := bring_update (fun a O s_start s_next _ => bring_leaf_O a O s_start s_next).
  Definition bring_update_R := bring_update (fun a R s_start s_next _ => bring_leaf_R a R s_start s_next).

  (** *** HTMToPOMDP, 177-254; [end = -1] is n_s - 1 *)
  (** update_T_end, 206-211 *)
  Definition bring_T_end (n_s : nat) (T : tensor) (init : list nat) : tensor :=
    if loop then put3 (fun _ s s' => (s =? n_s - 1) && mem s' init) (fun _ _ _ => (1 / inject_Z (Z.of_nat (length init)))%Q) T
    else put3 (fun _ s s' => (s =? n_s - 1) && (s' =? n_s - 1)) (fun _ _ _ => 1%Q) T.
  (** init_O, 213-219 *)
  Definition bring_init_O : tensor :=
    let O := put3 (fun a _ _ => is_get a) (vec o_err) (fun _ _ _ => 0%Q) in
    put3 (fun a _ _ => is_ask a) (vec (if no_answer then o_maybe_no else o_no)) O.
  (** init_R, 221-223 *)
  Definition bring_init_R : tensor4 :=
    let R := put4 (fun a _ _ _ => is_get a) (fun _ _ _ _ => cost_err) (fun _ _ _ _ => 0%Q) in
    put4 (fun a _ _ _ => is_ask a) (fun _ _ _ _ => cost_com) R.
  (** update_R_end, 225-230 *)
  Definition bring_R_end (n_s : nat) (R : tensor4) : tensor4 :=
    if loop then put4 (fun _ s _ _ => s =? n_s - 1) (fun _ _ _ _ => (- end_reward)%Q) R
    else
      let R := put4 (fun _ _ s' _ => s' =? n_s - 1) (fun a s s' o => R a s s' o - end_reward)%Q R in
      put4 (fun _ s s' _ => (s =? n_s - 1) && (s' =? n_s - 1)) (fun _ _ _ _ => 0%Q) R.

  (** task_to_pomdp, 232-254, from the converter of the root, and with the construction of this converter *)
  Definition bring_node_to_pomdp (discount : option Q) (n : n2p string) (solver : bool) : res pomdp :=
    let states := bring_states n ++ ["end"%string] in
    do i <- init 1 n;
    do st <- start n;
    do _ <- same_length i st;
    let n_s := length states in
    let n_a := length bring_actions in
    let fin := n_s - 1 in
    do T <- bring_update_T n (fun _ _ _ => 0%Q) 0 [fin] [1%Q];
    let T := bring_T_end n_s T i in
    do Ot <- bring_update_O n bring_init_O 0 [fin] [1%Q];
    do R <- bring_update_R n bring_init_R 0 [fin] [1%Q];
    let R := bring_R_end n_s R in
    mk_pomdp (array3 n_a n_s n_s T) (array3 n_a n_s 4 Ot) (array4 n_a n_s n_s 4 R) (array1 n_s (assigned i st)) (bring_discount discount)
             (Some (map NStr states)) (Some (map NStr bring_actions)) (Some (map NStr observations)) "cost" solver.
  Definition bring_task_to_pomdp (discount : option Q) (root : comb string) (solver : bool) : res pomdp :=
    do n <- from_node bring_leaf (levels root) root;
    bring_node_to_pomdp discount n solver.
End Bring.
