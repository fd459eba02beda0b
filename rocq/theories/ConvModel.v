(** Model of task_models/task_to_pomdp.py: from a hierarchical task to a POMDP. *)
From Verif Require Export NodeModel.
Local Open Scope list_scope.
Local Open Scope nat_scope.

(** Parameters of a CollaborativeAction, task_to_pomdp.py 35-41: durations, no_probability and fail_probability
    (human_probability is not used by the conversion). *)
Record collab := { t_hum : Q; t_rob : Q; t_err : Q; no_proba : Q; fail_proba : Q }.
(** [leaf.action.durations] etc., 155-178: other actions do not have these attributes *)
Definition attrs (a : action collab) : res collab :=
  match a_class a, a_params a with KCollab, Some p => Ok p | _, _ => Err EAttr end.

(** Flags, 390-410 *)
Record flags := { deterministic : bool; structured : bool; loop : bool; reward_state : bool; subtask_reward : option Q }.

(** *** Arrays being filled: T and O have three indices, R has four.  Indices are in range (C65 gives the
    sizes), so IndexError is not modelled. *)
Definition tensor := nat -> nat -> nat -> Q.
Definition tensor4 := nat -> nat -> nat -> nat -> Q.
(** [T[where] = v] *)
Definition put3 (cond : nat -> nat -> nat -> bool) (v : nat -> nat -> nat -> Q) (T : tensor) : tensor :=
  fun a s s' => if cond a s s' then v a s s' else T a s s'.
Definition put4 (cond : nat -> nat -> nat -> nat -> bool) (v : nat -> nat -> nat -> nat -> Q) (R : tensor4) : tensor4 :=
  fun a s s' o => if cond a s s' o then v a s s' o else R a s s' o.
(** The value assigned to index k by [x[l] = vals]: the last one when l has duplicates. *)
Definition assigned (l : list nat) (vals : list Q) (k : nat) : Q :=
  fold_left (fun acc kv => if Nat.eqb (fst kv) k then snd kv else acc) (combine l vals) 0%Q.
(** ValueError for lists of different lengths (no broadcasting of lists of length one: the lengths always are
    the same, NodeProofs.init_start_length). *)
Definition same_length {A B} (l : list A) (vals : list B) : res unit := if Nat.eqb (length l) (length vals) then Ok tt else Err EValue.
Definition vec (l : list Q) : nat -> nat -> nat -> Q := fun _ _ k => nth k l 0%Q.

(** observations, 56-61 *)
Definition observations : list string := ["none"; "yes"; "no"; "error"]%string.
Definition o_none : list Q := [1; 0; 0; 0]%Q.
Definition o_yes : list Q := [0; 1; 0; 0]%Q.
Definition o_no : list Q := [0; 0; 1; 0]%Q.
Definition o_err : list Q := [0; 0; 0; 1]%Q.

Section Conv.
  (** np.exp *)
  Variable exp : Q -> Q.
  Variables t_ask t_tell : Q.
  Variable fl : flags.

  (** *** _LeafToPOMDP *)
  (** states and actions, 145-151 *)
  Definition leaf_states (a : action collab) : list string := map (fun n => n ++ name_radix (a_name a))%string ["init-"; "H-"; "R-"]%string.
  Definition leaf_actions (a : action collab) : list string :=
    map (fun n => n ++ "-" ++ name_radix (a_name a))%string ["phy"; "com-ask-intention"; "com-tell-intention"; "com-ask-finished"]%string.
  (** durations, 167-170 *)
  Definition leaf_durations (a : action collab) : res (list Q) := do p <- attrs a; Ok [t_err p; t_ask; t_tell; t_ask].

  (** update_T, 183-214; the indices _init, _h, _r are 0, 1, 2 and _phy, _ask_intention, _tell_intention and
      _ask_finished are 0 to 3, 126-134 *)
  Definition leaf_update_T (a : action collab) (n_a : nat) (T : tensor) (a_start s_start : nat) (s_next : list nat) (s_next_probas durations : list Q) : res tensor :=
    if negb (Nat.eqb n_a (length durations)) then Err EAssert else
    let a_phy := a_start in let a_ai := a_start + 1 in let a_ti := a_start + 2 in let a_af := a_start + 3 in
    let s_i := s_start in let s_h := s_start + 1 in let s_r := s_start + 2 in
    do p <- attrs a;
    let T := put3 (fun _ s s' => (s =? s_i) && (s' =? s_i)) (fun _ _ _ => 1%Q) T in
    let T := put3 (fun a s s' => (a =? a_ai) && (s =? s_i) && (s' =? s_i)) (fun _ _ _ => 0%Q) T in
    let T := put3 (fun a s s' => (a =? a_ai) && (s =? s_i) && (s' =? s_r)) (fun _ _ _ => no_proba p) T in
    let T := put3 (fun a s s' => (a =? a_ai) && (s =? s_i) && (s' =? s_h)) (fun _ _ _ => (1 - no_proba p)%Q) T in
    let T := put3 (fun a s s' => (a =? a_ti) && (s =? s_i) && (s' =? s_i)) (fun _ _ _ => 0%Q) T in
    let T := put3 (fun a s s' => (a =? a_ti) && (s =? s_i) && (s' =? s_r)) (fun _ _ _ => 1%Q) T in
    do T <- (if deterministic fl then
               let T := put3 (fun _ s s' => (s =? s_h) && (s' =? s_h)) (fun _ _ _ => 1%Q) T in
               let T := put3 (fun a s s' => (a =? a_af) && (s =? s_h) && (s' =? s_h)) (fun _ _ _ => 0%Q) T in
               Ok (put3 (fun a s s' => (a =? a_af) && (s =? s_h) && mem s' s_next) (fun _ _ s' => assigned s_next (uniform (length s_next)) s') T)
             else
               let not_finish a := exp (- nth a durations 0 / t_hum p)%Q in
               let T := put3 (fun _ s s' => (s =? s_h) && (s' =? s_h)) (fun a _ _ => not_finish a) T in
               do _ <- same_length s_next s_next_probas;
               Ok (put3 (fun _ s s' => (s =? s_h) && mem s' s_next) (fun a _ s' => (1 - not_finish a) * assigned s_next s_next_probas s')%Q T));
    let T := put3 (fun _ s s' => (s =? s_r) && (s' =? s_r)) (fun _ _ _ => 1%Q) T in
    let T := put3 (fun a s s' => (a =? a_phy) && (s =? s_r) && (s' =? s_r)) (fun _ _ _ => fail_proba p) T in
    do _ <- same_length s_next s_next_probas;
    Ok (put3 (fun a s s' => (a =? a_phy) && (s =? s_r) && mem s' s_next) (fun _ _ s' => (1 - fail_proba p) * assigned s_next s_next_probas s')%Q T).

  (** update_O, 216-251 *)
  Definition leaf_update_O (O : tensor) (a_start s_start : nat) (s_next s_after : list nat) : tensor :=
    let a_phy := a_start in let a_ai := a_start + 1 in let a_ti := a_start + 2 in let a_af := a_start + 3 in
    let s_h := s_start + 1 in let s_r := s_start + 2 in
    let O := put3 (fun a _ _ => a =? a_phy) (vec o_err) O in
    let O := put3 (fun a s _ => (a =? a_phy) && mem s s_next) (vec o_none) O in
    let O := put3 (fun a _ _ => a =? a_ai) (vec (if structured fl then o_err else o_none)) O in
    let O := put3 (fun a s _ => (a =? a_ai) && (s =? s_h)) (vec o_yes) O in
    let O := put3 (fun a s _ => (a =? a_ai) && (s =? s_r)) (vec o_no) O in
    let O := if structured fl then
               let O := put3 (fun a _ _ => a =? a_ti) (vec o_err) O in
               put3 (fun a s _ => (a =? a_ti) && (s =? s_r)) (vec o_none) O
             else put3 (fun a _ _ => a =? a_ti) (vec o_none) O in
    if deterministic fl then
      let O := put3 (fun a _ _ => a =? a_af) (vec o_err) O in
      let O := put3 (fun a s _ => (a =? a_af) && (s =? s_h)) (vec o_no) O in
      put3 (fun a s _ => (a =? a_af) && mem s s_next) (vec o_yes) O
    else
      let O := put3 (fun a _ _ => a =? a_af) (vec o_no) O in
      put3 (fun a s _ => (a =? a_af) && mem s s_after) (vec o_yes) O.

  (** update_R, 253-279.  [self.t_com], 273, does not exist. *)
  Definition leaf_update_R (a : action collab) (R : tensor4) (a_wait a_start s_start : nat) (durations : list Q) (intr_cost : Q) : res tensor4 :=
    let a_phy := a_start in let s_r := s_start + 2 in
    let mine s := (s_start <=? s) && (s <? s_start + 3) in
    let R := put4 (fun _ s _ _ => mine s) (fun a _ _ _ => nth a durations 0%Q) R in
    let R := put4 (fun a s _ _ => (a <? a_wait) && mine s) (fun a s s' o => R a s s' o + intr_cost)%Q R in
    let R := put4 (fun a s _ _ => (a_wait + 1 <=? a) && mine s) (fun a s s' o => R a s s' o + intr_cost)%Q R in
    do p <- attrs a;
    let R := put4 (fun a s _ _ => (a =? a_phy) && (s =? s_r)) (fun _ _ _ _ => t_rob p + intr_cost)%Q R in
    if structured fl then Err EAttr else
    match subtask_reward fl with
    | Some r =>
        let R := put4 (fun _ s s' _ => mine s && (s' <? s_start)) (fun a s s' o => R a s s' o - r)%Q R in
        Ok (put4 (fun _ s s' _ => mine s && (s_start + 3 <=? s')) (fun a s s' o => R a s s' o - r)%Q R)
    | None => Ok R
    end.

  (** *** Parents *)
  (** states, actions and durations, 297-306 *)
  Fixpoint node_states (n : n2p collab) : list string :=
    match n with NLeaf a => leaf_states a | NSeq l | NAlt l => flat_map node_states l end.
  Fixpoint node_actions (n : n2p collab) : list string :=
    match n with NLeaf a => leaf_actions a | NSeq l | NAlt l => flat_map node_actions l end.
  Fixpoint node_durations (n : n2p collab) : res (list Q) :=
    match n with NLeaf a => leaf_durations a | NSeq l | NAlt l => do ls <- mapM node_durations l; Ok (concat ls) end.
  Definition s_indices (l : list (n2p collab)) : list nat := start_indices (map (n_states 3) l).
  Definition a_indices (l : list (n2p collab)) : list nat := start_indices (map (n_states 4) l).

  (** update_T, 331-338 and 371-376 *)
  Fixpoint update_T (n : n2p collab) (n_a : nat) (T : tensor) (a_start s_start : nat) (s_next : list nat) (s_next_probas durations : list Q) : res tensor :=
    match n with
    | NLeaf a => leaf_update_T a n_a T a_start s_start s_next s_next_probas durations
    | NSeq l =>
        do next_inits <- next_init_children 3 l s_start s_next;
        do probas <- next_probas l s_next_probas;
        (fix go (l : list (n2p collab)) (ai si : list nat) (ni : list (list nat)) (np : list (list Q)) (T : tensor) : res tensor :=
           match l, ai, si, ni, np with
           | [], _, _, _, _ => Ok T
           | c :: l, ao :: ai, so :: si, nx :: ni, pr :: np =>
               do T <- update_T c n_a T (a_start + ao) (s_start + so) nx pr durations; go l ai si ni np T
           | _, _, _, _, _ => Err EIndex
           end) l (a_indices l) (s_indices l) next_inits probas T
    | NAlt l =>
        (fix go (l : list (n2p collab)) (ai si : list nat) (T : tensor) : res tensor :=
           match l, ai, si with
           | [], _, _ => Ok T
           | c :: l, ao :: ai, so :: si => do T <- update_T c n_a T (a_start + ao) (s_start + so) s_next s_next_probas durations; go l ai si T
           | _, _, _ => Err EIndex
           end) l (a_indices l) (s_indices l) T
    end.

  (** _states_indices, 340-343 *)
  Definition states_indices (l : list (n2p collab)) (s_start : nat) : list (list nat) :=
    map (fun so_c => map (fun j => s_start + fst so_c + j) (seq 0 (n_states 3 (snd so_c)))) (combine (s_indices l) l).
  (** update_O, 345-353 and 378-381; s_before is not used *)
  Fixpoint update_O (n : n2p collab) (O : tensor) (a_start s_start : nat) (s_next s_after : list nat) : res tensor :=
    match n with
    | NLeaf a => Ok (leaf_update_O O a_start s_start s_next s_after)
    | NSeq l =>
        let states := states_indices l s_start in
        do next_inits <- next_init_children 3 l s_start s_next;
        (fix go (i : nat) (l : list (n2p collab)) (ai si : list nat) (ni : list (list nat)) (O : tensor) : res tensor :=
           match l, ai, si, ni with
           | [], _, _, _ => Ok O
           | c :: l, ao :: ai, so :: si, nx :: ni =>
               do Ot <- update_O c O (a_start + ao) (s_start + so) nx (s_after ++ concat (skipn (i + 1) states)); go (S i) l ai si ni Ot
           | _, _, _, _ => Err EIndex
           end) 0 l (a_indices l) (s_indices l) next_inits O
    | NAlt l =>
        (fix go (l : list (n2p collab)) (ai si : list nat) (O : tensor) : res tensor :=
           match l, ai, si with
           | [], _, _ => Ok O
           | c :: l, ao :: ai, so :: si => do Ot <- update_O c O (a_start + ao) (s_start + so) s_next s_after; go l ai si Ot
           | _, _, _ => Err EIndex
           end) l (a_indices l) (s_indices l) O
    end.

  (** update_R, 308-311 *)
  Fixpoint update_R (n : n2p collab) (R : tensor4) (a_wait a_start s_start : nat) (durations : list Q) (intr_cost : Q) : res tensor4 :=
    match n with
    | NLeaf a => leaf_update_R a R a_wait a_start s_start durations intr_cost
    | NSeq l | NAlt l =>
        (fix go (l : list (n2p collab)) (ai si : list nat) (R : tensor4) : res tensor4 :=
           match l, ai, si with
           | [], _, _ => Ok R
           | c :: l, ao :: ai, so :: si => do R <- update_R c R a_wait (a_start + ao) (s_start + so) durations intr_cost; go l ai si R
           | _, _, _ => Err EIndex
           end) l (a_indices l) (s_indices l) R
    end.

  (** *** HTMToPOMDP, 384-474 *)
  Variables t_wait intr_cost end_reward : Q.
  (** wait = 0, end = -1, endr = -2, 386-388 *)
  Definition wait : nat := 0.
  Definition end_ (n_s : nat) : nat := n_s - 1.
  Definition endr (n_s : nat) : nat := n_s - 2.

  (** update_T_end, 412-418 *)
  Definition update_T_end (n_s : nat) (T : tensor) (init : list nat) : tensor :=
    if loop fl then put3 (fun _ s s' => (s =? end_ n_s) && mem s' init) (fun _ _ _ => 1%Q) T
    else
      let T := if reward_state fl then put3 (fun _ s s' => (s =? endr n_s) && (s' =? end_ n_s)) (fun _ _ _ => 1%Q) T else T in
      put3 (fun _ s s' => (s =? end_ n_s) && (s' =? end_ n_s)) (fun _ _ _ => 1%Q) T.
  (** update_O_wait, 420-421 *)
  Definition update_O_wait (O : tensor) : tensor := put3 (fun a _ _ => a =? wait) (vec o_none) O.
  (** update_R_end, 423-430 *)
  Definition update_R_end (n_s : nat) (R : tensor4) : tensor4 :=
    let R := put4 (fun _ s _ _ => s =? end_ n_s) (fun _ _ _ _ => intr_cost) R in
    if reward_state fl then
      let R := put4 (fun _ s _ _ => s =? endr n_s) (fun _ _ _ _ => intr_cost) R in
      let R := put4 (fun a s _ _ => (a =? wait) && (s =? endr n_s)) (fun _ _ _ _ => (- end_reward)%Q) R in
      put4 (fun a s _ _ => (a =? wait) && (s =? end_ n_s)) (fun _ _ _ _ => 0%Q) R
    else put4 (fun a s _ _ => (a =? wait) && (s =? end_ n_s)) (fun _ _ _ _ => (- end_reward)%Q) R.

  Definition array1 (n : nat) (f : nat -> Q) : array := {| shape := [n]; at_ := fun i => match i with [s] => f s | _ => 0%Q end |}.
  Definition array3 (n m k : nat) (f : tensor) : array := {| shape := [n; m; k]; at_ := fun i => match i with [a; s; s'] => f a s s' | _ => 0%Q end |}.
  Definition array4 (n m k l : nat) (f : tensor4) : array := {| shape := [n; m; k; l]; at_ := fun i => match i with [a; s; s'; o] => f a s s' o | _ => 0%Q end |}.

  (** task_to_pomdp, 432-474, from the converter of the root, and with the construction of this converter.  The
      root exists (an empty task raises TypeError). *)
  Definition node_to_pomdp (n : n2p collab) (solver : bool) : res pomdp :=
    let states := node_states n ++ (if reward_state fl then ["end-reward"%string] else []) ++ ["end"%string] in
    let actions := "wait"%string :: node_actions n in
    do i <- init 3 n;
    do st <- start n;
    do _ <- same_length i st;
    let start_ k := assigned i st k in
    let n_s := length states in
    let n_a := length actions in
    let fin := if reward_state fl then n_s - 2 else n_s - 1 in
    do ds <- node_durations n;
    let durations := t_wait :: ds in
    do T <- update_T n n_a (fun _ _ _ => 0%Q) 1 0 [fin] [1%Q] durations;
    let T := update_T_end n_s T i in
    do Ot <- update_O n (fun _ _ _ => 0%Q) 1 0 [fin] [fin];
    let O := update_O_wait Ot in
    let more := loop fl || reward_state fl in
    let n_o := if more then 5 else 4 in
    let O := if more then
               let O := fun a s o => if o <? 4 then O a s o else 0%Q in
               let O := if reward_state fl then put3 (fun _ s _ => s =? end_ n_s) (vec [1; 0; 0; 0; 0]%Q) O else O in
               put3 (fun _ s _ => s =? (if reward_state fl then endr n_s else end_ n_s)) (vec [0; 0; 0; 0; 1]%Q) O
             else O in
    let obs := if more then observations ++ ["done"%string] else observations in
    do R <- update_R n (fun _ _ _ _ => 0%Q) wait 1 0 durations intr_cost;
    let R := update_R_end n_s R in
    mk_pomdp (array3 n_a n_s n_s T) (array3 n_a n_s n_o O) (array4 n_a n_s n_s n_o R) (array1 n_s start_) 1
             (Some (map NStr states)) (Some (map NStr actions)) (Some (map NStr obs)) "cost" solver.
  Definition task_to_pomdp (root : comb collab) (solver : bool) : res pomdp :=
    do n <- from_node (fun _ => Ok tt) (levels root) root;
    node_to_pomdp n solver.
End Conv.
