(** Model of the graph part of task_models/task.py (lines 33-57, 91-256).

    Generic in the types of states/labels/nodes. *)
From Verif Require Import PyBase.

(** ** Paths: task.py 33-57 *)

(** Items of a path: instances of State, instances of Action, anything else
    (task.py 43-46 only distinguishes those by isinstance).
    Simplification: no object is both a State and an Action. *)
Inductive item (S A : Type) :=
| IState (s : S)
| IAction (a : A)
| IOther.
Arguments IState {S A} s.
Arguments IAction {S A} a.
Arguments IOther {S A}.

(** check_path, task.py 33-52. [check a s s'] is [a.check(s, s')], which may
    raise. The [except IndexError] clause turns an IndexError, raised by
    [path[2]] on a too short path or by the action check, into False. *)
Fixpoint check_path {S A} (check : A -> S -> S -> res bool) (path : list (item S A)) : res bool :=
  match path with
  | [] => Ok true                                          (* 42 *)
  | IState s :: rest =>                                    (* 43 *)
      match rest with
      | [] => Ok true                                      (* 44 *)
      | IAction a :: rest2 =>                              (* 45 *)
          match rest2 with
          | [] => Ok false                                 (* 46: path[2] raises IndexError, 51 *)
          | IState s' :: _ =>                              (* 46 *)
              match check a s s' with                      (* 47 *)
              | Ok true => check_path check rest2          (* 48 *)
              | Ok false => Ok false
              | Err EIndex => Ok false                     (* 51-52 *)
              | Err e => Err e
              end
          | _ :: _ => Ok false
          end
      | _ :: _ => Ok false
      end
  | _ :: _ => Ok false
  end.

(** split_path, task.py 55-57, on a list of arbitrary items. *)
Fixpoint split_path {X} (path : list X) : list (X * X * X) :=
  match path with
  | x :: ((y :: ((z :: _) as rest2))) => (x, y, z) :: split_path rest2
  | _ => []
  end.

(** ** BaseGraph: task.py 91-155 *)

Section BaseGraph.
  Context {N L : Type} `{EqDec N} `{EqDec L}.

  (** [self.transitions]: dictionary of sets of pairs, task.py 97-98. *)
  Definition graph := list (N * list (L * N)).

  Definition empty_graph : graph := [].

  (** add_transition, task.py 104-107 *)
  Definition add_transition (g : graph) (s : N) (l : L) (d : N) : graph :=
    match lookup s g with
    | None => upd s (set_add (l, d) []) g
    | Some o => upd s (set_add (l, d) o) g
    end.

  (** has_transition, task.py 109-111 *)
  Definition has_transition (g : graph) (s : N) (l : L) (d : N) : bool :=
    match lookup s g with
    | None => false
    | Some o => mem (l, d) o
    end.

  (** remove_transition, task.py 118-119; both the dictionary access and
      set.remove raise KeyError. *)
  Definition remove_transition (g : graph) (s : N) (l : L) (d : N) : res graph :=
    match lookup s g with
    | None => Err EKey
    | Some o => if mem (l, d) o then Ok (upd s (set_del (l, d) o) g) else Err EKey
    end.

  (** all_transitions, task.py 113-116, sets being enumerated in order [ord]. *)
  Definition all_transitions (ord : list (L * N) -> list (L * N)) (g : graph) : list (N * L * N) :=
    flat_map (fun so => map (fun ld => (fst so, fst ld, snd ld)) (ord (snd so))) g.

  (** all_nodes, task.py 121-126 *)
  Definition all_nodes (ord : list (L * N) -> list (L * N)) (g : graph) : list N :=
    fold_left (fun nodes t => set_add (snd t) (set_add (fst (fst t)) nodes)) (all_transitions ord g) [].

  (** [self.transitions == other.transitions], task.py 100-102: same keys, and
      equal sets at each key. *)
  Definition graph_eqb (g1 g2 : graph) : bool :=
    set_eqb (keys g1) (keys g2) &&
    forallb (fun so => match lookup (fst so) g2 with
                       | Some o2 => set_eqb (snd so) o2
                       | None => false
                       end) g1.

  (** compact, task.py 140-155. [empty_label] is the empty string. The
      transitions are enumerated before the loop ([list(...)], 148). *)
  Definition compact_step (empty_label : L) (nodes : list N) (new_node : N)
             (g : graph) (t : N * L * N) : res graph :=
    let '(s, l, d) := t in
    let sin := mem s nodes in
    let din := mem d nodes in
    if sin || din then
      do g1 <- remove_transition g s l d;
      if negb (sin && din)
      then Ok (add_transition g1 (if sin then new_node else s) empty_label (if din then new_node else d))
      else Ok g1
    else Ok g.

  Definition compact (ord : list (L * N) -> list (L * N)) (empty_label : L)
             (g : graph) (nodes : list N) (new_node : N) : res graph :=
    let nodes := set_of nodes in
    foldM (compact_step empty_label nodes new_node) (all_transitions ord g) g.

  (** BaseGraph.as_dictionary, task.py 128-138. [ordn] is the iteration order of
      the node set. [str] of nodes and labels is an argument. *)
  Record gnode {T} := { gn_id : nat; gn_label : T }.
  Record glink {T} := { gl_u : nat; gl_v : nat; gl_label : T }.
  Definition enumerate {T} (l : list T) : list (nat * T) := combine (seq 0 (length l)) l.
  Definition graph_as_dictionary {T} (strn : N -> T) (strl : L -> T)
             (ord : list (L * N) -> list (L * N)) (ordn : list N -> list N) (g : graph)
    : res (list (@gnode T) * list (@glink T)) :=
    let all := enumerate (ordn (all_nodes ord g)) in                              (* 130 *)
    let nodes := map (fun i => {| gn_id := fst i; gn_label := strn (snd i) |}) all in   (* 131-132 *)
    let ids := fold_left (fun d i => upd (snd i) (fst i) d) all [] in             (* 133 *)
    do links <- mapM (fun t : N * L * N =>                                        (* 134-137 *)
                        let '(u, l, v) := t in
                        do iu <- getitem u ids;
                        do iv <- getitem v ids;
                        Ok {| gl_u := iu; gl_v := iv; gl_label := strl l |})
                     (all_transitions ord g);
    Ok (nodes, links).
End BaseGraph.
Arguments graph N L : clear implicits.
Arguments gnode T : clear implicits.
Arguments glink T : clear implicits.

(** ** TaskGraph: task.py 158-215 *)

Section TaskGraph.
  Context {S A : Type} `{EqDec S} `{EqDec A}.

  (** task.py 163-166. Keys of a task graph are states, labels are actions. *)
  Record task_graph := { tg_trans : graph S A; tg_initial : list S; tg_terminal : list S }.

  Definition empty_task_graph : task_graph :=
    {| tg_trans := []; tg_initial := []; tg_terminal := [] |}.

  (** The elements of a checked path are states and actions as expected; the
      Python code uses them untyped. [state_of]/[action_of] give them back; they
      are only applied to paths that check_path accepts. *)
  Definition add_step (g : task_graph) (t : item S A * item S A * item S A) : task_graph :=
    match t with
    | (IState s1, IAction a, IState s2) =>
        {| tg_trans := add_transition (tg_trans g) s1 a s2;
           tg_initial := tg_initial g; tg_terminal := tg_terminal g |}
    | _ => g
    end.

  Definition add_ends (g : task_graph) (path : list (item S A)) : task_graph :=
    match path with
    | [] => g                                                        (* 177 *)
    | x :: _ =>
        match x, last path x with
        | IState s, IState s' =>
            {| tg_trans := tg_trans g;
               tg_initial := set_add s (tg_initial g);               (* 178 *)
               tg_terminal := set_add s' (tg_terminal g) |}          (* 179 *)
        | _, _ => g
        end
    end.

  (** add_path, task.py 174-181: the graph after the call, and the outcome of the
      call (None or an exception). *)
  Definition add_path (check : A -> S -> S -> res bool) (g : task_graph) (path : list (item S A)) : task_graph * res unit :=
    match check_path check path with
    | Err e => (g, Err e)                                            (* 175 *)
    | Ok false => (g, Err EValue)                                    (* 175-176 *)
    | Ok true => (fold_left add_step (split_path path) (add_ends g path), Ok tt)  (* 177-181 *)
    end.

  (** has_path, task.py 183-194 *)
  Definition has_step (g : task_graph) (t : item S A * item S A * item S A) : bool :=
    match t with
    | (IState s1, IAction a, IState s2) => has_transition (tg_trans g) s1 a s2
    | _ => false
    end.

  Definition has_path (check : A -> S -> S -> res bool) (g : task_graph) (path : list (item S A)) : res bool :=
    do ok <- check_path check path;
    if negb ok then Err EValue                                       (* 186-187 *)
    else Ok (match path with
             | [] => true                                            (* 188 *)
             | x :: _ =>
                 match x, last path x with
                 | IState s, IState s' =>
                     mem s (tg_initial g) && mem s' (tg_terminal g)  (* 189-190 *)
                     && forallb (has_step g) (split_path path)       (* 191-193 *)
                 | _, _ => false
                 end
             end).

  (** check_only_deterministic_transitions_from_state, task.py 196-204; the loop
      over the set goes in order [ord]. *)
  Definition check_det_from (ord : list (A * S) -> list (A * S)) (o : list (A * S)) : res (list A) :=
    foldM (fun outgoing t => if mem (fst t) outgoing then Err EValue
                             else Ok (set_add (fst t) outgoing)) (ord o) [].

  (** check_only_deterministic_transitions, task.py 206-212 *)
  Definition check_det (ord : list (A * S) -> list (A * S)) (g : graph S A) : res unit :=
    foldM (fun _ so => do _ <- check_det_from ord (snd so); Ok tt) g tt.

  (** ConjugateTaskGraph.from_task_graph, task.py 238-256. Keys of the conjugate
      are actions ([initial] and [terminal] are two given actions, 235-236),
      labels are states. *)
  Definition conj_initial (ord : list (A * S) -> list (A * S)) (initial : A) (tg : task_graph)
             (c : graph A S) (s : S) : res (graph A S) :=
    do o <- getitem s (tg_trans tg);                                 (* 244 *)
    Ok (fold_left (fun c t => add_transition c initial s (fst t)) (ord o) c).   (* 245 *)

  Definition conj_edge (ord : list (A * S) -> list (A * S)) (terminal : A) (tg : task_graph)
             (c : graph A S) (t : A * S) : res (graph A S) :=
    let '(a, next) := t in
    if mem next (tg_terminal tg)                                     (* 248 *)
    then Ok (add_transition c a next terminal)                       (* 250 *)
    else do o <- getitem next (tg_trans tg);                         (* 253 *)
         Ok (fold_left (fun c t' => add_transition c a next (fst t')) (ord o) c).   (* 255 *)

  Definition from_task_graph (ord : list (A * S) -> list (A * S)) (ords : list S -> list S)
             (initial terminal : A) (tg : task_graph) : res (graph A S) :=
    do _ <- check_det ord (tg_trans tg);                             (* 241 *)
    do c1 <- foldM (conj_initial ord initial tg) (ords (tg_initial tg)) [];       (* 243-245 *)
    foldM (fun c so => foldM (conj_edge ord terminal tg) (ord (snd so)) c) (tg_trans tg) c1.   (* 246-255 *)
End TaskGraph.
Arguments task_graph S A : clear implicits.
