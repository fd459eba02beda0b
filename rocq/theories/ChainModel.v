(** Model of ConjugateTaskGraph.get_max_chains, task_models/task.py 266-310. *)
From Verif Require Import PyBase GraphModel.

Section Chains.
  Context {N L : Type} `{EqDec N} `{EqDec L}.

  (** task.py 271-276: [unique_transitions] and [in_degree]; [ordt] is the
      iteration order of the transition sets. *)
  Definition chain_tables (ordt : list (L * N) -> list (L * N)) (g : graph N L)
    : res (list (N * list N) * list (N * nat)) :=
    foldM (fun (ui : list (N * list N) * list (N * nat)) (t : N * L * N) =>
             let '(s, l, d) := t in
             do us <- getitem s (fst ui);                                   (* 274 *)
             let deg := if mem d us then snd ui
                        else upd d (match lookup d (snd ui) with Some n => n | None => 0 end + 1) (snd ui) in  (* 275 *)
             Ok (upd s (set_add d us) (fst ui), deg))                       (* 276 *)
          (all_transitions ordt g)
          (map (fun n => (n, @nil N)) (all_nodes ordt g), []).

  (** Local variables of the generator (277-279), and the values yielded so far. *)
  Record cstate := { c_explore : list N; c_explored : list N; c_chain : option (list N); c_out : list (list N) }.

  Variable unique_transitions : list (N * list N).
  Variable in_degree : list (N * nat).

  (** explore_successors, task.py 281-282 *)
  Definition explore_successors (node : N) (to_explore explored : list N) : res (list N) :=
    do us <- getitem node unique_transitions;
    Ok (set_union to_explore (set_diff us explored)).

  (** Body of the loop, task.py 285-310. [pick] chooses the element that
      [to_explore.pop()] returns. *)
  Definition chain_step (pick : nat) (st : cstate) : res cstate :=
    match c_chain st with
    | None =>
        match nth_error (c_explore st) (pick mod length (c_explore st)) with
        | None => Err EKey                                                  (* pop from an empty set *)
        | Some node =>                                                      (* 286 *)
            let to_explore := set_del node (c_explore st) in
            let explored := set_add node (c_explored st) in                 (* 287 *)
            do us <- getitem node unique_transitions;                       (* 288 *)
            if Nat.eqb (length us) 1
            then Ok {| c_explore := to_explore; c_explored := explored;
                       c_chain := Some [node]; c_out := c_out st |}         (* 289 *)
            else
              do te <- explore_successors node to_explore explored;         (* 291 *)
              Ok {| c_explore := te; c_explored := explored; c_chain := None; c_out := c_out st |}
        end
    | Some chain =>
        match rev chain with
        | [] => Err EIndex
        | node :: _ =>                                                      (* 293 *)
            do us <- getitem node unique_transitions;
            match us with
            | [next_node] =>                                                (* 294-296 *)
                do deg <- getitem next_node in_degree;                      (* 298 *)
                if Nat.eqb deg 1 then
                  let chain' := chain ++ [next_node] in                     (* 299 *)
                  let explored := set_add next_node (c_explored st) in      (* 300 *)
                  do us' <- getitem next_node unique_transitions;           (* 301 *)
                  if negb (Nat.eqb (length us') 1) then
                    do te <- explore_successors next_node (c_explore st) explored;   (* 303 *)
                    Ok {| c_explore := te; c_explored := explored; c_chain := None;
                          c_out := if Nat.ltb 1 (length chain') then c_out st ++ [chain'] else c_out st |}
                  else Ok {| c_explore := c_explore st; c_explored := explored;
                             c_chain := Some chain'; c_out := c_out st |}
                else Ok {| c_explore := set_add next_node (c_explore st);   (* 305 *)
                           c_explored := c_explored st; c_chain := None;
                           c_out := if Nat.ltb 1 (length chain) then c_out st ++ [chain] else c_out st |}   (* 307-310 *)
            | _ => Err EAssert                                              (* 295 *)
            end
        end
    end.

  Inductive status := SDone | SRunning | SRaised (e : exn).

  Definition finished (st : cstate) : bool :=
    match c_explore st, c_chain st with [], None => true | _, _ => false end.   (* 284 *)

  (** At most [fuel] turns of the loop, the k-th popping with [sched k]. [SRunning]
      says that the loop has not ended yet. *)
  Fixpoint chain_run (sched : nat -> nat) (fuel k : nat) (st : cstate) : cstate * status :=
    if finished st then (st, SDone) else
    match fuel with
    | 0 => (st, SRunning)
    | S f => match chain_step (sched k) st with
             | Err e => (st, SRaised e)
             | Ok st' => chain_run sched f (S k) st'
             end
    end.
End Chains.
Arguments cstate N : clear implicits.

(** get_max_chains, task.py 266-310: the lists yielded during the first [fuel]
    turns of the loop, and whether the generator is exhausted. The [exclude]
    argument is unused in the code. *)
Definition get_max_chains {N L} `{EqDec N} `{EqDec L} (ordt : list (L * N) -> list (L * N)) (sched : nat -> nat)
           (initial : N) (g : graph N L) (fuel : nat) : list (list N) * status :=
  match chain_tables ordt g with
  | Err e => ([], SRaised e)
  | Ok (ut, deg) =>
      let '(st, r) := chain_run ut deg sched fuel 0
                        {| c_explore := [initial]; c_explored := []; c_chain := None; c_out := [] |} in
      (c_out st, r)
  end.
