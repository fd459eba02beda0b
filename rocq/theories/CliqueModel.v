(** Model of max_cliques and get_max_cliques, task_models/task.py 60-88 and 312-324. *)
From Verif Require Import PyBase GraphModel.

Section Cliques.
  Context {N : Type} `{EqDec N}.

  (** dictionary of node: set(neighbours), task.py 65 *)
  Definition ngraph := list (N * list N).

  (** [max(p, key=...)]: the first element of greatest key, in iteration order. *)
  Fixpoint max_by (key : N -> nat) (best : N) (l : list N) : N :=
    match l with
    | [] => best
    | u :: t => if Nat.ltb (key best) (key u) then max_by key u t else max_by key best t
    end.

  (** The loop of _bron_kerbosch, task.py 81-88. [rec] is the recursive call; [us] is
      the snapshot [p.difference(graph[pivot])] in iteration order. [p.remove(u)]
      raises KeyError when u is absent. *)
  Fixpoint bk_loop (rec : list N -> list N -> list N -> res (list (list N)))
           (graph : ngraph) (r : list N) (us p x : list N) : res (list (list N)) :=
    match us with
    | [] => Ok []
    | u :: us' =>
        do gu <- getitem u graph;                                     (* 84-85 *)
        do cs <- rec (set_union r [u]) (set_inter p gu) (set_inter x gu);   (* 83-86 *)
        if mem u p then                                               (* 87 *)
          do cs' <- bk_loop rec graph r us' (set_del u p) (set_add u x);   (* 87-88 *)
          Ok (cs ++ cs')
        else Err EKey
    end.

  (** _bron_kerbosch, task.py 75-88. [ordp] and [ordd] are the iteration orders
      of [p] (in max) and of the difference (in the loop); they may depend on the
      current clique, which identifies the recursive call. The generator is
      modelled by the list of the values it yields.
      Recursion is on fuel; [EFuel] marks exhaustion. *)
  Fixpoint bron_kerbosch (ordp ordd : list N -> list N -> list N) (graph : ngraph)
           (fuel : nat) (r p x : list N) : res (list (list N)) :=
    match fuel with
    | 0 => Err EFuel
    | S f =>
        match p with
        | [] => match x with [] => Ok [r] | _ :: _ => Ok [] end       (* 76-78 *)
        | _ :: _ =>
            match ordp r p with
            | [] => Err EValue            (* max() of an empty sequence *)
            | u0 :: us0 =>
                do keys <- mapM (fun u => do gu <- getitem u graph; Ok (u, length (set_inter gu p))) (u0 :: us0);  (* 79 *)
                let key u := match lookup u keys with Some n => n | None => 0 end in
                let pivot := max_by key u0 us0 in
                do gp <- getitem pivot graph;
                bk_loop (bron_kerbosch ordp ordd graph f) graph r (ordd r (set_diff p gp)) p x   (* 81-88 *)
            end
        end
    end.

  (** max_cliques, task.py 60-72: [set(graph)] is the set of keys. Fuel: one more
      than the number of nodes. *)
  Definition max_cliques (ordp ordd : list N -> list N -> list N) (graph : ngraph) : res (list (list N)) :=
    do cs <- bron_kerbosch ordp ordd graph (S (length graph)) [] (keys graph) [];
    Ok (filter (fun c => Nat.ltb 1 (length c)) cs).                   (* 71 *)

  Context {L : Type} `{EqDec L}.

  (** get_max_cliques, task.py 312-324. [ordt] is the iteration order of the
      transition sets, [ordu] of the set of pairs [unique]. *)
  Definition symmetric_graph (ordt : list (L * N) -> list (L * N)) (ordu : list (N * N) -> list (N * N))
             (g : graph N L) : res ngraph :=
    let unique := set_of (map (fun t => (fst (fst t), snd t)) (all_transitions ordt g)) in     (* 318 *)
    let symmetric := map (fun n => (n, @nil N)) (all_nodes ordt g) in                          (* 319 *)
    foldM (fun sym sd =>                                                                       (* 320 *)
             if mem (snd sd, fst sd) unique then                                               (* 321 *)
               do o1 <- getitem (fst sd) sym;
               let sym1 := upd (fst sd) (set_add (snd sd) o1) sym in                           (* 322 *)
               do o2 <- getitem (snd sd) sym1;
               Ok (upd (snd sd) (set_add (fst sd) o2) sym1)                                    (* 323 *)
             else Ok sym) (ordu unique) symmetric.

  Definition get_max_cliques ordt ordu ordp ordd (g : graph N L) : res (list (list N)) :=
    do sym <- symmetric_graph ordt ordu g;
    max_cliques ordp ordd sym.                                                                 (* 324 *)
End Cliques.
Arguments ngraph N : clear implicits.
