(** Model of _HTMToDAG, task_models/supportive.py 13-45. *)
From Verif Require Export HtmModel.

Section Dag.
  Context {P : Type}.
  (** Iteration order of a set of node indices ([list(set(l))], supportive.py 9-10). *)
  Variable ordn : list nat -> list nat.

  Definition unique (l : list nat) : list nat := ordn (set_of l).

  (** The attributes [nodes] and [succs] while the graph is built, supportive.py 15-18. *)
  Record dag := { d_nodes : list (comb P); d_succs : list (list nat) }.

  Definition empty_dag : dag := {| d_nodes := []; d_succs := [] |}.

  (** push, supportive.py 20-23 *)
  Definition push (d : dag) (node : comb P) : dag * nat :=
    ({| d_nodes := d_nodes d ++ [node]; d_succs := d_succs d ++ [[]] |}, length (d_nodes d)).

  (** [self.succs[l] = ff] *)
  Fixpoint set_nth {A} (l : nat) (x : A) (s : list A) : list A :=
    match s, l with
    | [], _ => []
    | _ :: t, 0 => x :: t
    | y :: t, S m => y :: set_nth m x t
    end.

  (** supportive.py 38-40: for every child but the last, the last leaves of the child get the first
      leaves of the next child as successors. *)
  Fixpoint link_all (fls : list (list nat * list nat)) (succs : list (list nat)) : list (list nat) :=
    match fls with
    | (_, ll) :: (((ff, _) :: _) as t) => link_all t (fold_left (fun s l => set_nth l ff s) ll succs)
    | _ => succs
    end.

  Section Children.
    Variable rec : comb P -> dag -> res (list nat * list nat * dag).
    (** [[self.get_initial_final(c) for c in node.children]], supportive.py 36 *)
    Fixpoint visit_children (l : list (comb P)) (d : dag) : res (list (list nat * list nat) * dag) :=
      match l with
      | [] => Ok ([], d)
      | c :: t => do (f, la, d1) <- rec c d;
                  do (fls, d2) <- visit_children t d1;
                  Ok ((f, la) :: fls, d2)
      end.
  End Children.

  (** get_initial_final, supportive.py 25-45. The recursion is not structural since parallel
      combinations are replaced by alternatives (35): [fuel] bounds its depth. *)
  Fixpoint get_initial_final (fuel : nat) (node : comb P) (d : dag) : res (list nat * list nat * dag) :=
    match fuel with
    | 0 => Err EFuel
    | S f =>
        match node with
        | Leaf _ _ _ _ => let '(d', i) := push d node in Ok ([i], [i], d')                  (* 29-31 *)
        | Node k ch _ _ name hl _ =>
            do (k', ch') <- match k with
                             | Parallel => do alt <- to_alternative ch name hl;             (* 34 *)
                                           match alt with
                                           | Node ka cha _ _ _ _ _ => Ok (ka, cha)
                                           | Leaf _ _ _ _ => Err EValue
                                           end
                             | _ => Ok (k, ch)
                             end;
            do (fls, d1) <- visit_children (get_initial_final f) ch' d;                     (* 36 *)
            match fls with
            | [] => Err EValue                                                               (* unpacking zip of nothing *)
            | fl0 :: _ =>
                match k' with
                | Sequential => Ok (fst fl0, snd (last fls fl0),                             (* 41-42 *)
                                    {| d_nodes := d_nodes d1; d_succs := link_all fls (d_succs d1) |})
                | _ => Ok (unique (concat (map fst fls)), unique (concat (map snd fls)), d1) (* 43-45 *)
                end
            end
        end
    end.

  (** Depth of the recursion of get_initial_final. *)
  Fixpoint dag_fuel (c : comb P) : nat :=
    match c with
    | Leaf _ _ _ _ => 1
    | Node k ch _ _ _ _ _ =>
        (match k with Parallel => 2 | _ => 1 end) + fold_right (fun x m => Nat.max (dag_fuel x) m) 0 ch
    end.

  (** _HTMToDAG(node): the attributes [nodes], [succs] and [init], supportive.py 15-18 *)
  Definition htm_to_dag (node : comb P) : res (list (comb P) * list (list nat) * list nat) :=
    do (init, _, d) <- get_initial_final (dag_fuel node) node empty_dag;
    Ok (d_nodes d, d_succs d, init).
End Dag.
Arguments dag P : clear implicits.
