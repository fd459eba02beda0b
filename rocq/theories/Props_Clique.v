(** Properties C11 and C12: maximal cliques. *)
From Verif Require Import PyBase PyBaseFacts GraphModel GraphSpec GraphProofs CliqueModel CliqueSpec CliqueProofs Props_Graph.

(** ** C11. A graph is a dictionary (distinct keys) of neighbour sets. *)
Theorem C11_max_cliques_exact :
  forall (N : Type) (EN : EqDec N) (g : ngraph N) (ordp ordd : list N -> list N -> list N),
  (forall r, is_order (ordp r)) -> (forall r, is_order (ordd r)) ->
  let node u := In u (keys g) in
  let adj u v := exists o, lookup u g = Some o /\ In v o in
  NoDup (keys g) ->
  (forall u v, adj u v -> adj v u) ->      (* symmetric *)
  (forall u, ~ adj u u) ->                 (* no self-loop *)
  exists cs, max_cliques ordp ordd g = Ok cs /\ enumerates_max_cliques node adj cs.
Proof. intros N EN g ordp ordd Hp Hd node adj Hk Hs Hi.
  assert (X : exists cs, max_cliques ordp ordd g = Ok cs /\ enumerates_loop_free node adj cs) by (apply max_cliques_correct; auto).
  destruct X as [cs [E Hcs]].
  exists cs; split; [exact E|]. apply loop_free_all; auto.
Qed.
Print Assumptions C11_max_cliques_exact.

Definition ex_ngraph : ngraph nat :=
  [(1, [2; 3]); (2, [1; 3; 4]); (3, [1; 2; 4]); (4, [2; 3; 5]); (5, [4]); (6, [])].
Example C11_ex : max_cliques (fun _ l => l) (fun _ l => rev l) ex_ngraph = Ok [[5; 4]; [2; 3; 4]; [2; 3; 1]].
Proof. vm_compute; reflexivity. Qed.
Lemma ex_ngraph_adj u v : (exists o, lookup u ex_ngraph = Some o /\ In v o) ->
  In (u, v) [(1,2);(1,3);(2,1);(2,3);(2,4);(3,1);(3,2);(3,4);(4,2);(4,3);(4,5);(5,4)].
Proof.
  intros [o [E Hin]]; apply lookup_In in E.
  repeat (destruct E as [E|E]; [inversion E; subst; simpl in Hin; intuition (subst; simpl; auto 20)|]); destruct E.
Qed.
Example C11_ex_hyps :
  NoDup (keys ex_ngraph) /\
  (forall u v, (exists o, lookup u ex_ngraph = Some o /\ In v o) -> exists o, lookup v ex_ngraph = Some o /\ In u o) /\
  (forall u, ~ exists o, lookup u ex_ngraph = Some o /\ In u o).
Proof.
  split; [repeat constructor; simpl; lia|split].
  - intros u v Hv; apply ex_ngraph_adj in Hv.
    repeat (destruct Hv as [Hv|Hv]; [inversion Hv; subst; eexists; split; [vm_compute; reflexivity|simpl; auto]|]); destruct Hv.
  - intros u Hu; apply ex_ngraph_adj in Hu.
    repeat (destruct Hu as [Hu|Hu]; [inversion Hu; subst; discriminate|]); destruct Hu.
Qed.

(** With self-loops, exactly the maximal cliques none of whose members is its own neighbour are found. *)
Theorem C11_max_cliques_loops :
  forall (N : Type) (EN : EqDec N) (g : ngraph N) (ordp ordd : list N -> list N -> list N),
  (forall r, is_order (ordp r)) -> (forall r, is_order (ordd r)) ->
  let node u := In u (keys g) in
  let adj u v := exists o, lookup u g = Some o /\ In v o in
  NoDup (keys g) ->
  (forall u v, adj u v -> adj v u) ->      (* symmetric *)
  exists cs, max_cliques ordp ordd g = Ok cs /\ enumerates_loop_free node adj cs.
Proof. intros N EN g ordp ordd Hp Hd node adj Hk Hs. apply max_cliques_correct; auto. Qed.
Print Assumptions C11_max_cliques_loops.

(** Node 3 is its own neighbour: the clique {1, 2, 3} is lost, {1, 4} and {4, 5} are found. *)
Example C11_loops_ex :
  let g := [(1, [2; 3; 4]); (2, [1; 3]); (3, [1; 2; 3]); (4, [1; 5]); (5, [4])] in
  NoDup (keys g) /\ max_cliques (fun _ l => l) (fun _ l => l) g = Ok [[1; 4]; [5; 4]].
Proof. split; [repeat constructor; simpl; lia|vm_compute; reflexivity]. Qed.

(** ** C12. Two nodes are connected in both directions. *)
Definition both_ways {N L} `{EqDec N} `{EqDec L} (g : graph N L) (u v : N) : Prop :=
  (exists l, has_transition g u l v = true) /\ (exists l, has_transition g v l u = true).
Definition is_node {N L} `{EqDec N} `{EqDec L} (g : graph N L) (n : N) : Prop :=
  exists s l d, has_transition g s l d = true /\ (n = s \/ n = d).

(** False when an action can follow itself: the clique {1, 2} of this conjugate graph is missed. *)
Definition ex_selfloop : list (list (item nat nat)) := [ex_path [0; 1; 1; 1; 2; 2; 4]; ex_path [0; 2; 2; 1; 3]].
Lemma ex_edges (g : graph nat nat) s l d : gwf g -> has_transition g s l d = true -> In (s, l, d) (all_transitions (fun l => l) g).
Proof. intros Hw Hh; apply all_transitions_In; auto; [intros x; apply Permutation_refl|apply Hw]. Qed.

Theorem C12_get_max_cliques_refuted : exists c,
  from_task_graph (fun l => l) (fun l => l) 100 101 (add_paths ex_check ex_selfloop) = Ok c /\
  maximal_clique (is_node c) (both_ways c) [1; 2] /\
  get_max_cliques (fun l => l) (fun l => l) (fun _ l => l) (fun _ l => l) c = Ok [].
Proof.
  eexists; split; [vm_compute; reflexivity|]; split; [|vm_compute; reflexivity].
  match goal with |- maximal_clique (is_node ?g) _ _ => set (c := g) end.
  assert (Hw : gwf c).
  { apply reachable_gwf; exists (map (fun t => OAdd (fst (fst t)) (snd (fst t)) (snd t)) (all_transitions (fun l => l) c)).
    vm_compute; reflexivity. }
  split; [split; [|split]|].
  - repeat constructor; simpl; lia.
  - intros u [<-|[<-|[]]].
    + exists 100, 0, 1; split; [vm_compute; auto|auto].
    + exists 100, 0, 2; split; [vm_compute; auto|auto].
  - intros u v [<-|[<-|[]]] [<-|[<-|[]]] Hne; try congruence;
      (split; exists 2; vm_compute; reflexivity).
  - intros v _ Hn Hall; destruct (Hall 1) as [[l1 H1] [l2 H2]]; [simpl; auto|].
    apply (ex_edges c _ _ _ Hw) in H1; apply (ex_edges c _ _ _ Hw) in H2.
    vm_compute in H1, H2; simpl in Hn.
    intuition congruence.
Qed.
Print Assumptions C12_get_max_cliques_refuted.

(** What is computed for every graph: exactly the maximal cliques of two nodes or more in which no node
    has a transition to itself, each once. *)
Theorem C12_get_max_cliques_exact :
  forall (N L : Type) (EN : EqDec N) (EL : EqDec L) (g : graph N L)
         ordt ordu (ordp ordd : list N -> list N -> list N),
  is_order ordt -> is_order ordu -> (forall r, is_order (ordp r)) -> (forall r, is_order (ordd r)) ->
  reachable_graph g ->
  exists cs, get_max_cliques ordt ordu ordp ordd g = Ok cs /\
    (forall c, In c cs -> maximal_clique (is_node g) (both_ways g) c /\ 2 <= length c /\
                          forall u l, In u c -> has_transition g u l u = false) /\
    (forall c, maximal_clique (is_node g) (both_ways g) c -> 2 <= length c ->
               (forall u l, In u c -> has_transition g u l u = false) -> exists c', In c' cs /\ same_set c c') /\
    ForallOrdPairs (fun c1 c2 => ~ same_set c1 c2) cs.
Proof.
  intros N L EN EL g ordt ordu ordp ordd H1 H2 H3 H4 Hr; apply reachable_gwf in Hr.
  destruct (get_max_cliques_correct ordt ordu H1 H2 g Hr ordp ordd H3 H4) as [cs [E Hcs]].
  apply (enumerates_ext _ (is_node g) _ (both_ways g)) in Hcs.
  - destruct Hcs as (A & B & D). exists cs; split; [exact E|split; [|split; [|exact D]]].
    + intros c Hc; destruct (A c Hc) as (M1 & M2 & M3). split; [exact M1|split; [exact M3|]].
      intros u l Hu. destruct (has_transition g u l u) eqn:Et; auto. exfalso; apply (M2 u Hu). split; exists l; auto.
    + intros c M1 M3 M2; apply B; auto. intros u Hu [[l X] _]. rewrite (M2 u l Hu) in X; discriminate.
  - intros u; apply (all_nodes_In ordt g H1 (proj1 Hr)).
  - intros u v; unfold both_ways, edge; tauto.
Qed.
Print Assumptions C12_get_max_cliques_exact.

(** A maximal clique is missed if and only if one of its nodes has a transition to itself. *)
Theorem C12_missed :
  forall (N L : Type) (EN : EqDec N) (EL : EqDec L) (g : graph N L)
         ordt ordu (ordp ordd : list N -> list N -> list N) c,
  is_order ordt -> is_order ordu -> (forall r, is_order (ordp r)) -> (forall r, is_order (ordd r)) ->
  reachable_graph g -> maximal_clique (is_node g) (both_ways g) c -> 2 <= length c ->
  exists cs, get_max_cliques ordt ordu ordp ordd g = Ok cs /\
    ((forall c', In c' cs -> ~ same_set c c') <-> exists u l, In u c /\ has_transition g u l u = true).
Proof.
  intros N L EN EL g ordt ordu ordp ordd c H1 H2 H3 H4 Hr Hm Hl.
  destruct (C12_get_max_cliques_exact N L EN EL g ordt ordu ordp ordd H1 H2 H3 H4 Hr) as (cs & E & A & B & _).
  exists cs; split; [exact E|]. split.
  - intros Hno. destruct (existsb (fun u => existsb (fun t => if eq_dec (fst (fst t)) u then if eq_dec (snd t) u then true else false else false) (all_transitions ordt g)) c) eqn:Ex.
    + apply existsb_exists in Ex; destruct Ex as (u & Hu & Ex). apply existsb_exists in Ex. destruct Ex as (((s, l), d) & Ht & Ex).
      cbn [fst snd] in Ex. destruct (eq_dec s u) as [->|]; [|discriminate]. destruct (eq_dec d u) as [->|]; [|discriminate].
      exists u, l; split; [exact Hu|]. apply (all_transitions_In ordt g) in Ht; auto. apply reachable_gwf in Hr; apply Hr.
    + exfalso. destruct (B c Hm Hl) as (c' & Hc' & Hs); [|apply (Hno c' Hc' Hs)].
      intros u l Hu. destruct (has_transition g u l u) eqn:Et; auto. exfalso.
      apply (all_transitions_In ordt g) in Et; [|auto|apply reachable_gwf in Hr; apply Hr].
      assert (X : existsb (fun u => existsb (fun t => if eq_dec (fst (fst t)) u then if eq_dec (snd t) u then true else false else false) (all_transitions ordt g)) c = true); [|congruence].
      apply existsb_exists; exists u; split; [exact Hu|]. apply existsb_exists; exists (u, l, u); split; [exact Et|].
      cbn [fst snd]. destruct (eq_dec u u); congruence.
  - intros (u & l & Hu & Et) c' Hc' Hs. destruct (A c' Hc') as (_ & _ & X). rewrite (X u l) in Et; [discriminate|]. apply Hs, Hu.
Qed.
Print Assumptions C12_missed.

Example C12_loops_ex :
  let g := adds [(1, 0, 2); (2, 0, 1); (1, 0, 3); (3, 7, 1); (3, 0, 3); (2, 5, 3)] in
  get_max_cliques (fun l => l) (fun l => l) (fun _ l => l) (fun _ l => l) g = Ok [[1; 2]].
Proof. vm_compute; reflexivity. Qed.

(** Missing for the full claim: maximal cliques with a node that has a transition to itself. *)
Theorem C12_get_max_cliques_partial :
  forall (N L : Type) (EN : EqDec N) (EL : EqDec L) (g : graph N L)
         ordt ordu (ordp ordd : list N -> list N -> list N),
  is_order ordt -> is_order ordu -> (forall r, is_order (ordp r)) -> (forall r, is_order (ordd r)) ->
  reachable_graph g ->
  (forall u l, has_transition g u l u = false) ->
  exists cs, get_max_cliques ordt ordu ordp ordd g = Ok cs /\
             enumerates_max_cliques (is_node g) (both_ways g) cs.
Proof.
  intros N L EN EL g ordt ordu ordp ordd H1 H2 H3 H4 Hr Hno.
  destruct (C12_get_max_cliques_exact N L EN EL g ordt ordu ordp ordd H1 H2 H3 H4 Hr) as (cs & E & A & B & D).
  exists cs; split; [exact E|]. split; [|split; [|exact D]].
  - intros c Hc; destruct (A c Hc) as (M1 & M2 & _); auto.
  - intros c M1 M2; apply B; auto.
Qed.
Print Assumptions C12_get_max_cliques_partial.

Example C12_ex : let g := adds [(1, 0, 2); (2, 0, 1); (2, 0, 3); (3, 5, 2); (1, 0, 3); (3, 7, 1); (3, 0, 4); (4, 0, 5)] in
  (forall u l, has_transition g u l u = false) /\
  get_max_cliques (fun l => l) (fun l => l) (fun _ l => l) (fun _ l => l) g = Ok [[1; 2; 3]].
Proof.
  cbv zeta; split; [|vm_compute; reflexivity].
  intros u l; destruct (has_transition _ u l u) eqn:E; auto.
  apply ex_edges in E; [vm_compute in E; intuition congruence|].
  apply reachable_gwf; eexists (map (fun t => OAdd (fst (fst t)) (snd (fst t)) (snd t)) _); vm_compute.
  instantiate (1 := [(1, 0, 2); (2, 0, 1); (2, 0, 3); (3, 5, 2); (1, 0, 3); (3, 7, 1); (3, 0, 4); (4, 0, 5)]); reflexivity.
Qed.
