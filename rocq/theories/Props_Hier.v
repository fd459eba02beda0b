(** Properties C93 and C94: compaction of conjugate graphs and extraction of a hierarchy of actions. *)
From Verif Require Import PyBase PyBaseFacts GraphModel GraphSpec GraphProofs ChainModel ChainSpec ChainProofs CliqueModel CliqueSpec
  HierModel HierSpec HierProofs Props_Graph Props_Chain.
From Coq Require Import Relations.

(** ** C93 *)
Theorem C93_compact_keeps_the_task :
  forall (B L : Type) (EB : EqDec B) (EL : EqDec L) (ordt : list (L * hnode B) -> list (L * hnode B)) (e : L)
         (c : conj B L) (nodes : list (hnode B)) (new_node : hnode B),
  is_order ordt -> reachable_graph (cj_graph c) ->
  exists c', cj_compact e ordt c nodes new_node = Ok c' /\
    (* where the task starts and ends *)
    (In (cj_initial c) nodes -> cj_initial c' = new_node) /\ (~ In (cj_initial c) nodes -> cj_initial c' = cj_initial c) /\
    (In (cj_terminal c) nodes -> cj_terminal c' = new_node) /\ (~ In (cj_terminal c) nodes -> cj_terminal c' = cj_terminal c) /\
    (* the edges are those of the quotient *)
    (forall s l d, has_transition (cj_graph c') s l d = true <->
       compacted (fun s l d => has_transition (cj_graph c) s l d = true) nodes new_node e s l d) /\
    (* every execution of the task remains one *)
    (forall w, walk_between (follows (cj_graph c)) (cj_initial c) (cj_terminal c) w ->
       exists w', merges nodes new_node w w' /\ walk_between (follows (cj_graph c')) (cj_initial c') (cj_terminal c') w').
Proof.
  intros B L EB EL ordt e c nodes M Ho Hr; apply reachable_gwf in Hr.
  destruct (compact_correct ordt e (cj_graph c) nodes M Ho Hr) as [g' [Eg [_ Hh]]].
  unfold cj_compact; rewrite Eg; cbn [bind]. eexists; split; [reflexivity|]; cbn [cj_graph cj_initial cj_terminal].
  repeat (split; [intros Hx; first [apply mem_In in Hx|apply mem_not_In in Hx]; rewrite Hx; reflexivity|]); split; [auto|].
  intros w Hw; destruct (walk_between_merges (follows (cj_graph c)) nodes M _ _ w Hw) as [w' [Hm Hw']].
  exists w'; split; auto. revert Hw'; apply merges_ext_walk; intros x y; symmetry; apply (gedge_compacted e); auto.
Qed.
Print Assumptions C93_compact_keeps_the_task.

(** ** C94 *)
(** The parts of a compacted graph: its nodes, and where it starts and ends. *)
Definition part_of {B L} `{EqDec B} `{EqDec L} (r : conj B L) (m : hnode B) : Prop :=
  (exists u v, follows (cj_graph r) u v /\ (m = u \/ m = v)) \/ m = cj_initial r \/ m = cj_terminal r.

(** Nothing is left to group: either a single part remains, or no maximal chain starts where the task can get and,
    unless one of them can follow itself, no two or more parts can all follow each other both ways. *)
Definition finished {B L} `{EqDec B} `{EqDec L} (r : conj B L) : Prop :=
  let next := follows (cj_graph r) in
  (forall u v, ~ next u v) \/
  ((forall chain x, maximal_chain next chain -> nth_error chain 0 = Some x -> ~ clos_refl_trans _ next (cj_initial r) x) /\
   (forall group, maximal_clique (fun x => exists u v, next u v /\ (x = u \/ x = v)) (fun u v => next u v /\ next v u) group -> 2 <= length group ->
                  exists u, In u group /\ next u u) /\
   ((forall u, ~ next u u) -> forall u v, u <> v -> ~ (next u v /\ next v u))).

Lemma no_clique_no_pair {N} `{EqDec N} (E : N -> N -> Prop) (l : list N) :
  (forall n, nd E n -> In n l) ->
  (forall K, maximal_clique (nd E) (fun u v => E u v /\ E v u) K -> length K < 2) ->
  forall u v, u <> v -> ~ (E u v /\ E v u).
Proof.
  intros Hl Hmax u v Hne [Huv Hvu].
  set (adj := fun u v => E u v /\ E v u) in *.
  assert (Hgrow : forall n K, clique (nd E) adj K -> 2 <= length K -> length l - length K <= n -> False).
  { induction n as [|n IH]; intros K HK H2 Hn.
    - assert (HM : maximal_clique (nd E) adj K); [|specialize (Hmax K HM); lia].
      split; auto; intros w Hw Hin Hadj.
      assert (Hc : NoDup (w :: K) /\ incl (w :: K) l).
      { destruct HK as [H1 [H3 H4]]; split; [constructor; auto|]. intros x [<-|Hx]; apply Hl; auto. }
      destruct Hc as [Hc1 Hc2]; pose proof (NoDup_incl_length Hc1 Hc2); simpl in *; lia.
    - assert (HM : maximal_clique (nd E) adj K); [|specialize (Hmax K HM); lia].
      split; auto; intros w Hw Hin Hadj.
      apply (IH (w :: K)); [|simpl; lia|simpl; lia].
      destruct HK as [H1 [H3 H4]]; split; [constructor; auto|split].
      + intros x [<-|Hx]; auto.
      + intros x y [<-|Hx] [<-|Hy] Hxy; try congruence; auto. destruct (Hadj y Hy); split; auto. }
  apply (Hgrow (length l) [u; v]); [|simpl; lia|simpl; lia].
  split; [repeat constructor; simpl; intuition congruence|split].
  - intros x [<-|[<-|[]]]; [exists u, v|exists v, u]; auto.
  - intros x y [<-|[<-|[]]] [<-|[<-|[]]] Hxy; try congruence; split; auto.
Qed.

Lemma loop_or_none {N L} `{EqDec N} `{EqDec L} (g : graph N L) : gwf g ->
  forall K, (exists u, In u K /\ follows g u u) \/ (forall u, In u K -> ~ gedge g u u).
Proof.
  intros Hw K.
  set (f := fun u => existsb (fun t => if eq_dec (fst (fst t)) u then if eq_dec (snd t) u then true else false else false) (all_transitions (fun l => l) g)).
  assert (Hf : forall u, f u = true <-> exists l, has_transition g u l u = true).
  { intros u; unfold f; rewrite existsb_exists; split.
    - intros (((s, l), d) & Ht & Ex). cbn [fst snd] in Ex.
      destruct (eq_dec s u) as [->|]; [|discriminate]. destruct (eq_dec d u) as [->|]; [|discriminate].
      exists l. apply (all_transitions_In (fun l => l) g) in Ht; auto; [intros x; apply Permutation_refl|apply Hw].
    - intros [l Et]. exists (u, l, u); split.
      + apply (all_transitions_In (fun l => l) g); auto; [intros x; apply Permutation_refl|apply Hw].
      + cbn [fst snd]. destruct (eq_dec u u); congruence. }
  destruct (existsb f K) eqn:Ex.
  - left. apply existsb_exists in Ex; destruct Ex as (u & Hu & Ex). exists u; split; [exact Hu|]. apply Hf, Ex.
  - right. intros u Hu X. assert (Y : existsb f K = true); [|congruence].
    apply existsb_exists; exists u; split; [exact Hu|]. apply Hf, X.
Qed.

Theorem C94_hierarchy_extraction :
  forall (S B : Type) (ES : EqDec S) (EB : EqDec B)
         (check : hnode B -> S -> S -> res bool)                              (* Action.check *)
         (ord : list (hnode B * S) -> list (hnode B * S)) (ordi : list S -> list S)
         (i t : B) (e : S) (h : list (list (item S (hnode B)))) (g : graph (hnode B) S),
  is_order ord -> is_order ordi ->
  (* a task given by paths of actions other than the two markers, with one step at least *)
  i <> t -> (exists s a d, step_of_some check h s a d) ->
  (forall s a d, step_of_some check h s a d -> exists b, a = Plain b /\ b <> i /\ b <> t) ->
  from_task_graph ord ordi (Plain i) (Plain t) (add_paths check h) = Ok g ->
  let next a b := follows g (Plain a) (Plain b) in
  exists bound, forall (ords : nat -> orders B S) fuel turns,
  (forall k, is_order (o_trans (ords k)) /\ is_order (o_unique (ords k)) /\
     (forall r, is_order (o_pivot (ords k) r)) /\ (forall r, is_order (o_rest (ords k) r))) ->
  bound <= fuel -> bound <= turns ->
  exists r, extract e ords fuel turns 0 {| cj_graph := g; cj_initial := Plain i; cj_terminal := Plain t |} = Ok r /\
    (* each action of the task is in one part, once, and there are no others *)
    (forall b, (b = i \/ b = t \/ exists s d, step_of_some check h s (Plain b) d) <-> exists m, part_of r m /\ In b (leaves m)) /\
    (forall m m' b, part_of r m -> part_of r m' -> In b (leaves m) -> In b (leaves m') -> m = m') /\
    (forall m, part_of r m -> NoDup (leaves m) /\ leaves m <> []) /\
    (* the order between the parts is that of the task *)
    (forall m m', part_of r m -> part_of r m' -> m <> m' -> (follows (cj_graph r) m m' <-> joined next m m')) /\
    In i (leaves (cj_initial r)) /\ In t (leaves (cj_terminal r)) /\
    (* sequences and parallel groups are what they say *)
    (forall m, part_of r m -> grouped next m) /\
    finished r.
Proof.
  intros S B ES EB check ord ordi i t e h g Ho1 Ho2 Hit Hex Hplain Hc next.
  pose proof (conj_hinv check ord ordi i t Ho1 Ho2 h g Hc Hplain Hit Hex) as Hv.
  pose proof (v_wf _ _ _ _ _ Hv) as Hw; cbn [cj_graph] in Hw.
  set (n := length (all_nodes (fun l => l) g)).
  exists (Datatypes.S n + chain_bound n); intros ords fuel turns Hords Hf Ht.
  assert (Hn : length (all_nodes (o_trans (ords 0)) g) = n).
  { apply nodes_length; auto; [apply Hords|intros x; apply Permutation_refl]. }
  assert (X : exists r, extract e ords fuel turns 0 {| cj_graph := g; cj_initial := Plain i; cj_terminal := Plain t |} = Ok r /\
                hinv (task_action check i t h) (can_follow g) i t r /\ done r).
  { apply extract_correct; [intros a b; apply (can_follow_action check ord ordi i t Ho1 Ho2 h g Hc Hplain Hit Hex)|intros k; apply Hords|auto|cbn [cj_graph]; rewrite Hn; lia|cbn [cj_graph]; rewrite Hn; lia]. }
  destruct X as [r [Er [Hr Hd]]].
  exists r; split; auto.
  assert (Hpart : forall m, part_of r m <-> part r m).
  { intros m; unfold part_of, part; split.
    - intros [Hm|[->| ->]]; [left; exact Hm|right; auto|apply (v_t _ _ _ _ _ Hr)].
    - intros [Hm| ->]; [left; exact Hm|right; left; auto]. }
  split; [intros b; split|].
  { intros Hb; destruct (v_cover _ _ _ _ _ Hr b Hb) as [m [Hm Hin]]; exists m; split; auto; apply Hpart; auto. }
  { intros [m [Hm Hin]]; apply Hpart in Hm; apply (v_leaves _ _ _ _ _ Hr m Hm); auto. }
  split; [intros m m' b Hm Hm'; apply (v_disj _ _ _ _ _ Hr); apply Hpart; auto|].
  split; [intros m Hm; apply Hpart in Hm; destruct (v_leaves _ _ _ _ _ Hr m Hm) as [H1 [H2 _]]; auto|].
  split; [intros m m' Hm Hm'; apply (v_edge _ _ _ _ _ Hr); apply Hpart; auto|].
  split; [apply (v_i _ _ _ _ _ Hr)|split; [apply (v_t _ _ _ _ _ Hr)|]].
  split; [intros m Hm; apply (v_grp _ _ _ _ _ Hr), Hpart, Hm|].
  destruct Hd as [Hd|[H1 H2]]; [left; exact Hd|right; split; [|split]].
  - intros chain x Hch Hx; apply (H1 chain x Hch Hx).
  - intros K HK HK2. assert (Hwr := v_wf _ _ _ _ _ Hr).
    destruct (loop_or_none (cj_graph r) Hwr K) as [X|X]; [exact X|]. exfalso; apply (H2 K HK HK2 X).
  - intros Hself.
    assert (H3 : forall K, maximal_clique (nd (gedge (cj_graph r))) (fun u v => gedge (cj_graph r) u v /\ gedge (cj_graph r) v u) K -> length K < 2).
    { intros K HK. destruct (le_lt_dec 2 (length K)) as [X|]; auto. exfalso; apply (H2 K HK X). intros u _; apply Hself. }
    assert (Hwr := v_wf _ _ _ _ _ Hr).
    apply (no_clique_no_pair (gedge (cj_graph r)) (all_nodes (fun l => l) (cj_graph r))).
    + intros m Hm; apply all_nodes_nd; auto. intros x; apply Permutation_refl.
    + exact H3.
Qed.
Print Assumptions C94_hierarchy_extraction.

(** The task of samples/test_hierarchies.py 38-41: b1 b2 b3 and c1 c2 in either order.  A state is the list of the
    actions done. *)
Definition ex_hist (l : list nat) : list (item (list nat) (hnode nat)) :=
  (fix go (hist l : list nat) := match l with
     | [] => [IState hist]
     | a :: l => IState hist :: IAction (Plain a) :: go (hist ++ [a]) l
     end) [] l.
Definition ex_hier : list (list (item (list nat) (hnode nat))) := [ex_hist [11; 12; 13; 21; 22]; ex_hist [21; 22; 11; 12; 13]].
Definition ex_hier_check (a : hnode nat) (s d : list nat) : res bool := Ok true.
Definition ex_orders (k : nat) : orders nat (list nat) :=
  {| o_trans := fun l => l; o_unique := fun l => l; o_pivot := fun _ l => l; o_rest := fun _ l => l; o_pop := fun _ => 0 |}.

Example C94_ex :
  match from_task_graph (fun l => l) (fun l => l) (Plain 0) (Plain 1) (add_paths ex_hier_check ex_hier) with
  | Ok g => match extract [] ex_orders 2000 10 0 {| cj_graph := g; cj_initial := Plain 0; cj_terminal := Plain 1 |} with
            | Ok r => Some (cj_initial r, all_nodes (fun l => l) (cj_graph r))
            | Err _ => None
            end
  | Err _ => None
  end = Some (Meta KSequence [Plain 0;
                Meta KParallel [Meta KSequence [Plain 11; Plain 12; Plain 13]; Meta KSequence [Plain 21; Plain 22]];
                Plain 1], []).
Proof. vm_compute; reflexivity. Qed.

Example C94_ex_hyps :
  (exists s a d, step_of_some ex_hier_check ex_hier s a d) /\
  (forall s a d, step_of_some ex_hier_check ex_hier s a d -> exists b, a = Plain b /\ b <> 0 /\ b <> 1) /\
  (exists g, from_task_graph (fun l => l) (fun l => l) (Plain 0) (Plain 1) (add_paths ex_hier_check ex_hier) = Ok g).
Proof.
  split; [|split; [|eexists; vm_compute; reflexivity]].
  - exists [], (Plain 11), [11], (ex_hist [11; 12; 13; 21; 22]); split; [left; reflexivity|split].
    + apply path_ok_iff. unfold ex_hist; cbn [app]. repeat (constructor; [reflexivity|]). constructor.
    + exists 0; repeat split.
  - intros s a d [p [Hin [_ [i [_ [Ha _]]]]]]; apply nth_error_In in Ha.
    destruct Hin as [<-|[<-|[]]]; cbn in Ha;
      repeat (destruct Ha as [Ha|Ha]; [first [discriminate Ha|inversion Ha; subst; eexists; split; [reflexivity|split; discriminate]]|]);
      destruct Ha.
Qed.

(** Compacting the chain b1 b2 b3 in the middle of a walk, and the initial node with what follows it. *)
Example C93_ex :
  match from_task_graph (fun l => l) (fun l => l) (Plain 0) (Plain 1) (add_paths ex_hier_check ex_hier) with
  | Ok g =>
      match cj_compact [] (fun l => l) {| cj_graph := g; cj_initial := Plain 0; cj_terminal := Plain 1 |}
              [Plain 11; Plain 12; Plain 13] (Plain 5) with
      | Ok c =>
          match cj_compact [] (fun l => l) c [Plain 0; Plain 5] (Plain 6) with
          | Ok c' => map (fun c : conj nat (list nat) => (cj_initial c, cj_terminal c,
                       map (fun x => (fst (fst x), snd x)) (all_transitions (fun l => l) (cj_graph c)))) [c; c']
          | Err _ => []
          end
      | Err _ => []
      end
  | Err _ => []
  end = [(Plain 0, Plain 1, [(Plain 0, Plain 21); (Plain 0, Plain 5); (Plain 21, Plain 22); (Plain 21, Plain 22);
                             (Plain 22, Plain 1); (Plain 22, Plain 5); (Plain 5, Plain 21); (Plain 5, Plain 1)]);
         (Plain 6, Plain 1, [(Plain 21, Plain 22); (Plain 21, Plain 22); (Plain 22, Plain 1); (Plain 22, Plain 6);
                             (Plain 6, Plain 21); (Plain 6, Plain 1)])].
Proof. vm_compute; reflexivity. Qed.
