(** Properties C13, C14 and C15: maximal chains. *)
From Verif Require Import PyBase PyBaseFacts GraphModel GraphSpec GraphProofs ChainModel ChainSpec ChainProofs Props_Graph.
From Coq Require Import Relations.

(** [follows g u v]: there is a transition from u to v. *)
Definition follows {N L} `{EqDec N} `{EqDec L} (g : graph N L) (u v : N) : Prop :=
  exists l, has_transition g u l v = true.

(** ** C13. [fuel] bounds the number of turns of the loop, so that the claim also covers the
    lists yielded by a search that does not end. *)
Theorem C13_chains_are_maximal :
  forall (N L : Type) (EN : EqDec N) (EL : EqDec L) (ordt : list (L * N) -> list (L * N)) (sched : nat -> nat)
         (g : graph N L) (initial : N) (fuel : nat),
  is_order ordt -> reachable_graph g ->
  (forall u, ~ follows g u initial) ->
  forall c, In c (fst (get_max_chains ordt sched initial g fuel)) -> maximal_chain (follows g) c.
Proof.
  intros N L EN EL ordt sched g initial fuel Ho Hr Hi c Hc; apply reachable_gwf in Hr.
  refine (proj1 (chains_sound ordt Ho g Hr initial sched fuel _) c Hc).
  intros [u [Hu _]]; apply (Hi u), Hu.
Qed.
Print Assumptions C13_chains_are_maximal.

(** It raises KeyError when initial has no transition, and nothing otherwise. *)
Theorem C13_chains_exceptions :
  forall (N L : Type) (EN : EqDec N) (EL : EqDec L) (ordt : list (L * N) -> list (L * N)) (sched : nat -> nat)
         (g : graph N L) (initial : N) (fuel : nat),
  is_order ordt -> reachable_graph g ->
  (forall u, ~ follows g u initial) ->
  ((exists v, follows g initial v) -> forall e, snd (get_max_chains ordt sched initial g fuel) <> SRaised e) /\
  (~ (exists v, follows g initial v) -> 0 < fuel -> get_max_chains ordt sched initial g fuel = ([], SRaised EKey)).
Proof.
  intros N L EN EL ordt sched g initial fuel Ho Hr Hi; apply reachable_gwf in Hr.
  assert (Hi' : ~ left_ext (gedge g) initial) by (intros [u [Hu _]]; apply (Hi u), Hu).
  destruct (chains_sound ordt Ho g Hr initial sched fuel Hi') as [_ [H1 H2]]; split.
  - intros [v Hv]; apply H1; exists initial, v; auto.
  - intros Hn Hf; apply H2; auto. intros [u [v [He [->| ->]]]]; [apply Hn; exists v; auto|apply (Hi u He)].
Qed.
Print Assumptions C13_chains_exceptions.

Definition ex_chain_graph : graph nat nat :=
  adds [(0, 0, 1); (1, 0, 2); (2, 0, 3); (2, 1, 3); (3, 0, 4); (3, 0, 5); (4, 0, 6); (5, 0, 6); (6, 0, 7)].
Lemma ex_chain_edges u v : follows ex_chain_graph u v ->
  In (u, v) [(0, 1); (1, 2); (2, 3); (3, 4); (3, 5); (4, 6); (5, 6); (6, 7)].
Proof.
  intros [l Hl].
  assert (Hin : In (u, l, v) (all_transitions (fun l => l) ex_chain_graph)).
  { apply all_transitions_In; [intros x; apply Permutation_refl| |auto]. repeat constructor; simpl; lia. }
  vm_compute in Hin; simpl; intuition congruence.
Qed.
Example C13_ex :
  reachable_graph ex_chain_graph /\ (forall u, ~ follows ex_chain_graph u 0) /\
  get_max_chains (fun l => l) (fun k => k) 0 ex_chain_graph 40 = ([[0; 1; 2; 3]; [6; 7]], SDone).
Proof.
  split; [|split].
  - exists (map (fun t => OAdd (fst (fst t)) (snd (fst t)) (snd t))
        [(0, 0, 1); (1, 0, 2); (2, 0, 3); (2, 1, 3); (3, 0, 4); (3, 0, 5); (4, 0, 6); (5, 0, 6); (6, 0, 7)]); reflexivity.
  - intros u Hu; apply ex_chain_edges in Hu; simpl in Hu; intuition congruence.
  - vm_compute; reflexivity.
Qed.

(** ** C14. The bound on the number of turns does not depend on the pop order. *)
Theorem C14_chains_complete :
  forall (N L : Type) (EN : EqDec N) (EL : EqDec L) (ordt : list (L * N) -> list (L * N)) (g : graph N L) (initial : N),
  is_order ordt -> reachable_graph g ->
  (forall u, ~ follows g u initial) ->
  (exists v, follows g initial v) ->
  (forall x, reach (follows g) initial x -> ~ forced_cycle_at (follows g) x) ->
  exists fuel0, forall sched fuel, fuel0 <= fuel ->
    exists out, get_max_chains ordt sched initial g fuel = (out, SDone) /\
      forall c h, maximal_chain (follows g) c -> nth_error c 0 = Some h -> reach (follows g) initial h -> In c out.
Proof.
  intros N L EN EL ordt g initial Ho Hr Hi [v0 Hv0] Hno; apply reachable_gwf in Hr.
  destruct (chains_complete ordt Ho g Hr initial) as [fuel0 Hf].
  - intros [u [Hu _]]; apply (Hi u), Hu.
  - exists initial, v0; auto.
  - exact Hno.
  - exists fuel0; intros sched fuel Hle; destruct (Hf sched fuel Hle) as [out [E [_ [Hc _]]]]; eauto.
Qed.
Print Assumptions C14_chains_complete.

(** The conjugate of a task graph never has a forced cycle, provided no action of the task is one of
    the two marker actions: get_max_chains then yields exactly the maximal chains reachable from
    initial, for every history of added paths. *)
Theorem C14_chains_of_conjugates :
  forall (S A : Type) (ES : EqDec S) (EA : EqDec A) (check : A -> S -> S -> res bool)
         (ord : list (A * S) -> list (A * S)) (ords : list S -> list S) (ordt : list (S * A) -> list (S * A))
         (initial terminal : A) (h : list (list (item S A))) (c : graph A S),
  is_order ord -> is_order ords -> is_order ordt ->
  from_task_graph ord ords initial terminal (add_paths check h) = Ok c ->
  initial <> terminal ->
  (forall s a d, step_of_some check h s a d -> a <> initial /\ a <> terminal) ->
  (exists s a d, step_of_some check h s a d) ->
  exists fuel0, forall sched fuel, fuel0 <= fuel ->
    exists out, get_max_chains ordt sched initial c fuel = (out, SDone) /\
      (forall l, In l out -> maximal_chain (follows c) l) /\
      (forall l x, maximal_chain (follows c) l -> nth_error l 0 = Some x -> reach (follows c) initial x -> In l out).
Proof.
  intros S A ES EA check ord ords ordt initial terminal h c Ho1 Ho2 Ho3 Hc Hne Hfr Hex.
  destruct (conj_spec check ord ords initial terminal Ho1 Ho2 h c Hc Hfr Hne) as [Hw _].
  pose proof (initial_node check ord ords initial terminal Ho1 Ho2 h c Hc Hfr Hne Hex) as Hin.
  destruct (chains_complete ordt Ho3 c Hw initial) as [fuel0 Hf].
  - intros [u [[Hu _] _]]; revert Hu; eapply initial_no_pred; eauto.
  - exact Hin.
  - eapply conj_no_cycle; eauto.
  - exists fuel0; intros sched fuel Hle; destruct (Hf sched fuel Hle) as [out [E [Hs [Hcp _]]]]; eauto.
Qed.
Print Assumptions C14_chains_of_conjugates.

Lemma no_cycle_lt {N} (edge : N -> N -> Prop) (f : N -> nat) : (forall x y, edge x y -> f x < f y) ->
  forall x, ~ forced_cycle_at edge x.
Proof.
  intros Hf x Hx.
  assert (Hlt : forall a b, clos_trans N (only_succ edge) a b -> f a < f b).
  { induction 1 as [a b [Hab _]|a b c _ IH1 _ IH2]; [auto|lia]. }
  specialize (Hlt x x Hx); lia.
Qed.
Example C14_ex : (exists v, follows ex_chain_graph 0 v) /\ forall x, ~ forced_cycle_at (follows ex_chain_graph) x.
Proof.
  split; [exists 1, 0; reflexivity|]. apply no_cycle_lt with (f := fun x => x).
  intros x y Hxy; apply ex_chain_edges in Hxy.
  repeat (destruct Hxy as [Hxy|Hxy]; [inversion Hxy; subst; lia|]); destruct Hxy.
Qed.
Example C14_ex_conj : let h := [ex_path [0; 1; 1; 2; 3; 3; 6]; ex_path [0; 4; 4; 5; 9]] in
  exists c, from_task_graph (fun l => l) (fun l => l) 100 101 (add_paths ex_check h) = Ok c /\
    get_max_chains (fun l => l) (fun k => k) 100 c 40 = ([[4; 5]; [1; 2; 3]], SDone).
Proof. eexists; split; [vm_compute; reflexivity|vm_compute; reflexivity]. Qed.

(** ** C15: false. The search does not end on this graph (initial 0, then 1 and 2 in turn)... *)
Definition ex_loop : graph nat nat := adds [(0, 0, 1); (1, 0, 2); (2, 0, 1)].
Theorem C15_termination_refuted : forall sched fuel,
  snd (get_max_chains (fun l => l) sched 0 ex_loop fuel) = SRunning.
Proof.
  intros sched fuel.
  assert (Hmod : forall k (x : nat), nth_error [x] (sched k mod 1) = Some x) by (intros; rewrite Nat.mod_1_r; reflexivity).
  unfold get_max_chains.
  destruct (chain_tables (fun l => l) ex_loop) as [[ut deg]|e] eqn:E; [|vm_compute in E; discriminate].
  vm_compute in E; inversion E; subst ut deg; clear E.
  match goal with |- context [chain_run ?u ?d sched fuel 0 ?s] => set (ut := u); set (deg := d) end.
  assert (Hs1 : forall k ex out, chain_step ut deg (sched k) {| c_explore := [1]; c_explored := ex; c_chain := None; c_out := out |}
     = Ok {| c_explore := []; c_explored := set_add 1 ex; c_chain := Some [1]; c_out := out |}).
  { intros; unfold chain_step; cb; cbn [length]; rewrite Hmod; reflexivity. }
  assert (Hs2 : forall k ex out, chain_step ut deg (sched k) {| c_explore := []; c_explored := ex; c_chain := Some [1]; c_out := out |}
     = Ok {| c_explore := []; c_explored := set_add 2 ex; c_chain := Some [1; 2]; c_out := out |}) by reflexivity.
  assert (Hs3 : forall k ex out, chain_step ut deg (sched k) {| c_explore := []; c_explored := ex; c_chain := Some [1; 2]; c_out := out |}
     = Ok {| c_explore := [1]; c_explored := ex; c_chain := None; c_out := out ++ [[1; 2]] |}) by reflexivity.
  assert (Hloop : forall fuel k ex out,
    snd (chain_run ut deg sched fuel k {| c_explore := [1]; c_explored := ex; c_chain := None; c_out := out |}) = SRunning).
  { clear fuel; induction fuel as [fuel IH] using (well_founded_induction lt_wf); intros k ex out.
    destruct fuel as [|fuel]; [reflexivity|cbn [chain_run finished c_explore c_chain]; rewrite Hs1].
    destruct fuel as [|fuel]; [reflexivity|cbn [chain_run finished c_explore c_chain]; rewrite Hs2].
    destruct fuel as [|fuel]; [reflexivity|cbn [chain_run finished c_explore c_chain]; rewrite Hs3].
    apply IH; lia. }
  assert (Hs0 : forall k ex out, chain_step ut deg (sched k) {| c_explore := [0]; c_explored := ex; c_chain := None; c_out := out |}
     = Ok {| c_explore := []; c_explored := set_add 0 ex; c_chain := Some [0]; c_out := out |}).
  { intros; unfold chain_step; cb; cbn [length]; rewrite Hmod; reflexivity. }
  assert (Hs0' : forall k ex out, chain_step ut deg (sched k) {| c_explore := []; c_explored := ex; c_chain := Some [0]; c_out := out |}
     = Ok {| c_explore := [1]; c_explored := ex; c_chain := None; c_out := out |}) by reflexivity.
  destruct fuel as [|fuel]; [reflexivity|cbn [chain_run finished c_explore c_chain]; rewrite Hs0].
  destruct fuel as [|fuel]; [reflexivity|cbn [chain_run finished c_explore c_chain]; rewrite Hs0'].
  specialize (Hloop fuel 2 (set_add 0 []) []).
  destruct (chain_run ut deg sched fuel 2 _) as [st r]; simpl in *; auto.
Qed.
Print Assumptions C15_termination_refuted.

(** Exactly: whatever the pop order, the search ends if and only if no forced cycle can be reached; there is then a
    bound on the number of turns that does not depend on the pop order. *)
Theorem C15_termination_exact :
  forall (N L : Type) (EN : EqDec N) (EL : EqDec L) (ordt : list (L * N) -> list (L * N)) (g : graph N L) (initial : N),
  is_order ordt -> reachable_graph g ->
  (forall u, ~ follows g u initial) ->
  (exists v, follows g initial v) ->
  (* if one can be reached, it is still running after any number of turns *)
  ((exists x, reach (follows g) initial x /\ forced_cycle_at (follows g) x) ->
   forall sched fuel, snd (get_max_chains ordt sched initial g fuel) = SRunning) /\
  (* otherwise it ends *)
  ((forall x, reach (follows g) initial x -> ~ forced_cycle_at (follows g) x) ->
   exists bound, forall sched fuel, bound <= fuel -> snd (get_max_chains ordt sched initial g fuel) = SDone).
Proof.
  intros N L EN EL ordt g initial Ho Hr Hi [v0 Hv0]; split.
  - intros Hx sched fuel. apply chains_endless; auto; [apply reachable_gwf, Hr|intros [u [Hu _]]; apply (Hi u), Hu|].
    exists initial, v0; auto.
  - intros Hno. destruct (C14_chains_complete N L EN EL ordt g initial Ho Hr Hi) as [fuel0 Hf]; [exists v0; exact Hv0|exact Hno|].
    exists fuel0; intros sched fuel Hle. destruct (Hf sched fuel Hle) as [out [E _]]; rewrite E; reflexivity.
Qed.
Print Assumptions C15_termination_exact.
(** Of [ex_loop], nodes 1 and 2 are a reachable forced cycle; [ex_chain_graph] has none (C14_ex). *)
Example C15_exact_ex : (forall u, ~ follows ex_loop u 0) /\ (exists v, follows ex_loop 0 v) /\
  reach (follows ex_loop) 0 1 /\ forced_cycle_at (follows ex_loop) 1.
Proof.
  assert (E : forall u v, follows ex_loop u v -> In (u, v) [(0, 1); (1, 2); (2, 1)]).
  { intros u v [l Hl]. assert (Hin : In (u, l, v) (all_transitions (fun l => l) ex_loop)).
    { apply all_transitions_In; [intros x; apply Permutation_refl| |auto]. repeat constructor; simpl; lia. }
    vm_compute in Hin; simpl; intuition congruence. }
  split; [intros u Hu; apply E in Hu; simpl in Hu; intuition congruence|].
  split; [exists 1, 0; reflexivity|]. split; [apply rt_step; exists 0; reflexivity|].
  apply t_trans with 2; apply t_step; (split; [exists 0; reflexivity|]); intros w Hw; apply E in Hw; simpl in Hw; intuition congruence.
Qed.

(** ... and a chain may be yielded twice, even on the conjugate of a task, depending on the order
    in which nodes are popped. *)
Theorem C15_once_refuted : exists (h : list (list (item nat nat))) c sched,
  from_task_graph (fun l => l) (fun l => l) 100 101 (add_paths ex_check h) = Ok c /\
  get_max_chains (fun l => l) sched 100 c 40 = ([[3; 4; 101]; [3; 4; 101]], SDone).
Proof.
  exists [ex_path [0; 1; 1; 3; 4; 4; 8]; ex_path [0; 2; 2; 3; 5; 4; 9]].
  eexists; exists (fun k => if Nat.eqb k 3 then 1 else 0); split; [vm_compute; reflexivity|vm_compute; reflexivity].
Qed.
Print Assumptions C15_once_refuted.

(** What holds: without a forced cycle the search ends, and it yields no chain twice if no chain
    starts at a node that is the only successor of another node. Missing: the graphs excluded by
    these two conditions, for which the claim is false in general. *)
Theorem C15_once_partial :
  forall (N L : Type) (EN : EqDec N) (EL : EqDec L) (ordt : list (L * N) -> list (L * N)) (g : graph N L) (initial : N),
  is_order ordt -> reachable_graph g ->
  (forall u, ~ follows g u initial) ->
  (exists v, follows g initial v) ->
  (forall x, reach (follows g) initial x -> ~ forced_cycle_at (follows g) x) ->
  (forall n c h, maximal_chain (follows g) c -> nth_error c 0 = Some h -> ~ only_succ (follows g) n h) ->
  exists fuel0, forall sched fuel, fuel0 <= fuel ->
    exists out, get_max_chains ordt sched initial g fuel = (out, SDone) /\ NoDup out.
Proof.
  intros N L EN EL ordt g initial Ho Hr Hi [v0 Hv0] Hno Hnf; apply reachable_gwf in Hr.
  destruct (chains_complete ordt Ho g Hr initial) as [fuel0 Hf].
  - intros [u [Hu _]]; apply (Hi u), Hu.
  - exists initial, v0; auto.
  - exact Hno.
  - exists fuel0; intros sched fuel Hle; destruct (Hf sched fuel Hle) as [out [E [_ [_ Hnd]]]].
    exists out; split; auto. apply Hnd; intros n y Hos [c [Hm Hh]]; eapply Hnf; eauto.
Qed.
Print Assumptions C15_once_partial.
Definition ex_branch_graph : graph nat nat :=
  adds [(0, 0, 1); (1, 0, 2); (2, 0, 3); (2, 1, 4); (3, 0, 5); (4, 0, 6)].
Lemma ex_branch_edges u v : follows ex_branch_graph u v <-> In (u, v) [(0, 1); (1, 2); (2, 3); (2, 4); (3, 5); (4, 6)].
Proof.
  split.
  - intros [l Hl].
    assert (Hin : In (u, l, v) (all_transitions (fun l => l) ex_branch_graph)).
    { apply all_transitions_In; [intros x; apply Permutation_refl| |auto]. repeat constructor; simpl; lia. }
    vm_compute in Hin; simpl; intuition congruence.
  - intros Hin; repeat (destruct Hin as [E|Hin]; [inversion E; subst; (exists 0; reflexivity) || (exists 1; reflexivity)|]); destruct Hin.
Qed.
Example C15_ex : (exists v, follows ex_branch_graph 0 v) /\ (forall x, ~ forced_cycle_at (follows ex_branch_graph) x) /\
  (forall n c h, maximal_chain (follows ex_branch_graph) c -> nth_error c 0 = Some h -> ~ only_succ (follows ex_branch_graph) n h) /\
  get_max_chains (fun l => l) (fun k => k) 0 ex_branch_graph 40 = ([[0; 1; 2]; [4; 6]; [3; 5]], SDone).
Proof.
  split; [exists 1, 0; reflexivity|]. split; [|split].
  - apply no_cycle_lt with (f := fun x => x). intros x y Hxy; apply ex_branch_edges in Hxy.
    repeat (destruct Hxy as [Hxy|Hxy]; [inversion Hxy; subst; lia|]); destruct Hxy.
  - intros n c h (_ & _ & _ & Hl) Hh Hos. apply (Hl n h Hh). split; auto. destruct Hos as [He Hu].
    split; auto. intros w Hw. apply ex_branch_edges in He; apply ex_branch_edges in Hw.
    simpl in He, Hw; intuition congruence.
  - vm_compute; reflexivity.
Qed.
