(** Property C15, exactly: which chains may be yielded twice. *)
From Verif Require Import PyBase PyBaseFacts GraphModel GraphSpec GraphProofs ChainModel ChainSpec ChainProofs ChainOnceSpec ChainOnceProofs Props_Graph Props_Chain.
From Coq Require Import Relations.

(** A chain may be yielded twice if and only if its first node is found again: one is led to it, without any choice,
    from a node that follows two others, of which one leads nowhere else and can be found after the other. Otherwise
    it is yielded at most once, whatever the pop order, even by a search that does not end. *)
Theorem C15_once_exact :
  forall (N L : Type) (EN : EqDec N) (EL : EqDec L) (ordt : list (L * N) -> list (L * N)) (g : graph N L) (initial : N) (c : list N) (h : N),
  is_order ordt -> reachable_graph g ->
  (forall u, ~ follows g u initial) ->
  (exists v, follows g initial v) ->
  maximal_chain (follows g) c -> nth_error c 0 = Some h ->
  (forall sched fuel, twice c (fst (get_max_chains ordt sched initial g fuel)) -> found_again (follows g) initial h) /\
  ((forall x, reach (follows g) initial x -> ~ forced_cycle_at (follows g) x) -> found_again (follows g) initial h ->
   exists sched fuel out, get_max_chains ordt sched initial g fuel = (out, SDone) /\ twice c out).
Proof.
  intros N L EN EL ordt g initial c h Ho Hr Hi [v0 Hv0] Hm Hh; apply reachable_gwf in Hr.
  assert (Hn : gnode_of g initial) by (exists initial, v0; auto).
  split; [intros sched fuel T; exact (twice_again ordt Ho g Hr initial Hi Hn sched fuel c h T Hh)|].
  intros Hno Ha. exact (again_twice ordt Ho g Hr initial Hi Hn c h Hno Hm Hh Ha).
Qed.
Print Assumptions C15_once_exact.

(** So no order of popping ever repeats a chain if and only if none starts at a node that is found again. *)
Theorem C15_never_twice :
  forall (N L : Type) (EN : EqDec N) (EL : EqDec L) (ordt : list (L * N) -> list (L * N)) (g : graph N L) (initial : N),
  is_order ordt -> reachable_graph g ->
  (forall u, ~ follows g u initial) ->
  (exists v, follows g initial v) ->
  (forall x, reach (follows g) initial x -> ~ forced_cycle_at (follows g) x) ->
  ((forall sched fuel, NoDup (fst (get_max_chains ordt sched initial g fuel))) <->
   (forall c h, maximal_chain (follows g) c -> nth_error c 0 = Some h -> ~ found_again (follows g) initial h)).
Proof.
  intros N L EN EL ordt g initial Ho Hr Hi Hv Hno. split.
  - intros Hnd c h Hm Hh Ha.
    destruct (proj2 (C15_once_exact N L EN EL ordt g initial c h Ho Hr Hi Hv Hm Hh) Hno Ha) as (sched & fuel & out & E & i & j & Hij & Ei & Ej).
    specialize (Hnd sched fuel). rewrite E in Hnd. apply Hij.
    apply (proj1 (NoDup_nth_error out) Hnd); [apply nth_error_Some; congruence|congruence].
  - intros Hall sched fuel. apply NoDup_nth_error. intros i j Hlt E. cbn [fst] in *.
    destruct (Nat.eq_dec i j) as [|Hne]; [assumption|exfalso].
    destruct (nth_error (fst (get_max_chains ordt sched initial g fuel)) i) as [c|] eqn:Ei; [|apply nth_error_Some in Hlt; congruence].
    pose proof (C13_chains_are_maximal N L EN EL ordt sched g initial fuel Ho Hr Hi c (nth_error_In _ _ Ei)) as Hm.
    destruct (nth_error c 0) as [h|] eqn:Eh; [|destruct Hm as [Hl _]; destruct c; [cbn in Hl; lia|discriminate]].
    apply (Hall c h Hm Eh). apply (proj1 (C15_once_exact N L EN EL ordt g initial c h Ho Hr Hi Hv Hm Eh) sched fuel).
    exists i, j. auto.
Qed.
Print Assumptions C15_never_twice.

(** Node 2 follows 1 and 4, and is all that follows 1; but 4 is only found after 1, and 2 is not all that follows 4:
    the chain from 2 is yielded once in any order. *)
Definition ex_back : graph nat nat := adds [(0, 0, 1); (0, 0, 6); (1, 0, 2); (2, 0, 3); (3, 0, 4); (4, 0, 2); (4, 0, 5)].
Lemma ex_back_edges u v : follows ex_back u v <-> In (u, v) [(0, 1); (0, 6); (1, 2); (2, 3); (3, 4); (4, 2); (4, 5)].
Proof.
  split.
  - intros [l Hl].
    assert (Hin : In (u, l, v) (all_transitions (fun l => l) ex_back)).
    { apply all_transitions_In; [intros x; apply Permutation_refl| |auto]. repeat constructor; simpl; lia. }
    vm_compute in Hin; simpl; intuition congruence.
  - intros Hin; repeat (destruct Hin as [E|Hin]; [inversion E; subst; exists 0; reflexivity|]); destruct Hin.
Qed.
Lemma back_succ u v : only_succ (follows ex_back) u v <-> In (u, v) [(1, 2); (2, 3); (3, 4)].
Proof.
  split.
  - intros [He Hu]. apply ex_back_edges in He. cbn in He.
    assert (N0 : ~ (u = 0)). { intros ->. assert (1 = v) by (apply Hu, ex_back_edges; cbn; auto). assert (6 = v) by (apply Hu, ex_back_edges; cbn; auto). congruence. }
    assert (N4 : ~ (u = 4)). { intros ->. assert (2 = v) by (apply Hu, ex_back_edges; cbn; auto 10). assert (5 = v) by (apply Hu, ex_back_edges; cbn; auto 10). congruence. }
    cbn. intuition congruence.
  - intros Hin. split; [apply ex_back_edges; cbn in *; intuition congruence|].
    intros w Hw. apply ex_back_edges in Hw. cbn in Hin, Hw. intuition congruence.
Qed.
Example C15_once_ex : reachable_graph ex_back /\ (forall u, ~ follows ex_back u 0) /\ (exists v, follows ex_back 0 v) /\
  maximal_chain (follows ex_back) [2; 3; 4] /\ only_succ (follows ex_back) 1 2 /\ ~ found_again (follows ex_back) 0 2 /\
  get_max_chains (fun l => l) (fun k => k) 0 ex_back 40 = ([[2; 3; 4]], SDone).
Proof.
  split; [|split; [|split; [|split; [|split; [|split]]]]].
  - exists (map (fun t => OAdd (fst (fst t)) (snd (fst t)) (snd t)) [(0, 0, 1); (0, 0, 6); (1, 0, 2); (2, 0, 3); (3, 0, 4); (4, 0, 2); (4, 0, 5)]); reflexivity.
  - intros u Hu. apply ex_back_edges in Hu. cbn in Hu. intuition congruence.
  - exists 1. apply ex_back_edges. cbn; auto.
  - split; [cbn; lia|]. split; [|split].
    + intros i u v E1 E2. assert (Huv : In (u, v) [(2, 3); (3, 4)]).
      { destruct i as [|[|[|i]]]; cbn in E1, E2; [| |discriminate|destruct i; discriminate];
          (assert (u = _) as -> by (symmetry; injection E1; exact (fun x => x)); assert (v = _) as -> by (symmetry; injection E2; exact (fun x => x)); cbn; auto). }
      split; [apply back_succ; cbn in *; tauto|]. split; [apply ex_back_edges; cbn in *; tauto|].
      intros w Hw. apply ex_back_edges in Hw. cbn in Huv, Hw. intuition congruence.
    + intros u v E [Hs _]. cbn in E. assert (u = 4) as -> by congruence. apply back_succ in Hs. cbn in Hs. intuition congruence.
    + intros u v E [_ [_ Hp]]. cbn in E. assert (v = 2) as -> by congruence.
      assert (1 = u) by (apply Hp, ex_back_edges; cbn; auto). assert (4 = u) by (apply Hp, ex_back_edges; cbn; auto 10). congruence.
  - apply back_succ. cbn; auto.
  - intros (x & (m & n & Hmn & Hmx & Hnx & _ & H0 & Hp) & _). apply back_succ in Hnx. apply ex_back_edges in Hmx.
    assert (D : m = 4 /\ n = 1). { cbn in Hmx, Hnx. intuition congruence. } destruct D as [-> ->].
    assert (G : forall v, clos_refl_trans nat (fun a b => follows ex_back a b /\ b <> 1) 0 v -> v = 0 \/ v = 6).
    { intros v Hv. apply clos_rt_rtn1 in Hv. induction Hv as [|a b [Hab Hb] _ IH]; [auto|].
      apply ex_back_edges in Hab. cbn in Hab. intuition congruence. }
    destruct (G 4 Hp); discriminate.
  - vm_compute. reflexivity.
Qed.

(** With another edge, 6 leads to 2 as well, and the chain is yielded twice in some orders. *)
Definition ex_again : graph nat nat := adds [(0, 0, 1); (0, 0, 6); (1, 0, 2); (2, 0, 3); (3, 0, 4); (4, 0, 2); (4, 0, 5); (6, 0, 2)].
Example C15_once_ex_again : found_again (follows ex_again) 0 2 /\
  get_max_chains (fun l => l) (fun k => k) 0 ex_again 40 = ([[2; 3; 4]; [2; 3; 4]], SDone).
Proof.
  assert (He : forall u v, follows ex_again u v -> In (u, v) [(0, 1); (0, 6); (1, 2); (2, 3); (3, 4); (4, 2); (4, 5); (6, 2)]).
  { intros u v [l Hl]. assert (Hin : In (u, l, v) (all_transitions (fun l => l) ex_again)).
    { apply all_transitions_In; [intros x; apply Permutation_refl| |auto]. repeat constructor; simpl; lia. }
    vm_compute in Hin; simpl; intuition congruence. }
  split; [|vm_compute; reflexivity].
  exists 2. split; [|apply rt_refl]. exists 6, 1. split; [discriminate|]. split; [exists 0; reflexivity|]. split.
  - split; [exists 0; reflexivity|]. intros w Hw. apply He in Hw. cbn in Hw. intuition congruence.
  - split; [apply rt_step; exists 0; reflexivity|]. split; [discriminate|]. apply rt_step. split; [exists 0; reflexivity|discriminate].
Qed.
