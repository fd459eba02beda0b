(** Properties C01-C10 and C16: paths and graphs of task_models/task.py. *)
From Verif Require Import PyBase PyBaseFacts GraphModel GraphSpec GraphProofs.

(** *** A concrete instance used by the examples: states are numbers, action [k]
    explains exactly the transitions that add [k]. *)
Definition ex_check (a s s' : nat) : res bool := Ok (Nat.eqb (s + a) s').
Definition ex_path (l : list nat) : list (item nat nat) :=   (* states at even, actions at odd positions *)
  map (fun ix => if Nat.even (fst ix) then IState (snd ix) else IAction (snd ix)) (enumerate l).

(** ** C01 *)
Theorem C01_check_path_exact : forall (S A : Type) (check : A -> S -> S -> res bool) (p : list (item S A)),
  check_path check p = Ok true <-> path_ok check p.
Proof. intros S A check p; rewrite check_path_vp, path_ok_iff; reflexivity. Qed.
Print Assumptions C01_check_path_exact.

Theorem C01_check_path_total : forall (S A : Type) (check : A -> S -> S -> res bool),
  (forall a s s' e, check a s s' = Err e -> e = EIndex) ->
  forall p : list (item S A), exists b, check_path check p = Ok b.
Proof. exact @check_path_total. Qed.
Print Assumptions C01_check_path_total.

Example C01_ex_valid : path_ok ex_check (ex_path [1; 2; 3; 4; 7]) /\
                       ~ path_ok ex_check (ex_path [1; 2; 3; 4; 8]) /\
                       ~ path_ok ex_check (ex_path [1; 2; 3; 4]).
Proof.
  rewrite <- !C01_check_path_exact; repeat split; try (vm_compute; congruence).
Qed.
Example C01_ex_total : forall a s s' e, ex_check a s s' = Err e -> e = EIndex.
Proof. discriminate. Qed.

(** ** C02 *)
Theorem C02_has_path_history :
  forall (S A : Type) (ES : EqDec S) (EA : EqDec A) (check : A -> S -> S -> res bool)
         (h : list (list (item S A))) (q : list (item S A)),
  path_ok check q ->
  exists b, has_path check (add_paths check h) q = Ok b /\ (b = true <-> accepted check h q).
Proof. intros S A ES EA check h q; apply has_path_correct. Qed.
Print Assumptions C02_has_path_history.

(** Every added path is recognised for ever after. *)
Theorem C02_added_path_recognised :
  forall (S A : Type) (ES : EqDec S) (EA : EqDec A) (check : A -> S -> S -> res bool)
         (h1 h2 : list (list (item S A))) (q : list (item S A)),
  path_ok check q ->
  snd (add_path check (add_paths check h1) q) = Ok tt /\
  has_path check (add_paths check (h1 ++ q :: h2)) q = Ok true.
Proof.
  intros S A ES EA check h1 h2 q Hq; split.
  - destruct (add_path_ok check (add_paths check h1) q Hq) as [g' [E _]]; rewrite E; reflexivity.
  - destruct (has_path_correct check (h1 ++ q :: h2) q Hq) as [b [E Hb]]; rewrite E; f_equal.
    apply Hb; assert (Hin : In q (h1 ++ q :: h2)) by (rewrite in_app_iff; simpl; auto).
    destruct q as [|x q']; [left; auto|right].
    assert (Hn : x :: q' <> []) by discriminate.
    pose proof (proj1 (path_ok_iff check _) Hq) as Hv.
    destruct (vp_last check _ Hv Hn) as [u Hu].
    assert (Hl : path_last (x :: q') u) by (apply (path_last_spec _ _ x); auto).
    assert (Hx : exists s, x = IState s) by (inversion Hv; eauto).
    destruct Hx as [v ->].
    split; [|split].
    + exists v; split; [reflexivity|]. exists (IState v :: q'); split; [auto|split; [auto|reflexivity]].
    + exists u; split; [auto|]. exists (IState v :: q'); split; [auto|split; auto].
    + intros s a s' Hs; exists (IState v :: q'); auto.
Qed.
Print Assumptions C02_added_path_recognised.

(** A path glued from two added paths is accepted although it was never added, one
    with a step of neither is not. *)
Example C02_ex :
  let h := [ex_path [0; 1; 1; 1; 2]; ex_path [1; 4; 5]] in
  has_path ex_check (add_paths ex_check h) (ex_path [0; 1; 1; 4; 5]) = Ok true /\
  has_path ex_check (add_paths ex_check h) (ex_path [0; 2; 2]) = Ok false /\
  path_ok ex_check (ex_path [0; 1; 1; 4; 5]) /\ path_ok ex_check (ex_path [0; 2; 2]).
Proof.
  cbv zeta; rewrite <- !C01_check_path_exact; vm_compute; auto.
Qed.

(** ** C03 *)
Theorem C03_invalid_path_rejected :
  forall (S A : Type) (ES : EqDec S) (EA : EqDec A) (check : A -> S -> S -> res bool)
         (g : task_graph S A) (p : list (item S A)),
  (forall a s s' e, check a s s' = Err e -> e = EIndex) ->
  ~ path_ok check p ->
  add_path check g p = (g, Err EValue) /\ has_path check g p = Err EValue.
Proof. intros; apply bad_path_rejected; auto. Qed.
Print Assumptions C03_invalid_path_rejected.

(** Whatever the action checks do, a path that is not accepted changes nothing. *)
Theorem C03_failed_add_path_no_effect :
  forall (S A : Type) (ES : EqDec S) (EA : EqDec A) (check : A -> S -> S -> res bool)
         (g : task_graph S A) (p : list (item S A)),
  snd (add_path check g p) <> Ok tt -> fst (add_path check g p) = g.
Proof.
  intros S A ES EA check g p Hn; unfold add_path in *; destruct (check_path check p) as [[]|]; simpl in *; congruence.
Qed.
Print Assumptions C03_failed_add_path_no_effect.

Example C03_ex : ~ path_ok ex_check (ex_path [0; 1; 1; 1]) /\
  add_path ex_check (add_paths ex_check [ex_path [0; 1; 1]]) (ex_path [0; 1; 1; 1])
  = (add_paths ex_check [ex_path [0; 1; 1]], Err EValue).
Proof. rewrite <- C01_check_path_exact; split; [vm_compute; congruence|vm_compute; auto]. Qed.

(** ** C04 *)
Theorem C04_transitions_are_a_set :
  forall (N L : Type) (EN : EqDec N) (EL : EqDec L) (ops : list (gop N L)),
  snd (graph_run [] ops) = snd (spec_run tset_empty ops) /\
  (forall s l d, has_transition (fst (graph_run [] ops)) s l d = fst (spec_run tset_empty ops) (s, l, d)).
Proof.
  intros N L EN EL ops.
  destruct (run_refines ops [] tset_empty gwf_empty (fun _ _ _ => eq_refl)) as [H1 [_ H2]]; auto.
Qed.
Print Assumptions C04_transitions_are_a_set.

Theorem C04_all_transitions_enumerates :
  forall (N L : Type) (EN : EqDec N) (EL : EqDec L) (ord : list (L * N) -> list (L * N)) (g : graph N L),
  is_order ord -> reachable_graph g ->
  NoDup (all_transitions ord g) /\
  (forall s l d, In (s, l, d) (all_transitions ord g) <-> has_transition g s l d = true) /\
  NoDup (all_nodes ord g) /\
  (forall n, In n (all_nodes ord g) <-> exists s l d, has_transition g s l d = true /\ (n = s \/ n = d)).
Proof.
  intros N L EN EL ord g Ho Hr; apply reachable_gwf in Hr; split; [|split; [|split]].
  - apply all_transitions_NoDup; auto.
  - apply all_transitions_In; [auto|apply Hr].
  - apply all_nodes_NoDup.
  - apply all_nodes_In; [auto|apply Hr].
Qed.
Print Assumptions C04_all_transitions_enumerates.

Example C04_ex :
  snd (graph_run (N := nat) (L := nat) [] [OAdd 1 2 3; OAdd 1 2 3; OHas 1 2 3; ORemove 1 2 3; OHas 1 2 3; ORemove 1 2 3])
  = [RNone; RNone; RBool true; RNone; RBool false; RKeyError].
Proof. vm_compute; auto. Qed.
Example C04_ex_order : is_order (fun l : list (nat * nat) => rev l).
Proof. intros l; apply Permutation_sym, Permutation_rev. Qed.

(** ** C05: equality of graphs is extensional only as long as nothing was removed. *)
Theorem C05_equality_refuted : exists g1 g2 : graph nat nat,
  reachable_graph g1 /\ reachable_graph g2 /\
  (forall s l d, has_transition g1 s l d = has_transition g2 s l d) /\
  graph_eqb g1 g2 = false.
Proof.
  exists (fst (graph_run [] [OAdd 1 2 3; ORemove 1 2 3])), [].
  split; [eexists; reflexivity|]. split; [exists []; reflexivity|].
  split; [|vm_compute; auto].
  intros s l d; cbv - [has_transition]; unfold has_transition; simpl.
  destruct (eq_dec s 1); reflexivity.
Qed.
Print Assumptions C05_equality_refuted.

(** Missing with respect to C05: the converse implication for graphs in which some
    node lost its last transition. *)
Theorem C05_equality_partial :
  forall (N L : Type) (EN : EqDec N) (EL : EqDec L),
  (* equal graphs always have the same transitions *)
  (forall g1 g2 : graph N L, reachable_graph g1 -> reachable_graph g2 -> graph_eqb g1 g2 = true ->
     forall s l d, has_transition g1 s l d = has_transition g2 s l d) /\
  (* and conversely for graphs built by additions only *)
  (forall ts1 ts2 : list (N * L * N),
     graph_eqb (adds ts1) (adds ts2) = true <-> (forall t, In t ts1 <-> In t ts2)).
Proof.
  intros N L EN EL; split.
  - intros g1 g2 R1 R2 E; apply reachable_gwf in R1, R2.
    apply graph_eqb_spec in E; tauto.
  - apply adds_eqb.
Qed.
Print Assumptions C05_equality_partial.

(** What equality means for all histories: the same transitions, and the same nodes from which a transition was
    ever added. *)
Theorem C05_equality_exact :
  forall (N L : Type) (EN : EqDec N) (EL : EqDec L) (ops1 ops2 : list (gop N L)),
  let g1 := fst (graph_run [] ops1) in
  let g2 := fst (graph_run [] ops2) in
  graph_eqb g1 g2 = true <->
  (forall s l d, has_transition g1 s l d = has_transition g2 s l d) /\
  (forall s, (exists l d, In (OAdd s l d) ops1) <-> (exists l d, In (OAdd s l d) ops2)).
Proof.
  intros N L EN EL ops1 ops2 g1 g2.
  assert (W1 : gwf g1) by (apply reachable_gwf; exists ops1; reflexivity).
  assert (W2 : gwf g2) by (apply reachable_gwf; exists ops2; reflexivity).
  rewrite (graph_eqb_spec g1 g2 W1 W2).
  assert (K : forall ops s, In s (keys (fst (graph_run [] ops))) <-> exists l d, In (OAdd s l d : gop N L) ops).
  { intros ops s. rewrite run_keys. split; [intros [[]|X]; exact X|auto]. }
  split; intros [X Y]; split; auto; intros s; specialize (K ops1 s) as K1; specialize (K ops2 s) as K2.
  - rewrite <- K1, <- K2. apply X.
  - unfold g1, g2. rewrite K1, K2. apply Y.
Qed.
Print Assumptions C05_equality_exact.
Example C05_exact_ex :
  graph_eqb (fst (graph_run [] [OAdd 1 2 3; ORemove 1 2 3; OAdd 4 5 6])) (fst (graph_run [] [OAdd 4 5 6; OAdd 1 7 7; ORemove 1 7 7])) = true /\
  graph_eqb (fst (graph_run [] [OAdd 1 2 3; ORemove 1 2 3; OAdd 4 5 6])) (fst (graph_run [] [OAdd 4 5 6])) = false.
Proof. vm_compute; auto. Qed.

Example C05_ex : graph_eqb (adds [(1, 2, 3); (2, 2, 2); (1, 4, 3)]) (adds [(2, 2, 2); (1, 4, 3); (1, 2, 3); (2, 2, 2)]) = true
              /\ graph_eqb (adds [(1, 2, 3); (1, 4, 3)]) (adds [(1, 2, 3)]) = false.
Proof. vm_compute; auto. Qed.

(** ** C06 *)
Theorem C06_compact_is_quotient :
  forall (N L : Type) (EN : EqDec N) (EL : EqDec L) (ord : list (L * N) -> list (L * N)) (empty_label : L)
         (g : graph N L) (nodes : list N) (new_node : N),
  is_order ord -> reachable_graph g ->
  exists g', compact ord empty_label g nodes new_node = Ok g' /\
    forall s l d, has_transition g' s l d = true <->
      compacted (fun s l d => has_transition g s l d = true) nodes new_node empty_label s l d.
Proof.
  intros N L EN EL ord e g nodes new Ho Hr; apply reachable_gwf in Hr.
  destruct (compact_correct ord e g nodes new Ho Hr) as [g' [E [_ Hh]]]; eauto.
Qed.
Print Assumptions C06_compact_is_quotient.

Example C06_ex :
  match compact (@rev _) 0 (fst (graph_run [] [OAdd 1 5 2; OAdd 2 6 3; OAdd 3 7 1; OAdd 3 8 4; OAdd 4 9 5])) [2; 3] 10 with
  | Ok g => all_transitions (fun l => l) g
  | Err _ => []
  end = [(1, 0, 10); (4, 9, 5); (10, 0, 4); (10, 0, 1)].
Proof. vm_compute; auto. Qed.

(** ** C07 *)
Theorem C07_determinism_check :
  forall (S A : Type) (ES : EqDec S) (EA : EqDec A) (ord : list (A * S) -> list (A * S)) (g : graph S A),
  is_order ord -> reachable_graph g ->
  (check_det ord g = Ok tt <-> deterministic g) /\
  (check_det ord g = Err EValue <-> ~ deterministic g).
Proof.
  intros S A ES EA ord g Ho Hr; apply reachable_gwf in Hr.
  destruct (check_det_correct ord g Ho Hr) as [[-> Hd]|[-> Hd]]; split; split; intros; try congruence; tauto.
Qed.
Print Assumptions C07_determinism_check.

Example C07_ex : check_det (fun l => l) (adds [(1, 2, 3); (1, 3, 3); (2, 2, 3)]) = Ok tt /\
                 check_det (fun l => l) (adds [(1, 2, 3); (1, 3, 3); (1, 2, 4)]) = Err EValue.
Proof. vm_compute; auto. Qed.

(** ** C08: on every graph built by add_path *)
Theorem C08_conjugate_transitions :
  forall (S A : Type) (ES : EqDec S) (EA : EqDec A) (check : A -> S -> S -> res bool)
         (ord : list (A * S) -> list (A * S)) (ords : list S -> list S) (initial terminal : A)
         (h : list (list (item S A))),
  is_order ord -> is_order ords ->
  let tg := add_paths check h in
  let trans := fun s a d => step_of_some check h s a d in
  (~ deterministic (tg_trans tg) -> from_task_graph ord ords initial terminal tg = Err EValue) /\
  (deterministic (tg_trans tg) ->
     (exists s, starts_some check h s /\ ~ exists a d, trans s a d) ->
     from_task_graph ord ords initial terminal tg = Err EKey) /\
  (deterministic (tg_trans tg) ->
     (forall s, starts_some check h s -> exists a d, trans s a d) ->
     exists c, from_task_graph ord ords initial terminal tg = Ok c /\
       forall x s y, has_transition c x s y = true <->
         conj_edge_spec trans (starts_some check h) (ends_some check h) initial terminal x s y).
Proof.
  intros S A ES EA check ord ords initial terminal h Ho1 Ho2 tg trans.
  destruct (add_paths_inv check h) as [Hw [Hi [Ht [Hs Hk]]]].
  pose proof (history_conj_defined check h) as Hdef.
  destruct (conj_correct ord ords Ho1 Ho2 initial terminal tg Hw)
    as [[Hd E]|[[Hd [Hn E]]|[Hd [Hdf [c [E [_ Hc]]]]]]]; (split; [|split]);
    try (intros; contradiction); try (intros; exact E).
  - intros _ X; exfalso; apply Hn, Hdef, X.
  - intros _ [s [Hst Hno]]; exfalso; apply Hno, Hdef; auto.
  - intros _ _; exists c; split; auto; intros x s y; rewrite Hc; split;
      intros X; inversion X as [s1 a1 d1 X1 X2|s1 a1 s2 X1 X2|s1 a1 s2 a2 d2 X1 X2 X3]; subst.
    + eapply CInit; [apply Hi; eauto|apply Hs; eauto].
    + eapply CTerm; [apply Hs; eauto|apply Ht; auto].
    + eapply CNext; [apply Hs; eauto|intros Y; apply X2, Ht, Y|apply Hs; eauto].
    + eapply CInit; [apply Hi; eauto|apply Hs; eauto].
    + eapply CTerm; [apply Hs; eauto|apply Ht; auto].
    + eapply CNext; [apply Hs; eauto|intros Y; apply X2, Ht, Y|apply Hs; eauto].
Qed.
Print Assumptions C08_conjugate_transitions.

Example C08_ex :
  match from_task_graph (fun l => l) (fun l => l) 100 101 (add_paths ex_check [ex_path [0; 1; 1; 2; 3]; ex_path [0; 2; 2; 1; 3]]) with
  | Ok c => all_transitions (fun l => l) c
  | Err _ => []
  end = [(100, 0, 1); (100, 0, 2); (1, 1, 2); (1, 3, 101); (2, 2, 1); (2, 3, 101)].
Proof. vm_compute; auto. Qed.

(** ** C09: false, when a path of the task passes through a state where another stops. *)
Theorem C09_conjugate_paths_refuted : exists (h : list (list (item nat nat))) q c,
  path_ok ex_check q /\ length q > 1 /\
  has_path ex_check (add_paths ex_check h) q = Ok true /\
  from_task_graph (fun l => l) (fun l => l) 100 101 (add_paths ex_check h) = Ok c /\
  ~ conj_walk 101 (fun x s y => has_transition c x s y = true) 100 q.
Proof.
  exists [ex_path [0; 1; 1]; ex_path [0; 1; 1; 2; 3]], (ex_path [0; 1; 1; 2; 3]).
  eexists; split; [apply C01_check_path_exact; vm_compute; auto|].
  split; [simpl; lia|]. split; [vm_compute; auto|]. split; [vm_compute; reflexivity|].
  intros W; inversion W as [|from s a rest W1 W2]; subst.
  inversion W2 as [|from s a rest W3 W4]; subst; vm_compute in W3; discriminate.
Qed.
Print Assumptions C09_conjugate_paths_refuted.

(** Missing with respect to C09: paths one of whose inner states also ends an added path. *)
Theorem C09_conjugate_paths_partial :
  forall (S A : Type) (ES : EqDec S) (EA : EqDec A) (check : A -> S -> S -> res bool)
         (ord : list (A * S) -> list (A * S)) (ords : list S -> list S) (initial terminal : A)
         (h : list (list (item S A))) (q : list (item S A)) (c : graph A S),
  is_order ord -> is_order ords ->
  from_task_graph ord ords initial terminal (add_paths check h) = Ok c ->
  path_ok check q -> length q > 1 -> has_path check (add_paths check h) q = Ok true ->
  (forall i u, 0 < i -> 2 * i + 1 < length q -> nth_error q (2 * i) = Some (IState u) -> ~ ends_some check h u) ->
  conj_walk terminal (fun x s y => has_transition c x s y = true) initial q.
Proof. intros; eapply conjugate_has_walk; eauto. Qed.
Print Assumptions C09_conjugate_paths_partial.

(** Exactly: an accepted path is one of the conjugate if and only if no added path ends at one of its inner states. *)
Theorem C09_conjugate_paths_exact :
  forall (S A : Type) (ES : EqDec S) (EA : EqDec A) (check : A -> S -> S -> res bool)
         (ord : list (A * S) -> list (A * S)) (ords : list S -> list S) (initial terminal : A)
         (h : list (list (item S A))) (q : list (item S A)) (c : graph A S),
  is_order ord -> is_order ords ->
  from_task_graph ord ords initial terminal (add_paths check h) = Ok c ->
  path_ok check q -> length q > 1 -> has_path check (add_paths check h) q = Ok true ->
  (* the two markers are not actions of the path *)
  (forall s a d, path_step q s a d -> a <> initial /\ a <> terminal) ->
  (conj_walk terminal (fun x s y => has_transition c x s y = true) initial q <->
   forall i u, 0 < i -> 2 * i + 1 < length q -> nth_error q (2 * i) = Some (IState u) -> ~ ends_some check h u).
Proof.
  intros S A ES EA check ord ords initial terminal h q c H1 H2 H3 H4 H5 H6 H7; split.
  - intros W. exact (conjugate_walk_inner check ord ords initial terminal h q c H1 H2 H3 H4 H7 W).
  - intros X. eapply conjugate_has_walk; eauto.
Qed.
Print Assumptions C09_conjugate_paths_exact.
(** The path of [C09_conjugate_paths_refuted] meets the hypotheses, with an inner state that ends another path. *)
Example C09_exact_ex : exists c,
  let h := [ex_path [0; 1; 1]; ex_path [0; 1; 1; 2; 3]] in
  let q := ex_path [0; 1; 1; 2; 3] in
  from_task_graph (fun l => l) (fun l => l) 100 101 (add_paths ex_check h) = Ok c /\
  path_ok ex_check q /\ length q > 1 /\ has_path ex_check (add_paths ex_check h) q = Ok true /\
  (forall s a d, path_step q s a d -> a <> 100 /\ a <> 101) /\
  ends_some ex_check h 1.
Proof.
  eexists; split; [vm_compute; reflexivity|].
  split; [apply C01_check_path_exact; vm_compute; auto|].
  split; [simpl; lia|]. split; [vm_compute; auto|]. split.
  - intros s a d X. apply path_step_split in X. vm_compute in X.
    repeat (destruct X as [X|X]; [inversion X; subst; split; lia|]). destruct X.
  - exists (ex_path [0; 1; 1]); split; [simpl; auto|]. split; [apply C01_check_path_exact; vm_compute; auto|].
    split; [discriminate|reflexivity].
Qed.

Example C09_ex : exists c,
  let h := [ex_path [0; 1; 1; 2; 3]; ex_path [0; 2; 2; 1; 3]] in
  let q := ex_path [0; 2; 2; 1; 3] in
  from_task_graph (fun l => l) (fun l => l) 100 101 (add_paths ex_check h) = Ok c /\
  path_ok ex_check q /\ length q > 1 /\ has_path ex_check (add_paths ex_check h) q = Ok true /\
  forall i u, 0 < i -> 2 * i + 1 < length q -> nth_error q (2 * i) = Some (IState u) -> ~ ends_some ex_check h u.
Proof.
  eexists; split; [vm_compute; reflexivity|].
  split; [apply C01_check_path_exact; vm_compute; auto|].
  split; [simpl; lia|]. split; [vm_compute; auto|].
  intros i u Hi Hl E [p [Hin [_ [_ Hp]]]]; simpl in Hl.
  assert (i = 1) by lia; subst i; vm_compute in E; inversion E; subst u.
  destruct Hin as [<-|[<-|[]]]; vm_compute in Hp; discriminate.
Qed.

(** ** C10: false, because of paths reduced to one state *)
Theorem C10_conjugate_succeeds_refuted : exists (h : list (list (item nat nat))),
  (forall p, In p h -> path_ok ex_check p) /\
  deterministic (tg_trans (add_paths ex_check h)) /\
  from_task_graph (fun l => l) (fun l => l) 100 101 (add_paths ex_check h) = Err EKey.
Proof.
  exists [ex_path [0]; ex_path [1; 1; 2]]; split; [|split].
  - intros p [<-|[<-|[]]]; apply C01_check_path_exact; vm_compute; auto.
  - apply (C07_determinism_check nat nat _ _ (fun l => l)).
    + intros l; apply Permutation_refl.
    + exists [OAdd 1 1 2]; reflexivity.
    + vm_compute; auto.
  - vm_compute; auto.
Qed.
Print Assumptions C10_conjugate_succeeds_refuted.

(** Missing with respect to C10: histories with a one-state path whose state starts no step. *)
Theorem C10_conjugate_succeeds_partial :
  forall (S A : Type) (ES : EqDec S) (EA : EqDec A) (check : A -> S -> S -> res bool)
         (ord : list (A * S) -> list (A * S)) (ords : list S -> list S) (initial terminal : A)
         (h : list (list (item S A))),
  is_order ord -> is_order ords ->
  (forall p, In p h -> path_ok check p -> length p <> 1) ->
  (exists c, from_task_graph ord ords initial terminal (add_paths check h) = Ok c) <->
  deterministic (tg_trans (add_paths check h)).
Proof.
  intros S A ES EA check ord ords initial terminal h Ho1 Ho2 Hlen.
  destruct (C08_conjugate_transitions S A ES EA check ord ords initial terminal h Ho1 Ho2) as [H1 [H2 H3]].
  cbv zeta in *.
  assert (Hex : forall s, starts_some check h s -> exists a d, step_of_some check h s a d).
  { intros s [p [Hin [Hp Hf]]]; pose proof (Hlen p Hin Hp) as Hl.
    pose proof (proj1 (path_ok_iff check p) Hp) as Hv.
    revert Hl Hin Hp Hf; destruct Hv as [|u|u a v tl Hc Hv']; intros Hl Hin Hp Hf; simpl in Hl; try congruence;
      [discriminate|].
    unfold path_first in Hf; simpl in Hf; inversion Hf; subst u.
    exists a, v, (IState s :: IAction a :: IState v :: tl); split; auto; split; auto.
    apply path_step_split; simpl; auto. }
  split.
  - intros [c E].
    destruct (add_paths_inv check h) as [Hw _].
    destruct (check_det_correct ord _ Ho1 Hw) as [[_ Hd]|[_ Hd]]; [exact Hd|].
    rewrite (H1 Hd) in E; discriminate.
  - intros Hd; destruct (H3 Hd Hex) as [c [E _]]; eauto.
Qed.
Print Assumptions C10_conjugate_succeeds_partial.

(** Exactly: conjugate() succeeds if and only if the task is deterministic and the state of every added one-state
    path has a step in some added path. *)
Theorem C10_conjugate_succeeds_exact :
  forall (S A : Type) (ES : EqDec S) (EA : EqDec A) (check : A -> S -> S -> res bool)
         (ord : list (A * S) -> list (A * S)) (ords : list S -> list S) (initial terminal : A)
         (h : list (list (item S A))),
  is_order ord -> is_order ords ->
  (exists c, from_task_graph ord ords initial terminal (add_paths check h) = Ok c) <->
  deterministic (tg_trans (add_paths check h)) /\
  (forall s, In [IState s] h -> exists a d, step_of_some check h s a d).
Proof.
  intros S A ES EA check ord ords initial terminal h Ho1 Ho2.
  destruct (C08_conjugate_transitions S A ES EA check ord ords initial terminal h Ho1 Ho2) as [H1 [H2 H3]].
  cbv zeta in *.
  split.
  - intros [c E].
    assert (Hd : deterministic (tg_trans (add_paths check h))).
    { destruct (add_paths_inv check h) as [Hw _].
      destruct (check_det_correct ord _ Ho1 Hw) as [[_ Hd]|[_ Hd]]; [exact Hd|].
      rewrite (H1 Hd) in E; discriminate. }
    split; [exact Hd|]. intros s Hs.
    destruct (add_paths_inv check h) as [Hw _].
    destruct (conj_correct ord ords Ho1 Ho2 initial terminal (add_paths check h) Hw)
      as [[_ E']|[[_ [_ E']]|[_ [Hdef _]]]]; try congruence.
    apply (proj1 (history_conj_defined check h) Hdef).
    exists [IState s]; split; [exact Hs|]. split; [|reflexivity].
    apply C01_check_path_exact; reflexivity.
  - intros [Hd Hone]. destruct (H3 Hd) as [c [E _]]; [|eauto].
    intros s [p [Hin [Hp Hf]]].
    pose proof (proj1 (path_ok_iff check p) Hp) as Hv.
    revert Hin Hp Hf; destruct Hv as [|u|u a v tl Hc Hv']; intros Hin Hp Hf;
      unfold path_first in Hf; simpl in Hf; inversion Hf; subst.
    + apply Hone, Hin.
    + exists a, v, (IState s :: IAction a :: IState v :: tl); split; auto; split; auto.
      apply path_step_split; simpl; auto.
Qed.
Print Assumptions C10_conjugate_succeeds_exact.
Example C10_exact_ex : let h := [ex_path [1]; ex_path [0; 1; 1; 2; 3]] in
  (exists c, from_task_graph (fun l => l) (fun l => l) 100 101 (add_paths ex_check h) = Ok c) /\
  from_task_graph (fun l => l) (fun l => l) 100 101 (add_paths ex_check (ex_path [3] :: h)) = Err EKey.
Proof. split; [eexists|]; vm_compute; reflexivity. Qed.

Example C10_ex : let h := [ex_path [0; 1; 1; 2; 3]; ex_path []; ex_path [0; 2; 2; 1; 3]] in
  (forall p, In p h -> path_ok ex_check p -> length p <> 1) /\
  exists c, from_task_graph (fun l => l) (fun l => l) 100 101 (add_paths ex_check h) = Ok c.
Proof.
  split; [|eexists; vm_compute; reflexivity].
  intros p [<-|[<-|[<-|[]]]] _; simpl; lia.
Qed.

(** ** C16 *)
Theorem C16_graph_export :
  forall (N L T : Type) (EN : EqDec N) (EL : EqDec L) (strn : N -> T) (strl : L -> T)
         (ord : list (L * N) -> list (L * N)) (ordn : list N -> list N) (g : graph N L),
  is_order ord -> is_order ordn -> reachable_graph g ->
  exists nodes links (ns : list N) (ts : list (N * L * N)) (idx : N -> nat),
    graph_as_dictionary strn strl ord ordn g = Ok (nodes, links) /\
    (* [ns] are the nodes of the graph, each once, and the exported ids are 0..n-1 in that order *)
    NoDup ns /\
    (forall n, In n ns <-> exists s l d, has_transition g s l d = true /\ (n = s \/ n = d)) /\
    map gn_id nodes = seq 0 (length ns) /\
    map gn_label nodes = map strn ns /\
    (* [ts] are the transitions of the graph, each once, and the links are those with nodes
       replaced by their position in [ns] *)
    NoDup ts /\ (forall s l d, In (s, l, d) ts <-> has_transition g s l d = true) /\
    (forall n i, nth_error ns i = Some n -> idx n = i) /\
    map (fun k => (gl_u k, gl_label k, gl_v k)) links =
      map (fun t => (idx (fst (fst t)), strl (snd (fst t)), idx (snd t))) ts.
Proof.
  intros N L T EN EL strn strl ord ordn g H1 H2 H3; apply reachable_gwf in H3.
  apply as_dictionary_correct; auto.
Qed.
Print Assumptions C16_graph_export.

Example C16_ex : graph_as_dictionary (fun n => n) (fun n => n) (fun l => l) (@rev _) (adds [(7, 1, 8); (8, 2, 9)])
  = Ok ([{| gn_id := 0; gn_label := 9 |}; {| gn_id := 1; gn_label := 8 |}; {| gn_id := 2; gn_label := 7 |}],
        [{| gl_u := 2; gl_v := 1; gl_label := 1 |}; {| gl_u := 1; gl_v := 0; gl_label := 2 |}]).
Proof. vm_compute; auto. Qed.
