(** C115: the tasks of the experiments ask what they say. *)
From Verif Require Import PyBase PyBaseFacts QBase HtmModel HtmSpec DagModel DagSpec SuppModel SuppProofs SuppProofs2 SuppProofs3 SuppProofs4 RunModel RunProofs RunProofs2 JobModel LegsSpec LegsProofs.
From Coq Require Import Lia Permutation.
Local Open Scope list_scope.
Local Open Scope nat_scope.

(** The task 'sequence' asks to assemble n legs in order and nothing else. *)
Theorem C115_sequence : forall n, exists t, task_long_sequence n = Ok t /\ forall word, executes step_of t word <-> word = legs n.
Proof.
  intros n. exists (seq_leaves (map (fun i => assemble_leg ("leg-" ++ str_nat i)%string) (seq 0 n))).
  split; [unfold task_long_sequence, combine_as, seq_leaves; rewrite map_map; reflexivity|]. intros word. rewrite seq_exec, map_map. reflexivity.
Qed.
Print Assumptions C115_sequence.
Example C115_ex_sequence : legs 2 = [asks "Assemble leg-0" (Some "h"%string) leg_needs; asks "Assemble leg-1" (Some "h"%string) leg_needs] /\ leg_name 12 = "leg-12"%string.
Proof. split; reflexivity. Qed.

Lemma choice_built l : l <> [] -> exists pr, task_seqs l = Ok (alts (map hold_leaves l) pr).
Proof.
  intros Hn. unfold task_seqs. rewrite mapM_task_seq. cbn [bind]. unfold combine_as, mk_comb.
  destruct (alt_proba (length (map (fun w => seq_leaves (hold_leaves w)) l)) None) as [pr|e] eqn:E.
  - exists (Some pr). change (alt_proba _ None) with (alt_proba (length (map (fun w => seq_leaves (hold_leaves w)) l)) None). rewrite E. cbn [bind]. unfold alts. rewrite map_map. reflexivity.
  - exfalso. unfold alt_proba in E. rewrite map_length in E. destruct l; [congruence|discriminate].
Qed.
Lemma choice_exec l pr word : executes step_of (alts (map hold_leaves l) pr) word <-> exists ways, In ways l /\ word = held ways.
Proof.
  unfold alts. rewrite alts_exec. split.
  - intros (x & Hx & ->). apply in_map_iff in Hx. destruct Hx as (ways & <- & Hw). exists ways. split; [exact Hw|]. unfold hold_leaves. rewrite map_map. reflexivity.
  - intros (ways & Hw & ->). exists (hold_leaves ways). split; [apply in_map; exact Hw|]. unfold hold_leaves. rewrite map_map. reflexivity.
Qed.
(** The task 'uniform' asks for any sequence of n ways to hold, and the task 'alternative' for one of four. *)
Theorem C115_uniform : forall n, exists t, task_uniform n = Ok t /\ forall word, executes step_of t word <-> exists ways, hold_ways n ways /\ word = held ways.
Proof.
  intros n. unfold task_uniform. destruct (choice_built (product_hv n)) as (pr & E). { intros H. pose proof (proj1 (product_hv_length n)) as L. rewrite H in L. cbn in L. pose proof (Nat.pow_nonzero 2 n). lia. }
  eexists. split; [exact E|]. intros word. rewrite choice_exec. split; intros (ways & H1 & H2); exists ways; (split; [apply in_product; exact H1|exact H2]).
Qed.
Print Assumptions C115_uniform.
Theorem C115_alternative : exists t, task_alternative = Ok t /\ forall word, executes step_of t word <-> exists ways, In ways four_ways /\ word = held ways.
Proof.
  destruct (choice_built four_ways) as (pr & E); [discriminate|]. eexists. split; [exact E|]. intros word. apply choice_exec.
Qed.
Print Assumptions C115_alternative.
Example C115_ex_uniform : hold_ways 3 ["h"; "v"; "h"]%string /\ held ["h"; "v"]%string = [asks "Assemble leg" (Some "h"%string) leg_needs; asks "Assemble leg" (Some "v"%string) leg_needs].
Proof. split; [split; [reflexivity|]|reflexivity]. intros h [<-|[<-|[<-|[]]]]; auto. Qed.

(** The task of supportive.py and of the POMCP job is the stool. *)
Theorem C115_stool : exists t, task_stool = Ok t /\ forall word, executes step_of t word <-> word = stool.
Proof.
  set (part := fun i => let leg := ("leg-" ++ str_nat i)%string in [assemble_leg leg; assemble_leg_to_top leg (i =? 0)]).
  exists (Node Sequential (map seq_leaves (map part (seq 0 4))) None None "unnamed" false None). split; [reflexivity|]. intros word. rewrite seqs_exec. reflexivity.
Qed.
Print Assumptions C115_stool.
Example C115_ex_stool : length stool = 8 /\ nth_error stool 1 = Some (asks "Assemble leg-0 to top" (Some "v"%string) [(CConsumes, "top"); (CUses, "screwdriver"); (CUses, "screws")]%string) /\
  nth_error stool 7 = Some (asks "Assemble leg-3 to top" (Some "v"%string) [(CUses, "screwdriver"); (CUses, "screws")]%string).
Proof. repeat split. Qed.

(** In the models of the tasks 'uniform' and 'alternative', each possible sequence has its own first leaf, from which it is the only one to follow; no leaf
    is first for anything else.  So a first leaf that is drawn evenly draws the sequence evenly. *)
Definition even_choice (ordn : list nat -> list nat) (t : stree) (possible : list string -> Prop) (count : nat) : Prop :=
  exists nodes succs init, htm_to_dag ordn t = Ok (nodes, succs, init) /\ NoDup init /\ length init = count /\
  (forall i, In i init -> exists ways, possible ways /\ forall walk, full_walk succs i walk -> map (node_label step_of nodes) walk = map Some (held ways)) /\
  (forall ways, possible ways -> exists! i, In i init /\ exists walk, full_walk succs i walk /\ map (node_label step_of nodes) walk = map Some (held ways)).
Lemma held_inj w v : map Some (held w) = map Some (held v) -> w = v.
Proof. revert v. induction w as [|x w IH]; intros [|y v] H; try discriminate; [reflexivity|]. cbn in H. injection H as E H. f_equal; [exact E|]. apply IH. exact H. Qed.
Lemma choice_even ordn l pr k : is_order ordn -> 1 <= k -> l <> [] -> NoDup l -> (forall w, In w l -> length w = k) -> even_choice ordn (alts (map hold_leaves l) pr) (fun ways => In ways l) (length l).
Proof.
  intros Ho Hk Hn Hd Hl. assert (Hne : forall x, In x (map hold_leaves l) -> x <> []). { intros x Hx. apply in_map_iff in Hx. destruct Hx as (w & <- & Hw). specialize (Hl w Hw). destruct w; [cbn in Hl; lia|discriminate]. }
  destruct (dag_alts ordn (map hold_leaves l) pr Ho) as (init & E & P); [destruct l; [congruence|discriminate]|exact Hne|].
  destruct (walk_starts step_of (map hold_leaves l) Hne [] [] eq_refl) as [W1 W2]. cbn [length app] in W1, W2.
  exists (map leaf_of (concat (map hold_leaves l))), (chains 0 (map hold_leaves l)), init. split; [exact E|].
  split; [apply (Permutation_NoDup (Permutation_sym P)); apply starts_nodup; exact Hne|].
  split; [rewrite (Permutation_length P), starts_length, map_length; reflexivity|].
  assert (K : forall j i, nth_error (starts 0 (map hold_leaves l)) j = Some i -> exists w, nth_error l j = Some w /\
    forall walk, full_walk (chains 0 (map hold_leaves l)) i walk <-> walk = seq i (length (hold_leaves w)) /\ map (node_label step_of (map leaf_of (concat (map hold_leaves l)))) walk = map Some (held w)).
  { intros j i Hj. destruct (Forall2_nth _ _ _ _ _ W1 Hj) as (x & X1 & X2). destruct (Forall2_nth _ _ _ _ _ W2 Hj) as (x' & X3 & X4). assert (x' = x) as -> by congruence.
    rewrite nth_error_map in X1. destruct (nth_error l j) as [w|]; [|discriminate]. cbn in X1. injection X1 as <-. exists w. split; [reflexivity|]. intros walk. rewrite X2. split; [|tauto].
    intros ->. split; [reflexivity|]. rewrite X4. unfold hold_leaves, held. rewrite !map_map. reflexivity. }
  split.
  - intros i Hi. apply (Permutation_in _ P) in Hi. apply In_nth_error in Hi. destruct Hi as [j Hj]. destruct (K j i Hj) as (w & Kw & Kf). exists w. split; [eapply nth_error_In; eauto|].
    intros walk Hw. apply Kf in Hw. apply Hw.
  - intros ways Hw. apply In_nth_error in Hw. destruct Hw as [j Hj]. destruct (nth_error (starts 0 (map hold_leaves l)) j) as [i|] eqn:Ei.
    2:{ apply nth_error_None in Ei. rewrite starts_length, map_length in Ei. assert (j < length l) by (apply nth_error_Some; congruence). lia. }
    destruct (K j i Ei) as (w & Kw & Kf). assert (w = ways) as -> by congruence. exists i. split.
    + split; [apply (Permutation_in _ (Permutation_sym P)); eapply nth_error_In; eauto|]. exists (seq i (length (hold_leaves ways))). destruct (Forall2_nth _ _ _ _ _ W1 Ei) as (x & X1 & X2).
      rewrite nth_error_map, Hj in X1. cbn in X1. injection X1 as <-. assert (F : full_walk (chains 0 (map hold_leaves l)) i (seq i (length (hold_leaves ways)))) by (apply X2; reflexivity). split; [exact F|]. apply Kf. exact F.
    + intros i' (Hi' & walk & F & Lb). apply (Permutation_in _ P) in Hi'. apply In_nth_error in Hi'. destruct Hi' as [j' Hj']. destruct (K j' i' Hj') as (w' & Kw' & Kf'). apply Kf' in F. destruct F as [_ F]. rewrite F in Lb.
      apply held_inj in Lb. subst w'. assert (j' = j); [|subst; congruence]. apply (NoDup_nth_error l); auto; [apply nth_error_Some; congruence|congruence].
Qed.
Theorem C115_even : forall ordn, is_order ordn ->
  (forall n t, 1 <= n -> task_uniform n = Ok t -> even_choice ordn t (hold_ways n) (2 ^ n)) /\
  (forall t, task_alternative = Ok t -> even_choice ordn t (fun ways => In ways four_ways) 4).
Proof.
  intros ordn Ho. split.
  - intros n t Hn E. destruct (product_hv_length n) as [L1 L2]. assert (Hne : product_hv n <> []) by (intros H; rewrite H in L1; cbn in L1; pose proof (Nat.pow_nonzero 2 n); lia).
    destruct (choice_built (product_hv n) Hne) as (pr & E'). unfold task_uniform in E. assert (t = alts (map hold_leaves (product_hv n)) pr) as -> by congruence. rewrite <- L1.
    destruct (choice_even ordn (product_hv n) pr n Ho Hn Hne (product_nodup n) L2) as (nodes & succs & init & A1 & A2 & A3 & A4 & A5). exists nodes, succs, init. split; [exact A1|]. split; [exact A2|]. split; [exact A3|]. split.
    + intros i Hi. destruct (A4 i Hi) as (w & Hw & Hf). exists w. split; [apply in_product; exact Hw|exact Hf].
    + intros ways Hw. apply A5. apply in_product. exact Hw.
  - intros t E. destruct (choice_built four_ways ltac:(discriminate)) as (pr & E'). change task_alternative with (task_seqs four_ways) in E. assert (t = alts (map hold_leaves four_ways) pr) as -> by congruence.
    apply (choice_even ordn four_ways pr 4 Ho); [lia|discriminate| |].
    + repeat (constructor; [cbn; intuition discriminate|]). constructor.
    + intros w [<-|[<-|[<-|[<-|[]]]]]; reflexivity.
Qed.
Print Assumptions C115_even.
Example C115_ex_even : exists t nodes succs, task_uniform 2 = Ok t /\ htm_to_dag (fun l => l) t = Ok (nodes, succs, [0; 2; 4; 6]) /\ succs = [[1]; []; [3]; []; [5]; []; [7]; []].
Proof. eexists. eexists. eexists. split; [vm_compute; reflexivity|]. split; vm_compute; reflexivity. Qed.

(** The models of these tasks can be built, have the expected numbers of stages, and the robot can do the same actions for all of them, but bring the top for the stool. *)
Definition models (ordn : list nat -> list nat) (t : stree) (leaves : nat) (names : list string) : Prop :=
  exists m, mk_supportive ordn t = Ok m /\ actions m = names /\ n_actions m = Z.of_nat (length names) /\ n_htm_states m = Z.of_nat (leaves + 2).
Lemma legs_models ordn t k n G : is_order ordn -> good_task ordn t k n G -> (forall q, G q -> sp_conditions q = leg_conditions) -> models ordn t n leg_actions.
Proof.
  intros Ho ((m & Em) & G2 & G3 & G4) HG. exists m. split; [exact Em|]. destruct (legs_objects ordn t m Ho Em) as [_ A].
  { apply (nodes_params ordn t m (fun q => sp_conditions q = leg_conditions) Em). intros a i p h Hin q Eq. destruct (G2 a i p h Hin) as (q' & E1 & E2). assert (q' = q) as -> by congruence. auto. }
  split; [exact A|]. destruct (mk_built _ _ _ Em) as (nodes & succs & init & ps & _ & B). split; [rewrite <- A; apply (b_nact _ _ _ _ _ B)|].
  pose proof (leaves_count ordn t m Ho Em) as L. rewrite G4 in L. lia.
Qed.
Theorem C115_models : forall ordn, is_order ordn ->
  (forall n t, 1 <= n -> task_long_sequence n = Ok t -> models ordn t n leg_actions) /\
  (forall n t, 1 <= n -> task_uniform n = Ok t -> models ordn t (n * 2 ^ n) leg_actions) /\
  (forall t, task_alternative = Ok t -> models ordn t 16 leg_actions) /\
  (forall t, task_stool = Ok t -> models ordn t 8 stool_actions).
Proof.
  intros ordn Ho. split; [|split; [|split]].
  - intros n t Hn E. destruct (sequence_good ordn n Ho Hn) as (t' & E' & G). assert (t' = t) as -> by congruence. apply (legs_models ordn t n n _ Ho G). intros q [H _]. exact H.
  - intros n t Hn E. destruct (product_hv_length n) as [L1 L2]. destruct (seqs_good ordn (product_hv n) n Ho Hn) as (t' & E' & G); [intros H; rewrite H in L1; cbn in L1; pose proof (Nat.pow_nonzero 2 n); lia|exact L2|].
    unfold task_uniform in E. assert (t' = t) as -> by congruence. rewrite L1 in G. apply (legs_models ordn t n _ _ Ho G). auto.
  - intros t E. destruct (seqs_good ordn four_ways 4 Ho ltac:(lia)) as (t' & E' & G); [discriminate|intros w [<-|[<-|[<-|[<-|[]]]]]; reflexivity|].
    change task_alternative with (task_seqs four_ways) in E. assert (t' = t) as -> by congruence. apply (legs_models ordn t 4 _ _ Ho G). auto.
  - intros t E. assert (K : (do t <- task_stool; do m <- mk_supportive ordn t; Ok (actions m, n_actions m, n_htm_states m)) = Ok (stool_actions, 12%Z, 10%Z)) by (vm_compute; reflexivity).
    rewrite E in K. cbn [bind] in K. destruct (mk_supportive ordn t) as [m|] eqn:Em; [|discriminate]. cbn [bind] in K.
    assert (K1 : (actions m, n_actions m, n_htm_states m) = (stool_actions, 12%Z, 10%Z)) by congruence. exists m. split; [exact Em|]. split; [congruence|]. split; [exact (f_equal (fun x => snd (fst x)) K1)|exact (f_equal snd K1)].
Qed.
Print Assumptions C115_models.
(** Without legs there is no model. *)
Theorem C115_none : forall ordn,
  (forall t, task_long_sequence 0 = Ok t -> mk_supportive ordn t = Err EValue) /\ (forall t, task_uniform 0 = Ok t -> mk_supportive ordn t = Err EValue).
Proof. intros ordn. split; intros t [= <-]; vm_compute; reflexivity. Qed.
Print Assumptions C115_none.
Example C115_ex_models : exists t m, task_uniform 3 = Ok t /\ mk_supportive (fun l => l) t = Ok m /\ length (htm_init m) = 8 /\ n_htm_states m = 26%Z.
Proof. eexists. eexists. split; [vm_compute; reflexivity|]. split; [vm_compute; reflexivity|]. split; reflexivity. Qed.
