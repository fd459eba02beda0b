(** Proofs about SupportivePOMDP: construction, episodes, starts. *)
From Verif Require Import QBase PyBase PyBaseFacts HtmModel HtmSpec HtmProofs DagModel DagSpec DagProofs CodecModel CodecSpec CodecProofs SuppModel SuppSpec SuppProofs SuppProofs2 SuppProofs3 Props_Dag.
From Coq Require Import Lia.
Import HtmSpec.
Local Open Scope nat_scope.

Definition supp (x : stree) : Prop := exists p, action_params x = Ok p.
Definition no_parallel (c : stree) : Prop := forall ch i p n h pr, ~ In (Node Parallel ch i p n h pr) (preorder c).
Definition leaves_supp (c : stree) : Prop := forall a i p h, In (Leaf a i p h) (preorder c) -> supp (Leaf a i p h).

Section Construct.
  Variable ordn : list nat -> list nat.

  Definition grows (c : stree) (d d' : dag sparams) : Prop :=
    exists ext, d_nodes d' = d_nodes d ++ ext /\ ext <> [] /\ (exists a i p h, In (Leaf a i p h) (preorder c)) /\
      ((forall x, In x ext -> supp x) <-> no_parallel c /\ leaves_supp c).

  Lemma visit_grows (rec : stree -> dag sparams -> res (list nat * list nat * dag sparams)) :
    (forall c d f l d', rec c d = Ok (f, l, d') -> grows c d d') ->
    forall ch d fls d', visit_children rec ch d = Ok (fls, d') ->
      length fls = length ch /\
      exists ext, d_nodes d' = d_nodes d ++ ext /\ (ch <> [] -> ext <> []) /\
        (forall c, In c ch -> exists a i p h, In (Leaf a i p h) (preorder c)) /\
        ((forall x, In x ext -> supp x) <-> (forall c, In c ch -> no_parallel c /\ leaves_supp c)).
  Proof.
    intros Hrec. induction ch as [|c ch IH]; intros d fls d' E; cbn [visit_children] in E.
    - inversion E; subst. split; [auto|]. exists []. rewrite app_nil_r. split; [auto|]. split; [auto|]. split; [intros c []|].
      split; [intros _ c []|intros _ x []].
    - destruct (rec c d) as [[[f la] d1]|] eqn:E1; [|discriminate]. cbn [bind] in E.
      destruct (visit_children rec ch d1) as [[fls' d2]|] eqn:E2; [|discriminate]. cbn [bind] in E. inversion E; subst.
      destruct (Hrec _ _ _ _ _ E1) as [e1 (G1 & G2 & G3 & G4)]. destruct (IH _ _ _ E2) as [HL [e2 (I1 & I2 & I3 & I4)]].
      split; [cbn; auto|]. exists (e1 ++ e2). split; [rewrite I1, G1, app_assoc; reflexivity|].
      split; [intros _ H; apply app_eq_nil in H; destruct H; contradiction|].
      split; [intros c0 [<-|H]; auto|]. split.
      + intros H c0 [<-|Hc]; [apply G4|apply I4; auto]; intros x Hx; apply H, in_or_app; auto.
      + intros H x Hx. apply in_app_or in Hx. destruct Hx as [Hx|Hx]; [apply (proj2 G4)|apply (proj2 I4)]; auto.
        * apply H; simpl; auto.
        * intros c0 Hc; apply H; simpl; auto.
  Qed.

  Lemma copy_not_supp fmt (c c' : stree) : deep_copy fmt c = Ok c' ->
    forall a i p h, In (Leaf a i p h) (preorder c') -> ~ supp (Leaf a i p h).
  Proof.
    intros E a i p h Hin [q Hq]. destruct (deep_copy_copied _ _ _ E) as [Hc _].
    destruct (copied_preorder _ _ _ _ Hc _ Hin) as [x [_ Hx]]. inversion Hx; subst. cbn in Hq.
    match goal with H : action_copy _ _ = Ok _ |- _ => unfold action_copy in H; destruct (a_class a0); inversion H; subst; cbn in Hq; discriminate end.
  Qed.

  Lemma node_children_no_parallel k (ch : list stree) i p n h pr : k <> Parallel ->
    (no_parallel (Node k ch i p n h pr) /\ leaves_supp (Node k ch i p n h pr)) <-> (forall c, In c ch -> no_parallel c /\ leaves_supp c).
  Proof.
    intros Hk. split.
    - intros [H1 H2] c Hc. split.
      + intros ch' i' p' n' h' pr' Hin. eapply H1. cbn [preorder]. right. apply in_flat_map. eauto.
      + intros a i' p' h' Hin. eapply H2. cbn [preorder]. right. apply in_flat_map. eauto.
    - intros H. split.
      + intros ch' i' p' n' h' pr' Hin. cbn [preorder] in Hin. destruct Hin as [Hin|Hin]; [inversion Hin; congruence|].
        apply in_flat_map in Hin. destruct Hin as [c [Hc Hin]]. eapply (proj1 (H c Hc)); eauto.
      + intros a i' p' h' Hin. cbn [preorder] in Hin. destruct Hin as [Hin|Hin]; [discriminate|].
        apply in_flat_map in Hin. destruct Hin as [c [Hc Hin]]. eapply (proj2 (H c Hc)); eauto.
  Qed.

  Lemma gif_grows fuel : forall c d f l d', get_initial_final ordn fuel c d = Ok (f, l, d') -> grows c d d'.
  Proof.
    induction fuel as [|fuel IH]; intros c d f l d' E; [discriminate|]. cbn [get_initial_final] in E.
    destruct c as [a i p h|k ch i p n h pr].
    - cbn [push] in E. inversion E; subst. exists [Leaf a i p h]. cbn [d_nodes]. split; [auto|]. split; [discriminate|].
      split; [exists a, i, p, h; simpl; auto|]. split.
      + intros H. split; [intros ? ? ? ? ? ? [Hx|[]]; discriminate|]. intros a' i' p' h' [Hx|[]]. apply H. left; exact Hx.
      + intros [_ H] x [<-|[]]. apply H. left; reflexivity.
    - match type of E with bind ?X _ = _ => set (sel := X) in E end.
      destruct sel as [[k' ch']|] eqn:Es; [|discriminate]. cbn [bind] in E.
      destruct (visit_children (get_initial_final ordn fuel) ch' d) as [[fls d1]|] eqn:Ev; [|discriminate]. cbn [bind] in E.
      destruct (visit_grows _ IH _ _ _ _ Ev) as [HL [ext (V1 & V2 & V3 & V4)]].
      destruct fls as [|fl0 t]; [discriminate|].
      assert (Hn : d_nodes d' = d_nodes d1) by (destruct k'; inversion E; reflexivity).
      assert (Hne : ch' <> []) by (intros ->; discriminate).
      exists ext. split; [rewrite Hn; auto|]. split; [auto|].
      assert (Hseq : k <> Parallel -> ch' = ch) by (intros Hk; destruct k; cbn in Es; [inversion Es; auto|inversion Es; auto|congruence]).
      assert (HD : {k = Parallel} + {k <> Parallel}) by (destruct k; [right; discriminate|right; discriminate|left; reflexivity]).
      destruct HD as [->|Hk].
      + unfold sel in Es. destruct (to_alternative ch n h) as [alt|] eqn:Ea; [|discriminate]. cbn [bind] in Es.
        destruct (to_alternative_inv _ _ _ _ Ea) as [seqs [pr' [-> HF]]]. assert (ch' = seqs) as -> by congruence.
        assert (Hs : forall s, In s seqs -> exists k cs pr ip, In ip (enum (permutations ch)) /\ s = Node Sequential cs None None k false pr /\
                   Forall2 (fun c c' => deep_copy (order_fmt (fst ip)) c = Ok c') (snd ip) cs).
        { clear - HF. induction HF as [|ip s t t' [cs [pr1 [-> Hcs]]] HF IHF]; intros s0 Hs; [destruct Hs|].
          destruct Hs as [<-|Hs]; [exists (order_fmt (fst ip) n), cs, pr1, ip; simpl; auto|].
          destruct (IHF _ Hs) as [k [cs0 [pr0 [ip0 (A1 & A2 & A3)]]]]. exists k, cs0, pr0, ip0. simpl; auto. }
        destruct seqs as [|s t']; [congruence|]. destruct (Hs s ltac:(simpl; auto)) as [nm [cs [pr1 [ip (A0 & A1 & A2)]]]].
        assert (HF2 : forall c', In c' cs -> exists c, In c (snd ip) /\ deep_copy (order_fmt (fst ip)) c = Ok c').
        { clear - A2. induction A2 as [|x y t t' Hx Ht IHF]; intros c' Hc'; [destruct Hc'|]. destruct Hc' as [<-|Hc']; [exists x; simpl; auto|].
          destruct (IHF _ Hc') as [z [K1 K2]]; exists z; simpl; auto. }
        destruct (V3 s ltac:(simpl; auto)) as [a0 [i0 [p0 [h0 Hl]]]]. subst s. cbn [preorder] in Hl. destruct Hl as [Hl|Hl]; [discriminate|].
        pose proof Hl as Hl0. apply in_flat_map in Hl. destruct Hl as [c' [Hc' Hl]]. destruct (HF2 _ Hc') as [c [K0 K]]. split.
        * destruct (deep_copy_copied _ _ _ K) as [K3 _]. destruct (copied_preorder _ _ _ _ K3 _ Hl) as [x [Hx1 Hx2]].
          inversion Hx2 as [a1 ? i1 p1 h1 Hnm Hcp|]; subst. exists a1, i1, p1, h0. cbn [preorder]. right. apply in_flat_map. exists c. split; auto.
          assert (HP : Permutation (snd ip) ch) by (destruct ip as [kk m]; unfold enum in A0; apply in_combine_r in A0; apply perms_n_In in A0; auto).
          eapply Permutation_in; eauto.
        * split.
          -- intros H. exfalso. destruct (proj1 V4 H (Node Sequential cs None None nm false pr1) ltac:(simpl; auto)) as [_ HX].
             eapply (copy_not_supp _ _ _ K); [exact Hl|]. eapply HX. cbn [preorder]. right. exact Hl0.
          -- intros [H _]. exfalso. eapply H. left. reflexivity.
      + rewrite (Hseq Hk) in *. split.
        * destruct ch as [|c0 ch0]; [congruence|]. destruct (V3 c0 ltac:(simpl; auto)) as [a0 [i0 [p0 [h0 Hl]]]]. exists a0, i0, p0, h0.
          cbn [preorder]. right. apply in_flat_map. exists c0; simpl; auto.
        * rewrite V4. symmetry. apply node_children_no_parallel; auto.
  Qed.
End Construct.

Lemma mapM_ok_iff {A C} (f : A -> res C) l : (exists r, mapM f l = Ok r) <-> (forall x, In x l -> exists y, f x = Ok y).
Proof.
  induction l as [|x t IH]; cbn [mapM]; [split; [intros _ x []|eauto]|]. split.
  - intros [r E]. destruct (f x) as [y|] eqn:Ex; [|discriminate]. cbn [bind] in E. destruct (mapM f t) as [ys|] eqn:Et; [|discriminate].
    intros z [<-|Hz]; [eauto|]. apply IH; eauto.
  - intros H. destruct (H x ltac:(simpl; auto)) as [y ->]. cbn [bind]. destruct (proj2 IH) as [ys ->]; [intros z Hz; apply H; simpl; auto|].
    cbn [bind]; eauto.
Qed.

Lemma mk_supportive_iff ordn t : (exists m, mk_supportive ordn t = Ok m) <->
  (exists g, htm_to_dag ordn t = Ok g) /\ no_parallel t /\ leaves_supp t.
Proof.
  unfold mk_supportive. destruct (htm_to_dag ordn t) as [[[nodes succs] init]|] eqn:Ed.
  - cbn [bind]. unfold htm_to_dag in Ed.
    destruct (get_initial_final ordn (dag_fuel t) t empty_dag) as [[[f l] d]|] eqn:Eg; [|discriminate]. cbn [bind] in Ed.
    assert (nodes = d_nodes d) as -> by congruence.
    destruct (gif_grows ordn _ _ _ _ _ _ Eg) as [ext (G1 & G2 & G3 & G4)]. cbn [d_nodes empty_dag app] in G1.
    rewrite <- G4, <- G1.
    transitivity (exists r, populate_conditions (d_nodes d) [] [] = Ok r).
    + split.
      * intros [m E]. destruct (populate_conditions (d_nodes d) [] []); [eauto|discriminate].
      * intros [[[a b] c] ->]. cbn [bind]. destruct (object_actions b skip_to_a_obj). eauto.
    + rewrite populate_ok_iff, mapM_ok_iff. unfold supp. split; [intros H; split; eauto|intros [_ H]; exact H].
  - cbn [bind]. split; [intros [m E]; discriminate|intros [[g E] _]; discriminate].
Qed.

(** What mk_supportive gives, with the facts on the graph. *)
Lemma mk_facts ordn t m : is_order ordn -> mk_supportive ordn t = Ok m ->
  exists nodes succs init ps, htm_to_dag ordn t = Ok (nodes, succs, init) /\ built m nodes succs init ps /\ dag_ok nodes succs init.
Proof.
  intros Ho E. destruct (mk_built _ _ _ E) as [nodes [succs [init [ps [H1 H2]]]]]. exists nodes, succs, init, ps. split; [auto|]. split; [auto|].
  destruct (C27_well_formed _ _ _ _ _ _ Ho H1) as (W1 & W2 & W3 & W4 & W5 & W6 & W7). repeat split; auto; eapply W6; eauto.
Qed.

(** ** Starts *)
Lemma start_prefs_exact cf m d n : forall i x w, Rep cf m x w -> i + n = cf_preferences cf ->
  Rep cf m (start_preferences d i n x) (with_prefs w (firstn i (w_prefs w) ++ map (d_preference d) (seq i n))).
Proof.
  induction n as [|n IH]; intros i x w Hr Hi; cbn [start_preferences].
  - cbn [seq map]. assert (G := proj2 (proj1 (proj2 Hr))). rewrite app_nil_r, firstn_all2 by lia. destruct w; exact Hr.
  - destruct Hr as (R1 & R2 & R3). assert (G := proj2 R2).
    replace (if d_preference d i then 1 else 0)%Z with (Z.b2z (d_preference d i)) by (destruct (d_preference d i); reflexivity).
    assert (Hl := IH (S i) (set_preference x i (Z.b2z (d_preference d i))) (with_prefs w (replace i (d_preference d i) (w_prefs w)))).
    cbn [with_prefs w_prefs w_stage w_holding w_has] in Hl.
    replace (firstn i (w_prefs w) ++ map (d_preference d) (seq i (S n)))
      with (firstn (S i) (replace i (d_preference d i) (w_prefs w)) ++ map (d_preference d) (seq (S i) n)).
    + apply Hl; [|lia]. split; [apply sized_with, R1|]. split; [split; [exact (proj1 R2)|cbn; rewrite replace_length; exact (proj2 R2)]|].
      rewrite (set_preference_spec _ _ _ _ _ _ R1 (good_features cf m _ R2) R3) by lia. reflexivity.
    + cbn [seq map]. rewrite replace_split by lia. 
      assert (HH : forall (A : Type) (l1 : list A) a l2 k, length l1 = k -> firstn (S k) (l1 ++ a :: l2) = l1 ++ [a]).
      { intros A l1; induction l1; intros a0 l2 k Hk; destruct k; cbn in Hk; try discriminate; [reflexivity|].
        cbn [app]. rewrite firstn_cons. f_equal. apply IHl1. lia. }
      rewrite HH by (rewrite firstn_length; lia). rewrite <- app_assoc. reflexivity.
Qed.

Lemma init_rep cf m g : (forall i, g = Doing i -> i < length (htm_nodes m)) ->
  Rep cf m (set_htm (int_to_state cf m 0) (stage_index m g))
    {| w_stage := g; w_prefs := repeat false (cf_preferences cf); w_holding := false; w_has := fun _ => false |}.
Proof.
  intros Hg.
  set (f := {| f_htm := 0; f_prefs := repeat false (cf_preferences cf); f_body := [false]; f_objs := map (fun _ => false) (objects m) |}).
  assert (Hf : features_of (n_htm_states m) (cf_preferences cf) 1 (length (objects m)) f).
  { repeat split; cbn; rewrite ?repeat_length, ?map_length; unfold n_htm_states; lia. }
  assert (E : st (int_to_state cf m 0) = encode f).
  { cbn [int_to_state mk_sstate st]. unfold encode, f; cbn [f_htm f_objs f_body f_prefs].
    assert (HZ : forall l, (forall b, In b l -> b = false) -> bits_value l = 0%Z).
    { induction l as [|b t IH]; intros H; [reflexivity|]. cbn [bits_value]. rewrite IH, (H b) by (simpl; auto; intros; apply H; simpl; auto). reflexivity. }
    rewrite HZ; [lia|]. intros b Hb. rewrite !in_app_iff in Hb. destruct Hb as [Hb|[[<-|[]]|Hb]]; auto.
    - apply in_map_iff in Hb. destruct Hb as [_ [<- _]]; auto.
    - apply repeat_spec in Hb; auto. }
  split; [apply sized_with, siz_int|]. split; [split; [exact Hg|cbn; apply repeat_length]|].
  rewrite (set_htm_spec _ _ _ _ _ _ (siz_int cf m 0) Hf E). reflexivity.
Qed.

Section Run.
  Variable cf : config.
  Variable m : spomdp.
  Variables (nodes : list stree) (succs : list (list nat)) (init : list nat) (ps : list sparams).
  Hypothesis B : built m nodes succs init ps.
  Hypothesis D : dag_ok nodes succs init.

  Lemma start_sound d : exists s i, sample_start cf m d = Ok s /\ In i init /\
    reads cf m s {| w_stage := Doing i; w_prefs := map (d_preference d) (seq 0 (cf_preferences cf)); w_holding := false;
                    w_has := flip_has m (d_object d) (fun _ => false) |}.
  Proof.
    destruct D as (D1 & D2 & D3 & D4). unfold sample_start. rewrite (b_init _ _ _ _ _ B).
    destruct (choose_ok init (d_succ d) D2) as [i [-> Hi]]. cbn [bind]. eexists; exists i. split; [reflexivity|]. split; [auto|].
    assert (Hg : forall j, Doing i = Doing j -> j < length (htm_nodes m)).
    { intros j E; inversion E; subst. rewrite (b_nodes _ _ _ _ _ B). auto. }
    pose proof (init_rep cf m (Doing i) Hg) as H0. cbn [stage_index] in H0.
    pose proof (start_prefs_exact cf m d (cf_preferences cf) 0 _ _ H0 ltac:(lia)) as H1.
    cbn [firstn app with_prefs w_stage w_prefs w_holding w_has] in H1.
    apply (rep_random_obj cf m _ _ _ _ B _ _ (d_object d)) in H1.
    apply reads_st in H1. exact H1.
  Qed.

  Lemma step_sound d random a s s' o r w : 1 <= cf_preferences cf -> reads cf m s w ->
    sample_transition cf m d random a s = Ok (s', o, r) ->
    exists act w1 w' ob, acts m a act /\ (random = false -> w1 = w) /\ disturbed w w1 /\ reads cf m s' w' /\
      nth_error observations o = Some ob /\ documented cf ps succs (objects m) random w1 act w' ob r.
  Proof.
    intros Hc Hr E. destruct (Z.lt_ge_cases a 0) as [Hlt|Hge]; [|destruct (Z.lt_ge_cases a (n_actions m)) as [Hlt|Hge2]].
    - exfalso. revert E. rewrite (sample_body cf m _ _ _ _ B _ _ _ _ _ Hr). unfold body.
      rewrite !(proj2 (Z.eqb_neq a _)) by lia. cbn [orb]. rewrite (obj_from_action_invalid m _ _ _ _ B) by lia. discriminate.
    - destruct (acts_exists m _ _ _ _ B a ltac:(lia)) as [act Ha]. rewrite (sample_body cf m _ _ _ _ B _ _ _ _ _ Hr) in E.
      apply reads_rep in Hr. pose proof (disturb_rep cf m _ _ _ _ B d random _ _ Hr) as Hr1.
      destruct (body_sound cf m _ _ _ _ B D d random a act _ _ Hc Ha Hr1) as [x' [o' [r' [ob [w' (S1 & S2 & S3 & S4)]]]]].
      rewrite S1 in E. assert (s' = st x') as -> by congruence. assert (o' = o) as -> by congruence. assert (r' = r) as -> by congruence.
      exists act, (disturb_world cf m d random w), w', ob. split; [auto|]. split; [intros ->; reflexivity|].
      split.
      { unfold disturb_world. destruct random; [|repeat split; auto]. repeat split; cbn. unfold flip.
        rewrite map_length, combine_length, map_length, seq_length. destruct Hr as (_ & [_ G] & _). lia. }
      split; [apply reads_st; auto|]. auto.
    - exfalso. revert E. rewrite (sample_body cf m _ _ _ _ B _ _ _ _ _ Hr). unfold body.
      assert (4 <= n_actions m)%Z by (rewrite (b_nact _ _ _ _ _ B); unfold actions; rewrite app_length; cbn [length]; lia).
      rewrite !(proj2 (Z.eqb_neq a _)) by lia. cbn [orb]. rewrite (obj_from_action_invalid m _ _ _ _ B) by lia. discriminate.
  Qed.

  Lemma step_total d random a s : 1 <= cf_preferences cf -> (0 <= s < model_n_states cf m)%Z -> (0 <= a < n_actions m)%Z ->
    exists s' o r, sample_transition cf m d random a s = Ok (s', o, r).
  Proof.
    intros Hc Hs Ha. destruct (reads_exists cf m _ _ _ _ B s Hs) as [w Hr]. destruct (acts_exists m _ _ _ _ B a Ha) as [act Hact].
    rewrite (sample_body cf m _ _ _ _ B _ _ _ _ _ Hr). apply reads_rep in Hr. pose proof (disturb_rep cf m _ _ _ _ B d random _ _ Hr) as Hr1.
    destruct (body_sound cf m _ _ _ _ B D d random a act _ _ Hc Hact Hr1) as [x' [o' [r' [ob [w' (S1 & _)]]]]]. eauto.
  Qed.

  Lemma step_invalid d random a s : (a < 0 \/ n_actions m <= a)%Z -> sample_transition cf m d random a s = Err EValue.
  Proof.
    intros Ha. unfold sample_transition.
    assert (4 <= n_actions m)%Z by (rewrite (b_nact _ _ _ _ _ B); unfold actions; rewrite app_length; cbn [length]; lia).
    rewrite !(proj2 (Z.eqb_neq a _)) by lia. cbn [orb]. rewrite (obj_from_action_invalid m _ _ _ _ B) by lia. reflexivity.
  Qed.

  Lemma documented_stage random w act w' ob r : documented cf ps succs (objects m) random w act w' ob r ->
    w_stage w' = w_stage w \/ (exists i n, w_stage w = Doing i /\ completes ps succs i w w' n) \/
    (w_stage w = Cleaning /\ act = Wait /\ w_stage w' = Finished).
  Proof. intros H; inversion H; subst; eauto 8. Qed.

  Lemma stage_step random a s s' o r d w : 1 <= cf_preferences cf -> reads cf m s w ->
    sample_transition cf m d random a s = Ok (s', o, r) ->
    exists w', reads cf m s' w' /\
      (w_stage w' = w_stage w \/
       (exists i l, w_stage w = Doing i /\ nth_error succs i = Some l /\
          ((l = [] /\ w_stage w' = Cleaning) \/ exists j, In j l /\ w_stage w' = Doing j)) \/
       (w_stage w = Cleaning /\ a = 0%Z /\ w_stage w' = Finished)).
  Proof.
    intros Hc Hr E. destruct (step_sound _ _ _ _ _ _ _ _ Hc Hr E) as [act [w1 [w' [ob (S1 & S2 & (S3 & _) & S4 & S5 & S6)]]]].
    exists w'. split; [auto|]. destruct (documented_stage _ _ _ _ _ _ S6) as [H|[[i [n [H1 H2]]]|(H1 & -> & H3)]].
    - left; congruence.
    - right; left. destruct H2 as (_ & [l [H2 H3]] & _). exists i, l. split; [congruence|]. auto.
    - right; right. split; [congruence|]. split; [|auto].
      destruct (act_cases m _ _ _ _ B _ _ S1) as [[-> _]|[[[_ E1]|[_ E1]]|[[_ E1]|[_ [i [o' (_ & _ & [[E1 _]|[E1 _]])]]]]]]; try discriminate E1; reflexivity.
  Qed.

  Lemma reads_htm s w : reads cf m s w -> htm (int_to_state cf m s) = stage_index m (w_stage w).
  Proof. intros H. apply H. Qed.

  Lemma reads_stage s w w' : reads cf m s w -> reads cf m s w' -> w_stage w = w_stage w'.
  Proof. intros H1 H2. apply (reads_same cf m _ _ _ H1 H2). Qed.
End Run.
