(** Proofs about paths and graphs. *)
From Verif Require Import PyBase PyBaseFacts GraphModel GraphSpec.

(** ** Paths *)
Section Paths.
  Context {S A : Type}.
  Variable check : A -> S -> S -> res bool.
  Notation path := (list (item S A)).

  Inductive vp : path -> Prop :=
  | vp_nil : vp []
  | vp_one s : vp [IState s]
  | vp_cons s a s' tl : check a s s' = Ok true -> vp (IState s' :: tl) ->
                        vp (IState s :: IAction a :: IState s' :: tl).

  Lemma path_ind2 (P : path -> Prop) :
    P [] -> (forall x, P [x]) -> (forall x y t, P t -> P (x :: y :: t)) -> forall p, P p.
  Proof.
    clear check.
    intros H0 H1 H2.
    enough (H : forall n p, length p <= n -> P p) by (intros p; apply (H (length p)); auto).
    induction n as [|n IH]; intros [|x [|y t]] Hl; simpl in Hl; auto; try lia.
    apply H2, IH; lia.
  Qed.

  Lemma check_path_vp p : check_path check p = Ok true <-> vp p.
  Proof.
    split.
    - revert p; apply (path_ind2 (fun p => check_path check p = Ok true -> vp p)).
      + constructor.
      + intros [s|a|]; simpl; intros E; try discriminate; constructor.
      + intros x y t IH E.
        destruct x as [s|a|]; try discriminate.
        destruct y as [s0|a|]; try discriminate.
        destruct t as [|[s'|a'|] t]; try discriminate.
        change (match check a s s' with
                | Ok true => check_path check (IState s' :: t)
                | Ok false => Ok false | Err EIndex => Ok false | Err e => Err e end = Ok true) in E.
        destruct (check a s s') as [[]|e] eqn:Ec; try discriminate; [|destruct e; discriminate].
        constructor; auto.
    - induction 1 as [|s|s a s' tl Hc Hv IH]; auto.
      change (match check a s s' with
                | Ok true => check_path check (IState s' :: tl)
                | Ok false => Ok false | Err EIndex => Ok false | Err e => Err e end = Ok true).
      rewrite Hc; auto.
  Qed.

  Lemma check_path_total :
    (forall a s s' e, check a s s' = Err e -> e = EIndex) ->
    forall p, exists b, check_path check p = Ok b.
  Proof.
    intros Hc; apply (path_ind2 (fun p => exists b, check_path check p = Ok b)).
    - simpl; eauto.
    - intros [s|a|]; simpl; eauto.
    - intros x y t [b IH].
      destruct x as [s|a|]; simpl; eauto.
      destruct y as [s0|a|]; simpl; eauto.
      destruct t as [|[s'|a'|] t]; simpl; eauto.
      destruct (check a s s') as [[]|e] eqn:Ec; eauto.
      apply Hc in Ec; subst e; eauto.
  Qed.

  Lemma vp_path_ok p : vp p -> path_ok check p.
  Proof.
    induction 1 as [|s|s a s' tl Hc Hv IH].
    - left; auto.
    - right; exists 0; simpl; repeat split.
      + intros i Hi; assert (i = 0) by lia; subst; simpl; eauto.
      + intros i Hi; lia.
    - destruct IH as [IH|[n [Hl [H1 H2]]]]; [discriminate|].
      right; exists (n + 1); repeat split.
      + simpl in *; lia.
      + intros i Hi; destruct i as [|i]; [simpl; eauto|].
        replace (2 * Datatypes.S i) with (Datatypes.S (Datatypes.S (2 * i))) by lia; simpl nth_error.
        apply H1; lia.
      + intros i Hi; destruct i as [|i].
        * simpl; exists s, a, s'; auto.
        * destruct (H2 i) as (u & b & u' & E1 & E2 & E3 & E4); [lia|].
          exists u, b, u'.
          replace (2 * Datatypes.S i) with (Datatypes.S (Datatypes.S (2 * i))) by lia; auto.
  Qed.

  Lemma path_ok_vp p : path_ok check p -> vp p.
  Proof.
    intros [->|[n [Hl [H1 H2]]]]; [constructor|].
    revert p Hl H1 H2; induction n as [|n IH]; intros p Hl H1 H2.
    - destruct p as [|x [|y t]]; simpl in Hl; try lia.
      destruct (H1 0) as [s E]; [lia|]; simpl in E; inversion E; constructor.
    - destruct p as [|x [|y t]]; simpl in Hl; try lia.
      destruct (H2 0) as (s & a & s' & E1 & E2 & E3 & E4); [lia|].
      simpl in E1, E2, E3; inversion E1; inversion E2; subst x y.
      destruct t as [|z t]; [discriminate|]; inversion E3; subst z.
      constructor; auto.
      apply IH.
      + simpl in *; lia.
      + intros i Hi; destruct (H1 (Datatypes.S i)) as [u Eu]; [lia|].
        exists u.
        replace (2 * Datatypes.S i) with (Datatypes.S (Datatypes.S (2 * i))) in Eu by lia; auto.
      + intros i Hi; destruct (H2 (Datatypes.S i)) as (u & b & u' & F1 & F2 & F3 & F4); [lia|].
        exists u, b, u'.
        replace (2 * Datatypes.S i) with (Datatypes.S (Datatypes.S (2 * i))) in F1, F2, F3 by lia; auto.
  Qed.

  Lemma path_ok_iff p : path_ok check p <-> vp p.
  Proof. split; [apply path_ok_vp|apply vp_path_ok]. Qed.

  (** Inductive views of first, last and step. *)
  Lemma vp_last p : vp p -> p <> [] -> exists s, forall d, last p d = IState s.
  Proof.
    induction 1 as [|s|s a s' tl Hc Hv IH]; intros Hn; [congruence|simpl; eauto|].
    destruct IH as [u Hu]; [discriminate|]; exists u; intros d.
    change (last (IState s' :: tl) d = IState u); auto.
  Qed.

  Lemma nth_error_last {X} (p : list X) d : p <> [] -> nth_error p (length p - 1) = Some (last p d).
  Proof.
    intros Hp; induction p as [|x p IH]; [congruence|].
    destruct p as [|y p]; [reflexivity|].
    replace (length (x :: y :: p) - 1) with (Datatypes.S (length (y :: p) - 1)) by (simpl; lia).
    change (nth_error (y :: p) (length (y :: p) - 1) = Some (last (y :: p) d)).
    apply IH; discriminate.
  Qed.

  Lemma nth_nil {X} n : nth_error (@nil X) n = None.
  Proof. destruct n; auto. Qed.

  Lemma path_last_spec (p : path) s d : p <> [] -> (path_last p s <-> last p d = IState s).
  Proof.
    intros Hp; unfold path_last; rewrite (nth_error_last p d Hp); split.
    - intros [_ E]; congruence.
    - intros E; split; congruence.
  Qed.

  Lemma path_step_split (p : path) s a s' : path_step p s a s' <-> In (IState s, IAction a, IState s') (split_path p).
  Proof.
    clear check.
    revert p; apply path_ind2.
    - simpl; split; [|tauto]. intros [i [E _]]; rewrite nth_nil in E; discriminate.
    - intros x; simpl; split; [|tauto]. intros [i [_ [E _]]].
      replace (2 * i + 1) with (Datatypes.S (2 * i)) in E by lia; simpl in E; rewrite nth_nil in E; discriminate.
    - intros x y t IH.
      destruct t as [|z t].
      + simpl; split; [|tauto].
        intros [i [_ [_ E]]].
        replace (2 * i + 2) with (Datatypes.S (Datatypes.S (2 * i))) in E by lia; simpl in E.
        rewrite nth_nil in E; discriminate.
      + change (split_path (x :: y :: z :: t)) with ((x, y, z) :: split_path (z :: t)).
        simpl In; rewrite <- IH; split.
        * intros [i [E1 [E2 E3]]]; destruct i as [|i].
          -- left; simpl in *; congruence.
          -- right; exists i.
             replace (2 * Datatypes.S i) with (Datatypes.S (Datatypes.S (2 * i))) in E1, E2, E3 by lia; auto.
        * intros [E|[i [E1 [E2 E3]]]].
          -- exists 0; simpl; inversion E; auto.
          -- exists (Datatypes.S i).
             replace (2 * Datatypes.S i) with (Datatypes.S (Datatypes.S (2 * i))) by lia; auto.
  Qed.

  Lemma vp_split p : vp p -> forall t, In t (split_path p) -> exists s a s', t = (IState s, IAction a, IState s').
  Proof.
    induction 1 as [|s|s a s' tl Hc Hv IH]; simpl; try tauto.
    intros t [E|Hin]; [eauto|].
    apply IH; auto.
  Qed.
End Paths.

(** ** BaseGraph *)
Section Base.
  Context {N L : Type} `{EN : EqDec N} `{EL : EqDec L}.
  Notation graph := (graph N L).

  Definition gwf (g : graph) : Prop :=
    NoDup (keys g) /\ forall s o, lookup s g = Some o -> NoDup o.

  Lemma gwf_empty : gwf [].
  Proof. split; [constructor|intros s o E; discriminate]. Qed.

  Lemma has_add (g : graph) s l d s' l' d' :
    has_transition (add_transition g s l d) s' l' d' = true <->
    (s', l', d') = (s, l, d) \/ has_transition g s' l' d' = true.
  Proof.
    unfold has_transition, add_transition.
    destruct (eq_dec s' s) as [->|Hs].
    - destruct (lookup s g) as [o|] eqn:E; rewrite lookup_upd_same, mem_In, set_add_In.
      + rewrite mem_In; split; intros [E1|Hin]; auto.
        * left; congruence.
        * left; inversion E1; congruence.
      + simpl; split; [intros [E1|[]]|intros [E1|E1]; [|discriminate]]; left; try congruence;
          inversion E1; congruence.
    - assert (Hne : (s', l', d') <> (s, l, d)) by congruence.
      destruct (lookup s g) as [o|] eqn:E; rewrite lookup_upd_other by auto; tauto.
  Qed.

  Lemma gwf_add (g : graph) s l d : gwf g -> gwf (add_transition g s l d).
  Proof.
    intros [Hk Ho]; unfold add_transition; split.
    - destruct (lookup s g); apply keys_upd_NoDup; auto.
    - intros s' o'; destruct (eq_dec s' s) as [->|Hs].
      + destruct (lookup s g) as [o|] eqn:E; rewrite lookup_upd_same; intros E'; inversion E'; subst.
        * apply set_add_NoDup; eauto.
        * apply set_add_NoDup; constructor.
      + destruct (lookup s g) as [o|] eqn:E; rewrite lookup_upd_other by auto; apply Ho.
  Qed.

  Lemma keys_add (g : graph) s l d x : In x (keys (add_transition g s l d)) <-> x = s \/ In x (keys g).
  Proof. unfold add_transition; destruct (lookup s g); rewrite keys_upd_In; tauto. Qed.

  Lemma has_true_lookup (g : graph) s l d :
    has_transition g s l d = true <-> exists o, lookup s g = Some o /\ In (l, d) o.
  Proof.
    unfold has_transition; destruct (lookup s g) as [o|]; split.
    - rewrite mem_In; eauto.
    - intros [o' [E Hin]]; inversion E; subst; apply mem_In; auto.
    - discriminate.
    - intros [o' [E _]]; discriminate.
  Qed.

  Lemma remove_spec (g : graph) s l d :
    match remove_transition g s l d with
    | Ok g' => has_transition g s l d = true /\
               (forall s' l' d', has_transition g' s' l' d' = true <->
                                 (s', l', d') <> (s, l, d) /\ has_transition g s' l' d' = true) /\
               (gwf g -> gwf g') /\ (forall x, In x (keys g') <-> In x (keys g))
    | Err e => e = EKey /\ has_transition g s l d = false
    end.
  Proof.
    unfold remove_transition.
    destruct (lookup s g) as [o|] eqn:E; [|split; auto; unfold has_transition; rewrite E; auto].
    destruct (mem (l, d) o) eqn:Em.
    2:{ split; auto; unfold has_transition; rewrite E; auto. }
    assert (Hkey : In s (keys g)) by (apply lookup_Some_key; eauto).
    split; [unfold has_transition; rewrite E; auto|].
    split; [|split].
    - intros s' l' d'; unfold has_transition; destruct (eq_dec s' s) as [->|Hs].
      + rewrite lookup_upd_same, E, !mem_In, set_del_In; intuition congruence.
      + rewrite lookup_upd_other by auto; intuition congruence.
    - intros [Hk Ho]; split; [apply keys_upd_NoDup; auto|].
      intros s' o'; destruct (eq_dec s' s) as [->|Hs].
      + rewrite lookup_upd_same; intros E'; inversion E'; apply set_del_NoDup; eauto.
      + rewrite lookup_upd_other by auto; apply Ho.
    - intros x; rewrite keys_upd_In; split; [intros [->|]; auto|auto].
  Qed.

  (** C04 *)
  Lemma run_refines ops : forall (g : graph) (m : tset),
    gwf g -> (forall s l d, has_transition g s l d = m (s, l, d)) ->
    snd (graph_run g ops) = snd (spec_run m ops) /\
    gwf (fst (graph_run g ops)) /\
    (forall s l d, has_transition (fst (graph_run g ops)) s l d = fst (spec_run m ops) (s, l, d)).
  Proof.
    induction ops as [|o ops IH]; intros g m Hw Hm; [simpl; auto|].
    assert (Hstep : snd (graph_step g o) = snd (spec_step m o) /\ gwf (fst (graph_step g o)) /\
                    forall s l d, has_transition (fst (graph_step g o)) s l d = fst (spec_step m o) (s, l, d)).
    { destruct o as [s l d|s l d|s l d]; simpl.
      - split; [auto|split; [apply gwf_add; auto|]].
        intros s' l' d'; unfold tset_put; apply eq_true_iff_eq; rewrite has_add.
        destruct (eq_dec (s, l, d) (s', l', d')) as [Eq|Hne].
        + split; auto.
        + rewrite Hm; split; [intros [E|]; congruence|auto].
      - pose proof (remove_spec g s l d) as Hr; destruct (remove_transition g s l d) as [g'|e].
        + destruct Hr as [Ht [Hi [Hw' _]]]; rewrite Hm in Ht; rewrite Ht; simpl.
          split; [auto|split; auto].
          intros s' l' d'; unfold tset_put; apply eq_true_iff_eq; rewrite Hi, Hm.
          destruct (eq_dec (s, l, d) (s', l', d')) as [Eq|Hne]; split; intros X; try congruence.
          * destruct X; congruence.
          * destruct X; auto.
          * split; congruence.
        + destruct Hr as [_ Hf]; rewrite Hm in Hf; rewrite Hf; simpl; auto.
      - rewrite Hm; auto. }
    cbn [graph_run spec_run].
    destruct (graph_step g o) as [g1 r1], (spec_step m o) as [m1 r2]; simpl in Hstep.
    destruct Hstep as [Er [Hw1 Hm1]].
    specialize (IH g1 m1 Hw1 Hm1).
    destruct (graph_run g1 ops) as [g2 rs1], (spec_run m1 ops) as [m2 rs2]; simpl in *.
    destruct IH as [E1 [E2 E3]]; split; [congruence|auto].
  Qed.

  Lemma reachable_gwf (g : graph) : reachable_graph g -> gwf g.
  Proof.
    intros [ops ->]; apply (run_refines ops [] tset_empty); [apply gwf_empty|reflexivity].
  Qed.

  Lemma all_transitions_In ord (g : graph) : is_order ord -> NoDup (keys g) ->
    forall s l d, In (s, l, d) (all_transitions ord g) <-> has_transition g s l d = true.
  Proof.
    intros Hord Hk s l d; unfold all_transitions; rewrite in_flat_map, has_true_lookup; split.
    - intros [[s0 o] [Hin Hm]]; simpl in Hm; apply in_map_iff in Hm.
      destruct Hm as [[l' d'] [E Hin2]]; simpl in E; inversion E; subst.
      exists o; split; [apply lookup_In_iff; auto|apply (proj1 (order_In _ Hord _ _)) in Hin2; auto].
    - intros [o [E Hin]]; exists (s, o); split; [apply lookup_In; auto|].
      simpl; apply in_map_iff; exists (l, d); split; auto; apply (proj2 (order_In _ Hord _ _)); auto.
  Qed.

  Lemma NoDup_app_disj {X} (a b : list X) :
    NoDup a -> NoDup b -> (forall x, In x a -> ~ In x b) -> NoDup (a ++ b).
  Proof.
    intros Ha Hb Hd; induction Ha as [|x a Hx Ha IH]; simpl; auto.
    constructor.
    - rewrite in_app_iff; intros [Hin|Hin]; auto. apply (Hd x); simpl; auto.
    - apply IH; intros y Hy; apply Hd; simpl; auto.
  Qed.

  Lemma all_transitions_NoDup ord (g : graph) : is_order ord -> gwf g -> NoDup (all_transitions ord g).
  Proof.
    intros Hord [Hk Ho].
    assert (Ho' : forall s o, In (s, o) g -> NoDup o).
    { intros s o Hin; apply (Ho s); apply lookup_In_iff; auto. }
    clear Ho; unfold all_transitions; induction g as [|[s o] g IH]; simpl; [constructor|].
    simpl in Hk; inversion Hk as [|? ? Hnot Hk']; subst.
    apply NoDup_app_disj.
    - apply FinFun.Injective_map_NoDup; [intros [a b] [c e] E; simpl in E; congruence|].
      apply order_NoDup; auto. apply (Ho' s); simpl; auto.
    - apply IH; auto. intros s' o' Hin; apply (Ho' s'); simpl; auto.
    - intros x Hx Hin; apply in_map_iff in Hx; destruct Hx as [ld [<- Hx]].
      apply in_flat_map in Hin; destruct Hin as [[s' o'] [Hin Hin2]].
      apply in_map_iff in Hin2; destruct Hin2 as [ld' [E _]]; simpl in E; inversion E; subst.
      apply Hnot; change s with (fst (s, o')); apply in_map; auto.
  Qed.

  Lemma all_nodes_In ord (g : graph) : is_order ord -> NoDup (keys g) ->
    forall n, In n (all_nodes ord g) <->
              exists s l d, has_transition g s l d = true /\ (n = s \/ n = d).
  Proof.
    intros Hord Hk n; unfold all_nodes.
    assert (Hgen : forall ts acc,
              In n (fold_left (fun nodes (t : N * L * N) => set_add (snd t) (set_add (fst (fst t)) nodes)) ts acc) <->
              In n acc \/ exists s l d, In (s, l, d) ts /\ (n = s \/ n = d)).
    { induction ts as [|[[s l] d] ts IH]; intros acc; simpl.
      - split; [auto|intros [|[s [l [d [[] _]]]]]; auto].
      - rewrite IH, !set_add_In; split.
        + intros [[->|[->|Hin]]|[s' [l' [d' [Hin E]]]]]; auto.
          * right; exists s, l, d; auto.
          * right; exists s, l, d; auto.
          * right; exists s', l', d'; auto.
        + intros [Hin|[s' [l' [d' [[E|Hin] E2]]]]]; auto.
          * inversion E; subst; destruct E2 as [->| ->]; auto.
          * right; exists s', l', d'; auto. }
    rewrite Hgen; split.
    - intros [[]|[s [l [d [Hin E]]]]]; exists s, l, d; split; auto.
      apply (all_transitions_In ord g Hord Hk); auto.
    - intros [s [l [d [Hin E]]]]; right; exists s, l, d; split; auto.
      apply (all_transitions_In ord g Hord Hk); auto.
  Qed.

  Lemma all_nodes_NoDup ord (g : graph) : NoDup (all_nodes ord g).
  Proof.
    unfold all_nodes.
    assert (Hgen : forall ts acc, NoDup acc ->
              NoDup (fold_left (fun nodes (t : N * L * N) => set_add (snd t) (set_add (fst (fst t)) nodes)) ts acc)).
    { induction ts as [|t ts IH]; intros acc Ha; simpl; auto.
      apply IH, set_add_NoDup, set_add_NoDup, Ha. }
    apply Hgen; constructor.
  Qed.

  (** C05 *)
  Lemma graph_eqb_spec (g1 g2 : graph) : gwf g1 -> gwf g2 ->
    (graph_eqb g1 g2 = true <->
     (forall x, In x (keys g1) <-> In x (keys g2)) /\
     (forall s l d, has_transition g1 s l d = has_transition g2 s l d)).
  Proof.
    intros [Hk1 _] [Hk2 _]; unfold graph_eqb; rewrite andb_true_iff, set_eqb_spec, forallb_forall; split.
    - intros [Hk Hall]; split; auto.
      intros s l d; apply eq_true_iff_eq; rewrite !has_true_lookup.
      destruct (lookup s g1) as [o1|] eqn:E1.
      + assert (Hin : In (s, o1) g1) by (apply lookup_In; auto).
        specialize (Hall _ Hin); simpl in Hall.
        destruct (lookup s g2) as [o2|] eqn:E2; [|discriminate].
        rewrite set_eqb_spec in Hall.
        split; intros [o [E Ho]]; inversion E; subst.
        * exists o2; split; auto; apply Hall; auto.
        * exists o1; split; auto; apply Hall; auto.
      + apply lookup_None in E1; rewrite Hk in E1; apply lookup_None in E1; rewrite E1; tauto.
    - intros [Hk Hall]; split; auto.
      intros [s o1] Hin; simpl.
      assert (E1 : lookup s g1 = Some o1) by (apply lookup_In_iff; auto).
      assert (Hs : In s (keys g2)) by (apply Hk, lookup_Some_key; eauto).
      apply lookup_Some_key in Hs; destruct Hs as [o2 E2]; rewrite E2.
      apply set_eqb_spec; intros [l d]; specialize (Hall s l d).
      unfold has_transition in Hall; rewrite E1, E2 in Hall.
      rewrite <- !mem_In; rewrite Hall; tauto.
  Qed.

  (** C06 *)
  Section Compact.
    Variables (e : L) (nodes : list N) (new : N).
    Definition touched (t : N * L * N) : bool := mem (fst (fst t)) nodes || mem (snd t) nodes.
    Definition inner (t : N * L * N) : bool := mem (fst (fst t)) nodes && mem (snd t) nodes.
    Definition image (t : N * L * N) : N * L * N :=
      (if mem (fst (fst t)) nodes then new else fst (fst t), e,
       if mem (snd t) nodes then new else snd t).

    Lemma compact_loop ts : forall (g : graph), gwf g -> NoDup ts ->
      (forall t, In t ts -> has_transition g (fst (fst t)) (snd (fst t)) (snd t) = true) ->
      exists g', foldM (compact_step e nodes new) ts g = Ok g' /\ gwf g' /\
        forall s l d, has_transition g' s l d = true <->
          (has_transition g s l d = true /\ ~ (In (s, l, d) ts /\ touched (s, l, d) = true)) \/
          (exists t, In t ts /\ touched t = true /\ inner t = false /\ image t = (s, l, d)).
    Proof.
      induction ts as [|[[s0 l0] d0] ts IH]; intros g Hw Hn Hp; cbn [foldM].
      - exists g; split; [auto|split; auto].
        intros s l d; simpl; split; [intros Hh; left; tauto|intros [[Hh _]|[t [[] _]]]; auto].
      - inversion Hn as [|? ? Hnot Hn']; subst.
        assert (Hp' : forall t, In t ts -> has_transition g (fst (fst t)) (snd (fst t)) (snd t) = true)
          by (intros t Ht; apply Hp; simpl; auto).
        unfold compact_step at 1.
        change (mem s0 nodes || mem d0 nodes) with (touched (s0, l0, d0)).
        change (mem s0 nodes && mem d0 nodes) with (inner (s0, l0, d0)).
        destruct (touched (s0, l0, d0)) eqn:Et.
        + pose proof (remove_spec g s0 l0 d0) as Hr.
          pose proof (Hp (s0, l0, d0) (or_introl eq_refl)) as Hpres; simpl in Hpres.
          destruct (remove_transition g s0 l0 d0) as [g1|ex]; [|destruct Hr; congruence].
          destruct Hr as [_ [Hi [Hw1 _]]]; specialize (Hw1 Hw); simpl bind.
          destruct (inner (s0, l0, d0)) eqn:Ei; simpl negb; cbn iota; cbn [bind].
          * destruct (IH g1 Hw1 Hn') as [g' [Eg [Hw' Hh]]].
            { intros t Ht; apply Hi; split; [|apply Hp'; auto].
              intros E; apply Hnot; destruct t as [[a b] c]; simpl in E; inversion E; subst; auto. }
            exists g'; split; [auto|split; auto].
            intros s l d; rewrite Hh, Hi; simpl In; split.
            -- intros [[[Hne Hg] Hnin]|[t [Ht X]]].
               ++ left; split; auto; intros [[E|Hin] Htt]; [congruence|auto].
               ++ right; exists t; tauto.
            -- intros [[Hg Hnin]|[t [[E|Ht] X]]].
               ++ left; split; [split; auto|tauto].
                  intros E; apply Hnin; split; [left; congruence|rewrite E; auto].
               ++ subst t; destruct X as [_ [X _]]; congruence.
               ++ right; exists t; tauto.
          * set (s1 := if mem s0 nodes then new else s0).
            set (d1 := if mem d0 nodes then new else d0).
            assert (Himg : image (s0, l0, d0) = (s1, e, d1)) by reflexivity.
            destruct (IH (add_transition g1 s1 e d1) (gwf_add g1 s1 e d1 Hw1) Hn') as [g' [Eg [Hw' Hh]]].
            { intros t Ht; apply has_add; right; apply Hi; split; [|apply Hp'; auto].
              intros E; apply Hnot; destruct t as [[a b] c]; simpl in E; inversion E; subst; auto. }
            exists g'; split; [auto|split; auto].
            intros s l d; rewrite Hh, has_add, Hi; simpl In; split.
            -- intros [[[E|[Hne Hg]] Hnin]|[t [Ht X]]].
               ++ right; exists (s0, l0, d0); rewrite Himg; auto.
               ++ left; split; auto; intros [[E|Hin] Htt]; [congruence|auto].
               ++ right; exists t; tauto.
            -- intros [[Hg Hnin]|[t [[E|Ht] X]]].
               ++ left; split; [right; split; auto|tauto].
                  intros E; apply Hnin; split; [left; congruence|rewrite E; auto].
               ++ subst t; destruct X as [_ [_ X]]; rewrite Himg in X.
                  (* the new image may itself still be to be processed *)
                  destruct (in_dec eq_dec (s, l, d) ts) as [Hin|Hin]; [|left; split; [auto|tauto]].
                  destruct (touched (s, l, d)) eqn:Ett; [|left; split; [auto|intros [_ E]; discriminate]].
                  right; exists (s, l, d); split; auto; split; auto.
                  inversion X; subst s l d; clear X Himg.
                  unfold touched, inner, image in *; simpl in *.
                  subst s1 d1; destruct (mem s0 nodes) eqn:E0, (mem d0 nodes) eqn:E1; simpl in *;
                    try discriminate.
                  ** rewrite E1, orb_false_r in Ett; rewrite Ett, E1; auto.
                  ** rewrite E0 in Ett; simpl in Ett; rewrite Ett, E0; auto.
               ++ right; exists t; tauto.
        + cbn [bind]; destruct (IH g Hw Hn' Hp') as [g' [Eg [Hw' Hh]]].
          exists g'; split; [auto|split; auto].
          intros s l d; rewrite Hh; simpl In; split.
          * intros [[Hg Hnin]|[t [Ht X]]].
            -- left; split; auto; intros [[E|Hin] Htt]; [inversion E; subst; congruence|auto].
            -- right; exists t; tauto.
          * intros [[Hg Hnin]|[t [[E|Ht] X]]].
            -- left; split; auto; tauto.
            -- subst t; destruct X; congruence.
            -- right; exists t; tauto.
    Qed.
  End Compact.

  Lemma mem_set_of (x : N) l : mem x (set_of l) = mem x l.
  Proof. apply eq_true_iff_eq; rewrite !mem_In; apply set_of_In. Qed.

  Lemma compact_correct ord (e : L) (g : graph) nodes new : is_order ord -> gwf g ->
    exists g', compact ord e g nodes new = Ok g' /\ gwf g' /\
      forall s l d, has_transition g' s l d = true <->
        compacted (fun s l d => has_transition g s l d = true) nodes new e s l d.
  Proof.
    intros Hord Hw; unfold compact.
    destruct (compact_loop e (set_of nodes) new (all_transitions ord g) g Hw) as [g' [E [Hw' Hh]]].
    - apply all_transitions_NoDup; auto.
    - intros [[s l] d] Hin; simpl; apply (all_transitions_In ord g Hord (proj1 Hw)); auto.
    - exists g'; split; [auto|split; auto].
      intros s l d; rewrite Hh; unfold compacted, touched, inner, image.
      assert (Hat : forall s l d, In (s, l, d) (all_transitions ord g) <-> has_transition g s l d = true)
        by (apply all_transitions_In; [auto|apply Hw]).
      simpl; split.
      + intros [[Hg Hnin]|[[[s0 l0] d0] [Hin [Ht [Hi Him]]]]].
        * left; split; auto.
          rewrite Hat, !mem_set_of, orb_true_iff, !mem_In in Hnin; tauto.
        * simpl in *; rewrite !mem_set_of in *; apply Hat in Hin.
          inversion Him; subst; clear Him.
          destruct (mem s0 nodes) eqn:E0, (mem d0 nodes) eqn:E1; simpl in *; try discriminate;
            rewrite ?mem_In, ?mem_not_In in *.
          -- right; left; repeat split; auto; exists s0, l0; auto.
          -- right; right; repeat split; auto; exists d0, l0; auto.
      + intros [[Hg [H1 H2]]|[[-> [-> [Hd [s0 [l0 [H0 Hg]]]]]]|[-> [-> [Hs [d0 [l0 [H0 Hg]]]]]]]].
        * left; split; auto; rewrite !mem_set_of, orb_true_iff, !mem_In; tauto.
        * right; exists (s0, l0, d); simpl; rewrite !mem_set_of.
          rewrite <- mem_not_In in Hd; rewrite <- mem_In in H0; rewrite H0, Hd; simpl.
          rewrite Hat; auto.
        * right; exists (s, l0, d0); simpl; rewrite !mem_set_of.
          rewrite <- mem_not_In in Hs; rewrite <- mem_In in H0; rewrite H0, Hs; simpl.
          rewrite Hat; auto.
  Qed.
End Base.

(** ** as_dictionary (C16) *)
Section Dict.
  Context {N L T : Type} `{EN : EqDec N} `{EL : EqDec L}.

  Lemma enumerate_nth {X} (l : list X) i x : In (i, x) (enumerate l) <-> nth_error l i = Some x.
  Proof.
    unfold enumerate.
    assert (Hg : forall (l : list X) k i x, In (i, x) (combine (seq k (length l)) l) <-> k <= i /\ nth_error l (i - k) = Some x).
    { clear; induction l as [|y l IH]; intros k i x; simpl.
      - split; [tauto|]. intros [_ E]; destruct (i - k); discriminate.
      - rewrite IH; split.
        + intros [E|[Hk E]].
          * inversion E; subst; split; auto. replace (i - i) with 0 by lia; auto.
          * split; [lia|]. replace (i - k) with (S (i - S k)) by lia; auto.
        + intros [Hk E]; destruct (Nat.eq_dec i k) as [->|Hne].
          * left; replace (k - k) with 0 in E by lia; simpl in E; congruence.
          * right; split; [lia|]. replace (i - k) with (S (i - S k)) in E by lia; auto. }
    rewrite Hg, Nat.sub_0_r; split; [intros [_ E]; auto|intros E; split; auto; lia].
  Qed.

  Lemma enumerate_snd {X} (l : list X) : map snd (enumerate l) = l.
  Proof.
    unfold enumerate; generalize 0; induction l as [|x l IH]; intros k; simpl; auto.
    rewrite IH; auto.
  Qed.

  Lemma enumerate_fst {X} (l : list X) : map fst (enumerate l) = seq 0 (length l).
  Proof.
    unfold enumerate; generalize 0; induction l as [|x l IH]; intros k; simpl; auto.
    rewrite IH; auto.
  Qed.

  Lemma ids_lookup (all : list (nat * N)) : NoDup (map snd all) ->
    forall i n, In (i, n) all -> lookup n (fold_left (fun d i => upd (snd i) (fst i) d) all []) = Some i.
  Proof.
    assert (Hg : forall (all : list (nat * N)) d, NoDup (map snd all) ->
      forall n, (forall i, In (i, n) all -> lookup n (fold_left (fun d i => upd (snd i) (fst i) d) all d) = Some i) /\
                (~ In n (map snd all) -> lookup n (fold_left (fun d i => upd (snd i) (fst i) d) all d) = lookup n d)).
    { clear; induction all as [|[i n] all IH]; intros d Hn m; simpl; [split; [intros i []|auto]|].
      simpl in Hn; inversion Hn as [|? ? Hnot Hn']; subst.
      destruct (IH (upd n i d) Hn' m) as [I1 I2]; split.
      - intros j [E|Hin]; [|auto].
        inversion E; subst; rewrite I2 by auto; apply lookup_upd_same.
      - intros Hni; rewrite I2 by tauto; apply lookup_upd_other; intros ->; tauto. }
    intros Hn i n; apply Hg; auto.
  Qed.

  Lemma mapM_Ok {X Y} (f : X -> res Y) l (g : X -> Y) :
    (forall x, In x l -> f x = Ok (g x)) -> mapM f l = Ok (map g l).
  Proof.
    induction l as [|x l IH]; simpl; intros Hf; auto.
    rewrite Hf by auto; simpl; rewrite IH by auto; auto.
  Qed.

  Lemma as_dictionary_correct (strn : N -> T) (strl : L -> T) ord ordn (g : graph N L) :
    is_order ord -> is_order ordn -> gwf g ->
    exists nodes links (ns : list N) (ts : list (N * L * N)) (idx : N -> nat),
      graph_as_dictionary strn strl ord ordn g = Ok (nodes, links) /\
      NoDup ns /\
      (forall n, In n ns <-> exists s l d, has_transition g s l d = true /\ (n = s \/ n = d)) /\
      map gn_id nodes = seq 0 (length ns) /\
      map gn_label nodes = map strn ns /\
      NoDup ts /\ (forall s l d, In (s, l, d) ts <-> has_transition g s l d = true) /\
      (forall n i, nth_error ns i = Some n -> idx n = i) /\
      map (fun k => (gl_u k, gl_label k, gl_v k)) links =
        map (fun t => (idx (fst (fst t)), strl (snd (fst t)), idx (snd t))) ts.
  Proof.
    intros Hord Hordn Hw; unfold graph_as_dictionary.
    set (ns := ordn (all_nodes ord g)).
    set (ids := fold_left (fun d i => upd (snd i) (fst i) d) (enumerate ns) []).
    assert (Hns : NoDup ns) by (apply order_NoDup; auto; apply all_nodes_NoDup).
    assert (Hids : forall n i, nth_error ns i = Some n -> lookup n ids = Some i).
    { intros n i E; apply ids_lookup; [rewrite enumerate_snd; auto|apply enumerate_nth; auto]. }
    assert (Hin : forall n, In n ns <-> exists s l d, has_transition g s l d = true /\ (n = s \/ n = d)).
    { intros n; unfold ns; rewrite (order_In _ Hordn); apply all_nodes_In; [auto|apply Hw]. }
    set (idx := fun n => match lookup n ids with Some i => i | None => 0 end).
    assert (Hget : forall n, In n ns -> getitem n ids = Ok (idx n)).
    { intros n Hn; apply In_nth_error in Hn; destruct Hn as [i E].
      unfold getitem, idx; rewrite (Hids _ _ E); auto. }
    rewrite (mapM_Ok _ _ (fun t => {| gl_u := idx (fst (fst t)); gl_v := idx (snd t); gl_label := strl (snd (fst t)) |})).
    - eexists _, _, ns, (all_transitions ord g), idx; split; [simpl; reflexivity|].
      split; [auto|split; [auto|]].
      split; [rewrite map_map; simpl; apply enumerate_fst|].
      split; [rewrite map_map; simpl; rewrite <- (enumerate_snd ns) at 2; rewrite map_map; auto|].
      split; [apply all_transitions_NoDup; auto|].
      split; [apply all_transitions_In; [auto|apply Hw]|].
      split; [intros n i E; unfold idx; rewrite (Hids _ _ E); auto|].
      rewrite map_map; apply map_ext; intros [[s l] d]; auto.
    - intros [[s l] d] Ht; apply (all_transitions_In ord g Hord (proj1 Hw)) in Ht.
      rewrite Hget; [|apply Hin; eauto 6]; simpl.
      rewrite Hget; [|apply Hin; eauto 6]; simpl; auto.
  Qed.
End Dict.

(** ** TaskGraph *)
Section Task.
  Context {S A : Type} `{ES : EqDec S} `{EA : EqDec A}.
  Variable check : A -> S -> S -> res bool.
  Notation path := (list (item S A)).
  Notation tgraph := (task_graph S A).

  Lemma fold_add_step ts : forall (g : tgraph) s a d,
    tg_initial (fold_left add_step ts g) = tg_initial g /\
    tg_terminal (fold_left add_step ts g) = tg_terminal g /\
    (has_transition (tg_trans (fold_left add_step ts g)) s a d = true <->
     has_transition (tg_trans g) s a d = true \/ In (IState s, IAction a, IState d) ts) /\
    (In s (keys (tg_trans (fold_left add_step ts g))) <->
     In s (keys (tg_trans g)) \/ exists a d, In (IState s, IAction a, IState d) ts) /\
    (gwf (tg_trans g) -> gwf (tg_trans (fold_left add_step ts g))).
  Proof.
    induction ts as [|t ts IH]; intros g s a d; cbn [fold_left].
    - split; auto; split; auto; split; [simpl; tauto|].
      split; [|auto]. split; [auto|intros [|[? [? []]]]; auto].
    - destruct (IH (add_step g t) s a d) as [I1 [I2 [I3 [I4 I5]]]].
      rewrite I1, I2, I3, I4.
      assert (Hd : (exists s1 a1 s2, t = (IState s1, IAction a1, IState s2)) \/
                   (add_step g t = g /\ forall s1 a1 s2, t <> (IState s1, IAction a1, IState s2))).
      { destruct t as [[[s1|a1|] [s2|a2|]] [s3|a3|]]; simpl;
          solve [left; eauto | right; split; auto; intros; discriminate]. }
      destruct Hd as [[s1 [a1 [s2 ->]]]|[E Hne]].
      + simpl add_step; simpl tg_initial; simpl tg_terminal; simpl tg_trans.
        split; auto; split; auto; split; [|split].
        * rewrite has_add; simpl In; split.
          -- intros [[E|Hh]|Hin]; auto. right; left; congruence.
          -- intros [Hh|[E|Hin]]; auto. left; left; congruence.
        * rewrite keys_add; split.
          -- intros [[->|Hk]|[a' [d' Hin]]]; [right; exists a1, s2; simpl; auto|auto|right; exists a', d'; simpl; auto].
          -- intros [Hk|[a' [d' [E|Hin]]]]; auto; [left; left; congruence|right; eauto].
        * intros Hw; apply (proj2 (proj2 (proj2 (proj2 (IH (add_step g (IState s1, IAction a1, IState s2)) s a d))))); simpl.
          apply gwf_add; auto.
      + rewrite E in *; split; auto; split; auto; split; [|split].
        * simpl In; split; [tauto|]. intros [Hh|[E2|Hin]]; auto. exfalso; eapply Hne; eauto.
        * split; [intros [Hk|[a' [d' Hin]]]; [auto|right; exists a', d'; simpl; auto]|].
          intros [Hk|[a' [d' [E2|Hin]]]]; auto; [exfalso; eapply Hne; eauto|right; eauto].
        * intros Hw; apply (proj2 (proj2 (proj2 (proj2 (IH g s a d))))); auto.
  Qed.

  Lemma add_path_ok (g : tgraph) p : path_ok check p ->
    exists g', add_path check g p = (g', Ok tt) /\
      (gwf (tg_trans g) -> gwf (tg_trans g')) /\
      (forall s, In s (tg_initial g') <-> In s (tg_initial g) \/ path_first p s) /\
      (forall s, In s (tg_terminal g') <-> In s (tg_terminal g) \/ path_last p s) /\
      (forall s a d, has_transition (tg_trans g') s a d = true <->
                     has_transition (tg_trans g) s a d = true \/ path_step p s a d) /\
      (forall s, In s (keys (tg_trans g')) <-> In s (keys (tg_trans g)) \/ exists a d, path_step p s a d).
  Proof.
    intros Hp; pose proof (proj1 (path_ok_iff check p) Hp) as Hv.
    pose proof (proj2 (check_path_vp check p) Hv) as Hc.
    unfold add_path; rewrite Hc; simpl.
    eexists; split; [reflexivity|].
    assert (He : tg_trans (add_ends g p) = tg_trans g /\
                 (forall s, In s (tg_initial (add_ends g p)) <-> In s (tg_initial g) \/ path_first p s) /\
                 (forall s, In s (tg_terminal (add_ends g p)) <-> In s (tg_terminal g) \/ path_last p s)).
    { destruct p as [|x p].
      - simpl; split; auto; split; intros s; unfold path_first, path_last; simpl; split; auto;
          intros [|E]; auto; [discriminate|destruct E; congruence].
      - destruct (vp_last check _ Hv ltac:(discriminate)) as [u Hu].
        assert (Hx : exists s, x = IState s) by (inversion Hv; eauto).
        destruct Hx as [v ->]; unfold add_ends; rewrite Hu; simpl; split; auto; split; intros s.
        + rewrite set_add_In; unfold path_first; simpl; split; intros [X|X]; auto; [subst; auto|].
          inversion X; auto.
        + rewrite set_add_In.
          rewrite (path_last_spec (IState v :: p) s (IState v)) by discriminate.
          rewrite Hu; split; intros [X|X]; auto; [subst; auto|inversion X; auto]. }
    destruct He as [E1 [E2 E3]].
    pose proof (fold_add_step (split_path p) (add_ends g p)) as F.
    split; [|split; [|split; [|split]]].
    - intros Hw; destruct p as [|x p]; [exact Hw|].
      assert (Hx : exists s, x = IState s) by (inversion Hv; eauto).
      destruct Hx as [v ->].
      destruct (split_path (IState v :: p)) as [|t ts] eqn:Es; [cbn [fold_left]; rewrite E1; auto|].
      assert (Ht : In t (split_path (IState v :: p))) by (rewrite Es; simpl; auto).
      destruct (vp_split check _ Hv t Ht) as [s [a [s' _]]].
      apply (F s a s'); rewrite E1; auto.
    - intros s; rewrite <- E2.
      destruct (split_path p) as [|t ts] eqn:Es; [cbn [fold_left]; tauto|].
      assert (Ht : In t (split_path p)) by (rewrite Es; simpl; auto).
      destruct (vp_split check _ Hv t Ht) as [s1 [a [s' _]]].
      rewrite (proj1 (F s1 a s')); tauto.
    - intros s; rewrite <- E3.
      destruct (split_path p) as [|t ts] eqn:Es; [cbn [fold_left]; tauto|].
      assert (Ht : In t (split_path p)) by (rewrite Es; simpl; auto).
      destruct (vp_split check _ Hv t Ht) as [s1 [a [s' _]]].
      rewrite (proj1 (proj2 (F s1 a s'))); tauto.
    - intros s a d; rewrite path_step_split, (proj1 (proj2 (proj2 (F s a d)))), E1; tauto.
    - intros s.
      destruct (split_path p) as [|t ts] eqn:Es.
      + cbn [fold_left]; rewrite E1; split; [auto|]. intros [|[a [d Hs]]]; auto.
        apply path_step_split in Hs; rewrite Es in Hs; destruct Hs.
      + assert (Ht : In t (split_path p)) by (rewrite Es; simpl; auto).
        destruct (vp_split check _ Hv t Ht) as [s1 [a1 [s' _]]].
        rewrite (proj1 (proj2 (proj2 (proj2 (F s a1 s'))))), E1.
        split; (intros [|[a [d Hs]]]; [auto|right; exists a, d]).
        * apply path_step_split; rewrite Es; auto.
        * apply path_step_split in Hs; rewrite Es in Hs; auto.
  Qed.

  Lemma check_path_not_ok p : ~ path_ok check p ->
    check_path check p = Ok false \/ exists e, check_path check p = Err e.
  Proof.
    intros Hn; destruct (check_path check p) as [[]|e] eqn:E; eauto.
    exfalso; apply Hn, path_ok_iff, check_path_vp, E.
  Qed.

  Lemma path_ok_dec p : path_ok check p \/ ~ path_ok check p.
  Proof.
    destruct (check_path check p) as [[]|e] eqn:E.
    - left; apply path_ok_iff, check_path_vp, E.
    - right; intros Hp; apply path_ok_iff, check_path_vp in Hp; congruence.
    - right; intros Hp; apply path_ok_iff, check_path_vp in Hp; congruence.
  Qed.

  Lemma add_path_bad (g : tgraph) p : ~ path_ok check p -> exists e, add_path check g p = (g, Err e).
  Proof.
    intros Hn; unfold add_path; destruct (check_path_not_ok p Hn) as [->|[e ->]]; simpl; eauto.
  Qed.

  (** Invariant of a history of add_path calls. *)
  Definition tg_inv (h : list path) (g : tgraph) : Prop :=
    gwf (tg_trans g) /\
    (forall s, In s (tg_initial g) <-> starts_some check h s) /\
    (forall s, In s (tg_terminal g) <-> ends_some check h s) /\
    (forall s a d, has_transition (tg_trans g) s a d = true <-> step_of_some check h s a d) /\
    (forall s, In s (keys (tg_trans g)) <-> exists a d, step_of_some check h s a d).

  Lemma some_snoc (P : path -> Prop) h p :
    (exists q, In q (h ++ [p]) /\ path_ok check q /\ P q) <->
    (exists q, In q h /\ path_ok check q /\ P q) \/ (path_ok check p /\ P p).
  Proof.
    split.
    - intros [q [Hin Hq]]; apply in_app_iff in Hin; destruct Hin as [Hin|[->|[]]]; eauto.
    - intros [[q [Hin Hq]]|Hq]; [exists q|exists p]; rewrite in_app_iff; simpl; tauto.
  Qed.

  Lemma add_paths_snoc h p : add_paths check (h ++ [p]) = fst (add_path check (add_paths check h) p).
  Proof. unfold add_paths; rewrite fold_left_app; reflexivity. Qed.

  Lemma add_paths_inv h : tg_inv h (add_paths check h).
  Proof.
    induction h as [|p h IH] using rev_ind.
    - split; [apply gwf_empty|].
      unfold starts_some, ends_some, step_of_some; simpl.
      split; [|split; [|split]].
      + intros s; split; [tauto|intros [p [[] _]]].
      + intros s; split; [tauto|intros [p [[] _]]].
      + intros s a d; split; [discriminate|intros [p [[] _]]].
      + intros s; split; [tauto|intros [a [d [p [[] _]]]]].
    - rewrite add_paths_snoc; destruct IH as [Hw [Hi [Ht [Hs Hk]]]].
      unfold tg_inv, starts_some, ends_some, step_of_some.
      destruct (path_ok_dec p) as [Hp|Hp].
      + destruct (add_path_ok (add_paths check h) p Hp) as [g' [E [G0 [G1 [G2 [G3 G4]]]]]].
        rewrite E; simpl fst; split; [auto|split; [|split; [|split]]].
        * intros s; rewrite some_snoc, G1, Hi; unfold starts_some; tauto.
        * intros s; rewrite some_snoc, G2, Ht; unfold ends_some; tauto.
        * intros s a d; rewrite (some_snoc (fun q => path_step q s a d)), G3, Hs; unfold step_of_some; tauto.
        * intros s; rewrite G4, Hk; split.
          -- intros [[a [d X]]|[a [d X]]]; exists a, d; apply (some_snoc (fun q => path_step q s a d)); auto.
          -- intros [a [d X]]; apply (some_snoc (fun q => path_step q s a d)) in X.
             destruct X as [X|[_ X]]; [left|right]; exists a, d; auto.
      + destruct (add_path_bad (add_paths check h) p Hp) as [e E]; rewrite E; simpl fst.
        split; [auto|split; [|split; [|split]]].
        * intros s; rewrite some_snoc, Hi; unfold starts_some; tauto.
        * intros s; rewrite some_snoc, Ht; unfold ends_some; tauto.
        * intros s a d; rewrite (some_snoc (fun q => path_step q s a d)), Hs; unfold step_of_some; tauto.
        * intros s; rewrite Hk; split; intros [a [d X]]; exists a, d.
          -- apply (some_snoc (fun q => path_step q s a d)); auto.
          -- apply (some_snoc (fun q => path_step q s a d)) in X; destruct X as [X|[Hpk _]]; [auto|tauto].
  Qed.

  (** C02 *)
  Lemma has_path_correct h q : path_ok check q ->
    exists b, has_path check (add_paths check h) q = Ok b /\ (b = true <-> accepted check h q).
  Proof.
    intros Hq; pose proof (proj1 (path_ok_iff check q) Hq) as Hv.
    unfold has_path; rewrite (proj2 (check_path_vp check q) Hv); simpl.
    eexists; split; [reflexivity|].
    destruct (add_paths_inv h) as [Hw [Hi [Ht [Hs _]]]].
    destruct q as [|x q]; [split; [intros _; left; auto|auto]|].
    destruct (vp_last check _ Hv ltac:(discriminate)) as [u Hu].
    assert (Hx : exists s, x = IState s) by (inversion Hv; eauto).
    destruct Hx as [v ->]; rewrite Hu.
    rewrite !andb_true_iff, !mem_In, Hi, Ht, forallb_forall; unfold accepted; split.
    - intros [[H1 H2] H3]; right; split; [|split].
      + exists v; split; auto; reflexivity.
      + exists u; split; auto; apply (path_last_spec _ _ (IState v)); [discriminate|auto].
      + intros s a s' Hst; apply Hs; apply path_step_split in Hst; apply (H3 _ Hst).
    - intros [E|[[s1 [Hf H1]] [[s2 [Hl H2]] H3]]]; [discriminate|].
      unfold path_first in Hf; simpl in Hf; inversion Hf; subst s1.
      apply (path_last_spec _ _ (IState v)) in Hl; [|discriminate].
      rewrite Hu in Hl; inversion Hl; subst s2.
      split; [auto|]. intros t Hin; destruct (vp_split check _ Hv t Hin) as [s [a [s' ->]]]; simpl.
      apply Hs, H3, path_step_split, Hin.
  Qed.

  (** C03 *)
  Lemma bad_path_rejected (g : tgraph) p :
    (forall a s s' e, check a s s' = Err e -> e = EIndex) -> ~ path_ok check p ->
    add_path check g p = (g, Err EValue) /\ has_path check g p = Err EValue.
  Proof.
    intros Hc Hp; destruct (check_path_total check Hc p) as [b E].
    assert (b = false) by (destruct b; auto; exfalso; apply Hp, path_ok_iff, check_path_vp, E); subst b.
    unfold add_path, has_path; rewrite E; auto.
  Qed.

End Task.

Section Det.
  Context {S A : Type} `{ES : EqDec S} `{EA : EqDec A}.
  Notation tgraph := (task_graph S A).

  (** C07 *)
  Lemma check_det_from_loop o : NoDup o -> forall acc,
    (exists acc', foldM (fun outgoing (t : A * S) => if mem (fst t) outgoing then Err EValue
                             else Ok (set_add (fst t) outgoing)) o acc = Ok acc') /\
    NoDup (map fst o) /\ (forall a, In a (map fst o) -> ~ In a acc) \/
    foldM (fun outgoing (t : A * S) => if mem (fst t) outgoing then Err EValue
                             else Ok (set_add (fst t) outgoing)) o acc = Err EValue /\
    ~ (NoDup (map fst o) /\ (forall a, In a (map fst o) -> ~ In a acc)).
  Proof.
    induction o as [|[a d] o IH]; intros Hn acc; cbn [foldM].
    - left; split; [eauto|split; [constructor|simpl; tauto]].
    - inversion Hn as [|? ? _ Hn']; subst; simpl fst.
      destruct (mem a acc) eqn:Em.
      + right; split; auto; intros [_ X]; apply (X a); [simpl; auto|apply mem_In; auto].
      + apply mem_not_In in Em; simpl bind.
        destruct (IH Hn' (set_add a acc)) as [[Hex [Hd Hdis]]|[E Hbad]].
        * left; split; auto; split; simpl.
          -- constructor; auto; intros Hin; apply (Hdis a Hin), set_add_In; auto.
          -- intros x [<-|Hin]; auto. intros Hx; apply (Hdis x Hin), set_add_In; auto.
        * right; split; auto; simpl; intros [Hd Hdis]; apply Hbad.
          inversion Hd as [|? ? Hna Hd']; subst; split; auto.
          intros x Hin Hx; apply set_add_In in Hx; destruct Hx as [->|Hx]; [auto|apply (Hdis x); auto].
  Qed.

  Lemma NoDup_map_fst (o : list (A * S)) : NoDup o ->
    (NoDup (map fst o) <-> forall a d1 d2, In (a, d1) o -> In (a, d2) o -> d1 = d2).
  Proof.
    intros Hn; split.
    - intros Hd; induction o as [|[a d] o IH]; simpl; [tauto|].
      inversion Hn as [|? ? _ Hn2]; subst; simpl in Hd; inversion Hd as [|? ? Hna Hd']; subst.
      assert (Hno : forall x, ~ In (a, x) o) by (intros x Hx; apply Hna; change a with (fst (a, x)); apply in_map; auto).
      intros b d1 d2 [E1|H1] [E2|H2]; try (inversion E1; subst); try (inversion E2; subst); auto;
        try (exfalso; eapply Hno; eauto; fail).
      eapply IH; eauto.
    - intros Hu; induction Hn as [|[a d] o Hnot Hn IH]; simpl; [constructor|].
      constructor.
      + intros Hin; apply in_map_iff in Hin; destruct Hin as [[a' d'] [E Hin]]; simpl in E; subst a'.
        assert (d = d') by (apply (Hu a); simpl; auto); subst; auto.
      + apply IH; intros b d1 d2 H1 H2; apply (Hu b); simpl; auto.
  Qed.

  Lemma check_det_correct ord (g : graph S A) : is_order ord -> gwf g ->
    (check_det ord g = Ok tt /\ deterministic g) \/ (check_det ord g = Err EValue /\ ~ deterministic g).
  Proof.
    intros Hord [Hk Ho].
    assert (Hlook : forall s o, In (s, o) g <-> lookup s g = Some o) by (intros; symmetry; apply lookup_In_iff; auto).
    assert (Hg : forall l, (forall s o, In (s, o) l -> NoDup o) ->
      (foldM (fun _ so => do _ <- check_det_from ord (snd so); Ok tt) l tt = Ok tt /\
       forall s o, In (s, o) l -> forall a d1 d2, In (a, d1) o -> In (a, d2) o -> d1 = d2) \/
      (foldM (fun _ so => do _ <- check_det_from ord (snd so); Ok tt) l tt = Err EValue /\
       ~ forall (s : S) o, In (s, o) l -> forall a d1 d2, In (a, d1) o -> In (a, d2) o -> d1 = d2)).
    { induction l as [|[s o] l IH]; intros Hl; cbn [foldM]; [left; split; [auto|intros s o []]|].
      assert (Hno : NoDup o) by (apply (Hl s); simpl; auto).
      assert (Hno' : NoDup (ord o)) by (apply order_NoDup; auto).
      unfold check_det_from at 1 3; simpl snd.
      destruct (check_det_from_loop (ord o) Hno' []) as [[[acc E] [Hd _]]|[E Hbad]]; rewrite E; cbn [bind].
      - destruct IH as [[E2 Hu]|[E2 Hu]].
        + intros s' o' Hin; apply (Hl s'); simpl; auto.
        + left; split; auto. intros s' o' [Eq|Hin]; [|eapply Hu; eauto].
          inversion Eq; subst; apply NoDup_map_fst; auto.
          eapply Permutation_NoDup; [apply Permutation_map, Hord|exact Hd].
        + right; split; auto. intros X; apply Hu; intros s' o' Hin; apply (X s' o'); simpl; auto.
      - right; split; auto; intros X; apply Hbad; split; [|simpl; tauto].
        eapply Permutation_NoDup; [apply Permutation_map, Permutation_sym, Hord|].
        apply NoDup_map_fst; auto. apply (X s o); simpl; auto. }
    unfold check_det; destruct (Hg g) as [[E Hu]|[E Hu]].
    - intros s o Hin; apply (Ho s), Hlook, Hin.
    - left; split; auto. intros s a d1 d2 H1 H2; apply has_true_lookup in H1, H2.
      destruct H1 as [o1 [L1 I1]], H2 as [o2 [L2 I2]]; rewrite L1 in L2; inversion L2; subst.
      apply Hlook in L1; eapply Hu; eauto.
    - right; split; auto. intros Hd; apply Hu; intros s o Hin a d1 d2 H1 H2; apply Hlook in Hin.
      apply (Hd s a); apply has_true_lookup; eauto.
  Qed.

  (** C08: the conjugate *)
  Section Conj.
    Variables (ord : list (A * S) -> list (A * S)) (ords : list S -> list S).
    Hypotheses (Hord : is_order ord) (Hords : is_order ords).
    Variables initial terminal : A.

    Lemma fold_add_from (x : A) (s : S) o : forall (c : graph A S) x' s' y',
      has_transition (fold_left (fun c (t : A * S) => add_transition c x s (fst t)) o c) x' s' y' = true <->
      has_transition c x' s' y' = true \/ (x' = x /\ s' = s /\ exists d, In (y', d) o).
    Proof.
      induction o as [|[a d] o IH]; intros c x' s' y'; cbn [fold_left].
      - split; [auto|intros [|[_ [_ [d []]]]]; auto].
      - rewrite IH, has_add; simpl fst; split.
        + intros [[E|Hh]|[-> [-> [d' Hin]]]]; auto.
          * inversion E; subst; right; split; auto; split; auto; exists d; simpl; auto.
          * right; split; auto; split; auto; exists d'; simpl; auto.
        + intros [Hh|[-> [-> [d' [E|Hin]]]]]; auto.
          * inversion E; subst; auto.
          * right; split; auto; split; auto; eauto.
    Qed.

    Lemma gwf_fold_add_from (x : A) (s : S) o : forall (c : graph A S), gwf c ->
      gwf (fold_left (fun c (t : A * S) => add_transition c x s (fst t)) o c).
    Proof. induction o as [|t o IH]; intros c Hc; simpl; auto. apply IH, gwf_add, Hc. Qed.

    Variable tg : tgraph.
    Hypothesis Hw : gwf (tg_trans tg).
    Notation trans := (fun s a d => has_transition (tg_trans tg) s a d = true).
    Notation key := (fun s => In s (keys (tg_trans tg))).

    Lemma getitem_key s : (exists o, getitem s (tg_trans tg) = Ok o /\ lookup s (tg_trans tg) = Some o /\ key s) \/
                          (getitem s (tg_trans tg) = Err EKey /\ ~ key s).
    Proof.
      unfold getitem; destruct (lookup s (tg_trans tg)) as [o|] eqn:E.
      - left; exists o; split; auto; split; auto; apply lookup_Some_key; eauto.
      - right; split; auto; apply lookup_None; auto.
    Qed.

    Lemma conj_initial_loop ss : forall c, gwf c ->
      (exists c', foldM (conj_initial ord initial tg) ss c = Ok c' /\ gwf c' /\
         (forall s, In s ss -> key s) /\
         forall x s y, has_transition c' x s y = true <->
           has_transition c x s y = true \/ (x = initial /\ In s ss /\ exists d, trans s y d)) \/
      (foldM (conj_initial ord initial tg) ss c = Err EKey /\ exists s, In s ss /\ ~ key s).
    Proof.
      induction ss as [|s0 ss IH]; intros c Hc; cbn [foldM].
      - left; exists c; split; auto; split; auto; split; [simpl; tauto|].
        intros x s y; split; [auto|intros [|[_ [[] _]]]; auto].
      - unfold conj_initial at 1 3.
        destruct (getitem_key s0) as [[o [-> [El Hk]]]|[-> Hk]]; cbn [bind].
        2:{ right; split; auto; exists s0; simpl; auto. }
        match goal with |- context [foldM _ ss ?c1] => destruct (IH c1) as [[c' [E [Hc' [Hks Hh]]]]|[E [s [Hin Hn]]]] end.
        + apply gwf_fold_add_from; auto.
        + left; exists c'; split; auto; split; auto; split.
          * intros s [<-|Hin]; auto.
          * intros x s y; rewrite Hh, fold_add_from; simpl In; split.
            -- intros [[Hx|[-> [-> [d Hin]]]]|[-> [Hin Hd]]]; auto.
               ++ right; split; auto; split; auto; exists d.
                  apply has_true_lookup; exists o; split; auto. apply (proj1 (order_In _ Hord _ _)) in Hin; auto.
            -- intros [Hx|[-> [[<-|Hin] [d Hd]]]]; auto.
               ++ apply has_true_lookup in Hd; destruct Hd as [o' [E' Hin]]; rewrite El in E'; inversion E'; subst.
                  left; right; split; auto; split; auto; exists d; apply (proj2 (order_In _ Hord _ _)); auto.
               ++ right; split; auto; split; eauto.
        + right; split; auto; exists s; simpl; auto.
    Qed.

    Lemma conj_edge_loop ts : forall c, gwf c ->
      (exists c', foldM (conj_edge ord terminal tg) ts c = Ok c' /\ gwf c' /\
         (forall a d, In (a, d) ts -> In d (tg_terminal tg) \/ key d) /\
         forall x s y, has_transition c' x s y = true <->
           has_transition c x s y = true \/
           (In (x, s) ts /\ In s (tg_terminal tg) /\ y = terminal) \/
           (In (x, s) ts /\ ~ In s (tg_terminal tg) /\ exists d, trans s y d)) \/
      (foldM (conj_edge ord terminal tg) ts c = Err EKey /\
         exists a d, In (a, d) ts /\ ~ In d (tg_terminal tg) /\ ~ key d).
    Proof.
      induction ts as [|[a0 d0] ts IH]; intros c Hc; cbn [foldM].
      - left; exists c; split; auto; split; auto; split; [simpl; tauto|].
        intros x s y; simpl; tauto.
      - unfold conj_edge at 1 3.
        destruct (mem d0 (tg_terminal tg)) eqn:Em.
        + apply mem_In in Em; cbn [bind].
          destruct (IH (add_transition c a0 d0 terminal)) as [[c' [E [Hc' [Hks Hh]]]]|[E [a [d [Hin Hn]]]]].
          * apply gwf_add; auto.
          * left; exists c'; split; auto; split; auto; split.
            -- intros a d [E2|Hin]; [inversion E2; subst; auto|eauto].
            -- intros x s y; rewrite Hh, has_add; simpl In; split.
               ++ intros [[E2|Hx]|[Hx|Hx]]; auto; [|tauto|tauto].
                  inversion E2; subst; right; left; auto.
               ++ intros [Hx|[[[E2|Hin] Hx]|[[E2|Hin] Hx]]]; auto.
                  ** destruct Hx as [_ ->]; inversion E2; subst; auto.
                  ** destruct Hx as [Hx _]; inversion E2; subst; tauto.
          * right; split; auto; exists a, d; simpl; auto.
        + apply mem_not_In in Em.
          destruct (getitem_key d0) as [[o [-> [El Hk]]]|[-> Hk]]; cbn [bind].
          2:{ right; split; auto; exists a0, d0; simpl; auto. }
          match goal with |- context [foldM _ ts ?c1] => destruct (IH c1) as [[c' [E [Hc' [Hks Hh]]]]|[E [a [d [Hin Hn]]]]] end.
          * apply gwf_fold_add_from; auto.
          * left; exists c'; split; auto; split; auto; split.
            -- intros a d [E2|Hin]; [inversion E2; subst; auto|eauto].
            -- intros x s y; rewrite Hh, fold_add_from; simpl In; split.
               ++ intros [[Hx|[-> [-> [d Hin]]]]|[Hx|Hx]]; auto; [|tauto|tauto].
                  right; right; split; auto; split; auto; exists d.
                  apply has_true_lookup; exists o; split; auto. apply (proj1 (order_In _ Hord _ _)) in Hin; auto.
               ++ intros [Hx|[[[E2|Hin] Hx]|[[E2|Hin] [Hx [d Hd]]]]]; auto.
                  ** destruct Hx as [Hx _]; inversion E2; subst; tauto.
                  ** inversion E2; subst; apply has_true_lookup in Hd; destruct Hd as [o' [E' Hin]].
                     rewrite El in E'; inversion E'; subst.
                     left; right; split; auto; split; auto; exists d; apply (proj2 (order_In _ Hord _ _)); auto.
                  ** right; right; eauto.
          * right; split; auto; exists a, d; simpl; auto.
    Qed.

    Lemma conj_outer_loop gs : forall c, gwf c ->
      (exists c', foldM (fun c (so : S * list (A * S)) => foldM (conj_edge ord terminal tg) (ord (snd so)) c) gs c = Ok c' /\
         gwf c' /\
         (forall s0 o a d, In (s0, o) gs -> In (a, d) o -> In d (tg_terminal tg) \/ key d) /\
         forall x s y, has_transition c' x s y = true <->
           has_transition c x s y = true \/
           exists s0 o, In (s0, o) gs /\ In (x, s) o /\
             ((In s (tg_terminal tg) /\ y = terminal) \/ (~ In s (tg_terminal tg) /\ exists d, trans s y d))) \/
      (foldM (fun c (so : S * list (A * S)) => foldM (conj_edge ord terminal tg) (ord (snd so)) c) gs c = Err EKey /\
         exists s0 o a d, In (s0, o) gs /\ In (a, d) o /\ ~ In d (tg_terminal tg) /\ ~ key d).
    Proof.
      induction gs as [|[s1 o1] gs IH]; intros c Hc; cbn [foldM].
      - left; exists c; split; auto; split; auto; split; [simpl; tauto|].
        intros x s y; split; [auto|intros [|[? [? [[] _]]]]; auto].
      - simpl snd; destruct (conj_edge_loop (ord o1) c Hc) as [[c1 [E [Hc1 [Hks Hh]]]]|[E [a [d [Hin Hn]]]]];
          rewrite E; cbn [bind].
        2:{ right; split; auto; exists s1, o1, a, d; simpl; split; auto; split; auto.
            apply (proj1 (order_In _ Hord _ _)) in Hin; auto. }
        destruct (IH c1 Hc1) as [[c' [E2 [Hc' [Hks2 Hh2]]]]|[E2 [s0 [o [a [d [Hin X]]]]]]].
        + left; exists c'; split; auto; split; auto; split.
          * intros s0 o a d [Eq|Hin] Hi; [|eauto].
            inversion Eq; subst; apply (Hks a), (proj2 (order_In _ Hord _ _)), Hi.
          * intros x s y; rewrite Hh2, Hh, !(order_In _ Hord); split.
            -- intros [[Hx|[[Hin Hx]|[Hin Hx]]]|[s0 [o [Hin Hx]]]]; auto.
               ++ right; exists s1, o1; simpl; tauto.
               ++ right; exists s1, o1; simpl; tauto.
               ++ right; exists s0, o; simpl; tauto.
            -- intros [Hx|[s0 [o [[Eq|Hin] [Hi Hx]]]]]; auto.
               ++ inversion Eq; subst; tauto.
               ++ right; exists s0, o; tauto.
        + right; split; auto; exists s0, o, a, d; simpl; tauto.
    Qed.

    Definition conj_defined : Prop :=
      (forall s, In s (tg_initial tg) -> key s) /\
      (forall s a d, trans s a d -> In d (tg_terminal tg) \/ key d).

    Lemma conj_correct :
      (~ deterministic (tg_trans tg) /\ from_task_graph ord ords initial terminal tg = Err EValue) \/
      (deterministic (tg_trans tg) /\ ~ conj_defined /\
         from_task_graph ord ords initial terminal tg = Err EKey) \/
      (deterministic (tg_trans tg) /\ conj_defined /\
       exists c, from_task_graph ord ords initial terminal tg = Ok c /\ gwf c /\
         forall x s y, has_transition c x s y = true <->
           conj_edge_spec trans (fun s => In s (tg_initial tg)) (fun s => In s (tg_terminal tg)) initial terminal x s y).
    Proof.
      unfold from_task_graph.
      destruct (check_det_correct ord (tg_trans tg) Hord Hw) as [[E Hd]|[E Hd]]; rewrite E; cbn [bind]; [|auto].
      right.
      assert (Hlook : forall s o, In (s, o) (tg_trans tg) <-> lookup s (tg_trans tg) = Some o)
        by (intros; symmetry; apply lookup_In_iff; apply Hw).
      destruct (conj_initial_loop (ords (tg_initial tg)) [] gwf_empty) as [[c1 [E1 [Hw1 [Hk1 Hh1]]]]|[E1 [s [Hin Hn]]]];
        rewrite E1; cbn [bind].
      2:{ left; split; auto; split; auto. intros [X _]; apply Hn, X; apply (proj1 (order_In _ Hords _ _)) in Hin; auto. }
      destruct (conj_outer_loop (tg_trans tg) c1 Hw1) as [[c2 [E2 [Hw2 [Hk2 Hh2]]]]|[E2 [s0 [o [a [d [Hin [Hi [Hn1 Hn2]]]]]]]]].
      - right; split; auto; split.
        { split.
          - intros s Hs; apply Hk1, (proj2 (order_In _ Hords _ _)), Hs.
          - intros s a d Ht; apply has_true_lookup in Ht; destruct Ht as [o [Eo Hi]].
            apply Hlook in Eo; eapply Hk2; eauto. }
        exists c2; split; auto; split; auto.
        intros x s y; rewrite Hh2, Hh1, (order_In _ Hords); split.
        + intros [[Hf|[-> [Hin [d Hd']]]]|[s0 [o [Hin [Hi [[Ht ->]|[Ht [d Hd']]]]]]]].
          * discriminate.
          * econstructor; eauto.
          * apply Hlook in Hin; eapply CTerm; eauto; apply has_true_lookup; eauto.
          * apply Hlook in Hin; eapply CNext; eauto; apply has_true_lookup; eauto.
        + intros X; inversion X as [s1 a1 d1 Hi Ht|s1 a1 s2 Ht Hte|s1 a1 s2 a2 d2 Ht Hte Ht2]; subst.
          * left; right; split; auto; split; eauto.
          * apply has_true_lookup in Ht; destruct Ht as [o [Eo Ho]]; apply Hlook in Eo.
            right; exists s1, o; split; auto; split; auto.
          * apply has_true_lookup in Ht; destruct Ht as [o [Eo Ho]]; apply Hlook in Eo.
            right; exists s1, o; split; auto; split; auto. right; split; eauto.
      - left; split; auto; split; auto. intros [_ X]; apply Hlook in Hin.
        destruct (X s0 a d); auto. apply has_true_lookup; eauto.
    Qed.
  End Conj.

End Det.

Section Task2.
  Context {S A : Type} `{ES : EqDec S} `{EA : EqDec A}.
  Variable check : A -> S -> S -> res bool.
  Notation path := (list (item S A)).
  Notation tgraph := (task_graph S A).

  (** Reached non-terminal states of a history always continue. *)
  Lemma history_step_continues h s a d :
    step_of_some check h s a d -> ends_some check h d \/ exists a2 d2, step_of_some check h d a2 d2.
  Proof.
    intros [p [Hin [Hp Hs]]].
    assert (Hgen : vp check p -> In (IState s, IAction a, IState d) (split_path p) ->
                   path_last p d \/ exists a2 d2, path_step p d a2 d2).
    { clear Hin Hp Hs; induction 1 as [|u|u b v tl Hc Hv IH]; simpl; try tauto.
      assert (Hl : forall w, path_last (IState v :: tl) w -> path_last (IState u :: IAction b :: IState v :: tl) w).
      { intros w Hw; apply (path_last_spec _ _ (IState v)); [discriminate|].
        apply (path_last_spec _ _ (IState v)) in Hw; [exact Hw|discriminate]. }
      assert (Hst : forall w c w', path_step (IState v :: tl) w c w' ->
                                   path_step (IState u :: IAction b :: IState v :: tl) w c w').
      { intros w c w'; rewrite !path_step_split; simpl; auto. }
      intros [E|Hin].
      - inversion E; subst v.
        inversion Hv as [|w|w c w' tl' Hc' Hv']; subst.
        + left; apply Hl; split; [discriminate|reflexivity].
        + right; exists c, w'; apply Hst, path_step_split; simpl; auto.
      - destruct (IH Hin) as [X|[a2 [d2 X]]]; [left; auto|right; eauto]. }
    destruct Hgen as [X|[a2 [d2 X]]].
    - apply path_ok_iff; auto.
    - apply path_step_split; auto.
    - left; exists p; auto.
    - right; exists a2, d2, p; auto.
  Qed.

  Lemma history_conj_defined h :
    conj_defined (add_paths check h) <->
    (forall s, starts_some check h s -> exists a d, step_of_some check h s a d).
  Proof.
    destruct (add_paths_inv check h) as [Hw [Hi [Ht [Hs Hk]]]].
    unfold conj_defined; split.
    - intros [H1 _] s Hst; apply Hk, H1, Hi, Hst.
    - intros Hx; split.
      + intros s Hin; apply Hk, Hx, Hi, Hin.
      + intros s a d Htr; apply Hs in Htr; rewrite Ht, Hk; apply history_step_continues with s a; auto.
  Qed.

  (** C09, positive part: a walk whose inner states are not terminal *)
  Lemma walk_from (trans : S -> A -> S -> Prop) (init term : S -> Prop) initial terminal :
    forall q, vp check q -> forall from s p, q = IState s :: p ->
    (forall u b v, path_step q u b v -> trans u b v) ->
    (forall u, path_last q u -> term u) ->
    (forall i u, 0 < i -> 2 * i + 1 < length q -> nth_error q (2 * i) = Some (IState u) -> ~ term u) ->
    (forall b, (p = [] /\ b = terminal) \/ (exists w tl, p = IAction b :: IState w :: tl) ->
               conj_edge_spec trans init term initial terminal from s b) ->
    conj_walk terminal (conj_edge_spec trans init term initial terminal) from q.
  Proof.
    induction 1 as [|u|u b v tl Hc Hv IH]; intros from s p Eq Hst Hla Hin Hed.
    - discriminate.
    - inversion Eq; subst; constructor; apply Hed; auto.
    - inversion Eq; subst; clear Eq.
      constructor; [apply Hed; right; eauto|].
      apply (IH b v tl); auto.
      + intros u' b' v'; rewrite path_step_split; intros X; apply Hst, path_step_split; simpl; auto.
      + intros u Hu; apply Hla; apply (path_last_spec _ _ (IState v)); [discriminate|].
        apply (path_last_spec _ _ (IState v)) in Hu; [exact Hu|discriminate].
      + intros i u Hi Hl E; apply (Hin (Datatypes.S i) u); [lia|simpl in *; lia|].
        replace (2 * Datatypes.S i) with (Datatypes.S (Datatypes.S (2 * i))) by lia; exact E.
      + assert (Hsb : trans s b v) by (apply Hst, path_step_split; simpl; auto).
        intros c [[-> ->]|[w [tl' ->]]].
        * eapply CTerm; [exact Hsb|]. apply Hla; split; [discriminate|reflexivity].
        * eapply CNext; [exact Hsb| |].
          -- apply (Hin 1 v); simpl; auto; lia.
          -- apply Hst, path_step_split; simpl; auto.
  Qed.

  Lemma conjugate_has_walk ord ords initial terminal h q c :
    is_order ord -> is_order ords ->
    from_task_graph ord ords initial terminal (add_paths check h) = Ok c ->
    path_ok check q -> length q > 1 -> has_path check (add_paths check h) q = Ok true ->
    (forall i u, 0 < i -> 2 * i + 1 < length q -> nth_error q (2 * i) = Some (IState u) -> ~ ends_some check h u) ->
    conj_walk terminal (fun x s y => has_transition c x s y = true) initial q.
  Proof.
    intros Ho1 Ho2 Ec Hq Hl Hh Hin.
    destruct (add_paths_inv check h) as [Hw [Hi [Ht [Hs Hk]]]].
    destruct (has_path_correct check h q Hq) as [b [Eb Hacc]]; rewrite Hh in Eb; inversion Eb; subst b.
    destruct (proj1 Hacc eq_refl) as [->|[[s0 [Hf0 H0]] [[s1 [Hl1 H1]] H2]]]; [simpl in Hl; lia|].
    destruct (conj_correct ord ords Ho1 Ho2 initial terminal (add_paths check h) Hw)
      as [[_ E]|[[_ [_ E]]|[_ [_ [c' [E [_ Hedge]]]]]]]; try congruence.
    rewrite E in Ec; inversion Ec; subst c'; clear Ec E.
    pose proof (proj1 (path_ok_iff check q) Hq) as Hv.
    destruct q as [|x q]; [simpl in Hl; lia|].
    unfold path_first in Hf0; simpl in Hf0; inversion Hf0; subst x.
    assert (Hwalk : conj_walk terminal (conj_edge_spec
               (fun s a d => has_transition (tg_trans (add_paths check h)) s a d = true)
               (fun s => In s (tg_initial (add_paths check h)))
               (fun s => In s (tg_terminal (add_paths check h))) initial terminal) initial (IState s0 :: q)).
    { eapply walk_from; eauto.
      - intros u a v X; apply Hs, H2, X.
      - intros u X; apply Ht.
        apply (path_last_spec _ _ (IState s0)) in X; [|discriminate].
        apply (path_last_spec _ _ (IState s0)) in Hl1; [|discriminate].
        congruence.
      - intros i u Hi0 Hi1 E X; apply (Hin i u Hi0 Hi1 E), Ht, X.
      - intros a [[-> _]|[w [tl ->]]]; [simpl in Hl; lia|].
        eapply CInit; [apply Hi; auto|]. apply Hs, H2, path_step_split; simpl; auto. }
    revert Hwalk; clear - Hedge; intros Hwalk.
    induction Hwalk as [from s X|from s a rest X Hw IH]; constructor; auto; apply Hedge; auto.
  Qed.
  Lemma walk_edge (terminal : A) (E : A -> S -> A -> Prop) from q : conj_walk terminal E from q ->
    forall i u b, nth_error q (2 * i) = Some (IState u) -> nth_error q (2 * i + 1) = Some (IAction b) ->
    (i = 0 /\ E from u b) \/ (exists j a, i = Datatypes.S j /\ nth_error q (2 * j + 1) = Some (IAction a) /\ E a u b).
  Proof.
    induction 1 as [from s X|from s a rest X Hw IH]; intros i u b E1 E2.
    - destruct i as [|i]; [discriminate|]. replace (2 * Datatypes.S i) with (Datatypes.S (2 * i + 1)) in E1 by lia.
      cbn [nth_error] in E1. destruct (2 * i + 1); discriminate.
    - destruct i as [|i]; [left; cbn in E1, E2; inversion E1; inversion E2; subst; auto|right].
      replace (2 * Datatypes.S i) with (Datatypes.S (Datatypes.S (2 * i))) in E1 by lia.
      replace (2 * Datatypes.S i + 1) with (Datatypes.S (Datatypes.S (2 * i + 1))) in E2 by lia.
      cbn [nth_error] in E1, E2. destruct (IH i u b E1 E2) as [[-> Y]|(j & a' & -> & Ej & Y)].
      + exists 0, a; auto.
      + exists (Datatypes.S j), a'; split; [reflexivity|split; [|exact Y]].
        replace (2 * Datatypes.S j + 1) with (Datatypes.S (Datatypes.S (2 * j + 1))) by lia. exact Ej.
  Qed.

  (** Conversely, a path of the conjugate stops nowhere in between. *)
  Lemma conjugate_walk_inner ord ords initial terminal h q c :
    is_order ord -> is_order ords ->
    from_task_graph ord ords initial terminal (add_paths check h) = Ok c ->
    path_ok check q ->
    (forall s a d, path_step q s a d -> a <> initial /\ a <> terminal) ->
    conj_walk terminal (fun x s y => has_transition c x s y = true) initial q ->
    forall i u, 0 < i -> 2 * i + 1 < length q -> nth_error q (2 * i) = Some (IState u) -> ~ ends_some check h u.
  Proof.
    intros Ho1 Ho2 Ec Hq Hne Hwalk i u Hi0 Hi1 Eu Hend.
    destruct (add_paths_inv check h) as [Hw [Hi [Ht [Hs Hk]]]].
    destruct (conj_correct ord ords Ho1 Ho2 initial terminal (add_paths check h) Hw)
      as [[_ E]|[[_ [_ E]]|[_ [_ [c' [E [_ Hedge]]]]]]]; try congruence.
    rewrite E in Ec; inversion Ec; subst c'; clear Ec E.
    destruct Hq as [->|(n & Hn & _ & Hst)]; [simpl in Hi1; lia|].
    destruct (Hst i) as (s & b & d & E1 & E2 & E3 & _); [lia|]. rewrite Eu in E1; inversion E1; subst s; clear E1.
    assert (Hb : b <> initial /\ b <> terminal) by (apply (Hne u b d); exists i; auto).
    destruct (walk_edge _ _ _ _ Hwalk i u b Eu E2) as [[-> _]|(j & a & -> & Ea & He)]; [lia|].
    destruct (Hst j) as (s' & a' & d' & F1 & F2 & F3 & _); [lia|]. rewrite Ea in F2; inversion F2; subst a'; clear F2.
    assert (Ha : a <> initial /\ a <> terminal) by (apply (Hne s' a d'); exists j; auto).
    apply Hedge in He. inversion He; subst; try tauto.
    match goal with X : ~ In u (tg_terminal _) |- _ => apply X, Ht, Hend end.
  Qed.
End Task2.

(** ** The sources of a history of operations (C05) *)
Section Sources.
  Context {N L : Type} `{EN : EqDec N} `{EL : EqDec L}.
  Lemma run_keys (ops : list (gop N L)) : forall (g : graph N L) s,
    In s (keys (fst (graph_run g ops))) <-> In s (keys g) \/ exists l d, In (OAdd s l d) ops.
  Proof.
    induction ops as [|o ops IH]; intros g s; cbn [graph_run].
    - cbn. split; [auto|]. intros [X|(l & d & [])]; auto.
    - destruct (graph_step g o) as [g1 r] eqn:Eo. specialize (IH g1 s). destruct (graph_run g1 ops) as [g2 rs]; cbn [fst] in *.
      rewrite IH. clear IH.
      assert (K : In s (keys g1) <-> In s (keys g) \/ exists l d, o = OAdd s l d).
      { destruct o as [s0 l0 d0|s0 l0 d0|s0 l0 d0]; cbn [graph_step] in Eo.
        - inversion Eo; subst. unfold add_transition. destruct (lookup s0 g); rewrite keys_upd_In; split.
          + intros [->|X]; [right; eauto|auto].
          + intros [X|(l1 & d1 & X)]; [auto|inversion X; auto].
          + intros [->|X]; [right; eauto|auto].
          + intros [X|(l1 & d1 & X)]; [auto|inversion X; auto].
        - assert (X : In s (keys g1) <-> In s (keys g)).
          { unfold remove_transition in Eo. destruct (lookup s0 g) as [o|] eqn:E0; [|inversion Eo; tauto].
            destruct (mem (l0, d0) o); inversion Eo; [|tauto]. rewrite keys_upd_In. split; [|auto].
            intros [->|X]; [|exact X]. apply lookup_In in E0. apply in_map_iff. exists (s0, o); auto. }
          rewrite X. split; [auto|]. intros [Y|(l & d & Y)]; [exact Y|discriminate].
        - inversion Eo; subst. split; [auto|]. intros [Y|(l & d & Y)]; [exact Y|discriminate]. }
      rewrite K. split.
      + intros [[X|(l & d & E)]|(l & d & X)]; [auto|right; exists l, d; left; auto|right; exists l, d; right; auto].
      + intros [X|(l & d & [E|X])]; [auto|left; right; eauto|right; eauto].
  Qed.
End Sources.

(** ** Only additions (C05) *)
Section Adds.
  Context {N L : Type} `{EN : EqDec N} `{EL : EqDec L}.

  Definition adds (ts : list (N * L * N)) : graph N L :=
    fold_left (fun g t => add_transition g (fst (fst t)) (snd (fst t)) (snd t)) ts [].

  Lemma adds_inv ts : gwf (adds ts) /\
    (forall s l d, has_transition (adds ts) s l d = true <-> In (s, l, d) ts) /\
    (forall s, In s (keys (adds ts)) <-> exists l d, In (s, l, d) ts).
  Proof.
    induction ts as [|[[s0 l0] d0] ts IH] using rev_ind.
    - split; [apply gwf_empty|split]; intros; simpl; split; try tauto; try discriminate.
      intros [l [d []]].
    - unfold adds in *; rewrite fold_left_app; simpl.
      destruct IH as [Hw [Hh Hk]]; split; [apply gwf_add; auto|split].
      + intros s l d; rewrite has_add, Hh, in_app_iff; simpl; intuition congruence.
      + intros s; rewrite keys_add, Hk; split.
        * intros [->|[l [d Hin]]]; [exists l0, d0|exists l, d]; rewrite in_app_iff; simpl; auto.
        * intros [l [d Hin]]; apply in_app_iff in Hin; destruct Hin as [Hin|[E|[]]]; [right; eauto|left; congruence].
  Qed.

  Lemma adds_eqb ts1 ts2 :
    graph_eqb (adds ts1) (adds ts2) = true <-> (forall t, In t ts1 <-> In t ts2).
  Proof.
    destruct (adds_inv ts1) as [W1 [H1 K1]], (adds_inv ts2) as [W2 [H2 K2]].
    rewrite graph_eqb_spec by auto; split.
    - intros [_ Hh] [[s l] d]; rewrite <- H1, <- H2, Hh; tauto.
    - intros E; split.
      + intros x; rewrite K1, K2; split; intros [l [d Hin]]; exists l, d; apply E; auto.
      + intros s l d; apply eq_true_iff_eq; rewrite H1, H2; apply E.
  Qed.
End Adds.
