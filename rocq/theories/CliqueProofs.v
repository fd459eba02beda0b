(** Bron-Kerbosch on symmetric graphs: exactly the maximal cliques without self-loops. *)
From Verif Require Import PyBase PyBaseFacts GraphModel GraphSpec GraphProofs CliqueModel CliqueSpec.

Lemma FOP_app {X} (R : X -> X -> Prop) a b :
  ForallOrdPairs R a -> ForallOrdPairs R b -> (forall x y, In x a -> In y b -> R x y) ->
  ForallOrdPairs R (a ++ b).
Proof.
  intros Ha Hb Hab; induction Ha as [|x a Hx Ha IH]; simpl; auto.
  constructor.
  - apply Forall_app; split; auto. apply Forall_forall; intros y Hy; apply Hab; simpl; auto.
  - apply IH; intros y z Hy Hz; apply Hab; simpl; auto.
Qed.

Section BK.
  Context {N : Type} `{EN : EqDec N}.
  Variable g : ngraph N.
  Variables ordp ordd : list N -> list N -> list N.
  Hypothesis Hordp : forall r, is_order (ordp r).
  Hypothesis Hordd : forall r, is_order (ordd r).

  Definition node (u : N) : Prop := In u (keys g).
  Definition adj (u v : N) : Prop := exists o, lookup u g = Some o /\ In v o.
  Hypothesis Hsym : forall u v, adj u v -> adj v u.

  Lemma adj_node u v : adj u v -> node u /\ node v.
  Proof.
    intros Ha; split.
    - destruct Ha as [o [E _]]; apply lookup_Some_key; eauto.
    - apply Hsym in Ha; destruct Ha as [o [E _]]; apply lookup_Some_key; eauto.
  Qed.

  Lemma getitem_node u : node u -> exists o, getitem u g = Ok o /\ forall v, In v o <-> adj u v.
  Proof.
    intros Hu; apply lookup_Some_key in Hu; destruct Hu as [o E].
    exists o; unfold getitem; rewrite E; split; auto.
    intros v; unfold adj; split; [eauto|]. intros [o' [E' Hin]]; congruence.
  Qed.

  (** invariant of a call *)
  Definition inv (r p x : list N) : Prop :=
    clique node adj r /\ NoDup p /\ NoDup x /\
    (forall v, In v p \/ In v x <-> node v /\ forall u, In u r -> adj u v) /\
    (forall v, In v p -> ~ In v x).

  (** what a call must yield, for the cliques that meet [meet] *)
  Definition good (r p : list N) (meet : list N -> Prop) (cs : list (list N)) : Prop :=
    (forall c, In c cs -> maximal_clique node adj c /\ incl r c /\ incl c (r ++ p) /\ meet c /\ loop_free adj c) /\
    (forall c, maximal_clique node adj c -> loop_free adj c -> incl r c -> incl c (r ++ p) -> meet c ->
               exists c', In c' cs /\ same_set c c') /\
    ForallOrdPairs (fun c1 c2 => ~ same_set c1 c2) cs.

  Lemma inv_in_loop r p x u : inv r p x -> In u p \/ In u x -> In u r -> adj u u.
  Proof. intros [Hc [_ [_ [Hpx _]]]] Hu Hr; apply Hpx in Hu; destruct Hu as [_ Hu]. apply Hu, Hr. Qed.

  Lemma set_union_one_In (r : list N) u v : In v (set_union r [u]) <-> In v r \/ v = u.
  Proof. unfold set_union; simpl. rewrite set_add_In. tauto. Qed.
  Lemma set_union_one_NoDup (r : list N) u : NoDup r -> NoDup (set_union r [u]).
  Proof. intros Hr; unfold set_union; simpl. apply set_add_NoDup; auto. Qed.

  Lemma inv_rec r p x u gu : inv r p x -> In u p -> (forall v, In v gu <-> adj u v) ->
    inv (set_union r [u]) (set_inter p gu) (set_inter x gu).
  Proof.
    intros Hi Hu Hgu.
    destruct Hi as [[Hnd [Hnode Hcl]] [Hp [Hx [Hpx Hd]]]].
    pose proof (proj1 (Hpx u) (or_introl Hu)) as [Hnu Hau].
    split; [|split; [|split; [|split]]].
    - split; [apply set_union_one_NoDup; auto|split].
      + intros v Hv; apply set_union_one_In in Hv; destruct Hv as [Hv| ->]; auto.
      + intros v w Hv Hw Hvw; apply set_union_one_In in Hv, Hw.
        destruct Hv as [Hv| ->], Hw as [Hw| ->]; auto; congruence.
    - apply set_inter_NoDup; auto.
    - apply set_inter_NoDup; auto.
    - intros v; rewrite !set_inter_In, Hgu; split.
      + intros X. assert (Hv : In v p \/ In v x) by tauto.
        apply Hpx in Hv; destruct Hv as [Hv1 Hv2]; split; auto.
        intros w Hw; apply set_union_one_In in Hw; destruct Hw as [Hw| ->]; [auto|tauto].
      + intros [Hv1 Hv2].
        assert (Hv : In v p \/ In v x) by (apply Hpx; split; auto; intros w Hw; apply Hv2, set_union_one_In; auto).
        assert (Huv : adj u v) by (apply Hv2, set_union_one_In; auto). tauto.
    - intros v; rewrite !set_inter_In; intros [Hv _] [Hv' _]; apply (Hd v); auto.
  Qed.

  Lemma inv_step r p x u : inv r p x -> In u p -> inv r (set_del u p) (set_add u x).
  Proof.
    intros [Hc [Hp [Hx [Hpx Hd]]]] Hu; split; [auto|split; [|split; [|split]]].
    - apply set_del_NoDup; auto.
    - apply set_add_NoDup; auto.
    - intros v; rewrite set_del_In, set_add_In, <- Hpx; destruct (eq_dec v u) as [->|]; tauto.
    - intros v; rewrite set_del_In, set_add_In; intros [Hne Hv] [E|Hv']; [auto|apply (Hd v); auto].
  Qed.

  Lemma length_inter_lt (p gu : list N) u : NoDup p -> In u p -> ~ In u gu -> length (set_inter p gu) < length p.
  Proof.
    intros Hp Hu Hn.
    assert (Hl : length (u :: set_inter p gu) <= length p).
    { apply NoDup_incl_length.
      - constructor; [rewrite set_inter_In; tauto|apply set_inter_NoDup; auto].
      - intros v [<-|Hv]; auto. apply set_inter_In in Hv; tauto. }
    simpl in Hl; lia.
  Qed.

  Lemma length_del_le (p : list N) u : length (set_del u p) <= length p.
  Proof.
    unfold set_del; induction p as [|v p IH]; simpl; auto. destruct (eq_dec u v); simpl; lia.
  Qed.

  Lemma length_inter_le (p gu : list N) : length (set_inter p gu) <= length p.
  Proof. unfold set_inter. induction p as [|v p IH]; simpl; auto. destruct (mem v gu); simpl; lia. Qed.
  Lemma length_del_lt (p : list N) u : In u p -> length (set_del u p) < length p.
  Proof.
    unfold set_del; induction p as [|v p IH]; simpl; [tauto|]. intros [->|Hu].
    - destruct (eq_dec u u); [|congruence]. simpl. pose proof (length_del_le p u). unfold set_del in *. lia.
    - specialize (IH Hu). destruct (eq_dec u v); simpl; lia.
  Qed.

  (** [pivot] is no neighbour of the nodes of the loop. *)
  Lemma loop_good rec fuel pivot
    (Hrec : forall r p x, inv r p x -> length p < fuel -> exists cs, rec r p x = Ok cs /\ good r p (fun _ => True) cs) :
    forall us r p x, inv r p x -> length p <= fuel -> In pivot p \/ length p < fuel -> NoDup us -> incl us p -> (forall u, In u us -> ~ adj u pivot) ->
      exists cs, bk_loop rec g r us p x = Ok cs /\ good r p (fun c => exists u, In u us /\ In u c) cs.
  Proof.
    induction us as [|u us IH]; intros r p x Hi Hl Hpl Hn Hincl Hpiv; cbn [bk_loop].
    - exists []; split; auto; split; [simpl; tauto|split; [|constructor]].
      intros c _ _ _ _ [u [[] _]].
    - inversion Hn as [|? ? Hnu Hn']; subst.
      assert (Hu : In u p) by (apply Hincl; simpl; auto).
      pose proof (inv_in_loop r p x u Hi (or_introl Hu)) as Hur.
      assert (Hnode : node u) by (destruct Hi as [_ [_ [_ [Hpx _]]]]; apply (Hpx u); auto).
      destruct (getitem_node u Hnode) as [gu [E Hgu]]; rewrite E; cbn [bind].
      destruct (Hrec (set_union r [u]) (set_inter p gu) (set_inter x gu)) as [cs1 [E1 [G1 [G2 G3]]]].
      + apply (inv_rec r p x u gu); auto.
      + destruct Hpl as [Hpl|Hpl]; [|pose proof (length_inter_le p gu); lia].
        assert (length (set_inter p gu) < length p); [|lia].
        apply length_inter_lt with pivot; auto; [apply Hi|rewrite Hgu; apply Hpiv; simpl; auto].
      + rewrite E1; cbn [bind].
        assert (Hm : mem u p = true) by (apply mem_In; auto); rewrite Hm.
        destruct (IH r (set_del u p) (set_add u x)) as [cs2 [E2 [F1 [F2 F3]]]].
        * apply inv_step; auto.
        * pose proof (length_del_le p u); lia.
        * right. pose proof (length_del_lt p u Hu). lia.
        * auto.
        * intros v Hv; apply set_del_In; split; [intros ->; auto|apply Hincl; simpl; auto].
        * intros v Hv; apply Hpiv; simpl; auto.
        * rewrite E2; cbn [bind]; exists (cs1 ++ cs2); split; auto.
          assert (Hin2 : forall c, ~ adj u u -> In c cs2 -> ~ In u c).
          { intros c Hnl Hc Huc; destruct (F1 c Hc) as [_ [_ [Hinc _]]].
            apply Hinc, in_app_iff in Huc; destruct Huc as [Huc|Huc]; [auto|].
            apply set_del_In in Huc; tauto. }
          assert (Hin1 : forall c, In c cs1 -> In u c).
          { intros c Hc; destruct (G1 c Hc) as [_ [Hinc _]]; apply Hinc, set_union_one_In; auto. }
          split; [|split].
          -- intros c Hc; apply in_app_iff in Hc; destruct Hc as [Hc|Hc].
             ++ pose proof (Hin1 c Hc) as Huc; destruct (G1 c Hc) as [Hmax [I1 [I2 [_ I3]]]].
                split; [auto|split; [|split; [|split; [|auto]]]].
                ** intros v Hv; apply I1, set_union_one_In; auto.
                ** intros v Hv; apply I2 in Hv; rewrite !in_app_iff in *. rewrite set_union_one_In in Hv.
                   destruct Hv as [[Hv| ->]|Hv]; auto. apply set_inter_In in Hv; tauto.
                ** exists u; simpl; auto.
             ++ destruct (F1 c Hc) as [Hmax [I1 [I2 [[w [Hw1 Hw2]] I3]]]].
                split; [auto|split; [auto|split; [|split; [|auto]]]].
                ** intros v Hv; apply I2 in Hv; rewrite !in_app_iff in *.
                   destruct Hv as [Hv|Hv]; auto. apply set_del_In in Hv; tauto.
                ** exists w; simpl; auto.
          -- intros c Hmax Hlf I1 I2 [w [Hw1 Hw2]].
             destruct (in_dec eq_dec u c) as [Huc|Huc].
             ++ destruct (G2 c) as [c' [Hc' Hs]]; auto.
                ** intros v Hv; apply set_union_one_In in Hv; destruct Hv as [Hv| ->]; auto.
                ** intros v Hv; rewrite !in_app_iff, set_union_one_In; pose proof (I2 v Hv) as Hv'; apply in_app_iff in Hv'.
                   destruct (eq_dec v u) as [->|Hne]; [auto|].
                   destruct Hv' as [Hv'|Hv']; [auto|right].
                   apply set_inter_In; split; auto. apply Hgu.
                   destruct Hmax as [[_ [_ Hcl]] _]; apply Hcl; auto.
                ** exists c'; rewrite in_app_iff; auto.
             ++ destruct (F2 c) as [c' [Hc' Hs]]; auto.
                ** intros v Hv; rewrite in_app_iff, set_del_In; pose proof (I2 v Hv) as Hv'.
                   apply in_app_iff in Hv'; destruct Hv' as [Hv'|Hv']; auto.
                   right; split; auto. intros ->; auto.
                ** destruct Hw1 as [<-|Hw1]; [tauto|eauto].
                ** exists c'; rewrite in_app_iff; auto.
          -- apply FOP_app; auto.
             intros c1 c2 H1 H2 Hs. pose proof (Hin1 c1 H1) as Hu1.
             assert (Hnl : ~ adj u u) by (destruct (G1 c1 H1) as (_ & _ & _ & _ & Hlf); apply Hlf; auto).
             apply (Hin2 c2 Hnl H2), Hs, Hu1.
  Qed.

  Lemma max_by_In (key : N -> nat) : forall l b, In (max_by key b l) (b :: l).
  Proof.
    induction l as [|u l IH]; intros b; simpl; auto.
    destruct (Nat.ltb (key b) (key u)).
    - specialize (IH u); simpl in IH; tauto.
    - specialize (IH b); simpl in IH; tauto.
  Qed.

  Lemma bk_good fuel : forall r p x, inv r p x -> length p < fuel ->
    exists cs, bron_kerbosch ordp ordd g fuel r p x = Ok cs /\ good r p (fun _ => True) cs.
  Proof.
    induction fuel as [|fuel IH]; intros r p x Hi Hl; [lia|]; cbn [bron_kerbosch].
    destruct p as [|v p'] eqn:Ep.
    - destruct Hi as [Hc [_ [_ [Hpx _]]]].
      destruct x as [|w x'] eqn:Ex.
      + exists [r]; split; auto.
        assert (Hmax : maximal_clique node adj r).
        { split; auto. intros z Hz Hn Hall; destruct (proj2 (Hpx z)) as [[]|[]]; auto. }
        split; [|split].
        * intros c [<-|[]]; split; [auto|split; [apply incl_refl|split; [|split; [auto|]]]].
          -- rewrite app_nil_r; apply incl_refl.
          -- intros u Hu Hl'. destruct (proj2 (Hpx u)) as [[]|[]]. split; [apply Hc; auto|]. intros v Hv.
             destruct (eq_dec v u) as [->|Hne]; [exact Hl'|]. apply Hc; auto.
        * intros c _ _ I1 I2 _; exists r; split; [simpl; auto|].
          rewrite app_nil_r in I2; intros z; split; [apply I2|apply I1].
        * constructor; [constructor|constructor].
      + exists []; split; auto; split; [simpl; tauto|split; [|constructor]].
        intros c [_ Hmax] Hlf I1 I2 _; rewrite app_nil_r in I2.
        destruct (proj1 (Hpx w)) as [Hw1 Hw2]; [simpl; auto|].
        exfalso; apply (Hmax w Hw1); [|intros u Hu; apply Hw2, I2, Hu].
        intros Hw; apply (Hlf w Hw), Hw2, I2, Hw.
    - rewrite <- Ep in *.
      assert (Hne : p <> []) by (rewrite Ep; discriminate).
      clear v p' Ep.
      pose proof (Hordp r p) as Hperm.
      destruct (ordp r p) as [|u0 us0] eqn:Eo.
      { apply Permutation_nil in Hperm; congruence. }
      assert (Hnodes : forall u, In u p -> node u).
      { destruct Hi as [_ [_ [_ [Hpx _]]]]; intros u Hu; apply (Hpx u); auto. }
      assert (Hin0 : forall u, In u (u0 :: us0) -> In u p).
      { intros u Hu; eapply Permutation_in; eauto. }
      assert (Hkeys : exists ks, mapM (fun u => do gu <- getitem u g; Ok (u, length (set_inter gu p))) (u0 :: us0) = Ok ks).
      { revert Hin0; generalize (u0 :: us0); induction l as [|u l IHl]; intros Hin0; cbn [mapM]; eauto.
        destruct (getitem_node u) as [o [E _]]; [apply Hnodes, Hin0; simpl; auto|].
        rewrite E; cbn [bind]. destruct IHl as [ks ->]; [intros w Hw; apply Hin0; simpl; auto|]; cbn [bind]; eauto. }
      destruct Hkeys as [ks ->]; cbn [bind].
      set (key := fun u => match lookup u ks with Some n => n | None => 0 end).
      set (pivot := max_by key u0 us0).
      assert (Hpiv : In pivot p) by (apply Hin0, max_by_In).
      destruct (getitem_node pivot (Hnodes _ Hpiv)) as [gp [E Hgp]]; rewrite E; cbn [bind].
      destruct (loop_good (bron_kerbosch ordp ordd g fuel) fuel pivot) with (us := ordd r (set_diff p gp)) (r := r) (p := p) (x := x)
        as [cs [Ecs [G1 [G2 G3]]]]; auto.
      + lia.
      + apply order_NoDup; auto. apply set_diff_NoDup, Hi.
      + intros u Hu; apply (proj1 (order_In _ (Hordd r) _ _)), set_diff_In in Hu; tauto.
      + intros u Hu; apply (proj1 (order_In _ (Hordd r) _ _)), set_diff_In in Hu. intros X. apply Hsym, Hgp in X. tauto.
      + exists cs; split; auto; split; [|split; auto].
        * intros c Hc; destruct (G1 c Hc) as [X1 [X2 [X3 [_ X4]]]]; auto.
        * intros c Hmax Hlf I1 I2 _; apply G2; auto.
          (* some vertex of c is not a neighbour of the pivot *)
          assert (Hex : forall l, (exists u, In u l /\ ~ In u gp) \/ incl l gp).
          { induction l as [|u l IHl]; [right; intros z []|].
            destruct (in_dec eq_dec u gp) as [Hu|Hu]; [|left; exists u; simpl; auto].
            destruct IHl as [[z [Hz1 Hz2]]|Hl']; [left; exists z; simpl; auto|].
            right; intros z [<-|Hz]; auto. }
          destruct (Hex c) as [[u [Hu1 Hu2]]|Hall].
          -- exists u; split; auto. apply (proj2 (order_In _ (Hordd r) _ _)), set_diff_In; split; auto.
             apply I2, in_app_iff in Hu1; destruct Hu1 as [Hu1|Hu1]; auto.
             exfalso; apply Hu2, Hgp, Hsym.
             destruct Hi as [_ [_ [_ [Hpx _]]]]; apply (Hpx pivot); auto.
          -- exfalso. destruct Hmax as [_ Hmax]; apply (Hmax pivot (Hnodes _ Hpiv)).
             ++ intros X; apply (Hlf pivot X). apply Hgp, Hall, X.
             ++ intros u Hu; apply Hsym, Hgp, Hall, Hu.
  Qed.

  Hypothesis Hkeys : NoDup (keys g).

  Lemma max_cliques_correct :
    exists cs, max_cliques ordp ordd g = Ok cs /\ enumerates_loop_free node adj cs.
  Proof.
    unfold max_cliques.
    destruct (bk_good (S (length g)) [] (keys g) []) as [cs [E [G1 [G2 G3]]]].
    - split; [|split; [auto|split; [constructor|split]]].
      + split; [constructor|split; simpl; tauto].
      + intros v; simpl; unfold node; tauto.
      + simpl; tauto.
    - unfold keys; rewrite map_length; lia.
    - rewrite E; cbn [bind]; eexists; split; [reflexivity|]; split; [|split].
      + intros c Hc; apply filter_In in Hc; destruct Hc as [Hc Hl]; apply Nat.ltb_lt in Hl.
        destruct (G1 c Hc) as (M1 & _ & _ & _ & M2). split; [exact M1|]. split; [exact M2|lia].
      + intros c Hmax Hlf Hl; destruct (G2 c Hmax Hlf) as [c' [Hc' Hs]]; auto.
        * intros z [].
        * intros z Hz; simpl; apply Hmax, Hz.
        * exists c'; split; auto. apply filter_In; split; auto. apply Nat.ltb_lt.
          assert (length c <= length c'); [|lia].
          apply NoDup_incl_length; [apply Hmax|intros z Hz; apply Hs, Hz].
      + revert G3; clear; intros G3; induction G3 as [|c cs Hc G3 IH]; simpl; [constructor|].
        destruct (Nat.ltb 1 (length c)); auto. constructor; auto.
        apply Forall_forall; intros z Hz; apply filter_In in Hz; rewrite Forall_forall in Hc; apply Hc; tauto.
  Qed.
End BK.

(** ** get_max_cliques *)
Section Sym.
  Context {N L : Type} `{EN : EqDec N} `{EL : EqDec L}.
  Variables (ordt : list (L * N) -> list (L * N)) (ordu : list (N * N) -> list (N * N)).
  Hypotheses (Hordt : is_order ordt) (Hordu : is_order ordu).
  Variable g : graph N L.
  Hypothesis Hw : gwf g.

  Definition edge (u v : N) : Prop := exists l, has_transition g u l v = true.

  Lemma unique_In u v :
    In (u, v) (set_of (map (fun t : N * L * N => (fst (fst t), snd t)) (all_transitions ordt g))) <-> edge u v.
  Proof.
    rewrite set_of_In, in_map_iff; split.
    - intros [[[s l] d] [E Hin]]; simpl in E; inversion E; subst.
      exists l; apply (all_transitions_In ordt g Hordt (proj1 Hw)); auto.
    - intros [l Hl]; exists (u, l, v); split; auto.
      apply (all_transitions_In ordt g Hordt (proj1 Hw)); auto.
  Qed.

  Definition sym_inv (done : list (N * N)) (sym : ngraph N) : Prop :=
    NoDup (keys sym) /\
    (forall n, In n (keys sym) <-> In n (all_nodes ordt g)) /\
    (forall u v, adj sym u v <-> (edge u v /\ edge v u) /\ (In (u, v) done \/ In (v, u) done)).

  Lemma edge_nodes u v : edge u v -> In u (all_nodes ordt g) /\ In v (all_nodes ordt g).
  Proof.
    intros [l Hl]; split; apply (all_nodes_In ordt g Hordt (proj1 Hw)); eauto 6.
  Qed.

  Lemma adj_upd (sym : ngraph N) u0 v0 o0 : lookup u0 sym = Some o0 -> forall u v,
    adj (upd u0 (set_add v0 o0) sym) u v <-> adj sym u v \/ (u = u0 /\ v = v0).
  Proof.
    intros E u v; unfold adj; destruct (eq_dec u u0) as [->|Hne].
    - rewrite lookup_upd_same; split.
      + intros [o [Eo Hin]]; inversion Eo; subst; apply set_add_In in Hin; destruct Hin as [->|Hin]; [auto|].
        left; eauto.
      + intros [[o [Eo Hin]]|[_ ->]]; (eexists; split; [reflexivity|]); apply set_add_In; auto.
        rewrite E in Eo; inversion Eo; subst; auto.
    - rewrite lookup_upd_other by auto; split; [auto|]. intros [|[E2 _]]; [auto|congruence].
  Qed.

  Lemma sym_loop ps : forall done sym, sym_inv done sym ->
    (forall u v, In (u, v) ps -> edge u v) ->
    exists sym', foldM (fun sym (sd : N * N) =>
             if mem (snd sd, fst sd) (set_of (map (fun t : N * L * N => (fst (fst t), snd t)) (all_transitions ordt g))) then
               do o1 <- getitem (fst sd) sym;
               let sym1 := upd (fst sd) (set_add (snd sd) o1) sym in
               do o2 <- getitem (snd sd) sym1;
               Ok (upd (snd sd) (set_add (fst sd) o2) sym1)
             else Ok sym) ps sym = Ok sym' /\ sym_inv (done ++ ps) sym'.
  Proof.
    induction ps as [|[u v] ps IH]; intros done sym Hi He; cbn [foldM].
    - exists sym; rewrite app_nil_r; auto.
    - assert (Huv : edge u v) by (apply He; simpl; auto).
      assert (He' : forall u v, In (u, v) ps -> edge u v) by (intros a b Hab; apply He; simpl; auto).
      simpl fst; simpl snd.
      destruct (mem (v, u) _) eqn:Em.
      + apply mem_In, unique_In in Em.
        destruct Hi as [I1 [I2 I3]].
        destruct (edge_nodes u v Huv) as [Nu Nv].
        apply I2, lookup_Some_key in Nu; destruct Nu as [o1 E1].
        unfold getitem at 1; rewrite E1; cbn [bind].
        assert (Nv' : In v (keys (upd u (set_add v o1) sym))) by (apply keys_upd_In; right; apply I2; auto).
        apply lookup_Some_key in Nv'; destruct Nv' as [o2 E2].
        cbv zeta; unfold getitem at 1; rewrite E2; cbn [bind].
        destruct (IH (done ++ [(u, v)]) (upd v (set_add u o2) (upd u (set_add v o1) sym))) as [sym' [E Hs]]; auto.
        * split; [|split].
          -- apply keys_upd_NoDup, keys_upd_NoDup, I1.
          -- intros n; rewrite !keys_upd_In, I2; split; [|auto].
             intros [->|[->|X]]; auto; apply (edge_nodes u v Huv).
          -- intros a b; rewrite (adj_upd _ _ _ _ E2), (adj_upd _ _ _ _ E1), I3, !in_app_iff; simpl.
             split.
             ++ intros [[X|[-> ->]]|[-> ->]]; tauto.
             ++ intros [X [[Y|[Y|[]]]|[Y|[Y|[]]]]]; try tauto; inversion Y; subst; tauto.
        * exists sym'; rewrite <- app_assoc in Hs; auto.
      + apply mem_not_In in Em; rewrite unique_In in Em; cbn [bind].
        destruct (IH (done ++ [(u, v)]) sym) as [sym' [E Hs]]; auto.
        * destruct Hi as [I1 [I2 I3]]; split; [auto|split; [auto|]].
          intros a b; rewrite I3, !in_app_iff; simpl; split; [tauto|].
          intros [X [[Y|[Y|[]]]|[Y|[Y|[]]]]]; try tauto; inversion Y; subst; tauto.
        * exists sym'; rewrite <- app_assoc in Hs; auto.
  Qed.

  Lemma symmetric_graph_correct :
    exists sym, symmetric_graph ordt ordu g = Ok sym /\ NoDup (keys sym) /\
      (forall n, In n (keys sym) <-> In n (all_nodes ordt g)) /\
      (forall u v, adj sym u v <-> edge u v /\ edge v u).
  Proof.
    unfold symmetric_graph.
    set (unique := set_of (map (fun t : N * L * N => (fst (fst t), snd t)) (all_transitions ordt g))).
    destruct (sym_loop (ordu unique) [] (map (fun n => (n, @nil N)) (all_nodes ordt g))) as [sym [E [I1 [I2 I3]]]].
    - assert (Ek : keys (map (fun n => (n, @nil N)) (all_nodes ordt g)) = all_nodes ordt g)
        by (unfold keys; rewrite map_map; simpl; apply map_id).
      split; [rewrite Ek; apply all_nodes_NoDup|split; [intros n; rewrite Ek; tauto|]].
      intros u v; split; [|simpl; tauto].
      intros [o [Eo Hin]]; apply lookup_In, in_map_iff in Eo; destruct Eo as [n [En _]].
      inversion En; subst; destruct Hin.
    - intros u v Hin; apply (proj1 (order_In _ Hordu _ _)) in Hin; apply unique_In; auto.
    - exists sym; split; auto; split; auto; split; auto.
      intros u v; rewrite I3; simpl; split; [tauto|].
      intros X; split; auto. left.
      apply (proj2 (order_In _ Hordu _ _)), unique_In, X.
  Qed.

  Lemma loop_free_all (node1 : N -> Prop) (adj1 : N -> N -> Prop) cs : (forall u, ~ adj1 u u) ->
    enumerates_loop_free node1 adj1 cs -> enumerates_max_cliques node1 adj1 cs.
  Proof.
    intros Hi [E1 [E2 E3]]; split; [|split; auto].
    - intros c Hc; destruct (E1 c Hc) as (M1 & _ & M2); auto.
    - intros c Hc Hl; apply E2; auto. intros u _; apply Hi.
  Qed.
  Lemma enumerates_ext (node1 node2 : N -> Prop) (adj1 adj2 : N -> N -> Prop) cs :
    (forall u, node1 u <-> node2 u) -> (forall u v, adj1 u v <-> adj2 u v) ->
    enumerates_loop_free node1 adj1 cs -> enumerates_loop_free node2 adj2 cs.
  Proof.
    intros Hn Ha.
    assert (HL : forall c, loop_free adj1 c <-> loop_free adj2 c).
    { intros c; unfold loop_free; split; intros Hc u Hu X; apply (Hc u Hu), Ha, X. }
    assert (Hm : forall c, maximal_clique node1 adj1 c <-> maximal_clique node2 adj2 c).
    { intros c; unfold maximal_clique, clique; split.
      - intros [[C1 [C2 C3]] C4]; split; [split; [auto|split]|].
        + intros u Hu; apply Hn; auto.
        + intros u v; intros; apply Ha; auto.
        + intros v Hv Hnin Hall; apply (C4 v); [apply Hn; auto|auto|]; intros u Hu; apply Ha; auto.
      - intros [[C1 [C2 C3]] C4]; split; [split; [auto|split]|].
        + intros u Hu; apply Hn; auto.
        + intros u v; intros; apply Ha; auto.
        + intros v Hv Hnin Hall; apply (C4 v); [apply Hn; auto|auto|]; intros u Hu; apply Ha; auto. }
    intros [E1 [E2 E3]]; split; [|split; auto].
    - intros c Hc; rewrite <- Hm, <- HL; auto.
    - intros c Hc Hlf; apply E2; [apply Hm, Hc|apply HL, Hlf].
  Qed.

  Lemma get_max_cliques_correct ordp ordd :
    (forall r, is_order (ordp r)) -> (forall r, is_order (ordd r)) ->
    exists cs, get_max_cliques ordt ordu ordp ordd g = Ok cs /\
      enumerates_loop_free (fun n => In n (all_nodes ordt g)) (fun u v => edge u v /\ edge v u) cs.
  Proof.
    intros Hp Hd; unfold get_max_cliques.
    destruct symmetric_graph_correct as [sym [E [Hk [Hn Ha]]]]; rewrite E; cbn [bind].
    destruct (max_cliques_correct sym ordp ordd Hp Hd) as [cs [Ecs Hcs]]; auto.
    - intros u v; rewrite !Ha; tauto.
    - exists cs; split; auto.
      eapply enumerates_ext; [| |exact Hcs]; auto.
  Qed.
End Sym.
