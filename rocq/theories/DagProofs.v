(** Proofs about the graph of leaves of a task (C26, C27). *)
From Verif Require Import PyBase PyBaseFacts HtmModel HtmSpec HtmProofs DagModel DagSpec.
From Coq Require Import Factorial.
Import HtmSpec.

Section SetNth.
  Context {A : Type}.
  Lemma set_nth_length l (x : A) s : length (set_nth l x s) = length s.
  Proof. revert l; induction s as [|y t IH]; intros [|l]; cbn [set_nth length]; auto. Qed.
  Lemma set_nth_same l (x : A) s : l < length s -> nth_error (set_nth l x s) l = Some x.
  Proof.
    revert l; induction s as [|y t IH]; intros [|l] Hl; cbn [set_nth length nth_error] in *; auto; try lia.
    apply IH; lia.
  Qed.
  Lemma set_nth_other l (x : A) s j : j <> l -> nth_error (set_nth l x s) j = nth_error s j.
  Proof.
    revert l j; induction s as [|y t IH]; intros [|l] [|j] Hj; cbn [set_nth nth_error]; auto; try lia.
  Qed.
  Lemma set_all_length ll (x : A) s : length (fold_left (fun s l => set_nth l x s) ll s) = length s.
  Proof. revert s; induction ll as [|l t IH]; intros s; cbn [fold_left]; auto. rewrite IH, set_nth_length; auto. Qed.
  Lemma set_all_other ll (x : A) s j : ~ In j ll ->
    nth_error (fold_left (fun s l => set_nth l x s) ll s) j = nth_error s j.
  Proof.
    revert s; induction ll as [|l t IH]; intros s Hj; cbn [fold_left]; auto.
    rewrite IH by (simpl in Hj; tauto). apply set_nth_other; simpl in Hj; intuition.
  Qed.
  Lemma set_all_in ll (x : A) s j : In j ll -> j < length s ->
    nth_error (fold_left (fun s l => set_nth l x s) ll s) j = Some x.
  Proof.
    revert s; induction ll as [|l t IH]; intros s Hj Hs; [destruct Hj|]. cbn [fold_left].
    destruct (in_dec Nat.eq_dec j t) as [Ht|Ht].
    - apply IH; auto. rewrite set_nth_length; auto.
    - destruct Hj as [->|Hj]; [|contradiction]. rewrite set_all_other by auto. apply set_nth_same; auto.
  Qed.
End SetNth.

Lemma last_indep {A} (x : A) t d d' : last (x :: t) d = last (x :: t) d'.
Proof.
  revert x; induction t as [|y t IH]; intros x; [reflexivity|].
  change (last (y :: t) d = last (y :: t) d'). apply IH.
Qed.
Lemma last_In {A} (x : A) t d : In (last (x :: t) d) (x :: t).
Proof.
  revert x; induction t as [|y t IH]; intros x; [simpl; auto|].
  change (In (last (y :: t) d) (x :: y :: t)). right; apply IH.
Qed.

Section Segments.
  Context {P L : Type}.
  Variable lab : action P -> L.

  Definition words (s : list (list nat)) (nodes : list (comb P)) (f : list nat) (W : list L) : Prop :=
    exists i w, In i f /\ full_walk s i w /\ map (node_label lab nodes) w = map Some W.

  Definition closed (s : list (list nat)) (b e : nat) (l : list nat) : Prop :=
    forall j, b <= j < e -> exists sj, nth_error s j = Some sj /\ (forall x, In x sj -> j < x < e) /\ (In j l <-> sj = []).

  Definition leaves (nodes : list (comb P)) (b e : nat) : Prop :=
    forall j, b <= j < e -> exists c, nth_error nodes j = Some c /\ is_leaf c.

  Definition seg s nodes b e f l (c : comb P) : Prop :=
    b < e /\ f <> [] /\ (forall x, In x f -> b <= x < e) /\ (forall x, In x l -> b <= x < e) /\
    closed s b e l /\ leaves nodes b e /\
    (forall W, words s nodes f W <-> executes lab c W).

  Lemma walk_frame s s' b e l i w :
    closed s b e l -> (forall j, b <= j < e -> nth_error s' j = nth_error s j) ->
    full_walk s i w -> b <= i < e -> full_walk s' i w /\ Forall (fun x => b <= x < e) w.
  Proof.
    intros Hcl Heq Hw. induction Hw as [i Hi|i j w li Hi Hj Hw IH]; intros Hb.
    - split; [constructor; rewrite Heq; auto|repeat constructor; lia].
    - destruct (Hcl i Hb) as [sj [E [Hs _]]]. rewrite Hi in E; inversion E; subst sj.
      specialize (Hs j Hj). destruct IH as [I1 I2]; [lia|]. split.
      + econstructor; [rewrite Heq by auto; exact Hi|exact Hj|exact I1].
      + constructor; auto.
  Qed.

  Lemma closed_frame s s' b e l :
    closed s b e l -> (forall j, b <= j < e -> nth_error s' j = nth_error s j) -> closed s' b e l.
  Proof. intros Hc Heq j Hj. rewrite Heq by auto. apply Hc; auto. Qed.

  Lemma words_frame s s' nodes nodes' b e f l W :
    closed s b e l -> (forall x, In x f -> b <= x < e) ->
    (forall j, b <= j < e -> nth_error s' j = nth_error s j) ->
    (forall j, b <= j < e -> nth_error nodes' j = nth_error nodes j) ->
    words s nodes f W -> words s' nodes' f W.
  Proof.
    intros Hcl Hf Heq Hn [i [w [Hi [Hw HW]]]].
    destruct (walk_frame s s' b e l i w Hcl Heq Hw (Hf i Hi)) as [Hw' Hr].
    exists i, w; split; auto; split; auto. rewrite <- HW. apply map_ext_in. intros x Hx.
    rewrite Forall_forall in Hr. unfold node_label. rewrite Hn; auto.
  Qed.

  Lemma seg_frame s s' nodes nodes' b e f l c :
    seg s nodes b e f l c ->
    (forall j, b <= j < e -> nth_error s' j = nth_error s j) ->
    (forall j, b <= j < e -> nth_error nodes' j = nth_error nodes j) ->
    seg s' nodes' b e f l c.
  Proof.
    intros (H1 & H2 & H3 & H4 & H5 & H6 & H7) Hs Hn.
    split; [auto|]. split; [auto|]. split; [auto|]. split; [auto|].
    split; [eapply closed_frame; eauto|]. split; [intros j Hj; rewrite Hn; auto|].
    intros W; rewrite <- H7. split; intros HW.
    - eapply words_frame with (s := s') (nodes := nodes'); [eapply closed_frame; eauto|exact H3| | |exact HW];
        intros j Hj; symmetry; auto.
    - eapply words_frame with (s := s) (nodes := nodes); eauto.
  Qed.

  Inductive segs s nodes : nat -> list (list nat * list nat) -> list (comb P) -> nat -> Prop :=
  | segs_nil b : segs s nodes b [] [] b
  | segs_cons b m e f l fls c cs :
      seg s nodes b m f l c -> segs s nodes m fls cs e -> segs s nodes b ((f, l) :: fls) (c :: cs) e.

  Lemma segs_le s nodes b fls cs e : segs s nodes b fls cs e -> b <= e.
  Proof. induction 1 as [|b m e f l fls c cs [H _]]; lia. Qed.

  Lemma segs_frame s s' nodes nodes' b fls cs e :
    segs s nodes b fls cs e ->
    (forall j, b <= j < e -> nth_error s' j = nth_error s j) ->
    (forall j, b <= j < e -> nth_error nodes' j = nth_error nodes j) ->
    segs s' nodes' b fls cs e.
  Proof.
    induction 1 as [|b m e f l fls c cs Hs Hss IH]; intros H1 H2; [constructor|].
    pose proof (segs_le _ _ _ _ _ _ Hss) as Hle. assert (b < m) by exact (proj1 Hs).
    econstructor.
    - eapply seg_frame; [exact Hs| |]; intros; [apply H1|apply H2]; lia.
    - apply IH; intros; [apply H1|apply H2]; lia.
  Qed.

  Lemma segs_ranges s nodes b fls cs e : segs s nodes b fls cs e ->
    forall f l, In (f, l) fls -> (forall x, In x f -> b <= x < e) /\ (forall x, In x l -> b <= x < e).
  Proof.
    induction 1 as [|b m e f l fls c cs Hs Hss IH]; intros f' l' Hin; [destruct Hin|].
    pose proof (segs_le _ _ _ _ _ _ Hss) as Hle. destruct Hs as (Hb & _ & Hf & Hl & _).
    destruct Hin as [E|Hin].
    - inversion E; subst. split; intros x Hx; [specialize (Hf x Hx)|specialize (Hl x Hx)]; lia.
    - destruct (IH f' l' Hin) as [I1 I2]. split; intros x Hx; [specialize (I1 x Hx)|specialize (I2 x Hx)]; lia.
  Qed.

  Lemma segs_leaves s nodes b fls cs e : segs s nodes b fls cs e -> leaves nodes b e.
  Proof.
    induction 1 as [|b m e f l fls c cs Hs Hss IH]; intros j Hj; [lia|].
    destruct Hs as (_ & _ & _ & _ & _ & H6 & _). destruct (Nat.lt_ge_cases j m); [apply H6; lia|apply IH; lia].
  Qed.

  (** Sequences *)
  Lemma link_spec s nodes b fls cs e f0 l0 t : segs s nodes b fls cs e -> fls = (f0, l0) :: t -> e <= length s ->
    let s' := link_all fls s in
    length s' = length s /\
    (forall j, j < b \/ e <= j -> nth_error s' j = nth_error s j) /\
    closed s' b e (snd (last fls (f0, l0))) /\
    (forall W, words s' nodes f0 W <-> exists ws, Forall2 (executes lab) cs ws /\ W = concat ws).
  Proof.
    intros Hs; revert s Hs f0 l0 t. revert b cs e; induction fls as [|[f1 l1] fls IH]; intros b cs e s Hs f0 l0 t Et He; [discriminate|].
    inversion Et; subst f1 l1 t; clear Et.
    inversion Hs as [|? m ? ? ? ? c cs' Hseg Hsegs]; subst.
    destruct fls as [|[f2 l2] fls].
    - inversion Hsegs; subst; cbn [link_all last snd]. destruct Hseg as (H1 & H2 & H3 & H4 & H5 & H6 & H7).
      split; [auto|]. split; [auto|]. split; [auto|]. intros W; rewrite H7. split.
      + intros HW; exists [W]; split; [repeat constructor; auto|cbn; rewrite app_nil_r; auto].
      + intros [ws [HF ->]]. inversion HF as [|? w ? ws' Hw Hws]; subst. inversion Hws; subst. cbn; rewrite app_nil_r; auto.
    - cbn [link_all]. set (s1 := fold_left (fun s l => set_nth l f2 s) l0 s).
      assert (Hbm : b < m) by exact (proj1 Hseg). pose proof (segs_le _ _ _ _ _ _ Hsegs) as Hme.
      assert (Hl0 : forall x, In x l0 -> b <= x < m) by exact (proj1 (proj2 (proj2 (proj2 Hseg)))).
      assert (Hs1 : segs s1 nodes m ((f2, l2) :: fls) cs' e).
      { eapply segs_frame; [exact Hsegs| |auto]. intros j Hj. apply set_all_other. intros Hin; apply Hl0 in Hin; lia. }
      assert (Hlen : length s1 = length s) by apply set_all_length.
      destruct (IH m cs' e s1 Hs1 f2 l2 fls eq_refl) as (I1 & I2 & I3 & I4); [lia|].
      set (s' := link_all ((f2, l2) :: fls) s1) in *.
      assert (Hlow : forall j, b <= j < m -> nth_error s' j = if in_dec Nat.eq_dec j l0 then Some f2 else nth_error s j).
      { intros j Hj. rewrite I2 by lia. destruct (in_dec Nat.eq_dec j l0) as [Hin|Hin].
        - apply set_all_in; auto; lia.
        - apply set_all_other; auto. }
      destruct Hseg as (S1 & S2 & S3 & S4 & S5 & S6 & S7).
      assert (Hf2 : f2 <> [] /\ forall x, In x f2 -> m <= x < e).
      { inversion Hs1 as [|? m2 ? ? ? ? c2 cs2 Hseg2 Hsegs2]; subst. split; [exact (proj1 (proj2 Hseg2))|].
        intros x Hx. apply (proj1 (segs_ranges _ _ _ _ _ _ Hs1 f2 l2 (in_eq _ _))); auto. }
      destruct Hf2 as [Hf2n Hf2r].
      change (last ((f0, l0) :: (f2, l2) :: fls) (f0, l0)) with (last ((f2, l2) :: fls) (f0, l0)).
      assert (Hlast : last ((f2, l2) :: fls) (f0, l0) = last ((f2, l2) :: fls) (f2, l2)).
      { apply last_indep. }
      rewrite Hlast.
      assert (Hlr : forall x, In x (snd (last ((f2, l2) :: fls) (f2, l2))) -> m <= x < e).
      { intros x Hx. destruct (last ((f2, l2) :: fls) (f2, l2)) as [fl ll] eqn:El.
        apply (proj2 (segs_ranges _ _ _ _ _ _ Hs1 fl ll ltac:(rewrite <- El; apply last_In))); auto. }
      
      split; [rewrite <- Hlen; exact I1|]. split; [|split].
      + intros j Hj. rewrite I2 by lia. apply set_all_other. intros Hin; apply Hl0 in Hin; lia.
      + intros j Hj. destruct (Nat.lt_ge_cases j m) as [Hjm|Hjm]; [|apply I3; lia].
        rewrite Hlow by lia. destruct (S5 j) as [sj [E1 [E2 E3]]]; [lia|].
        destruct (in_dec Nat.eq_dec j l0) as [Hin|Hin].
        * exists f2. split; auto. split; [intros x Hx; apply Hf2r in Hx; lia|].
          split; [intros Hx; apply Hlr in Hx; lia|contradiction].
        * exists sj. split; auto. split; [intros x Hx; apply E2 in Hx; lia|].
          split; [intros Hx; apply Hlr in Hx; lia|intros ->; tauto].
      + (* words *)
        assert (Hgo : forall i w, full_walk s' i w -> b <= i < m ->
                  exists w1 w2 i2, w = w1 ++ w2 /\ full_walk s i w1 /\ In i2 f2 /\ full_walk s' i2 w2).
        { intros i w Hw. induction Hw as [i Hi|i j w li Hi Hj Hw IHw]; intros Hb; rewrite Hlow in Hi by lia;
            destruct (S5 i) as [sj [E1 [E2 E3]]]; try lia; destruct (in_dec Nat.eq_dec i l0) as [Hin|Hin].
          - congruence.
          - rewrite E1 in Hi; inversion Hi; subst; tauto.
          - inversion Hi; subst li. exists [i], w, j. split; [reflexivity|]. split; [|auto]. constructor. rewrite E1. f_equal; tauto.
          - rewrite E1 in Hi; inversion Hi; subst li. specialize (E2 j Hj).
            destruct IHw as [w1 [w2 [i2 [-> [J1 [J2 J3]]]]]]; [lia|].
            exists (i :: w1), w2, i2. split; [reflexivity|]. split; auto. econstructor; eauto. }
        assert (Hback : forall i w1, full_walk s i w1 -> b <= i < m -> forall i2 w2, In i2 f2 -> full_walk s' i2 w2 -> full_walk s' i (w1 ++ w2)).
        { intros i w1 Hw. induction Hw as [i Hi|i j w li Hi Hj Hw IHw]; intros Hb i2 w2 Hi2 Hw2.
          - cbn [app]. apply walk_step with i2 f2; auto. rewrite Hlow by lia.
            destruct (S5 i) as [sj [E1 [E2 E3]]]; [lia|]. rewrite Hi in E1; inversion E1; subst.
            destruct (in_dec Nat.eq_dec i l0); [reflexivity|]. exfalso; apply n, E3; auto.
          - cbn [app]. destruct (S5 i) as [sj [E1 [E2 E3]]]; [lia|]. rewrite Hi in E1; inversion E1; subst sj.
            specialize (E2 j Hj). apply walk_step with j li; auto.
            + rewrite Hlow by lia. destruct (in_dec Nat.eq_dec i l0) as [Hin|]; auto.
              apply E3 in Hin; subst; destruct Hj.
            + apply IHw with i2; auto; lia. }
        intros W. split.
        * intros [i [w [Hi [Hw HW]]]]. destruct (Hgo i w Hw (S3 i Hi)) as [w1 [w2 [i2 [-> [J1 [J2 J3]]]]]].
          rewrite map_app in HW.
          assert (HX : exists W1 W2, W = W1 ++ W2 /\ map (node_label lab nodes) w1 = map Some W1 /\ map (node_label lab nodes) w2 = map Some W2).
          { clear - HW. revert W HW. induction w1 as [|x w1 IHw]; intros W HW; [exists [], W; auto|].
            destruct W as [|y W]; [discriminate|]. cbn [map app] in HW. inversion HW as [[HA HB]].
            destruct (IHw W HB) as [W1 [W2 [-> [K1 K2]]]]. exists (y :: W1), W2. cbn [map]. rewrite HA, K1; auto. }
          destruct HX as [W1 [W2 [-> [K1 K2]]]].
          assert (HE1 : executes lab c W1) by (apply S7; exists i, w1; auto).
          destruct (proj1 (I4 W2)) as [ws [HF ->]]; [exists i2, w2; auto|].
          exists (W1 :: ws); split; [constructor; auto|reflexivity].
        * intros [ws [HF ->]]. inversion HF as [|? W1 ? ws' HE HF']; subst.
          apply S7 in HE. destruct HE as [i [w1 [Hi [Hw1 HW1]]]].
          destruct (proj2 (I4 (concat ws'))) as [i2 [w2 [Hi2 [Hw2 HW2]]]]; [eauto|].
          exists i, (w1 ++ w2). split; auto. split; [eapply Hback; eauto|].
          cbn [concat]. rewrite !map_app. congruence.
  Qed.

  (** Alternatives *)
  Lemma alt_spec s nodes b fls cs e : segs s nodes b fls cs e ->
    closed s b e (concat (map snd fls)) /\
    (forall W, words s nodes (concat (map fst fls)) W <-> exists c, In c cs /\ executes lab c W).
  Proof.
    induction 1 as [|b m e f l fls c cs Hs Hss IH].
    - split; [intros j Hj; lia|]. intros W; split; [intros [i [w [[] _]]]|intros [c [[] _]]].
    - destruct IH as [I1 I2]. pose proof (segs_le _ _ _ _ _ _ Hss) as Hle.
      assert (Hrest : forall x, In x (concat (map snd fls)) -> m <= x < e).
      { intros x Hx. apply in_concat in Hx. destruct Hx as [l' [Hl' Hx]]. apply in_map_iff in Hl'.
        destruct Hl' as [[f1 l1] [E Hin]]; cbn in E; subst. apply (proj2 (segs_ranges _ _ _ _ _ _ Hss _ _ Hin)); auto. }
      destruct Hs as (S1 & S2 & S3 & S4 & S5 & S6 & S7). cbn [map concat]. split.
      + intros j Hj. destruct (Nat.lt_ge_cases j m) as [Hjm|Hjm].
        * destruct (S5 j) as [sj [E1 [E2 E3]]]; [lia|]. exists sj; split; auto.
          split; [intros x Hx; apply E2 in Hx; lia|]. rewrite in_app_iff, <- E3.
          split; [intros [H|H]; auto; apply Hrest in H; lia|auto].
        * destruct (I1 j) as [sj [E1 [E2 E3]]]; [lia|]. exists sj; split; auto.
          split; [auto|]. rewrite in_app_iff, <- E3. split; [intros [H|H]; auto; apply S4 in H; lia|auto].
      + intros W. split.
        * intros [i [w [Hi Hw]]]. apply in_app_or in Hi. destruct Hi as [Hi|Hi].
          -- exists c; split; [simpl; auto|]. apply S7; exists i, w; auto.
          -- destruct (proj1 (I2 W)) as [c' [Hc' Hx]]; [exists i, w; auto|]. exists c'; simpl; auto.
        * intros [c' [[<-|Hc'] Hx]].
          -- apply S7 in Hx. destruct Hx as [i [w [Hi Hw]]]. exists i, w; split; auto. apply in_or_app; auto.
          -- destruct (proj2 (I2 W)) as [i [w [Hi Hw]]]; [eauto|]. exists i, w; split; auto. apply in_or_app; auto.
  Qed.

  (** *** Copies *)
  Lemma deep_copy_copied fmt (c : comb P) : forall c', deep_copy fmt c = Ok c' ->
    copied (fun a a' => action_copy fmt a = Ok a') fmt c c' /\ (forall x, In x (preorder c') -> copy_ok x).
  Proof.
    induction c as [a i p h|k ch i p n h pr IH] using comb_ind'; intros c' E; cbn [deep_copy] in E.
    - destruct (action_copy fmt a) as [a'|] eqn:Ea; [|discriminate]. cbn [bind] in E; inversion E; subst.
      split; [constructor; auto|intros x [<-|[]]; exact I].
      unfold action_copy in Ea; destruct (a_class a); inversion Ea; reflexivity.
    - destruct (mapM (deep_copy fmt) ch) as [ch'|] eqn:Em; [|discriminate]. cbn [bind] in E.
      apply mapM_Forall2 in Em.
      assert (HC : Forall2 (copied (fun a a' => action_copy fmt a = Ok a') fmt) ch ch' /\
                   forall x, In x (flat_map preorder ch') -> copy_ok x).
      { clear - IH Em. induction Em as [|x y t t' Hx Ht IHm]; [split; [constructor|intros x []]|].
        inversion IH as [|? ? J1 J2]; subst. destruct (J1 y Hx) as [K1 K2]. destruct (IHm J2) as [K3 K4].
        split; [constructor; auto|]. cbn [flat_map]; intros z Hz; apply in_app_or in Hz; destruct Hz; auto. }
      destruct HC as [HC1 HC2].
      destruct (mk_comb_inv _ _ _ _ _ _ _ _ E) as [[pr' ->] Hne]. split; [constructor; auto|].
      cbn [preorder]. intros x [<-|Hx]; auto. destruct k; try exact I. split; auto.
      unfold mk_comb in E. destruct (alt_proba (length ch') pr); [|discriminate]. cbn [bind] in E.
      assert (Hl : length ch' <> 0) by (specialize (Hne eq_refl); destruct ch'; simpl; congruence).
      rewrite alt_proba_None in E by auto. cbn [bind] in E.
      intros l El. assert (l = repeat (1 # Pos.of_nat (length ch'))%Q (length ch')) as -> by congruence.
      apply uniform_valid; auto.
  Qed.

  Hypothesis Hlab : forall i a a', action_copy (order_fmt i) a = Ok a' -> lab a' = lab a.

  Lemma executes_copied i (c : comb P) : forall c' fmt,
    copied (fun a a' => action_copy (order_fmt i) a = Ok a') fmt c c' -> forall W, executes lab c W <-> executes lab c' W.
  Proof.
    induction c as [a j p h|k ch j p n h pr IH] using comb_ind'; intros c' fmt Hc W.
    - inversion Hc as [? a' ? ? ? Hn HR|]; subst. apply Hlab in HR.
      split; intros HE; inversion HE; subst; [rewrite <- HR|rewrite HR]; constructor.
    - inversion Hc as [|? ? ch' ? ? ? ? ? pr' HF]; subst.
      assert (H2 : Forall2 (fun c c' => forall W, executes lab c W <-> executes lab c' W) ch ch').
      { clear - IH HF. induction HF as [|x y t t' Hx Ht IHF]; constructor; inversion IH; subst; eauto. }
      clear IH HF Hc.
      assert (Hws : forall l l' ws, Forall2 (fun c c' => forall W, executes lab c W <-> executes lab c' W) l l' ->
                    Forall2 (executes lab) l ws <-> Forall2 (executes lab) l' ws).
      { clear. intros l l' ws H. revert ws; induction H as [|x y t t' Hx Ht IHF]; intros ws; split; intros HF; inversion HF; subst; constructor;
          try (apply Hx; auto); try (apply IHF; auto). }
      assert (Hperm : forall l l', Forall2 (fun c c' => forall W, executes lab c W <-> executes lab c' W) l l' ->
                 (forall m, Permutation l m -> exists m', Permutation l' m' /\ Forall2 (fun c c' => forall W, executes lab c W <-> executes lab c' W) m m')).
      { clear. intros l l' H m Hm. revert l' H. induction Hm as [|x l m Hm IHm|x y l|l m k Hm IHm Hk IHk]; intros l' H.
        - inversion H; exists []; split; constructor.
        - inversion H as [|? x' ? t' Hx Ht]; subst. destruct (IHm t' Ht) as [m' [Q1 Q2]]. exists (x' :: m'); split; constructor; auto.
        - inversion H as [|? y' ? t' Hy Ht]; subst. inversion Ht as [|? x' ? t'' Hx Ht']; subst.
          exists (x' :: y' :: t''); split; [apply perm_swap|repeat constructor; auto; try apply Hx; try apply Hy].
        - destruct (IHm l' H) as [m' [Q1 Q2]]. destruct (IHk m' Q2) as [k' [Q3 Q4]]. exists k'; split; auto. eapply Permutation_trans; eauto. }
      assert (Hsym : Forall2 (fun c c' => forall W, executes lab c W <-> executes lab c' W) ch' ch).
      { clear - H2. induction H2 as [|x y t t' Hx Ht IHF]; constructor; auto. intros W; symmetry; apply Hx. }
      split; intros HE; inversion HE as [|? ? ? ? ? ? ws HFw|? ? ? ? ? ? c0 ? Hin Hx|? ? ? ? ? ? m ws Hpm HFw]; subst.
      + constructor. rewrite <- (Hws ch ch'); auto.
      + clear - H2 Hin Hx. assert (HX : exists c1, In c1 ch' /\ executes lab c1 W).
        { induction H2 as [|x y t t' Hxy Ht IHF]; [destruct Hin|]. destruct Hin as [->|Hin].
          - exists y; split; [simpl; auto|apply Hxy; auto].
          - destruct (IHF Hin) as [c1 [K1 K2]]; exists c1; simpl; auto. }
        destruct HX as [c1 [K1 K2]]. econstructor; eauto.
      + destruct (Hperm ch ch' H2 m Hpm) as [m' [Q1 Q2]]. apply exec_par with m'; auto. rewrite <- (Hws m m'); auto.
      + constructor. rewrite (Hws ch ch'); auto.
      + clear - Hsym Hin Hx. assert (HX : exists c1, In c1 ch /\ executes lab c1 W).
        { induction Hsym as [|x y t t' Hxy Ht IHF]; [destruct Hin|]. destruct Hin as [->|Hin].
          - exists y; split; [simpl; auto|apply Hxy; auto].
          - destruct (IHF Hin) as [c1 [K1 K2]]; exists c1; simpl; auto. }
        destruct HX as [c1 [K1 K2]]. econstructor; eauto.
      + destruct (Hperm ch' ch Hsym m Hpm) as [m' [Q1 Q2]]. apply exec_par with m'; auto. rewrite <- (Hws m m'); auto.
  Qed.

  (** Structure of to_alternative. *)
  Lemma to_alternative_inv (ch : list (comb P)) n h alt : to_alternative ch n h = Ok alt ->
    exists seqs pr, alt = Node Alternative seqs None None n h pr /\
      Forall2 (fun (ip : nat * list (comb P)) s => exists cs pr', s = Node Sequential cs None None (order_fmt (fst ip) n) false pr' /\
                 Forall2 (fun c c' => deep_copy (order_fmt (fst ip)) c = Ok c') (snd ip) cs)
              (enum (permutations ch)) seqs.
  Proof.
    unfold to_alternative. intros E.
    match type of E with bind (mapM ?g ?l) _ = _ => set (f := g) in * end.
    destruct (mapM f (enum (permutations ch))) as [seqs|e] eqn:Em; [|discriminate]. cbn [bind] in E.
    destruct (mk_comb_inv _ _ _ _ _ _ _ _ E) as [[pr ->] _]. exists seqs, pr; split; auto.
    apply mapM_Forall2 in Em. clear E. induction Em as [|ip s t t' Hx Ht IH]; constructor; auto.
    unfold f in Hx. destruct (mapM (deep_copy (order_fmt (fst ip))) (snd ip)) as [cs|] eqn:Ec; [|discriminate].
    cbn [bind mk_comb] in Hx. inversion Hx; subst. exists cs, None; split; auto. apply mapM_Forall2; auto.
  Qed.

  Lemma executes_alternative (ch : list (comb P)) n h alt i p pr :
    to_alternative ch n h = Ok alt -> forall W, executes lab (Node Parallel ch i p n h pr) W <-> executes lab alt W.
  Proof.
    intros E W. destruct (to_alternative_inv _ _ _ _ E) as [seqs [pr' [-> HF]]].
    assert (Hcopies : forall k l cs ws, Forall2 (fun c c' => deep_copy (order_fmt k) c = Ok c') l cs ->
                        Forall2 (executes lab) l ws <-> Forall2 (executes lab) cs ws).
    { intros k l cs ws H. revert ws; induction H as [|x y t t' Hx Ht IH]; intros ws; split; intros HW; inversion HW; subst; constructor;
        try (apply IH; auto);
        apply deep_copy_copied in Hx; destruct Hx as [Hx _];
        [apply (executes_copied _ _ _ _ Hx)|apply (executes_copied _ _ _ _ Hx)]; auto. }
    split; intros HE.
    - inversion HE as [| | |? ? ? ? ? ? m ws Hpm HFw]; subst.
      assert (Hin : In m (permutations ch)) by (apply perms_n_In; auto; apply Permutation_sym; auto).
      apply In_nth_error in Hin. destruct Hin as [k Hk]. apply enum_nth, nth_error_In in Hk.
      assert (HX : exists s, In s seqs /\ executes lab s (concat ws)).
      { clear - HF Hk Hcopies HFw. induction HF as [|ip s t t' [cs [pr1 [-> Hcs]]] Ht IH]; [destruct Hk|].
        destruct Hk as [->|Hk].
        - eexists; split; [left; reflexivity|]. constructor. cbn [fst snd] in Hcs. rewrite <- (Hcopies _ _ _ _ Hcs). auto.
        - destruct (IH Hk) as [s' [K1 K2]]; exists s'; simpl; auto. }
      destruct HX as [s [Hs Hx]]. econstructor; eauto.
    - inversion HE as [| |? ? ? ? ? ? c0 ? Hin Hx|]; subst.
      assert (HX : exists ip cs pr', In ip (enum (permutations ch)) /\ c0 = Node Sequential cs None None (order_fmt (fst ip) n) false pr' /\
                    Forall2 (fun c c' => deep_copy (order_fmt (fst ip)) c = Ok c') (snd ip) cs).
      { clear - HF Hin. induction HF as [|ip s t t' [cs [pr1 [E1 E2]]] Ht IH]; [destruct Hin|]. destruct Hin as [<-|Hin].
        - exists ip, cs, pr1; simpl; auto.
        - destruct (IH Hin) as [ip' [cs' [pr2 [K1 K2]]]]; exists ip', cs', pr2; simpl; auto. }
      destruct HX as [ip [cs [pr1 [Hip [-> Hcs]]]]].
      inversion Hx as [|? ? ? ? ? ? ws HFw| |]; subst. apply exec_par with (snd ip).
      + destruct ip as [k m]; unfold enum in Hip; apply in_combine_r in Hip. apply perms_n_In in Hip; auto. apply Permutation_sym; auto.
      + rewrite (Hcopies _ _ _ _ Hcs); auto.
  Qed.
End Segments.

Section Build.
  Context {P : Type}.
  Variable ordn : list nat -> list nat.
  Hypothesis Hord : is_order ordn.

  Lemma unique_In l x : In x (unique ordn l) <-> In x l.
  Proof.
    unfold unique. split; intros H.
    - apply (proj1 (order_In ordn Hord (set_of l) x)) in H. apply set_of_In; auto.
    - apply (proj2 (order_In ordn Hord (set_of l) x)). apply set_of_In; auto.
  Qed.

  Lemma leaf_sum_copied fmt (c : comb P) : forall c' R, copied R fmt c c' -> expanded_leaves c' = expanded_leaves c /\ dag_fuel c' = dag_fuel c.
  Proof.
    induction c as [a j p h|k ch j p n h pr IH] using comb_ind'; intros c' R Hc; inversion Hc as [|? ? ch' ? ? ? ? ? pr' HF]; subst; [auto|].
    cbn [expanded_leaves dag_fuel].
    assert (HX : fold_right (fun x m => expanded_leaves x + m) 0 ch' = fold_right (fun x m => expanded_leaves x + m) 0 ch /\
                 fold_right (fun x m => Nat.max (dag_fuel x) m) 0 ch' = fold_right (fun x m => Nat.max (dag_fuel x) m) 0 ch).
    { clear - IH HF. induction HF as [|x y t t' Hx Ht IHF]; [auto|]. inversion IH as [|? ? J1 J2]; subst.
      destruct (J1 y R Hx) as [K1 K2]. destruct (IHF J2) as [K3 K4]. cbn [fold_right]. rewrite K1, K2, K3, K4; auto. }
    destruct HX as [-> ->]. apply Forall2_len in HF. rewrite HF; auto.
  Qed.

  Definition sum_leaves (l : list (comb P)) : nat := fold_right (fun x m => expanded_leaves x + m) 0 l.

  Lemma sum_leaves_perm l l' : Permutation l l' -> sum_leaves l = sum_leaves l'.
  Proof. induction 1; cbn [sum_leaves fold_right] in *; unfold sum_leaves in *; try lia. Qed.

  Lemma sum_alternative (ch : list (comb P)) n h alt : to_alternative ch n h = Ok alt ->
    sum_leaves (children_of alt) = fact (length ch) * sum_leaves ch.
  Proof.
    intros E. destruct (to_alternative_inv _ _ _ _ E) as [seqs [pr' [-> HF]]]. cbn [children_of].
    assert (Hall : Forall (fun s => expanded_leaves s = sum_leaves ch) seqs).
    { assert (Hin : forall ip, In ip (enum (permutations ch)) -> Permutation (snd ip) ch).
      { intros [k m] Hip; unfold enum in Hip; apply in_combine_r in Hip; apply perms_n_In in Hip; auto. }
      clear - HF Hin. induction HF as [|ip s t t' [cs [pr1 [-> Hcs]]] Ht IH]; constructor.
      - cbn [expanded_leaves]. rewrite Nat.mul_1_l. rewrite <- (sum_leaves_perm (snd ip) ch) by (apply Hin; simpl; auto).
        clear - Hcs. unfold sum_leaves. induction Hcs as [|x y t t' Hx Ht IHF]; [reflexivity|]. cbn [fold_right].
        apply deep_copy_copied in Hx. destruct Hx as [Hx _]. apply leaf_sum_copied in Hx. destruct Hx as [-> _]. rewrite IHF; auto.
      - apply IH. intros; apply Hin; simpl; auto. }
    apply Forall2_len in HF. rewrite enum_length in HF. unfold permutations in HF. rewrite perms_n_length in HF by auto.
    rewrite HF. clear - Hall. induction Hall as [|s t Hs Ht IH]; [reflexivity|]. cbn [sum_leaves fold_right length] in *.
    unfold sum_leaves in *. rewrite IH, Hs. lia.
  Qed.

  Definition dwf (d : dag P) : Prop := length (d_nodes d) = length (d_succs d).

  Definition extends (d d' : dag P) : Prop :=
    length (d_nodes d) <= length (d_nodes d') /\
    (forall j, j < length (d_nodes d) -> nth_error (d_nodes d') j = nth_error (d_nodes d) j) /\
    (forall j, j < length (d_nodes d) -> nth_error (d_succs d') j = nth_error (d_succs d) j).

  Lemma extends_refl d : extends d d.
  Proof. split; [lia|auto]. Qed.
  Lemma extends_trans d1 d2 d3 : extends d1 d2 -> extends d2 d3 -> extends d1 d3.
  Proof.
    intros (H1 & H2 & H3) (K1 & K2 & K3). split; [lia|]. split; intros j Hj.
    - rewrite K2 by lia; auto.
    - rewrite K3 by lia; auto.
  Qed.

  Section Lang.
    Context {L : Type}.
    Variable lab : action P -> L.

    Definition safe (c : comb P) : Prop :=
      (forall i a a', action_copy (order_fmt i) a = Ok a' -> lab a' = lab a) \/
      (forall ch i p n h pr, ~ In (Node Parallel ch i p n h pr) (preorder c)).

    Lemma safe_child k ch i p n h pr c : safe (Node k ch i p n h pr) -> In c ch -> safe c.
    Proof.
      intros [H|H] Hin; [left; auto|right]. intros ch' i' p' n' h' pr' Hx. eapply (H ch' i' p' n' h' pr').
      cbn [preorder]. right. apply in_flat_map; eauto.
    Qed.

    Definition built (c : comb P) (d d' : dag P) (f l : list nat) : Prop :=
      dwf d' /\ extends d d' /\
      seg lab (d_succs d') (d_nodes d') (length (d_nodes d)) (length (d_nodes d')) f l c /\
      length (d_nodes d') = length (d_nodes d) + expanded_leaves c.

    Lemma visit_children_spec (rec : comb P -> dag P -> res (list nat * list nat * dag P)) :
      (forall c d f l d', safe c -> dwf d -> rec c d = Ok (f, l, d') -> built c d d' f l) ->
      forall ch d fls d', (forall c, In c ch -> safe c) -> dwf d -> visit_children rec ch d = Ok (fls, d') ->
        dwf d' /\ extends d d' /\
        segs lab (d_succs d') (d_nodes d') (length (d_nodes d)) fls ch (length (d_nodes d')) /\
        length (d_nodes d') = length (d_nodes d) + sum_leaves ch.
    Proof.
      intros Hrec. induction ch as [|c ch IH]; intros d fls d' Hsafe Hd E; cbn [visit_children] in E.
      - inversion E; subst. split; [auto|]. split; [apply extends_refl|]. split; [constructor|cbn; lia].
      - destruct (rec c d) as [[[f la] d1]|e] eqn:E1; [|discriminate]. cbn [bind] in E.
        destruct (visit_children rec ch d1) as [[fls' d2]|e] eqn:E2; [|discriminate]. cbn [bind] in E.
        inversion E; subst fls d'; clear E.
        destruct (Hrec c d f la d1 (Hsafe c (in_eq _ _)) Hd E1) as (B1 & B2 & B3 & B4).
        destruct (IH d1 fls' d2 (fun c' H => Hsafe c' (in_cons _ _ _ H)) B1 E2) as (C1 & C2 & C3 & C4).
        split; [auto|]. split; [eapply extends_trans; eauto|]. split.
        + econstructor; [|exact C3]. destruct C2 as (X1 & X2 & X3).
          eapply seg_frame; [exact B3| |]; intros j Hj; [apply X3|apply X2]; lia.
        + rewrite C4, B4. cbn [sum_leaves fold_right]. fold (sum_leaves ch). lia.
    Qed.

    Lemma gif_spec fuel : forall c d f l d', safe c -> dwf d -> get_initial_final ordn fuel c d = Ok (f, l, d') -> built c d d' f l.
    Proof.
      induction fuel as [|fuel IH]; intros c d f l d' Hsafe Hd E; [discriminate|].
      cbn [get_initial_final] in E. destruct c as [a i p h|k ch i p n h pr].
      - cbn [push] in E. inversion E; subst; clear E. unfold built, dwf, extends in *. cbn [d_nodes d_succs].
        rewrite !app_length, Hd. cbn [length]. split; [auto|]. split; [|split].
        + split; [lia|]. split; intros j Hj; apply nth_error_app1; lia.
        + assert (Hn : nth_error (d_succs d ++ [[]]) (length (d_succs d)) = Some []).
          { rewrite nth_error_app2 by lia. rewrite Nat.sub_diag. reflexivity. }
          assert (Hm : nth_error (d_nodes d ++ [Leaf a i p h]) (length (d_succs d)) = Some (Leaf a i p h)).
          { rewrite nth_error_app2 by lia. rewrite Hd, Nat.sub_diag. reflexivity. }
          split; [lia|]. split; [congruence|]. split; [intros x [<-|[]]; lia|]. split; [intros x [<-|[]]; lia|].
          split; [|split].
          * intros j Hj. assert (j = length (d_succs d)) by lia; subst j. exists []. split; auto.
            split; [intros x []|simpl; tauto].
          * intros j Hj. assert (j = length (d_succs d)) by lia; subst j. eexists; split; [exact Hm|]. repeat eexists.
          * intros W. split.
            -- intros [j [w [[<-|[]] [Hw HW]]]]. inversion Hw as [? He|? ? ? li He Hj Hw']; subst.
               ++ cbn [map] in HW. unfold node_label in HW. rewrite Hm in HW. destruct W as [|y [|z W]]; inversion HW; subst. constructor.
               ++ rewrite Hn in He. inversion He; subst. destruct Hj.
            -- intros HE; inversion HE; subst. exists (length (d_succs d)), [length (d_succs d)].
               split; [simpl; auto|]. split; [constructor; auto|]. cbn [map]. unfold node_label. rewrite Hm. reflexivity.
        + cbn [expanded_leaves]. lia.
      - set (sel := match k with
                    | Parallel => do alt <- to_alternative ch n h;
                                  match alt with Node ka cha _ _ _ _ _ => Ok (ka, cha) | Leaf _ _ _ _ => Err EValue end
                    | _ => Ok (k, ch) end) in E.
        destruct sel as [[k' ch']|e] eqn:Esel; [|discriminate]. cbn [bind] in E.
        assert (Hsel : k' <> Parallel /\ (forall W, executes lab (Node k ch i p n h pr) W <-> executes lab (Node k' ch' i p n h pr) W) /\
                       sum_leaves ch' = expanded_leaves (Node k ch i p n h pr) /\ (forall c, In c ch' -> safe c)).
        { assert (H1 : k <> Parallel -> sum_leaves ch = expanded_leaves (Node k ch i p n h pr)).
          { intros Hk; cbn [expanded_leaves]; fold (sum_leaves ch). destruct k; try congruence; lia. }
          subst sel. destruct k.
          - inversion Esel; subst. split; [congruence|]. split; [tauto|]. split; [apply H1; congruence|].
            intros c Hin; eapply safe_child; eauto.
          - inversion Esel; subst. split; [congruence|]. split; [tauto|]. split; [apply H1; congruence|].
            intros c Hin; eapply safe_child; eauto.
          - destruct (to_alternative ch n h) as [alt|] eqn:Ea; [|discriminate]. cbn [bind] in Esel.
            destruct Hsafe as [Hlab|Hno]; [|exfalso; eapply Hno; simpl; left; reflexivity].
            pose proof (executes_alternative lab Hlab ch n h alt i p pr Ea) as Hex.
            pose proof (sum_alternative ch n h alt Ea) as Hsum.
            destruct (to_alternative_inv _ _ _ _ Ea) as [seqs [pr' [-> _]]]. inversion Esel; subst.
            split; [congruence|]. split; [|split; [cbn [children_of] in Hsum; rewrite Hsum; reflexivity|intros; left; exact Hlab]].
            intros W; rewrite Hex. split; intros HE; inversion HE; subst; econstructor; eauto. }
        destruct Hsel as (Hk' & Hex & Hsum & Hsafe').
        destruct (visit_children (get_initial_final ordn fuel) ch' d) as [[fls d1]|e] eqn:Ev; [|discriminate]. cbn [bind] in E.
        destruct (visit_children_spec _ IH _ _ _ _ Hsafe' Hd Ev) as (C1 & C2 & C3 & C4).
        destruct fls as [|[f0 l0] t]; [discriminate|].
        set (b := length (d_nodes d)) in *. set (e := length (d_nodes d1)) in *.
        assert (Hbe : b < e).
        { inversion C3 as [|? m ? ? ? ? ? ? HS HSS]; subst. pose proof (segs_le _ _ _ _ _ _ _ HSS). destruct HS; lia. }
        unfold built. destruct k'; [|clear Hk'|congruence].
        + inversion E; subst f l d'; clear E. cbn [d_nodes d_succs]. fold e.
          assert (He : e <= length (d_succs d1)) by (unfold dwf in C1; unfold e; lia).
          destruct (link_spec lab _ _ _ _ _ _ f0 l0 t C3 eq_refl He) as (K1 & K2 & K3 & K4).
          split; [unfold dwf in *; cbn [d_nodes d_succs]; etransitivity; [exact C1|symmetry; exact K1]|].
          split; [|split].
          * destruct C2 as (X1 & X2 & X3). split; [auto|]. cbn [d_nodes d_succs]. split; auto.
            intros j Hj. rewrite K2 by (left; auto). auto.
          * split; [auto|]. cbn [fst].
            assert (Hf0 : f0 <> [] /\ forall x, In x f0 -> b <= x < e).
            { split; [inversion C3 as [|? m ? ? ? ? ? ? HS HSS]; clear - HS; destruct HS as (_ & HS & _); exact HS|].
              intros x Hx; apply (proj1 (segs_ranges _ _ _ _ _ _ _ C3 f0 l0 (in_eq _ _))); auto. }
            split; [apply Hf0|]. split; [apply Hf0|]. split.
            { assert (Hlr : forall x, In x (snd (last ((f0, l0) :: t) (f0, l0))) -> b <= x < e); [|exact Hlr].
              pose proof (last_In (f0, l0) t (f0, l0)) as HL. destruct (last ((f0, l0) :: t) (f0, l0)) as [fl ll].
              exact (proj2 (segs_ranges _ _ _ _ _ _ _ C3 fl ll HL)). }
            split; [exact K3|]. split; [eapply segs_leaves; eauto|].
            intros W. rewrite K4, Hex. split.
            -- intros [ws [HF ->]]. constructor; auto.
            -- intros HE; inversion HE; subst; eauto.
          * rewrite <- Hsum; exact C4.
        + assert (f = unique ordn (concat (map fst ((f0, l0) :: t)))) as -> by congruence.
          assert (l = unique ordn (concat (map snd ((f0, l0) :: t)))) as -> by congruence.
          assert (d' = d1) as -> by congruence. clear E.
          destruct (alt_spec lab _ _ _ _ _ _ C3) as [A1 A2].
          split; [auto|]. split; [auto|]. split; [|rewrite <- Hsum; exact C4].
          split; [auto|]. split.
          { intros Hn. inversion C3 as [|? m ? ? ? ? ? ? HS HSS]; subst. destruct HS as (_ & Hf & _). destruct f0 as [|x f0]; [congruence|].
            assert (Hin : In x (unique ordn (concat (map fst ((x :: f0, l0) :: t))))) by (apply unique_In; simpl; auto).
            rewrite Hn in Hin; destruct Hin. }
          split; [|split; [|split; [|split]]].
          * intros x Hx. apply unique_In, in_concat in Hx. destruct Hx as [f' [Hf' Hx]]. apply in_map_iff in Hf'.
            destruct Hf' as [[f1 l1] [E Hin]]; cbn in E; subst. apply (proj1 (segs_ranges _ _ _ _ _ _ _ C3 _ _ Hin)); auto.
          * intros x Hx. apply unique_In, in_concat in Hx. destruct Hx as [f' [Hf' Hx]]. apply in_map_iff in Hf'.
            destruct Hf' as [[f1 l1] [E Hin]]; cbn in E; subst. apply (proj2 (segs_ranges _ _ _ _ _ _ _ C3 _ _ Hin)); auto.
          * intros j Hj. destruct (A1 j Hj) as [sj [E1 [E2 E3]]]. exists sj; split; auto. split; auto.
            rewrite unique_In; auto.
          * eapply segs_leaves; eauto.
          * intros W. rewrite Hex.
            transitivity (words lab (d_succs d1) (d_nodes d1) (concat (map fst ((f0, l0) :: t))) W).
            -- split; intros [j [w [Hj Hw]]]; exists j, w; split; auto; [apply (proj1 (unique_In _ _)) in Hj|apply (proj2 (unique_In _ _))]; auto.
            -- rewrite A2. split.
               ++ intros [c [Hc HE]]. econstructor; eauto.
               ++ intros HE; inversion HE; subst; eauto.
    Qed.
  End Lang.

  (** *** Success *)
  Lemma copied_preorder R fmt (c : comb P) : forall c', copied R fmt c c' -> forall x', In x' (preorder c') ->
    exists x, In x (preorder c) /\ copied R fmt x x'.
  Proof.
    induction c as [a j p h|k ch j p n h pr IH] using comb_ind'; intros c' Hc x' Hx'.
    - inversion Hc; subst. destruct Hx' as [<-|[]]. eexists; split; [left; reflexivity|auto].
    - inversion Hc as [|? ? ch' ? ? ? ? ? pr' HF]; subst. cbn [preorder] in Hx'. destruct Hx' as [<-|Hx'].
      + eexists; split; [left; reflexivity|auto].
      + assert (HX : exists x, In x (flat_map preorder ch) /\ copied R fmt x x').
        { clear - IH HF Hx'. induction HF as [|y y' t t' Hy Ht IHF]; [destruct Hx'|]. inversion IH as [|? ? J1 J2]; subst.
          cbn [flat_map] in *. apply in_app_or in Hx'. destruct Hx' as [Hx'|Hx'].
          - destruct (J1 y' Hy x' Hx') as [x [K1 K2]]. exists x; split; auto. apply in_or_app; auto.
          - destruct (IHF J2 Hx') as [x [K1 K2]]. exists x; split; auto. apply in_or_app; auto. }
        destruct HX as [x [K1 K2]]. exists x; split; auto. right; auto.
  Qed.

  Lemma preorder_trans : forall r q : comb P, In q (preorder r) -> forall z, In z (preorder q) -> In z (preorder r).
  Proof.
    induction r as [a i p h|k ch i p n h pr IH] using comb_ind'; intros q Hq z Hz; cbn [preorder] in Hq.
    - destruct Hq as [<-|[]]; auto.
    - destruct Hq as [<-|Hq]; auto. apply in_flat_map in Hq. destruct Hq as [y [Hy Hq]]. cbn [preorder]. right.
      apply in_flat_map. exists y; split; auto. rewrite Forall_forall in IH. eapply IH; eauto.
  Qed.

  Lemma copy_has_copy fmt (a a' : action P) : action_copy fmt a = Ok a' -> has_copy a'.
  Proof. unfold action_copy, has_copy. destruct (a_class a); intros E; inversion E; subst; cbn; split; congruence. Qed.

  Lemma copies_expandable fmt (c c' : comb P) : deep_copy fmt c = Ok c' -> expandable c -> expandable c'.
  Proof.
    intros E [H1 H2]. destruct (deep_copy_copied fmt c c' E) as [Hc _]. split.
    - intros x' Hx'. destruct (copied_preorder _ _ _ _ Hc x' Hx') as [x [Hx Hcx]]. destruct (H1 x Hx) as [[a [i [p [h ->]]]]|Hne].
      + left. inversion Hcx; subst. repeat eexists.
      + inversion Hcx as [|? ? ch' ? ? ? ? ? pr' HF]; subst; [left; repeat eexists|]. right. cbn [children_of] in *.
        apply Forall2_len in HF. destruct ch, ch'; simpl in *; congruence.
    - intros ch i p n h pr a i' p' h' Hpar Hin.
      assert (Hx' : In (Leaf a i' p' h') (preorder c')).
      { eapply preorder_trans; [exact Hpar|]. cbn [preorder]. right; auto. }
      destruct (copied_preorder _ _ _ _ Hc _ Hx') as [x [Hx Hcx]]. inversion Hcx; subst. eapply copy_has_copy; eauto.
  Qed.

  Lemma expandable_child k (ch : list (comb P)) i p n h pr c :
    expandable (Node k ch i p n h pr) -> In c ch -> expandable c.
  Proof.
    intros [H1 H2] Hin.
    assert (Hsub : forall x, In x (preorder c) -> In x (preorder (Node k ch i p n h pr))).
    { intros x Hx. cbn [preorder]. right. apply in_flat_map; eauto. }
    split; [intros x Hx; apply H1; auto|].
    intros; eapply H2; eauto.
  Qed.

  Lemma visit_ok (rec : comb P -> dag P -> res (list nat * list nat * dag P)) ch :
    (forall c d, In c ch -> exists r, rec c d = Ok r) ->
    forall d, exists fls d', visit_children rec ch d = Ok (fls, d') /\ length fls = length ch.
  Proof.
    induction ch as [|c ch IH]; intros Hrec d; cbn [visit_children].
    - exists [], d; auto.
    - destruct (Hrec c d) as [[[f l] d1] E]; [simpl; auto|]. rewrite E; cbn [bind].
      destruct (IH ltac:(intros; apply Hrec; simpl; auto) d1) as [fls [d2 [E2 Hl]]]. rewrite E2; cbn [bind].
      eexists _, _; split; [reflexivity|]. cbn [length]; auto.
  Qed.

  Definition max_fuel (l : list (comb P)) : nat := fold_right (fun x m => Nat.max (dag_fuel x) m) 0 l.

  Lemma max_fuel_In l c : In c l -> dag_fuel c <= max_fuel l.
  Proof.
    unfold max_fuel. induction l as [|x t IH]; intros Hin; [destruct Hin|]. cbn [fold_right].
    destruct Hin as [->|Hin]; [lia|]. specialize (IH Hin). lia.
  Qed.
  Lemma max_fuel_le l m : (forall c, In c l -> dag_fuel c <= m) -> max_fuel l <= m.
  Proof.
    unfold max_fuel. induction l as [|x t IH]; intros H; cbn [fold_right]; [lia|].
    apply Nat.max_lub; [apply H; simpl; auto|apply IH; intros; apply H; simpl; auto].
  Qed.

  Lemma gif_ok fuel : forall (c : comb P) d, dag_fuel c <= fuel -> expandable c -> (forall x, In x (preorder c) -> copy_ok x) ->
    exists r, get_initial_final ordn fuel c d = Ok r.
  Proof.
    induction fuel as [|fuel IH]; intros c d Hf Hex Hco; [destruct c as [|[]]; cbn [dag_fuel] in Hf; lia|].
    cbn [get_initial_final]. destruct c as [a i p h|k ch i p n h pr]; [cbn [push]; eauto|].
    match goal with |- context [bind ?X _] => set (sel := X) end.
    assert (Hsel : exists k' ch', sel = Ok (k', ch') /\ ch' <> [] /\
              forall c, In c ch' -> dag_fuel c <= fuel /\ expandable c /\ (forall x, In x (preorder c) -> copy_ok x)).
    { assert (Hne : ch <> []).
      { destruct (proj1 Hex (Node k ch i p n h pr)) as [[a [i' [p' [h' E]]]]|Hn]; [simpl; auto|discriminate|exact Hn]. }
      assert (Hk : k <> Parallel -> forall c, In c ch -> dag_fuel c <= fuel /\ expandable c /\ (forall x, In x (preorder c) -> copy_ok x)).
      { intros Hk c Hin. split; [|split].
        - pose proof (max_fuel_In ch c Hin) as Hm. cbn [dag_fuel] in Hf. fold (max_fuel ch) in Hf. destruct k; try congruence; lia.
        - eapply expandable_child; eauto.
        - intros x Hx. apply Hco. cbn [preorder]. right. apply in_flat_map; eauto. }
      destruct k.
      - exists Sequential, ch. split; [reflexivity|]. split; [auto|apply Hk; congruence].
      - exists Alternative, ch. split; [reflexivity|]. split; [auto|apply Hk; congruence].
      - assert (Hok1 : forall c x, In c ch -> In x (preorder c) -> copy_ok x).
        { intros c x Hin Hx. apply Hco. cbn [preorder]. right. apply in_flat_map; eauto. }
        assert (Hok2 : forall c a i p h, In c ch -> In (Leaf a i p h) (preorder c) -> has_copy a).
        { intros c a i' p' h' Hin Hx. destruct Hex as [_ Hex]. eapply Hex; [simpl; left; reflexivity|apply in_flat_map; eauto]. }
        destruct (to_alternative_ok ch n h Hok1 Hok2) as [seqs [Ea [Hlen _]]].
        exists Alternative, seqs. subst sel. rewrite Ea. cbn [bind]. split; [reflexivity|].
        split; [destruct seqs; [pose proof (lt_O_fact (length ch)); simpl in Hlen; lia|congruence]|].
        destruct (to_alternative_inv _ _ _ _ Ea) as [seqs' [pr' [E HF]]]. inversion E; subst seqs'; clear E.
        intros s Hs.
        assert (HX : exists ip cs pr', In ip (enum (permutations ch)) /\ s = Node Sequential cs None None (order_fmt (fst ip) n) false pr' /\
                      Forall2 (fun c c' => deep_copy (order_fmt (fst ip)) c = Ok c') (snd ip) cs).
        { clear - HF Hs. induction HF as [|ip s0 t t' [cs [pr1 [E1 E2]]] Ht IHF]; [destruct Hs|]. destruct Hs as [<-|Hs].
          - exists ip, cs, pr1; simpl; auto.
          - destruct (IHF Hs) as [ip' [cs' [pr2 [K1 K2]]]]; exists ip', cs', pr2; simpl; auto. }
        destruct HX as [ip [cs [pr1 [Hip [-> Hcs]]]]].
        assert (Hperm : Permutation (snd ip) ch).
        { destruct ip as [kk m]; unfold enum in Hip; apply in_combine_r in Hip; apply perms_n_In in Hip; auto. }
        assert (Hall : forall c', In c' cs -> exists c, In c ch /\ deep_copy (order_fmt (fst ip)) c = Ok c').
        { intros c' Hc'. assert (HY : exists c, In c (snd ip) /\ deep_copy (order_fmt (fst ip)) c = Ok c').
          { clear - Hcs Hc'. induction Hcs as [|x y t t' Hx Ht IHF]; [destruct Hc'|]. destruct Hc' as [<-|Hc']; [exists x; simpl; auto|].
            destruct (IHF Hc') as [z [K1 K2]]; exists z; simpl; auto. }
          destruct HY as [c [K1 K2]]. exists c; split; auto. eapply Permutation_in; eauto. }
        assert (Hcne : cs <> []).
        { apply Forall2_len in Hcs. apply Permutation_length in Hperm. destruct ch; [congruence|]. destruct cs; [|congruence]. simpl in *; lia. }
        split; [|split].
        + cbn [dag_fuel]. fold (max_fuel cs).
          assert (Hm : max_fuel cs <= max_fuel ch).
          { apply max_fuel_le. intros c' Hc'. destruct (Hall c' Hc') as [c [Hc Ec]].
            destruct (deep_copy_copied _ _ _ Ec) as [Hcc _]. apply leaf_sum_copied in Hcc. destruct Hcc as [_ ->]. apply max_fuel_In; auto. }
          cbn [dag_fuel] in Hf. fold (max_fuel ch) in Hf. lia.
        + assert (He : forall c', In c' cs -> expandable c').
          { intros c' Hc'. destruct (Hall c' Hc') as [c [Hc Ec]]. eapply copies_expandable; [exact Ec|]. eapply expandable_child; eauto. }
          split.
          * intros x Hx. cbn [preorder] in Hx. destruct Hx as [<-|Hx]; [right; exact Hcne|].
            apply in_flat_map in Hx. destruct Hx as [c' [Hc' Hx]]. apply (proj1 (He c' Hc')); auto.
          * intros ch0 i0 p0 n0 h0 pr0 a0 i1 p1 h1 Hp0 Hl0. cbn [preorder] in Hp0. destruct Hp0 as [E|Hp0]; [discriminate|].
            apply in_flat_map in Hp0. destruct Hp0 as [c' [Hc' Hp0]]. eapply (proj2 (He c' Hc')); eauto.
        + intros x Hx. cbn [preorder] in Hx. destruct Hx as [<-|Hx]; [exact I|].
          apply in_flat_map in Hx. destruct Hx as [c' [Hc' Hx]]. destruct (Hall c' Hc') as [c [Hc Ec]].
          apply (proj2 (deep_copy_copied _ _ _ Ec)); auto. }
    destruct Hsel as [k' [ch' [-> [Hne Hall]]]]. cbn [bind].
    destruct (visit_ok (get_initial_final ordn fuel) ch') with (d := d) as [fls [d1 [-> Hl]]].
    { intros c d0 Hin. destruct (Hall c Hin) as [A1 [A2 A3]]. apply IH; auto. }
    cbn [bind]. destruct fls as [|fl0 t]; [destruct ch'; simpl in *; congruence|].
    destruct k'; eauto.
  Qed.

  (** Walks exist. *)
  Lemma walk_exists s b e l : closed s b e l -> forall n i, e - i <= n -> b <= i < e -> exists w, full_walk s i w.
  Proof.
    intros Hc. induction n as [|n IH]; intros i Hn Hi; [lia|].
    destruct (Hc i Hi) as [sj [E1 [E2 _]]]. destruct sj as [|x sj].
    - exists [i]. constructor; auto.
    - assert (Hx : i < x < e) by (apply E2; simpl; auto). destruct (IH x) as [w Hw]; [lia|lia|].
      exists (i :: w). econstructor; eauto. simpl; auto.
  Qed.

  (** *** Failure *)
  Lemma copied_preorder' R fmt (c : comb P) : forall c', copied R fmt c c' -> forall x, In x (preorder c) ->
    exists x', In x' (preorder c') /\ copied R fmt x x'.
  Proof.
    induction c as [a j p h|k ch j p n h pr IH] using comb_ind'; intros c' Hc x Hx.
    - inversion Hc; subst. destruct Hx as [<-|[]]. eexists; split; [left; reflexivity|auto].
    - inversion Hc as [|? ? ch' ? ? ? ? ? pr' HF]; subst. cbn [preorder] in Hx. destruct Hx as [<-|Hx].
      + eexists; split; [left; reflexivity|auto].
      + assert (HX : exists x', In x' (flat_map preorder ch') /\ copied R fmt x x').
        { clear - IH HF Hx. induction HF as [|y y' t t' Hy Ht IHF]; [destruct Hx|]. inversion IH as [|? ? J1 J2]; subst.
          cbn [flat_map] in *. apply in_app_or in Hx. destruct Hx as [Hx|Hx].
          - destruct (J1 y' Hy x Hx) as [x' [K1 K2]]. exists x'; split; auto. apply in_or_app; auto.
          - destruct (IHF J2 Hx) as [x' [K1 K2]]. exists x'; split; auto. apply in_or_app; auto. }
        destruct HX as [x' [K1 K2]]. exists x'; split; auto. right; auto.
  Qed.

  Lemma action_copy_has_copy fmt (a a' : action P) : action_copy fmt a = Ok a' -> has_copy a.
  Proof. unfold action_copy, has_copy. destruct (a_class a); intros E; inversion E; split; congruence. Qed.

  Lemma deep_copy_leaves fmt (c c' : comb P) : deep_copy fmt c = Ok c' ->
    forall a i p h, In (Leaf a i p h) (preorder c) -> has_copy a.
  Proof.
    intros E a i p h Hin. destruct (deep_copy_copied _ _ _ E) as [Hc _].
    destruct (copied_preorder' _ _ _ _ Hc _ Hin) as [x' [_ Hx]]. inversion Hx; subst. eapply action_copy_has_copy; eauto.
  Qed.

  Lemma expandable_uncopy fmt (c c' : comb P) : deep_copy fmt c = Ok c' -> expandable c' -> expandable c.
  Proof.
    intros E [H1 H2]. destruct (deep_copy_copied fmt c c' E) as [Hc _]. split.
    - intros x Hx. destruct (copied_preorder' _ _ _ _ Hc x Hx) as [x' [Hx' Hcx]]. destruct (H1 x' Hx') as [[a [i [p [h ->]]]]|Hne].
      + left. inversion Hcx; subst. repeat eexists.
      + inversion Hcx as [|? ? ch' ? ? ? ? ? pr' HF]; subst; [left; repeat eexists|]. right. cbn [children_of] in *.
        apply Forall2_len in HF. destruct ch, ch'; simpl in *; congruence.
    - intros ch i p n h pr a i' p' h' Hpar Hin. eapply (deep_copy_leaves _ _ _ E).
      eapply preorder_trans; [exact Hpar|]. cbn [preorder]. right; exact Hin.
  Qed.

  Lemma visit_inv (rec : comb P -> dag P -> res (list nat * list nat * dag P)) ch :
    forall d fls d', visit_children rec ch d = Ok (fls, d') ->
      length fls = length ch /\ forall c, In c ch -> exists d1 r, rec c d1 = Ok r.
  Proof.
    induction ch as [|c ch IH]; intros d fls d' E; cbn [visit_children] in E.
    - inversion E; split; [auto|intros c []].
    - destruct (rec c d) as [[[f l] d1]|] eqn:E1; [|discriminate]. cbn [bind] in E.
      destruct (visit_children rec ch d1) as [[fls' d2]|] eqn:E2; [|discriminate]. cbn [bind] in E. inversion E; subst.
      destruct (IH _ _ _ E2) as [I1 I2]. split; [cbn [length]; auto|]. intros c0 [<-|Hin]; eauto.
  Qed.

  Lemma expandable_node k (ch : list (comb P)) i p n h pr : ch <> [] -> (forall c, In c ch -> expandable c) ->
    (k = Parallel -> forall a i' p' h', In (Leaf a i' p' h') (flat_map preorder ch) -> has_copy a) ->
    expandable (Node k ch i p n h pr).
  Proof.
    intros Hne Hch Hpar. split.
    - intros x Hx. cbn [preorder] in Hx. destruct Hx as [<-|Hx]; [right; exact Hne|].
      apply in_flat_map in Hx. destruct Hx as [c [Hc Hx]]. apply (proj1 (Hch c Hc)); auto.
    - intros ch0 i0 p0 n0 h0 pr0 a i1 p1 h1 Hp0 Hl0. cbn [preorder] in Hp0. destruct Hp0 as [E|Hp0].
      + inversion E; subst. eapply Hpar; eauto.
      + apply in_flat_map in Hp0. destruct Hp0 as [c [Hc Hp0]]. eapply (proj2 (Hch c Hc)); eauto.
  Qed.

  Lemma gif_inv fuel : forall (c : comb P) d r, get_initial_final ordn fuel c d = Ok r -> expandable c.
  Proof.
    induction fuel as [|fuel IH]; intros c d r E; [discriminate|]. cbn [get_initial_final] in E.
    destruct c as [a i p h|k ch i p n h pr].
    { split; [intros x [<-|[]]; left; repeat eexists|]. intros ch0 i0 p0 n0 h0 pr0 a0 i1 p1 h1 [E0|[]]; discriminate. }
    match type of E with bind ?X _ = _ => set (sel := X) in E end.
    destruct sel as [[k' ch']|e] eqn:Esel; [|discriminate]. cbn [bind] in E.
    destruct (visit_children (get_initial_final ordn fuel) ch' d) as [[fls d1]|e] eqn:Ev; [|discriminate]. cbn [bind] in E.
    destruct (visit_inv _ _ _ _ _ Ev) as [Hl Hc].
    assert (Hne : ch' <> []) by (destruct fls; [discriminate|]; destruct ch'; simpl in *; congruence).
    assert (Hch : forall c, In c ch' -> expandable c) by (intros c Hin; destruct (Hc c Hin) as [d2 [r2 E2]]; eapply IH; eauto).
    clear E Ev Hc Hl. subst sel. destruct k.
    - inversion Esel; subst. apply expandable_node; auto; congruence.
    - inversion Esel; subst. apply expandable_node; auto; congruence.
    - destruct (to_alternative ch n h) as [alt|] eqn:Ea; [|discriminate]. cbn [bind] in Esel.
      destruct (to_alternative_inv _ _ _ _ Ea) as [seqs [pr' [-> HF]]]. inversion Esel; subst k' ch'.
      remember (enum (permutations ch)) as ips eqn:Eips.
      destruct HF as [|ip s t t' [cs [pr1 [-> Hcs]]] HF0]; [congruence|].
      assert (Hs : expandable (Node Sequential cs None None (order_fmt (fst ip) n) false pr1)) by (apply Hch; simpl; auto).
      assert (Hperm : Permutation (snd ip) ch).
      { assert (Hip : In ip (enum (permutations ch))) by (rewrite <- Eips; simpl; auto).
        destruct ip as [kk m]; unfold enum in Hip; apply in_combine_r in Hip; apply perms_n_In in Hip; auto. }
      assert (Hcp : forall c, In c ch -> exists c', In c' cs /\ deep_copy (order_fmt (fst ip)) c = Ok c').
      { intros c Hin. apply Permutation_sym in Hperm. apply (Permutation_in _ Hperm) in Hin.
        clear - Hcs Hin. induction Hcs as [|x y t t' Hx Ht IHF]; [destruct Hin|]. destruct Hin as [<-|Hin]; [exists y; simpl; auto|].
        destruct (IHF Hin) as [z [K1 K2]]; exists z; simpl; auto. }
      apply expandable_node.
      + destruct (proj1 Hs _ (or_introl eq_refl)) as [[a [i' [p' [h' E0]]]]|Hn]; [discriminate|]. cbn [children_of] in Hn.
        apply Forall2_len in Hcs. apply Permutation_length in Hperm. destruct ch; [|congruence]. destruct cs; [congruence|]. simpl in *; lia.
      + intros c Hin. destruct (Hcp c Hin) as [c' [Hc' Ec]]. eapply expandable_uncopy; [exact Ec|]. eapply expandable_child; eauto.
      + intros _ a i' p' h' Hin. apply in_flat_map in Hin. destruct Hin as [c [Hc Hin]]. destruct (Hcp c Hc) as [c' [Hc' Ec]].
        eapply (deep_copy_leaves _ _ _ Ec); eauto.
  Qed.

  (** *** What the leaves of the graph are *)
  Section Leaves.
    Variable Q0 : action P -> Prop.
    Definition all_leaves (c : comb P) : Prop := forall a i p h, In (Leaf a i p h) (preorder c) -> Q0 a.

    Lemma visit_leaves (rec : comb P -> dag P -> res (list nat * list nat * dag P)) :
      (forall c d r, rec c d = Ok r -> all_leaves c -> (forall x, In x (d_nodes d) -> all_leaves x) ->
         forall x, In x (d_nodes (snd r)) -> all_leaves x) ->
      forall ch d fls d', visit_children rec ch d = Ok (fls, d') -> (forall c, In c ch -> all_leaves c) ->
        (forall x, In x (d_nodes d) -> all_leaves x) -> forall x, In x (d_nodes d') -> all_leaves x.
    Proof.
      intros Hrec. induction ch as [|c ch IH]; intros d fls d' E Hch Hd; cbn [visit_children] in E.
      - inversion E; subst; auto.
      - destruct (rec c d) as [[[f l] d1]|] eqn:E1; [|discriminate]. cbn [bind] in E.
        destruct (visit_children rec ch d1) as [[fls' d2]|] eqn:E2; [|discriminate]. cbn [bind] in E. inversion E; subst.
        eapply IH; [exact E2|intros; apply Hch; simpl; auto|].
        apply (Hrec c d (f, l, d1)); auto. apply Hch; simpl; auto.
    Qed.

    Lemma gif_leaves fuel :
      (forall i a a', action_copy (order_fmt i) a = Ok a' -> Q0 a -> Q0 a') ->
      forall c d r, get_initial_final ordn fuel c d = Ok r ->
        (all_leaves c \/ (exists ch i p n h pr, c = Node Parallel ch i p n h pr) /\
           forall i a a', (exists i p h, In (Leaf a i p h) (preorder c)) -> action_copy (order_fmt i) a = Ok a' -> Q0 a') ->
        (forall x, In x (d_nodes d) -> all_leaves x) -> forall x, In x (d_nodes (snd r)) -> all_leaves x.
    Proof.
      intros Hcopy. induction fuel as [|fuel IH]; intros c d r E Hc Hd; [discriminate|].
      cbn [get_initial_final] in E. destruct c as [a i p h|k ch i p n h pr].
      - destruct Hc as [Hc|[[? [? [? [? [? [? E0]]]]]] _]]; [|discriminate].
        cbn [push] in E. inversion E; subst. cbn [snd d_nodes]. intros x Hx. apply in_app_or in Hx.
        destruct Hx as [Hx|[<-|[]]]; auto.
      - match type of E with bind ?X _ = _ => set (sel := X) in E end.
        destruct sel as [[k' ch']|e] eqn:Esel; [|discriminate]. cbn [bind] in E.
        destruct (visit_children (get_initial_final ordn fuel) ch' d) as [[fls d1]|e] eqn:Ev; [|discriminate]. cbn [bind] in E.
        destruct fls as [|fl0 t]; [discriminate|].
        assert (Hn : d_nodes (snd r) = d_nodes d1) by (destruct k'; inversion E; reflexivity). rewrite Hn.
        eapply visit_leaves; [|exact Ev| |exact Hd].
        { intros c0 d0 r0 E0 H0 Hd0. eapply IH; eauto. }
        subst sel. destruct k.
        + destruct Hc as [Hc|[[? [? [? [? [? [? E0]]]]]] _]]; [|discriminate]. inversion Esel; subst.
          intros c Hin a0 i0 p0 h0 Hx. apply (Hc a0 i0 p0 h0). cbn [preorder]. right. apply in_flat_map; eauto.
        + destruct Hc as [Hc|[[? [? [? [? [? [? E0]]]]]] _]]; [|discriminate]. inversion Esel; subst.
          intros c Hin a0 i0 p0 h0 Hx. apply (Hc a0 i0 p0 h0). cbn [preorder]. right. apply in_flat_map; eauto.
        + assert (Hc' : forall i a a', (exists i p h, In (Leaf a i p h) (flat_map preorder ch)) -> action_copy (order_fmt i) a = Ok a' -> Q0 a').
          { destruct Hc as [Hc|[_ Hc]]; intros i0 a0 a1 [i1 [p1 [h1 Hin]]] Ea.
            - eapply Hcopy; [exact Ea|]. apply (Hc a0 i1 p1 h1). cbn [preorder]. right; exact Hin.
            - eapply Hc; [|exact Ea]. exists i1, p1, h1. cbn [preorder]. right; exact Hin. }
          destruct (to_alternative ch n h) as [alt|] eqn:Ea; [|discriminate]. cbn [bind] in Esel.
          destruct (to_alternative_inv _ _ _ _ Ea) as [seqs [pr' [-> HF]]]. inversion Esel; subst k' ch'.
          assert (Hips : forall ip, In ip (enum (permutations ch)) -> Permutation (snd ip) ch).
          { intros [kk m] Hip; unfold enum in Hip; apply in_combine_r in Hip; apply perms_n_In in Hip; auto. }
          clear - HF Hc' Hips. intros s Hs. induction HF as [|ip s0 t t' [cs [pr1 [-> Hcs]]] HF IHF]; [destruct Hs|].
          destruct Hs as [<-|Hs]; [|apply IHF; auto; intros; apply Hips; simpl; auto].
          intros a0 i0 p0 h0 Hx. cbn [preorder] in Hx. destruct Hx as [Hx|Hx]; [discriminate|].
          apply in_flat_map in Hx. destruct Hx as [c' [Hc0 Hx]].
          assert (HY : exists c, In c (snd ip) /\ deep_copy (order_fmt (fst ip)) c = Ok c').
          { clear - Hcs Hc0. induction Hcs as [|x y t t' Hx Ht IHF]; [destruct Hc0|]. destruct Hc0 as [<-|Hc0]; [exists x; simpl; auto|].
            destruct (IHF Hc0) as [z [K1 K2]]; exists z; simpl; auto. }
          destruct HY as [c [K1 K2]]. destruct (deep_copy_copied _ _ _ K2) as [K3 _].
          destruct (copied_preorder _ _ _ _ K3 _ Hx) as [x [Hx1 Hx2]]. inversion Hx2 as [a1 ? i1 p1 h1 Hnm Hcp|]; subst.
          eapply Hc'; [|exact Hcp]. exists i1, p1, h0. apply in_flat_map. exists c; split; auto.
          eapply Permutation_in; [|exact K1]. apply Hips; simpl; auto.
    Qed.
  End Leaves.
End Build.
