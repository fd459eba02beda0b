(** Proofs about hierarchical tasks (C17 to C25). *)
From Verif Require Import PyBase PyBaseFacts HtmModel HtmSpec.
From Coq Require Import Qminmax Lqa Sorted Factorial.

Section Trees.
  Context {P : Type}.

  Lemma comb_ind' (Pr : comb P -> Prop) :
    (forall a i p h, Pr (Leaf a i p h)) ->
    (forall k ch i p n h pr, Forall Pr ch -> Pr (Node k ch i p n h pr)) ->
    forall c, Pr c.
  Proof.
    intros H1 H2; fix IH 1; intros [a i p h|k ch i p n h pr]; [apply H1|apply H2].
    induction ch; constructor; auto.
  Qed.

  Lemma tdict_ind' (Pr : tdict -> Prop) :
    (forall n i p c a ch, match ch with None => True | Some l => Forall Pr l end -> Pr (TDict n i p c a ch)) ->
    forall d, Pr d.
  Proof.
    intros H1; fix IH 1; intros [n i p c a [l|]]; apply H1; auto.
    induction l; constructor; auto.
  Qed.

  Lemma maction_ind' (Pr : maction P -> Prop) :
    (forall a, Pr (MPlain a)) -> (forall n k l, Forall Pr l -> Pr (MMeta n k l)) -> forall m, Pr m.
  Proof.
    intros H1 H2; fix IH 1; intros [a|n k l]; [apply H1|apply H2]. induction l; constructor; auto.
  Qed.

  Lemma preorder_descendants (c : comb P) : preorder c = c :: descendants c.
  Proof. destruct c; reflexivity. Qed.

  Lemma constructed_children (c : comb P) : constructed c -> Forall constructed (children_of c).
  Proof.
    induction 1 as [| k ch i p n h pr c HF HE | c pr Hc IH].
    - constructor.
    - assert (children_of c = ch) as ->; auto.
      unfold mk_comb in HE; destruct k; try (inversion HE; reflexivity).
      destruct (alt_proba (length ch) pr) as [x|]; [|discriminate].
      cbn [bind] in HE. destruct (alt_proba (length ch) None) as [y|]; [|discriminate].
      inversion HE; reflexivity.
    - destruct c as [a i p h|k ch i p n h old]; [exact IH|].
      destruct k; cbn [set_proba]; try exact IH.
      destruct (alt_proba (length ch) pr); exact IH.
  Qed.

  (** *** mapM *)
  Lemma mapM_Forall2 {A B} (f : A -> res B) l l' :
    mapM f l = Ok l' <-> Forall2 (fun x y => f x = Ok y) l l'.
  Proof.
    revert l'; induction l as [|x t IH]; intros l'; cbn [mapM].
    - split; intros H; [inversion H; constructor|inversion H; reflexivity].
    - destruct (f x) as [y|e] eqn:E; cbn [bind].
      + destruct (mapM f t) as [ys|e'] eqn:E'; cbn [bind].
        * split; intros H.
          -- inversion H; subst; constructor; auto. apply IH; auto.
          -- inversion H as [|? y' ? ? Hx Ht]; subst. apply IH in Ht. congruence.
        * split; intros H; [discriminate|].
          inversion H as [|? y' ? ? Hx Ht]; subst. apply IH in Ht; congruence.
      + split; intros H; [discriminate|]. inversion H; congruence.
  Qed.

  Lemma mapM_Err {A B} (f : A -> res B) l e :
    mapM f l = Err e -> exists x, In x l /\ f x = Err e.
  Proof.
    induction l as [|x t IH]; cbn [mapM]; [discriminate|].
    destruct (f x) as [y|e1] eqn:E; cbn [bind].
    - destruct (mapM f t) as [ys|e2] eqn:E'; cbn [bind]; [discriminate|].
      intros H; inversion H; subst. destruct (IH eq_refl) as [z [Hz Hf]]; exists z; simpl; auto.
    - intros H; inversion H; subst; exists x; simpl; auto.
  Qed.

  Lemma mapM_fails {A B} (f : A -> res B) l x e : In x l -> f x = Err e -> exists e', mapM f l = Err e'.
  Proof.
    intros Hin Hf. destruct (mapM f l) as [l'|e'] eqn:E; [|eauto].
    apply mapM_Forall2 in E. exfalso; induction E as [|a b t t' Hab Ht IH]; [destruct Hin|].
    destruct Hin as [->|Hin]; [congruence|auto].
  Qed.

  Lemma Forall2_len {A B} (R : A -> B -> Prop) l l' : Forall2 R l l' -> length l = length l'.
  Proof. induction 1; simpl; auto. Qed.

  (** *** Export *)
  Definition as_dict_list (gen : Z) : list (comb P) -> Z -> list tdict * Z :=
    fix go (l : list (comb P)) (g : Z) : list tdict * Z :=
      match l with
      | [] => ([], g)
      | x :: t => let '(d, g1) := as_dictionary x (Some gen) g in
                  let '(ds, g2) := go t g1 in (d :: ds, g2)
      end.

  Definition zseq (g : Z) (n : nat) : list Z := map (fun k => (g + Z.of_nat k)%Z) (seq 0 n).

  Lemma zseq_S g n : zseq g (S n) = g :: zseq (g + 1) n.
  Proof.
    unfold zseq; cbn [seq map]. f_equal; [lia|]. rewrite <- seq_shift, map_map.
    apply map_ext; intros; lia.
  Qed.

  Lemma zseq_app g a b : zseq g (a + b) = zseq g a ++ zseq (g + Z.of_nat a) b.
  Proof.
    revert g; induction a as [|a IH]; intros g.
    - unfold zseq at 2; simpl. f_equal; lia.
    - cbn [Nat.add]. rewrite !zseq_S, IH; cbn [app]; do 3 f_equal; lia.
  Qed.

  Definition links_ok (d : tdict) : Prop :=
    forall x y, In x (dnodes d) -> In y (d_children x) -> d_parent y = Some (d_id x).

  Lemma as_dictionary_spec (c : comb P) : forall par g,
    let '(d, g') := as_dictionary c par g in
    shows c d /\ d_parent d = par /\ map d_id (dnodes d) = zseq g (length (preorder c)) /\
    g' = (g + Z.of_nat (length (preorder c)))%Z /\ links_ok d.
  Proof.
    induction c as [a i p h|k ch i p n h pr IH] using comb_ind'; intros par g.
    - cbn -[Z.add Z.of_nat]. split; [constructor|]. split; [reflexivity|]. split; [unfold zseq; simpl; f_equal; lia|].
      split; [lia|]. intros x y [<-|[]] [].
    - cbn [as_dictionary]. fold (as_dict_list g).
      assert (Hl : forall g0, let '(ds, g') := as_dict_list g ch g0 in
         Forall2 shows ch ds /\ Forall (fun d => d_parent d = Some g) ds /\
         map d_id (flat_map dnodes ds) = zseq g0 (length (flat_map preorder ch)) /\
         g' = (g0 + Z.of_nat (length (flat_map preorder ch)))%Z /\ Forall links_ok ds).
      { induction IH as [|x t Hx Ht IHt]; intros g0; cbn [as_dict_list].
        - cbn -[Z.add Z.of_nat]; repeat split; try constructor; lia.
        - specialize (Hx (Some g) g0). destruct (as_dictionary x (Some g) g0) as [d g1].
          destruct Hx as (H1 & H2 & H3 & H4 & H5).
          specialize (IHt g1). fold (as_dict_list g). destruct (as_dict_list g t g1) as [ds g2].
          destruct IHt as (I1 & I2 & I3 & I4 & I5).
          cbn [flat_map]. rewrite map_app, !app_length, Nat2Z.inj_add.
          split; [constructor; auto|]. split; [constructor; auto|]. split; [|split; [lia|constructor; auto]].
          rewrite zseq_app, H3, I3, H4; reflexivity. }
      specialize (Hl (g + 1)%Z). destruct (as_dict_list g ch (g + 1)%Z) as [ds g'].
      destruct Hl as (H1 & H2 & H3 & H4 & H5).
      cbn [preorder length dnodes map d_id d_parent].
      split; [constructor; auto|]. split; [reflexivity|]. split; [rewrite zseq_S, H3; reflexivity|].
      split; [lia|]. intros x y Hx Hy. cbn [dnodes] in Hx. destruct Hx as [<-|Hx].
      + cbn [d_children d_id] in *. rewrite Forall_forall in H2; auto.
      + apply in_flat_map in Hx; destruct Hx as [d [Hd Hx]].
        rewrite Forall_forall in H5; apply (H5 d Hd); auto.
  Qed.

  (** *** Probabilities *)
  Lemma fold_Qmin_le l : forall x, (fold_left Qmin l x <= x)%Q /\ forall y, In y l -> (fold_left Qmin l x <= y)%Q.
  Proof.
    induction l as [|z t IH]; intros x; simpl; [split; [apply Qle_refl|tauto]|].
    destruct (IH (Qmin x z)) as [H1 H2]. split.
    - eapply Qle_trans; [exact H1|apply Q.le_min_l].
    - intros y [->|Hy]; auto. eapply Qle_trans; [exact H1|apply Q.le_min_r].
  Qed.
  Lemma fold_Qmin_glb l : forall x b, (b <= x)%Q -> (forall y, In y l -> (b <= y)%Q) -> (b <= fold_left Qmin l x)%Q.
  Proof.
    induction l as [|z t IH]; intros x b Hx Hl; simpl; auto.
    apply IH; [|intros; apply Hl; simpl; auto]. apply Q.min_glb; auto. apply Hl; simpl; auto.
  Qed.
  Lemma fold_Qmax_ge l : forall x, (x <= fold_left Qmax l x)%Q /\ forall y, In y l -> (y <= fold_left Qmax l x)%Q.
  Proof.
    induction l as [|z t IH]; intros x; simpl; [split; [apply Qle_refl|tauto]|].
    destruct (IH (Qmax x z)) as [H1 H2]. split.
    - eapply Qle_trans; [apply Q.le_max_l|exact H1].
    - intros y [->|Hy]; auto. eapply Qle_trans; [apply Q.le_max_r|exact H1].
  Qed.
  Lemma fold_Qmax_lub l : forall x b, (x <= b)%Q -> (forall y, In y l -> (y <= b)%Q) -> (fold_left Qmax l x <= b)%Q.
  Proof.
    induction l as [|z t IH]; intros x b Hx Hl; simpl; auto.
    apply IH; [|intros; apply Hl; simpl; auto]. apply Q.max_lub; auto. apply Hl; simpl; auto.
  Qed.

  Lemma Qltb_false x y : Qltb x y = false <-> (y <= x)%Q.
  Proof. unfold Qltb. rewrite negb_false_iff. apply Qle_bool_iff. Qed.
  Lemma Qltb_true x y : Qltb x y = true <-> (x < y)%Q.
  Proof.
    unfold Qltb. rewrite negb_true_iff. split; intros H.
    - apply Qnot_le_lt; intros Hle; apply Qle_bool_iff in Hle; congruence.
    - destruct (Qle_bool y x) eqn:E; auto. apply Qle_bool_iff in E. exfalso; apply (Qlt_not_le _ _ H E).
  Qed.

  Lemma alt_proba_spec n l : (alt_proba n (Some l) = Ok l /\ valid_proba l) \/
                             (alt_proba n (Some l) = Err EValue /\ ~ valid_proba l).
  Proof.
    unfold alt_proba. destruct l as [|x t]; [right; split; [reflexivity|intros [H _]; congruence]|].
    cbn [q_fold1 bind].
    destruct (Qltb (fold_left Qmin t x) 0) eqn:E1.
    { right; split; auto. intros [_ [Hb _]]. apply Qltb_true in E1.
      apply (Qlt_not_le _ _ E1). apply fold_Qmin_glb; [apply Hb; simpl; auto|intros; apply Hb; simpl; auto]. }
    apply Qltb_false in E1.
    destruct (Qltb 1 (fold_left Qmax t x)) eqn:E2.
    { right; split; auto. intros [_ [Hb _]]. apply Qltb_true in E2.
      apply (Qlt_not_le _ _ E2). apply fold_Qmax_lub; [apply Hb; simpl; auto|intros; apply Hb; simpl; auto]. }
    apply Qltb_false in E2.
    destruct (isclose1 (q_sum (x :: t))) eqn:E3; cbn [negb].
    - left; split; auto. split; [congruence|]. split.
      + intros y Hy. destruct (fold_Qmin_le t x) as [m1 m2], (fold_Qmax_ge t x) as [M1 M2].
        destruct Hy as [<-|Hy]; split; eapply Qle_trans; eauto.
      + apply Qle_bool_iff; exact E3.
    - right; split; auto. intros [_ [_ Hs]]. apply Qle_bool_iff in Hs. unfold isclose1 in E3; congruence.
  Qed.

  Lemma alt_proba_None n : n <> 0 -> alt_proba n None = Ok (repeat (1 # Pos.of_nat n) n).
  Proof. intros H; unfold alt_proba. destruct (Nat.eqb_spec n 0); [contradiction|reflexivity]. Qed.

  (** *** Copies *)
  Definition copy_ok (c : comb P) : Prop :=
    match c with Node Alternative ch _ _ _ _ pr => ch <> [] /\ (forall l, pr = Some l -> valid_proba l) | _ => True end.

  Lemma q_sum_repeat x n : (q_sum (repeat x n) == inject_Z (Z.of_nat n) * x)%Q.
  Proof.
    induction n as [|n IH]; [simpl; ring|]. cbn [repeat q_sum fold_right]. fold (q_sum (repeat x n)).
    rewrite IH. rewrite Nat2Z.inj_succ, <- Z.add_1_r, inject_Z_plus. ring.
  Qed.

  Lemma uniform_valid n : n <> 0 -> valid_proba (repeat (1 # Pos.of_nat n) n).
  Proof.
    intros Hn. split; [destruct n; simpl; congruence|]. split.
    - intros x Hx. apply repeat_spec in Hx; subst. split; unfold Qle; simpl; lia.
    - assert (Hs : (q_sum (repeat (1 # Pos.of_nat n) n) == 1)%Q).
      { rewrite q_sum_repeat. unfold Qeq, Qmult, inject_Z; simpl.
        destruct n as [|n]; [lia|]. rewrite <- Pos.of_nat_succ. lia. }
      rewrite Hs. unfold Qle; simpl; lia.
  Qed.

  Lemma constructed_copy_ok : forall (c : comb P), constructed c -> forall x, In x (preorder c) -> copy_ok x.
  Proof.
    assert (Hroot : forall c : comb P, constructed c -> copy_ok c).
    { intros c0; induction 1 as [| k ch i p n h pr c HF HE | c pr Hc IH]; [exact I| |].
      - destruct k; try (inversion HE; subst; exact I).
        unfold mk_comb in HE. destruct (alt_proba (length ch) pr); [|discriminate]. cbn [bind] in HE.
        destruct ch as [|x t]; [discriminate|]. rewrite alt_proba_None in HE by (simpl; congruence).
        cbn [bind] in HE.
        match type of HE with Ok ?X = Ok c => assert (c = X) as -> by congruence end.
        split; [congruence|]. intros l El.
        match type of El with Some ?X = Some l => assert (l = X) as -> by congruence end.
        apply uniform_valid; simpl; congruence.
      - destruct c as [a i p h|k ch i p n h old]; [exact I|]. destruct k; try exact I.
        cbn [set_proba]. destruct (alt_proba (length ch) pr) as [l'|e] eqn:E; [|exact IH].
        cbn [fst]. destruct IH as [Hne _]; split; auto. intros l El; inversion El; subst l'.
        destruct pr as [l0|].
        + destruct (alt_proba_spec (length ch) l0) as [[E1 V]|[E1 V]]; congruence.
        + rewrite alt_proba_None in E by (destruct ch; simpl; congruence). 
          match type of E with Ok ?X = Ok l => assert (l = X) as -> by congruence end.
          apply uniform_valid; destruct ch; simpl; congruence. }
    intros c;     induction c as [a i p h|k ch i p n h pr IH] using comb_ind'; intros Hc x Hx.
    - destruct Hx as [<-|[]]; exact I.
    - rewrite preorder_descendants in Hx. destruct Hx as [<-|Hx]; [apply Hroot; auto|].
      apply in_flat_map in Hx. destruct Hx as [y [Hy Hx]].
      apply constructed_children in Hc. cbn [children_of] in *.
      rewrite Forall_forall in IH, Hc. eapply IH; eauto.
  Qed.

  Lemma mk_comb_ok k (ch : list (comb P)) i p n h pr :
    (k = Alternative -> ch <> [] /\ forall l, pr = Some l -> valid_proba l) ->
    exists pr', mk_comb k ch i p n h pr = Ok (Node k ch i p n h pr') /\
      (k = Alternative -> pr' = Some (repeat (1 # Pos.of_nat (length ch)) (length ch))) /\
      (k <> Alternative -> pr' = pr).
  Proof.
    intros H. destruct k; try (exists pr; split; [reflexivity|split; intros; congruence]).
    destruct (H eq_refl) as [Hne Hv]. unfold mk_comb.
    assert (Hl : length ch <> 0) by (destruct ch; simpl; congruence).
    assert (Hok : exists x, alt_proba (length ch) pr = Ok x).
    { destruct pr as [l|]; [|rewrite alt_proba_None; eauto].
      destruct (alt_proba_spec (length ch) l) as [[E _]|[_ V]]; [eauto|]. exfalso; apply V, Hv; auto. }
    destruct Hok as [x ->]; cbn [bind]. rewrite alt_proba_None by auto. cbn [bind].
    eexists; split; [reflexivity|]. split; [auto|congruence].
  Qed.

  Lemma deep_copy_ok fmt (c : comb P) :
    (forall x, In x (preorder c) -> copy_ok x) ->
    (forall a i p h, In (Leaf a i p h) (preorder c) -> has_copy a) ->
    exists c', deep_copy fmt c = Ok c' /\ copied copy_action fmt c c'.
  Proof.
    induction c as [a i p h|k ch i p n h pr IH] using comb_ind'; intros Hok Hc.
    - specialize (Hc a i p h (or_introl eq_refl)). destruct Hc as [H1 H2].
      cbn [deep_copy]; unfold action_copy.
      destruct (a_class a) eqn:E; try congruence; cbn [bind]; (eexists; split; [reflexivity|]); constructor; cbn; auto;
        split; intros; try congruence; repeat split; auto.
    - assert (Hch : exists ch', mapM (deep_copy fmt) ch = Ok ch' /\ Forall2 (copied copy_action fmt) ch ch').
      { clear - IH Hok Hc. 
        assert (Hok' : forall x, In x (flat_map preorder ch) -> copy_ok x) by (intros; apply Hok; simpl; auto).
        assert (Hc' : forall a i p h, In (Leaf a i p h) (flat_map preorder ch) -> has_copy a)
          by (intros a0 i0 p0 h0 Hi; apply (Hc a0 i0 p0 h0); simpl; auto).
        clear Hok Hc. induction IH as [|x t Hx Ht IHt].
        - exists []; split; [reflexivity|constructor].
        - destruct IHt as [ch' [E F]].
          { intros y Hy; apply Hok'; cbn [flat_map]; apply in_or_app; auto. }
          { intros a0 i0 p0 h0 Hy; apply (Hc' a0 i0 p0 h0); cbn [flat_map]; apply in_or_app; auto. }
          destruct Hx as [x' [Ex Fx]].
          { intros y Hy; apply Hok'; cbn [flat_map]; apply in_or_app; auto. }
          { intros a0 i0 p0 h0 Hy; apply (Hc' a0 i0 p0 h0); cbn [flat_map]; apply in_or_app; auto. }
          exists (x' :: ch'); cbn [mapM]; rewrite Ex; cbn [bind]; rewrite E; cbn [bind]; split; auto. }
      destruct Hch as [ch' [E F]]. cbn [deep_copy]; rewrite E; cbn [bind].
      assert (Hr := Hok _ (or_introl eq_refl)).
      destruct (mk_comb_ok k ch' None None (fmt n) h pr) as [pr' [Em _]].
      { intros ->. destruct Hr as [Hne Hv]; split; auto. apply Forall2_len in F; destruct ch, ch'; simpl in *; congruence. }
      rewrite Em. eexists; split; [reflexivity|]. constructor; auto.
  Qed.

  Lemma deep_copy_fails fmt (c : comb P) a i p h :
    (forall x, In x (preorder c) -> copy_ok x) ->
    In (Leaf a i p h) (preorder c) -> ~ has_copy a -> deep_copy fmt c = Err EAttr.
  Proof.
    induction c as [a0 i0 p0 h0|k ch i0 p0 n h0 pr IH] using comb_ind'; intros Hok Hin Hn.
    - destruct Hin as [E|[]]; inversion E; subst. cbn [deep_copy]; unfold action_copy.
      destruct (a_class a) eqn:Ec; auto; exfalso; apply Hn; split; congruence.
    - cbn [preorder] in Hin; destruct Hin as [E|Hin]; [discriminate|]. cbn [deep_copy].
      assert (Hm : mapM (deep_copy fmt) ch = Err EAttr).
      { assert (Hok' : forall x, In x (flat_map preorder ch) -> copy_ok x) by (intros; apply Hok; simpl; auto).
        clear Hok. induction IH as [|x t Hx Ht IHt]; [destruct Hin|]. cbn [mapM flat_map] in *.
        assert (Hx' : forall y, In y (preorder x) -> copy_ok y) by (intros; apply Hok', in_or_app; auto).
        assert (Ht' : forall y, In y (flat_map preorder t) -> copy_ok y) by (intros; apply Hok', in_or_app; auto).
        apply in_app_or in Hin; destruct Hin as [Hin|Hin].
        - rewrite Hx; auto.
        - destruct (deep_copy fmt x) as [x'|e] eqn:E; cbn [bind].
          + rewrite IHt; auto.
          + (* the only error is AttributeError *)
            assert (e = EAttr); [|subst; auto].
            clear - E Hx'. revert e E. induction x as [a i p h|k ch i p n h pr IH] using comb_ind'; intros e E.
            * cbn [deep_copy] in E; unfold action_copy in E; destruct (a_class a); cbn [bind] in E; congruence.
            * cbn [deep_copy] in E. destruct (mapM (deep_copy fmt) ch) as [ch'|e1] eqn:Em; cbn [bind] in E.
              -- destruct (mk_comb_ok k ch' None None (fmt n) h pr) as [pr' [Ek _]]; [|congruence].
                 intros ->. destruct (Hx' _ (or_introl eq_refl)) as [Hne Hv]; split; auto.
                 apply mapM_Forall2, Forall2_len in Em; destruct ch, ch'; simpl in *; congruence.
              -- inversion E; subst. apply mapM_Err in Em. destruct Em as [y [Hy Ey]].
                 rewrite Forall_forall in IH. apply (IH y Hy); auto.
                 intros z Hz; apply Hx'; cbn [preorder]; right; apply in_flat_map; eauto. }
      rewrite Hm; reflexivity.
  Qed.

  Lemma copied_mono (R R' : action P -> action P -> Prop) fmt (c c' : comb P) :
    (forall a i p h a', In (Leaf a i p h) (preorder c) -> R a a' -> R' a a') ->
    copied R fmt c c' -> copied R' fmt c c'.
  Proof.
    revert c'; induction c as [a i p h|k ch i p n h pr IH] using comb_ind'; intros c' HR Hc.
    - inversion Hc; subst; constructor; auto. eapply HR; [left; reflexivity|auto].
    - inversion Hc as [|? ? ch' ? ? ? ? ? ? HF]; subst; constructor.
      assert (HR' : forall a i p h a', In (Leaf a i p h) (flat_map preorder ch) -> R a a' -> R' a a').
      { intros a0 i0 p0 h0 a' Hin; apply (HR a0 i0 p0 h0 a'); cbn [preorder]; right; auto. }
      clear - IH HF HR'. induction HF as [|x x' t t' Hx Ht IHF]; constructor.
      + inversion IH as [|? ? Hx0 Ht0]; subst. apply Hx0; auto. intros a0 i0 p0 h0 a' Hin.
        apply (HR' a0 i0 p0 h0 a'); cbn [flat_map]; apply in_or_app; auto.
      + inversion IH as [|? ? Hx0 Ht0]; subst. apply IHF; auto. intros a0 i0 p0 h0 a' Hin.
        apply (HR' a0 i0 p0 h0 a'); cbn [flat_map]; apply in_or_app; auto.
  Qed.

  (** *** Permutations *)
  Lemma selects_In {A} (l : list A) x r : In (x, r) (selects l) <-> exists a b, l = a ++ x :: b /\ r = a ++ b.
  Proof.
    revert x r; induction l as [|y t IH]; intros x r; cbn [selects].
    - split; [intros []|intros [a [b [E _]]]; destruct a; discriminate].
    - split.
      + intros [E|Hin]; [inversion E; subst; exists [], r; auto|].
        apply in_map_iff in Hin. destruct Hin as [[x' r'] [E Hin]]. inversion E; subst; cbn [fst snd] in *.
        apply IH in Hin. destruct Hin as [a [b [E1 E2]]]; subst. exists (y :: a), b; auto.
      + intros [[|z a] [b [E1 E2]]]; cbn [app] in *; inversion E1; subst; [left; reflexivity|].
        right. apply in_map_iff. exists (x, a ++ b). split; auto. apply IH; eauto.
  Qed.

  Lemma selects_length {A} (l : list A) : length (selects l) = length l.
  Proof. induction l as [|x t IH]; cbn [selects length]; auto. rewrite map_length, IH; auto. Qed.

  Lemma perms_n_In {A} n : forall (l p : list A), length l = n -> (In p (perms_n n l) <-> Permutation p l).
  Proof.
    induction n as [|n IH]; intros l p Hl; cbn [perms_n].
    - destruct l; [|discriminate]. split.
      + intros [<-|[]]; auto.
      + intros Hp; apply Permutation_sym, Permutation_nil in Hp; subst; simpl; auto.
    - rewrite in_flat_map. split.
      + intros [[x r] [Hs Hp]]. apply selects_In in Hs. destruct Hs as [a [b [E1 E2]]]; subst.
        cbn [fst snd] in Hp. apply in_map_iff in Hp. destruct Hp as [q [Eq Hq]]; subst.
        apply IH in Hq; [|rewrite app_length in *; simpl in *; lia].
        apply Permutation_cons_app; auto.
      + intros Hp. destruct p as [|x q].
        { apply Permutation_nil in Hp; subst; discriminate. }
        assert (Hin : In x l) by (eapply Permutation_in; [exact Hp|simpl; auto]).
        apply in_split in Hin. destruct Hin as [a [b ->]].
        exists (x, a ++ b); split; [apply selects_In; eauto|]. cbn [fst snd].
        apply in_map, IH; [rewrite app_length in *; simpl in *; lia|].
        eapply Permutation_cons_app_inv; eauto.
  Qed.

  Lemma perms_n_length {A} n : forall (l : list A), length l = n -> length (perms_n n l) = fact n.
  Proof.
    induction n as [|n IH]; intros l Hl; cbn [perms_n]; [reflexivity|].
    assert (Hall : forall xr, In xr (selects l) -> length (map (cons (fst xr)) (perms_n n (snd xr))) = fact n).
    { intros [x r] Hin; rewrite map_length; apply IH. apply selects_In in Hin.
      destruct Hin as [a [b [E1 E2]]]; subst; cbn [snd]. rewrite app_length in *; simpl in *; lia. }
    pose proof (selects_length l) as Hs. rewrite Hl in Hs.
    change (fact (S n)) with (S n * fact n). rewrite <- Hs. clear Hs Hl.
    induction (selects l) as [|y t IHt]; [reflexivity|]. cbn [flat_map length Nat.mul].
    rewrite app_length, Hall by (left; auto). rewrite IHt; auto. intros; apply Hall; right; auto.
  Qed.

  Lemma selects_map {A B} (f : A -> B) l :
    selects (map f l) = map (fun xr => (f (fst xr), map f (snd xr))) (selects l).
  Proof.
    induction l as [|x t IH]; cbn [selects map]; auto. f_equal. rewrite IH, !map_map. reflexivity.
  Qed.
  Lemma perms_n_map {A B} (f : A -> B) n : forall l, perms_n n (map f l) = map (map f) (perms_n n l).
  Proof.
    induction n as [|n IH]; intros l; cbn [perms_n]; auto.
    rewrite selects_map. induction (selects l) as [|y t IHt]; [reflexivity|].
    cbn [map flat_map]. rewrite map_app, IHt; cbn [fst snd]. rewrite IH, !map_map. reflexivity.
  Qed.

  Lemma StronglySorted_app {A} (R : A -> A -> Prop) l1 l2 :
    StronglySorted R l1 -> StronglySorted R l2 -> (forall x y, In x l1 -> In y l2 -> R x y) ->
    StronglySorted R (l1 ++ l2).
  Proof.
    induction 1 as [|x t Ht IH HF]; intros H2 Hc; cbn [app]; auto. constructor.
    - apply IH; auto. intros; apply Hc; simpl; auto.
    - rewrite Forall_forall in *. intros y Hy; apply in_app_or in Hy; destruct Hy; auto. apply Hc; simpl; auto.
  Qed.

  Lemma perms_n_sorted n : forall l, length l = n -> StronglySorted lt l -> StronglySorted lex_lt (perms_n n l).
  Proof.
    induction n as [|n IH]; intros l Hl Hs; cbn [perms_n]; [repeat constructor|].
    assert (Hsel : StronglySorted (fun a b => fst a < fst b) (selects l) /\
                   (forall x r, In (x, r) (selects l) -> StronglySorted lt r /\ length r = n)).
    { split.
      - clear - Hs. induction Hs as [|x t Ht IH HF]; cbn [selects]; [constructor|]. constructor.
        + clear - IH. induction IH as [|y s Hs IHs HF]; cbn [map]; constructor; auto.
          rewrite Forall_forall in *. intros z Hz; apply in_map_iff in Hz; destruct Hz as [w [<- Hw]]; cbn; auto.
        + rewrite Forall_forall in *. intros z Hz; apply in_map_iff in Hz; destruct Hz as [[w r] [<- Hw]]; cbn [fst].
          apply HF. apply selects_In in Hw. destruct Hw as [a [b [-> _]]]. apply in_or_app; simpl; auto.
      - intros x r Hin. apply selects_In in Hin. destruct Hin as [a [b [-> ->]]].
        rewrite app_length in *; cbn [length] in *. split; [|lia]. clear - Hs.
        induction a as [|y a IHa]; cbn [app] in *.
        + inversion Hs; auto.
        + inversion Hs as [|? ? Ht HF]; subst. constructor; auto.
          rewrite Forall_forall in *. intros z Hz; apply HF. apply in_app_or in Hz; apply in_or_app; simpl; tauto. }
    destruct Hsel as [H1 H2].
    induction H1 as [|[x r] t Ht IHt HF]; cbn [flat_map]; [constructor|].
    apply StronglySorted_app.
    - cbn [fst snd]. destruct (H2 x r (or_introl eq_refl)) as [Hr Hlr]. specialize (IH r Hlr Hr).
      clear - IH. induction IH as [|p s Hs IHs HF]; cbn [map]; constructor; auto.
      rewrite Forall_forall in *. intros q Hq; apply in_map_iff in Hq; destruct Hq as [w [<- Hw]].
      apply lex_tail; auto.
    - apply IHt. intros x0 r0 Hx0; apply (H2 x0); right; auto.
    - intros p q Hp Hq. cbn [fst snd] in Hp. apply in_map_iff in Hp. destruct Hp as [p' [<- Hp]].
      apply in_flat_map in Hq. destruct Hq as [[y r'] [Hy Hq]]. cbn [fst snd] in Hq.
      apply in_map_iff in Hq. destruct Hq as [q' [<- Hq]].
      rewrite Forall_forall in HF. apply lex_head. apply (HF _ Hy).
  Qed.

  Lemma map_nth_seq {A} (l : list A) d : map (fun i => nth i l d) (seq 0 (length l)) = l.
  Proof.
    induction l as [|x t IH]; cbn [length seq map]; auto. f_equal; auto.
    rewrite <- seq_shift, map_map. exact IH.
  Qed.

  Lemma seq_sorted a n : StronglySorted lt (seq a n).
  Proof.
    revert a; induction n as [|n IH]; intros a; cbn [seq]; constructor; auto.
    apply Forall_forall; intros x Hx; apply in_seq in Hx; lia.
  Qed.

  (** The permutations of a list, through the permutations of its positions. *)
  Lemma permutations_positions {A} (l : list A) :
    let orders := permutations (seq 0 (length l)) in
    Forall2 (fun o p => Forall2 (fun k x => nth_error l k = Some x) o p) orders (permutations l).
  Proof.
    unfold permutations. rewrite seq_length. destruct l as [|d t]; [repeat constructor|].
    remember (d :: t) as l eqn:El.
    assert (Hl : perms_n (length l) l = map (map (fun i => nth i l d)) (perms_n (length l) (seq 0 (length l)))).
    { rewrite <- perms_n_map, map_nth_seq; reflexivity. }
    rewrite Hl. clear Hl.
    assert (Hin : forall o, In o (perms_n (length l) (seq 0 (length l))) -> forall k, In k o -> k < length l).
    { intros o Ho k Hk. apply perms_n_In in Ho; [|apply seq_length].
      eapply Permutation_in in Ho; [|exact Hk]. apply in_seq in Ho; lia. }
    induction (perms_n (length l) (seq 0 (length l))) as [|o os IH]; constructor.
    - assert (Ho : forall k, In k o -> k < length l) by (apply Hin; left; auto).
      clear - Ho. induction o as [|k o IHo]; constructor.
      + apply nth_error_nth'; apply Ho; simpl; auto.
      + apply IHo; intros; apply Ho; simpl; auto.
    - apply IH. intros o' Ho'; apply Hin; right; auto.
  Qed.

  (** *** to_alternative *)
  Lemma mapM_total {A B} (f : A -> res B) l : (forall x, In x l -> exists y, f x = Ok y) -> exists l', mapM f l = Ok l'.
  Proof.
    induction l as [|x t IH]; intros H; [exists []; reflexivity|].
    destruct (H x (or_introl eq_refl)) as [y Hy]. destruct IH as [ys Hys]; [intros; apply H; right; auto|].
    exists (y :: ys); cbn [mapM]; rewrite Hy; cbn [bind]; rewrite Hys; reflexivity.
  Qed.

  Lemma mapM_nth {A B} (f : A -> res B) l l' : mapM f l = Ok l' ->
    length l' = length l /\ forall i y, nth_error l' i = Some y -> exists x, nth_error l i = Some x /\ f x = Ok y.
  Proof.
    intros E; apply mapM_Forall2 in E. split; [apply Forall2_len in E; auto|].
    induction E as [|x y t t' Hx Ht IH]; intros i z Hz; destruct i; cbn [nth_error] in *; try discriminate.
    - inversion Hz; subst; eauto.
    - auto.
  Qed.

  Lemma enum_nth {A} (l : list A) i x : nth_error l i = Some x -> nth_error (enum l) i = Some (i, x).
  Proof.
    unfold enum. intros Hi.
    assert (H : forall (l : list A) s i x, nth_error l i = Some x -> nth_error (combine (seq s (length l)) l) i = Some (s + i, x)).
    { clear. induction l as [|y t IH]; intros s i x Hi; destruct i; cbn [nth_error] in Hi; try discriminate.
      - inversion Hi; subst; cbn; do 2 f_equal; lia.
      - cbn [length seq combine nth_error]. rewrite (IH (S s) i x Hi); do 2 f_equal; lia. }
    apply (H l 0); auto.
  Qed.
  Lemma enum_length {A} (l : list A) : length (enum l) = length l.
  Proof. unfold enum. rewrite combine_length, seq_length; lia. Qed.

  Lemma to_alternative_ok (ch : list (comb P)) name hl :
    (forall c x, In c ch -> In x (preorder c) -> copy_ok x) ->
    (forall c a i p h, In c ch -> In (Leaf a i p h) (preorder c) -> has_copy a) ->
    exists seqs, to_alternative ch name hl =
      Ok (Node Alternative seqs None None name hl (Some (repeat (1 # Pos.of_nat (length seqs)) (length seqs)))) /\
      length seqs = fact (length ch) /\
      forall i s, nth_error seqs i = Some s ->
        exists o cs, nth_error (permutations (seq 0 (length ch))) i = Some o /\
          s = Node Sequential cs None None (name ++ " order-" ++ str_nat i)%string false None /\
          Forall2 (fun k c => exists c0, nth_error ch k = Some c0 /\
                     copied copy_action (fun n => n ++ " order-" ++ str_nat i)%string c0 c) o cs.
  Proof.
    intros Hok Hc. unfold to_alternative.
    set (f := fun ip : nat * list (comb P) =>
                do c <- mapM (deep_copy (order_fmt (fst ip))) (snd ip);
                mk_comb Sequential c None None (order_fmt (fst ip) name) false None).
    assert (Hcopy : forall fmt c, In c ch -> exists c', deep_copy fmt c = Ok c' /\ copied copy_action fmt c c').
    { intros fmt c Hin; apply deep_copy_ok; eauto. }
    assert (Hperm : forall p, In p (permutations ch) -> forall c, In c p -> In c ch).
    { intros p Hp c Hcp. apply perms_n_In in Hp; auto. eapply Permutation_in; eauto. }
    destruct (mapM_total f (enum (permutations ch))) as [seqs Hs].
    { intros [i p] Hin. assert (Hp : In p (permutations ch)) by (unfold enum in Hin; apply in_combine_r in Hin; auto).
      unfold f; cbn [fst snd].
      destruct (mapM_total (deep_copy (order_fmt i)) p) as [cs Hcs].
      { intros c Hcp. destruct (Hcopy (order_fmt i) c) as [c' [E _]]; eauto. }
      rewrite Hcs; cbn [bind mk_comb]; eauto. }
    rewrite Hs; cbn [bind].
    destruct (mapM_nth _ _ _ Hs) as [Hlen Hnth].
    assert (Hfact : length seqs = fact (length ch)).
    { rewrite Hlen, enum_length. apply perms_n_length; auto. }
    assert (Hne : length seqs <> 0) by (rewrite Hfact; apply fact_neq_0).
    destruct (mk_comb_ok Alternative seqs None None name hl None) as [pr' [Em [Hpr _]]].
    { intros _; split; [destruct seqs; simpl in *; congruence|congruence]. }
    rewrite Em, Hpr by auto. exists seqs; split; [reflexivity|]. split; auto.
    intros i s Hi. destruct (Hnth i s Hi) as [[i' p] [Hip Hf]].
    assert (Hi' : i < length (permutations ch)).
    { rewrite <- enum_length. apply nth_error_Some; congruence. }
    destruct (nth_error (permutations ch) i) as [p'|] eqn:Ep; [|apply nth_error_None in Ep; lia].
    assert (Ee := enum_nth _ _ _ Ep). rewrite Ee in Hip; inversion Hip; subst i' p'; clear Hip Ee.
    unfold f in Hf; cbn [fst snd] in Hf.
    destruct (mapM (deep_copy (order_fmt i)) p) as [cs|e] eqn:Ecs; cbn [bind mk_comb] in Hf; [|discriminate].
    inversion Hf; subst s; clear Hf.
    pose proof (permutations_positions ch) as HP. cbv zeta in HP.
    destruct (nth_error (permutations (seq 0 (length ch))) i) as [o|] eqn:Eo.
    2:{ apply nth_error_None in Eo. apply Forall2_len in HP. lia. }
    exists o, cs. split; [reflexivity|]. split; [reflexivity|].
    assert (Hop : Forall2 (fun k x => nth_error ch k = Some x) o p).
    { clear - HP Ep Eo. revert i Ep Eo. induction HP as [|o' p' os ps H1 H2 IH]; intros i Ep Eo; destruct i; cbn [nth_error] in *; try discriminate.
      - congruence.
      - eauto. }
    apply mapM_Forall2 in Ecs.
    assert (Hpin : forall c, In c p -> In c ch).
    { intros c; apply Hperm. eapply nth_error_In; eauto. }
    clear - Hop Ecs Hcopy Hpin. revert cs Ecs. induction Hop as [|k x o p Hk Ho IH]; intros cs Ecs.
    - inversion Ecs; constructor.
    - inversion Ecs as [|? c ? cs' Hcx Hcs]; subst. constructor.
      + exists x; split; auto. destruct (Hcopy (order_fmt i) x) as [c' [E Hc']]; [apply Hpin; simpl; auto|].
        assert (c' = c) by congruence; subst; auto.
      + apply IH; auto. intros; apply Hpin; simpl; auto.
  Qed.

  Lemma to_alternative_fails (ch : list (comb P)) name hl c a i p h :
    (forall c x, In c ch -> In x (preorder c) -> copy_ok x) ->
    In c ch -> In (Leaf a i p h) (preorder c) -> ~ has_copy a ->
    exists e, to_alternative ch name hl = Err e.
  Proof.
    intros Hok Hin Hl Hn. unfold to_alternative.
    match goal with |- context [mapM ?g ?l] => set (f := g); set (L := l) end.
    assert (H0 : In ch (permutations ch)) by (apply perms_n_In; auto).
    apply In_nth_error in H0. destruct H0 as [k Hk]. apply enum_nth, nth_error_In in Hk.
    destruct (mapM_fails (deep_copy (order_fmt k)) ch c EAttr) as [e' He']; auto.
    { eapply deep_copy_fails; eauto. }
    destruct (mapM_fails f L (k, ch) e') as [e2 He2]; auto.
    { unfold f; cbn [fst snd]; rewrite He'; reflexivity. }
    rewrite He2; cbn [bind]; eauto.
  Qed.

  (** *** Searches *)
  Fixpoint edges (c : comb P) : list (comb P * comb P) :=
    match c with
    | Leaf _ _ _ _ => []
    | Node _ ch _ _ _ _ _ => flat_map (fun x => (c, x) :: edges x) ch
    end.

  Lemma edges_snd (c : comb P) : map snd (edges c) = descendants c.
  Proof.
    induction c as [a i p h|k ch i p n h pr IH] using comb_ind'; [reflexivity|].
    unfold descendants; cbn [edges children_of].
    generalize (Node k ch i p n h pr) as root; intros root.
    induction IH as [|x t Hx Ht IHt]; [reflexivity|]. cbn [flat_map]. cbn [app map snd].
    rewrite map_app, Hx, IHt, preorder_descendants. reflexivity.
  Qed.

  Lemma edges_child (r p c : comb P) : In (p, c) (edges r) <-> In p (preorder r) /\ In c (children_of p).
  Proof.
    induction r as [a i q h|k ch i q n h pr IH] using comb_ind'.
    - split; [intros []|]. intros [[<-|[]] []].
    - cbn [edges preorder]. set (root := Node k ch i q n h pr).
      assert (Hch : children_of root = ch) by reflexivity.
      split.
      + intros Hin. apply in_flat_map in Hin. destruct Hin as [x [Hx [E|Hin]]].
        * inversion E; subst p c. split; [left; auto|rewrite Hch; auto].
        * rewrite Forall_forall in IH. apply (IH x Hx) in Hin. destruct Hin as [H1 H2].
          split; auto. right. apply in_flat_map; eauto.
      + intros [[<-|Hp] Hc].
        * rewrite Hch in Hc. apply in_flat_map. exists c; split; auto. left; auto.
        * apply in_flat_map in Hp. destruct Hp as [x [Hx Hp]]. apply in_flat_map. exists x; split; auto.
          right. rewrite Forall_forall in IH. apply (IH x Hx); auto.
  Qed.

  Lemma opt_z_eqb_spec x y : opt_z_eqb x y = true <-> x = y.
  Proof. unfold opt_z_eqb. destruct (eq_dec x y); split; congruence. Qed.

  Lemma find_app {A} (f : A -> bool) l1 l2 :
    find f (l1 ++ l2) = match find f l1 with Some x => Some x | None => find f l2 end.
  Proof. induction l1 as [|x t IH]; cbn [app find]; auto. destruct (f x); auto. Qed.

  Lemma find_parent_edges (r : comb P) idx :
    find_parent_node r idx = option_map fst (find (fun e => opt_z_eqb idx (c_idx (snd e))) (edges r)).
  Proof.
    induction r as [a i p h|k ch i p n h pr IH] using comb_ind'; [reflexivity|].
    cbn [find_parent_node edges]. generalize (Node k ch i p n h pr) as root; intros root.
    induction IH as [|x t Hx Ht IHt]; [reflexivity|]. cbn [flat_map app find].
    rewrite find_app. cbn [snd].
    destruct (opt_z_eqb idx (c_idx x)); [reflexivity|]. rewrite Hx.
    destruct (find _ (edges x)) as [e|]; cbn [option_map]; [reflexivity|exact IHt].
  Qed.

  Lemma find_first {A} (f : A -> bool) l x : find f l = Some x <-> first_such (fun y => f y = true) l x.
  Proof.
    unfold first_such. revert x; induction l as [|y t IH]; intros x; cbn [find].
    - split; [discriminate|]. intros [[|b bs] [a [E _]]]; discriminate.
    - destruct (f y) eqn:Ey.
      + split.
        * intros H; inversion H; subst. exists [], t. split; [reflexivity|]. split; [auto|intros z []].
        * intros [[|b bs] [a [E [Hx Hb]]]]; cbn [app] in E; inversion E; subst; auto.
          exfalso; apply (Hb b); simpl; auto.
      + rewrite IH. split.
        * intros [bs [a [E [Hx Hb]]]]. exists (y :: bs), a. subst. split; [reflexivity|]. split; auto.
          intros z [<-|Hz]; [congruence|auto].
        * intros [[|b bs] [a [E [Hx Hb]]]]; cbn [app] in E; inversion E; subst; [congruence|].
          exists bs, a. split; auto. split; auto. intros; apply Hb; simpl; auto.
  Qed.

  Lemma find_by_name_spec lower (r : comb P) name :
    find_node_by_name lower r name = find (fun c => contains name (lower (c_name c))) (descendants r).
  Proof.
    induction r as [a i p h|k ch i p n h pr IH] using comb_ind'; [reflexivity|].
    unfold descendants; cbn [find_node_by_name children_of].
    induction IH as [|x t Hx Ht IHt]; [reflexivity|].
    cbn [flat_map]. rewrite preorder_descendants, Hx. cbn [app find].
    destruct (contains name (lower (c_name x))); [reflexivity|]. rewrite find_app.
    destruct (find _ (descendants x)); auto.
  Qed.

  Lemma prefix_spec a s : String.prefix a s = true <-> exists b, s = (a ++ b)%string.
  Proof.
    revert s; induction a as [|x a IH]; intros s; cbn [String.prefix String.append].
    - destruct s; split; eauto.
    - destruct s as [|y s].
      + split; [discriminate|intros [b E]; discriminate].
      + cbn [String.prefix]. destruct (ascii_dec x y) as [->|Hn].
        * rewrite IH. split; intros [b E]; exists b; congruence.
        * split; [discriminate|intros [b E]; congruence].
  Qed.

  Lemma contains_spec name s : contains name s = true <-> substring_of name s.
  Proof.
    unfold substring_of. induction s as [|x s IH]; cbn [contains]; rewrite orb_true_iff, prefix_spec.
    - split.
      + intros [[b E]|E]; [exists ""%string, b; auto|discriminate].
      + intros [a [b E]]. left. exists b. destruct a; [exact E|discriminate].
    - rewrite IH. split.
      + intros [[b E]|[a [b E]]]; [exists ""%string, b; auto|]. exists (String x a), b; cbn; congruence.
      + intros [[|y a] [b E]]; [left; exists b; auto|]. right. exists a, b. cbn in E; congruence.
  Qed.

  Definition human_after (i : Z) (c : comb P) : bool :=
    match c_idx c with Some j => (Z.ltb i j && is_human_leaf c)%bool | None => false end.

  Lemma find_next_human_spec (r : comb P) i :
    (forall c, In c (descendants r) -> c_idx c <> None) ->
    find_next_human_action r i = Ok (find (human_after i) (descendants r)).
  Proof.
    induction r as [a j p h|k ch j p n h pr IH] using comb_ind'; intros Hid; [reflexivity|].
    unfold descendants in *; cbn [find_next_human_action children_of] in *.
    induction IH as [|x t Hx Ht IHt]; [reflexivity|].
    cbn [flat_map] in *. rewrite preorder_descendants in *. cbn [app find] in *.
    unfold human_after at 1. destruct (c_idx x) as [ix|] eqn:Ex.
    2:{ exfalso; apply (Hid x); simpl; auto. }
    destruct (Z.ltb i ix && is_human_leaf x)%bool; [reflexivity|].
    rewrite Hx by (intros c Hc; apply Hid; right; apply in_or_app; auto).
    cbn [bind]. rewrite find_app. fold (descendants x).
    destruct (find (human_after i) (descendants x)); [reflexivity|].
    apply IHt. intros c Hc; apply Hid; right; apply in_or_app; auto.
  Qed.

  (** *** JSON *)
  Lemma combination_class_name k : combination_class (kind_name k) = Some k.
  Proof. destruct k; reflexivity. Qed.
  Lemma combination_class_inv s k : combination_class s = Some k -> s = kind_name k.
  Proof.
    unfold combination_class; cbn [lookup].
    repeat (match goal with |- context [eq_dec s ?x] => destruct (eq_dec s x) as [->|] end; [intros H; inversion H; reflexivity|]).
    discriminate.
  Qed.

  Lemma mk_comb_None k (ch : list (comb P)) i p n h :
    (k = Alternative -> ch <> []) -> exists pr, mk_comb k ch i p n h None = Ok (Node k ch i p n h pr).
  Proof.
    intros H. destruct (mk_comb_ok k ch i p n h None) as [pr [E _]]; eauto.
    intros Hk; split; auto; congruence.
  Qed.

  Lemma mk_comb_inv k (ch : list (comb P)) i p n h pr c : mk_comb k ch i p n h pr = Ok c ->
    (exists pr', c = Node k ch i p n h pr') /\ (k = Alternative -> ch <> []).
  Proof.
    intros E. destruct k; try (inversion E; subst; split; [eauto|congruence]).
    unfold mk_comb in E. destruct (alt_proba (length ch) pr); [|discriminate]. cbn [bind] in E.
    destruct ch as [|x t]; [discriminate|]. rewrite alt_proba_None in E by (simpl; congruence).
    cbn [bind] in E. inversion E. split; [eauto|congruence].
  Qed.

  Lemma build_htm_loads d : forall c, build_htm d = Ok c -> loads (P := P) d c.
  Proof.
    induction d as [n i p cb attrs ch IH] using tdict_ind'; intros c E. cbn [build_htm] in E.
    destruct attrs as [|a0 at0].
    - destruct ch as [l|]; [|discriminate]. destruct (mapM build_htm l) as [chs|e] eqn:Em; [|discriminate].
      cbn [bind] in E. destruct cb as [s|]; [|discriminate].
      destruct (combination_class s) as [k|] eqn:Ek; [|discriminate].
      apply combination_class_inv in Ek; subst s. apply mk_comb_inv in E. destruct E as [[pr ->] Hne].
      apply mapM_Forall2 in Em. constructor.
      + intros Hk. apply Forall2_len in Em. specialize (Hne Hk). destruct l, chs; simpl in *; congruence.
      + clear - IH Em. induction Em as [|x y t t' Hx Ht IHm]; constructor; inversion IH; subst; auto.
    - destruct (filter _ (a0 :: at0)) as [|ag rest] eqn:Ef; [discriminate|]. inversion E; subst.
      econstructor; exact Ef.
  Qed.

  Lemma loads_build_htm d : forall c, loads (P := P) d c -> exists c' : comb P, build_htm d = Ok c'.
  Proof.
    induction d as [n i p cb attrs ch IH] using tdict_ind'; intros c E.
    inversion E as [? ? ? ? ? ? ag rest Hf|? ? ? k l chs pr Hne HF]; subst.
    - cbn [build_htm]. destruct attrs as [|a0 at0]; [discriminate|]. rewrite Hf; eauto.
    - cbn [build_htm].
      destruct (mapM_total (build_htm (P := P)) l) as [chs' Em].
      { intros x Hx. rewrite Forall_forall in IH. clear - IH HF Hx.
        induction HF as [|y z t t' Hy Ht IHF]; [destruct Hx|]. destruct Hx as [->|Hx].
        - apply (IH x) with z; simpl; auto.
        - apply IHF; auto. intros; eapply IH; simpl; eauto. }
      rewrite Em; cbn [bind]. rewrite combination_class_name.
      destruct (mk_comb_None k chs' (Some i) p n false) as [pr' ->]; [|eauto].
      intros Hk. apply mapM_Forall2, Forall2_len in Em. specialize (Hne Hk). destruct l; [congruence|]. destruct chs'; [discriminate|congruence].
  Qed.

  (** A tree shown by a dictionary that loads has no leaf and no highlighting. *)
  Lemma shows_loads (c : comb P) : forall d c', shows c d -> loads (P := P) d c' ->
    same_tree c c' /\ forall x, In x (preorder c) -> ~ is_leaf x /\ c_hl x = false.
  Proof.
    induction c as [a i p h|k ch i p n h pr IH] using comb_ind'; intros d c' Hs Hl.
    - exfalso. inversion Hs; subst. inversion Hl as [? ? ? ? ? ? ag rest Hf|]; subst. destruct h; discriminate.
    - inversion Hs as [|? ? ? ? ? ? ? ? ? ds HF]; subst.
      destruct h.
      { exfalso; inversion Hl as [? ? ? ? ? ? ag rest Hf|]; subst. discriminate. }
      inversion Hl as [? ? ? ? ? ? ag rest Hf|? ? ? k' l chs pr' Hne HL]; subst; [discriminate|].
      assert (k' = k) by (destruct k, k'; cbn in *; congruence). subst k'.
      assert (HC : Forall2 same_tree ch chs /\ forall x, In x (flat_map preorder ch) -> ~ is_leaf x /\ c_hl x = false).
      { clear - IH HF HL. revert chs HL. induction HF as [|x d t ds Hx Ht IHF]; intros chs HL.
        - inversion HL; subst; split; [constructor|intros x []].
        - inversion HL as [|? c ? cs Hd Hds]; subst. inversion IH as [|? ? Hx' Ht']; subst.
          destruct (Hx' d c Hx Hd) as [S1 S2]. destruct (IHF Ht' cs Hds) as [T1 T2].
          split; [constructor; auto|]. cbn [flat_map]. intros y Hy; apply in_app_or in Hy; destruct Hy; auto. }
      destruct HC as [HC1 HC2]. split; [constructor; auto|].
      cbn [preorder]. intros x [<-|Hx]; auto. split; [intros [a0 [i0 [p0 [h0 E]]]]; discriminate|reflexivity].
  Qed.

  Lemma shows_can_load (c : comb P) : forall d, shows c d ->
    (forall x, In x (preorder c) -> copy_ok x /\ ~ is_leaf x /\ c_hl x = false) ->
    exists c', loads (P := P) d c' /\ same_tree c c'.
  Proof.
    induction c as [a i p h|k ch i p n h pr IH] using comb_ind'; intros d Hs Hall.
    - exfalso. destruct (Hall _ (or_introl eq_refl)) as [_ [Hl _]]. apply Hl. repeat eexists.
    - inversion Hs as [|? ? ? ? ? ? ? ? ? ds HF]; subst.
      destruct (Hall _ (or_introl eq_refl)) as [Hok [_ Hhl]]. cbn [c_hl] in Hhl; subst h.
      assert (HC : exists chs, Forall2 loads ds chs /\ Forall2 same_tree ch chs).
      { assert (Hall' : forall x, In x (flat_map preorder ch) -> copy_ok x /\ ~ is_leaf x /\ c_hl x = false)
          by (intros; apply Hall; cbn [preorder]; right; auto).
        clear - IH HF Hall'. induction HF as [|x d t ds Hx Ht IHF]; [exists []; split; constructor|].
        inversion IH as [|? ? Hx' Ht']; subst. cbn [flat_map] in Hall'.
        destruct (Hx' d Hx) as [c1 [L1 S1]]; [intros; apply Hall', in_or_app; auto|].
        destruct IHF as [cs [L2 S2]]; auto; [intros; apply Hall', in_or_app; auto|].
        exists (c1 :: cs); split; constructor; auto. }
      destruct HC as [chs [L S]]. exists (Node k chs (Some id) par n false None). split.
      + constructor; auto. intros ->. destruct Hok as [Hne _]. apply Forall2_len in HF. destruct ds, ch; simpl in *; congruence.
      + constructor; auto.
  Qed.

  Lemma build_htm_same d (c1 c2 : comb P) : build_htm d = Ok c1 -> loads d c2 -> same_tree c1 c2.
  Proof.
    intros E Hl. apply build_htm_loads in E. revert c1 c2 E Hl.
    induction d as [n i p cb attrs ch IH] using tdict_ind'; intros c1 c2 H1 H2.
    inversion H1 as [? ? ? ? ? ? ag rest Hf|? ? ? k l chs pr Hne HF]; subst.
    - inversion H2 as [? ? ? ? ? ? ag2 rest2 Hf2|]; subst; [|discriminate].
      rewrite Hf in Hf2; inversion Hf2; subst. constructor.
    - inversion H2 as [? ? ? ? ? ? ag2 rest2 Hf2|? ? ? k2 l2 chs2 pr2 Hne2 HF2]; subst; [discriminate|].
      assert (k2 = k) by (destruct k, k2; cbn in *; congruence). subst k2. constructor.
      clear - IH HF HF2. revert chs2 HF2. induction HF as [|x y t t' Hx Ht IHF]; intros chs2 HF2; inversion HF2; subst; constructor;
        inversion IH; subst; auto.
  Qed.

  (** *** Meta-actions *)
  Lemma meta_fails (m : maction P) : meta_built m -> (exists n k l, m = MMeta n k l) -> to_combination m = Err EKey.
  Proof.
    induction m as [a|n k l IH] using maction_ind'; intros Hb [n' [k' [l' E]]]; [discriminate|]. clear n' k' l' E.
    inversion Hb as [|kind l0 m HF Hm]; subst. unfold mk_meta in Hm.
    destruct (getitem kind SEP) as [sep|] eqn:Es; [|discriminate]. cbn [bind] in Hm. inversion Hm; subst; clear Hm.
    assert (Hk : combination_class k = None).
    { unfold getitem, SEP in Es; cbn [lookup] in Es.
      destruct (eq_dec k "sequence"%string) as [->|]; [reflexivity|].
      destruct (eq_dec k "parallel"%string) as [->|]; [reflexivity|].
      destruct (eq_dec k "alternative"%string) as [->|]; [reflexivity|]. discriminate. }
    cbn [to_combination]. destruct (mapM to_combination l) as [ch|e] eqn:Em; cbn [bind]; [rewrite Hk; reflexivity|].
    apply mapM_Err in Em. destruct Em as [x [Hx Ex]]. destruct x as [a|nx kx lx]; [discriminate|].
    rewrite Forall_forall in IH, HF. rewrite <- Ex. apply IH; eauto.
  Qed.

  Lemma meta_expands (m : maction P) :
    (forall n k l, In (MMeta n k l) (m_nodes m) -> exists k', k = kind_name k' /\ (k' = Alternative -> l <> [])) ->
    exists c, to_combination m = Ok c /\ expands m c.
  Proof.
    induction m as [a|n k l IH] using maction_ind'; intros H.
    - eexists; split; [reflexivity|constructor].
    - destruct (H n k l (or_introl eq_refl)) as [k' [-> Hne]].
      assert (HC : exists ch, mapM to_combination l = Ok ch /\ Forall2 expands l ch).
      { assert (H' : forall n k l', In (MMeta n k l') (flat_map m_nodes l) -> exists k', k = kind_name k' /\ (k' = Alternative -> l' <> []))
          by (intros n0 k0 l0 Hin; apply (H n0 k0 l0); cbn [m_nodes]; right; auto).
        clear - IH H'. induction IH as [|x t Hx Ht IHt]; [exists []; split; [reflexivity|constructor]|].
        cbn [flat_map] in H'.
        destruct Hx as [c [E1 X1]]; [intros n0 k0 l0 Hin; apply (H' n0 k0 l0), in_or_app; auto|].
        destruct IHt as [cs [E2 X2]]; [intros n0 k0 l0 Hin; apply (H' n0 k0 l0), in_or_app; auto|].
        exists (c :: cs); cbn [mapM]; rewrite E1; cbn [bind]; rewrite E2; cbn [bind]; split; auto. }
      destruct HC as [ch [E X]]. cbn [to_combination]. rewrite E; cbn [bind]. rewrite combination_class_name.
      destruct (mk_comb_None k' ch None None "unnamed" false) as [pr ->].
      { intros Hk; specialize (Hne Hk). apply Forall2_len in X. destruct l, ch; simpl in *; congruence. }
      eexists; split; [reflexivity|constructor; auto].
  Qed.
End Trees.
