(** Soundness, termination and completeness of get_max_chains. *)
From Verif Require Import PyBase PyBaseFacts GraphModel GraphSpec GraphProofs ChainModel ChainSpec.
From Coq Require Import Relations.

Ltac cb := cbn [c_explore c_explored c_chain c_out].

(** ** Chains, inductively *)
Section ChainFacts.
  Context {N : Type}.
  Variable edge : N -> N -> Prop.

  Lemma is_chain_one x : is_chain edge [x].
  Proof. intros [|i] u v E1 E2; simpl in E2; [discriminate|destruct i; discriminate]. Qed.

  Lemma nth_error_snoc {X} (c : list X) x : nth_error (c ++ [x]) (length c) = Some x.
  Proof. rewrite nth_error_app2, Nat.sub_diag; auto. Qed.

  Lemma is_chain_snoc c x y : is_chain edge (c ++ [x]) -> link edge x y -> is_chain edge ((c ++ [x]) ++ [y]).
  Proof.
    intros Hc Hl i u v E1 E2.
    assert (Hi : S i < length ((c ++ [x]) ++ [y])) by (apply nth_error_Some; congruence).
    rewrite !app_length in Hi; simpl in Hi.
    destruct (Nat.eq_dec i (length c)) as [->|Hne].
    - rewrite nth_error_app1, nth_error_snoc in E1 by (rewrite app_length; simpl; lia).
      rewrite nth_error_app2 in E2 by (rewrite app_length; simpl; lia).
      rewrite app_length in E2; cbn [length] in E2.
      replace (S (length c) - (length c + 1)) with 0 in E2 by lia; simpl in E2; inversion E1; inversion E2; subst; auto.
    - rewrite nth_error_app1 in E1, E2 by (rewrite app_length; simpl; lia).
      eapply Hc; eauto.
  Qed.

  Lemma is_chain_cons x y c : is_chain edge (x :: y :: c) -> link edge x y /\ is_chain edge (y :: c).
  Proof.
    intros Hc; split; [apply (Hc 0); reflexivity|].
    intros i u v E1 E2; apply (Hc (S i)); auto.
  Qed.

  (** Two chains with the same head that cannot be extended to the right are equal. *)
  Lemma right_max_unique : forall c1 c2 h,
    is_chain edge (h :: c1) -> is_chain edge (h :: c2) ->
    (forall u v, nth_error (h :: c1) (length c1) = Some u -> ~ link edge u v) ->
    (forall u v, nth_error (h :: c2) (length c2) = Some u -> ~ link edge u v) -> c1 = c2.
  Proof.
    induction c1 as [|x c1 IH]; intros [|y c2] h H1 H2 R1 R2; auto.
    - apply is_chain_cons in H2; destruct H2 as [H2 _]; exfalso; apply (R1 h y); auto.
    - apply is_chain_cons in H1; destruct H1 as [H1 _]; exfalso; apply (R2 h x); auto.
    - apply is_chain_cons in H1, H2; destruct H1 as [L1 H1], H2 as [L2 H2].
      assert (x = y) as -> by (apply L2, L1).
      f_equal; apply (IH c2 y); auto.
  Qed.
End ChainFacts.

(** ** The loop *)
Section Loop.
  Context {N : Type} `{EN : EqDec N}.
  Variable edge : N -> N -> Prop.
  Variable ut : list (N * list N).
  Variable deg : list (N * nat).
  Variable initial : N.

  Definition node (n : N) : Prop := In n (keys ut).
  Hypothesis Hut : forall n us, lookup n ut = Some us -> NoDup us /\ forall v, In v us <-> edge n v.
  Hypothesis Hnodes : forall u v, edge u v -> node u /\ node v.
  Hypothesis Hdeg : forall u v, edge u v -> exists k, lookup v deg = Some k /\ (k = 1 <-> only_pred edge u v).

  Definition forced (x : N) : Prop := exists y, only_succ edge x y.

  Lemma getitem_ut x : node x -> exists us, getitem x ut = Ok us /\ NoDup us /\ (forall v, In v us <-> edge x v).
  Proof.
    intros Hx; apply lookup_Some_key in Hx; destruct Hx as [us E]; exists us; unfold getitem; rewrite E; split; auto.
  Qed.

  Lemma length_one us x : NoDup us -> (forall v, In v us <-> edge x v) -> (length us = 1 <-> forced x).
  Proof.
    intros Hn Hu; split.
    - destruct us as [|y [|z us]]; simpl; try discriminate; intros _; exists y; split.
      + apply Hu; simpl; auto.
      + intros w Hw; apply Hu in Hw; destruct Hw as [->|[]]; auto.
    - intros [y [Hy Hall]].
      destruct us as [|a [|b us]]; auto.
      + apply Hu in Hy; destruct Hy.
      + assert (a = y) by (apply Hall, Hu; simpl; auto). assert (b = y) by (apply Hall, Hu; simpl; auto).
        subst; inversion Hn as [|? ? Hna _]; subst; exfalso; apply Hna; simpl; auto.
  Qed.

  Lemma forced_dec x : node x -> forced x \/ ~ forced x.
  Proof.
    intros Hx; destruct (getitem_ut x Hx) as [us [_ [Hn Hu]]].
    destruct (Nat.eq_dec (length us) 1) as [E|E]; [left|right]; rewrite <- (length_one us x Hn Hu); auto.
  Qed.

  Definition succs_new (x : N) (te ex te' : list N) : Prop :=
    exists us, (forall v, In v us <-> edge x v) /\ te' = set_union te (set_diff us ex).

  (** The five things a turn can do. *)
  Inductive turn (st : cstate N) : cstate N -> Prop :=
  | TPopChain x : c_chain st = None -> In x (c_explore st) -> forced x ->
      turn st {| c_explore := set_del x (c_explore st); c_explored := set_add x (c_explored st);
                 c_chain := Some [x]; c_out := c_out st |}
  | TPop x te : c_chain st = None -> In x (c_explore st) -> ~ forced x ->
      succs_new x (set_del x (c_explore st)) (set_add x (c_explored st)) te ->
      turn st {| c_explore := te; c_explored := set_add x (c_explored st); c_chain := None; c_out := c_out st |}
  | TExtend c n y : c_chain st = Some (c ++ [n]) -> link edge n y -> forced y ->
      turn st {| c_explore := c_explore st; c_explored := set_add y (c_explored st);
                 c_chain := Some ((c ++ [n]) ++ [y]); c_out := c_out st |}
  | TLast c n y te : c_chain st = Some (c ++ [n]) -> link edge n y -> ~ forced y ->
      succs_new y (c_explore st) (set_add y (c_explored st)) te ->
      turn st {| c_explore := te; c_explored := set_add y (c_explored st);
                 c_chain := None; c_out := c_out st ++ [(c ++ [n]) ++ [y]] |}
  | TStop c n y : c_chain st = Some (c ++ [n]) -> only_succ edge n y -> ~ only_pred edge n y ->
      turn st {| c_explore := set_add y (c_explore st); c_explored := c_explored st;
                 c_chain := None; c_out := if Nat.ltb 1 (length (c ++ [n])) then c_out st ++ [c ++ [n]] else c_out st |}.

  Record base (st : cstate N) : Prop := {
    b_te : forall x, In x (c_explore st) -> node x /\ reach edge initial x;
    b_ex : forall x, In x (c_explored st) -> node x /\ reach edge initial x;
    b_nte : NoDup (c_explore st);
    b_nex : NoDup (c_explored st);
    b_chain : forall c, c_chain st = Some c -> exists c0 n, c = c0 ++ [n] /\ forced n /\ In n (c_explored st)
  }.

  Lemma step_turn pick st : base st -> finished st = false -> exists st', chain_step ut deg pick st = Ok st' /\ turn st st'.
  Proof.
    intros Hb Hf; unfold chain_step.
    destruct (c_chain st) as [c|] eqn:Ec.
    - destruct (b_chain st Hb c Ec) as [c0 [n [-> [Hfn Hn]]]].
      pose proof (proj1 (b_ex st Hb n Hn)) as Hnode.
      rewrite rev_app_distr; simpl rev; cbn [app].
      destruct (getitem_ut n Hnode) as [us [E [Hnd Hus]]]; rewrite E; cbn [bind].
      pose proof (proj2 (length_one us n Hnd Hus) Hfn) as Hl.
      destruct us as [|y [|z us]]; try discriminate.
      assert (Hny : only_succ edge n y).
      { split; [apply Hus; simpl; auto|]. intros w Hw; apply Hus in Hw; destruct Hw as [->|[]]; auto. }
      destruct (Hdeg n y (proj1 Hny)) as [k [Ek Hk]].
      unfold getitem at 1; rewrite Ek; cbn [bind].
      destruct (Nat.eqb_spec k 1) as [Hk1|Hk1].
      + assert (Hlk : link edge n y) by (split; auto; apply Hk; auto).
        assert (Hny' : node y) by (apply (Hnodes n y), Hny).
        destruct (getitem_ut y Hny') as [us' [E' [Hnd' Hus']]]; rewrite E'; cbn [bind].
        destruct (Nat.eqb_spec (length us') 1) as [H1|H1]; simpl negb.
        * eexists; split; [reflexivity|]. apply TExtend; auto. apply (length_one us' y); auto.
        * unfold explore_successors; rewrite E'; cbn [bind]; eexists; split; [reflexivity|].
          rewrite !app_length; simpl length.
          replace (Nat.ltb 1 (length c0 + 1 + 1)) with true by (symmetry; apply Nat.ltb_lt; lia).
          eapply TLast; eauto.
          -- intros Hc; apply H1, (length_one us' y); auto.
          -- exists us'; auto.
      + eexists; split; [reflexivity|]. apply TStop; auto. tauto.
    - unfold finished in Hf; rewrite Ec in Hf.
      destruct (nth_error (c_explore st) (pick mod length (c_explore st))) as [x|] eqn:Ex.
      + apply nth_error_In in Ex.
        destruct (getitem_ut x (proj1 (b_te st Hb x Ex))) as [us [E [Hnd Hus]]]; rewrite E; cbn [bind].
        destruct (Nat.eqb_spec (length us) 1) as [H1|H1].
        * eexists; split; [reflexivity|]. apply TPopChain; auto. apply (length_one us x); auto.
        * unfold explore_successors; rewrite E; cbn [bind]; eexists; split; [reflexivity|].
          apply TPop with (x := x); auto.
          -- intros Hc; apply H1, (length_one us x); auto.
          -- exists us; auto.
      + apply nth_error_None in Ex.
        destruct (c_explore st) as [|a l]; [discriminate|].
        pose proof (Nat.mod_upper_bound pick (length (a :: l))); simpl length in *; lia.
  Qed.

  Lemma reach_step x y : reach edge initial x -> edge x y -> reach edge initial y.
  Proof. intros H1 H2; eapply rt_trans; [exact H1|apply rt_step, H2]. Qed.

  Lemma succs_new_In x te ex te' : succs_new x te ex te' -> forall v, In v te' <-> In v te \/ (edge x v /\ ~ In v ex).
  Proof. intros [us [Hu ->]] v; rewrite set_union_In, set_diff_In, Hu; tauto. Qed.

  Lemma succs_new_NoDup x te ex te' : succs_new x te ex te' -> NoDup te -> NoDup te'.
  Proof. intros [us [_ ->]] Hn; apply set_union_NoDup; auto. Qed.

  Lemma turn_base st st' : base st -> turn st st' -> base st'.
  Proof.
    intros Hb Ht; pose proof (b_te st Hb) as B1; pose proof (b_ex st Hb) as B2.
    pose proof (b_nte st Hb) as B3; pose proof (b_nex st Hb) as B4; pose proof (b_chain st Hb) as B5.
    assert (Hedge : forall x y, node x /\ reach edge initial x -> edge x y -> node y /\ reach edge initial y).
    { intros x y [_ Hr] He; split; [apply (Hnodes x y He)|eapply reach_step; eauto]. }
    destruct Ht as [x E Hx Hf|x te E Hx Hf Hs|c n y E Hl Hf|c n y te E Hl Hf Hs|c n y E Hos Hop].
    - split; cb.
      + intros v Hv; apply set_del_In in Hv; apply B1; tauto.
      + intros v Hv; apply set_add_In in Hv; destruct Hv as [->|Hv]; auto.
      + apply set_del_NoDup; auto.
      + apply set_add_NoDup; auto.
      + intros c Hc; inversion Hc; subst; exists [], x; split; auto; split; auto. apply set_add_In; auto.
    - split; cb.
      + intros v Hv; apply (succs_new_In _ _ _ _ Hs) in Hv; destruct Hv as [Hv|[Hv _]].
        * apply set_del_In in Hv; apply B1; tauto.
        * apply (Hedge x v); auto.
      + intros v Hv; apply set_add_In in Hv; destruct Hv as [->|Hv]; auto.
      + eapply succs_new_NoDup; eauto. apply set_del_NoDup; auto.
      + apply set_add_NoDup; auto.
      + discriminate.
    - destruct (B5 _ E) as [c0 [n0 [En [_ Hn]]]]; apply app_inj_tail in En; destruct En as [<- <-].
      assert (Hy : node y /\ reach edge initial y) by (apply (Hedge n y); [auto|apply Hl]).
      split; cb; auto.
      + intros v Hv; apply set_add_In in Hv; destruct Hv as [->|Hv]; auto.
      + apply set_add_NoDup; auto.
      + intros c1 Hc; inversion Hc; subst; exists (c ++ [n]), y; split; auto; split; auto. apply set_add_In; auto.
    - destruct (B5 _ E) as [c0 [n0 [En [_ Hn]]]]; apply app_inj_tail in En; destruct En as [<- <-].
      assert (Hy : node y /\ reach edge initial y) by (apply (Hedge n y); [auto|apply Hl]).
      split; cb; auto.
      + intros v Hv; apply (succs_new_In _ _ _ _ Hs) in Hv; destruct Hv as [Hv|[Hv _]]; auto.
        apply (Hedge y v); auto.
      + intros v Hv; apply set_add_In in Hv; destruct Hv as [->|Hv]; auto.
      + eapply succs_new_NoDup; eauto.
      + apply set_add_NoDup; auto.
      + discriminate.
    - destruct (B5 _ E) as [c0 [n0 [En [_ Hn]]]]; apply app_inj_tail in En; destruct En as [<- <-].
      split; cb; auto.
      + intros v Hv; apply set_add_In in Hv; destruct Hv as [->|Hv]; auto.
        apply (Hedge n y); [auto|apply Hos].
      + apply set_add_NoDup; auto.
      + discriminate.
  Qed.

  (** *** Soundness *)
  Definition left_ext (x : N) : Prop := exists u, link edge u x.
  Hypothesis Hinit : ~ left_ext initial.

  Record sound (st : cstate N) : Prop := {
    s_te : forall x, In x (c_explore st) -> ~ left_ext x;
    s_chain : forall c, c_chain st = Some c -> is_chain edge c /\ forall h, nth_error c 0 = Some h -> ~ left_ext h;
    s_out : forall c, In c (c_out st) -> maximal_chain edge c
  }.

  Lemma nth_error_0_app {X} (c : list X) x y : nth_error ((c ++ [x]) ++ [y]) 0 = nth_error (c ++ [x]) 0.
  Proof. destruct c; reflexivity. Qed.

  Lemma not_left_ext_of_branch x y : edge x y -> ~ forced x -> ~ left_ext y.
  Proof.
    intros He Hf [u [Hs [_ Hp]]]; assert (x = u) as -> by auto; apply Hf; exists y; auto.
  Qed.

  Lemma not_left_ext_of_multi n y : only_succ edge n y -> ~ only_pred edge n y -> ~ left_ext y.
  Proof.
    intros [He _] Hp [u [_ [Hu Hall]]]; apply Hp. assert (n = u) as -> by auto. split; auto.
  Qed.

  Lemma last_maximal c n y : is_chain edge (c ++ [n]) ->
    (forall h, nth_error (c ++ [n]) 0 = Some h -> ~ left_ext h) -> link edge n y -> ~ forced y ->
    maximal_chain edge ((c ++ [n]) ++ [y]).
  Proof.
    intros Hc Hh Hl Hf; split; [rewrite !app_length; simpl; lia|split; [apply is_chain_snoc; auto|split]].
    - intros u v E; rewrite app_length in E; simpl in E.
      replace (length (c ++ [n]) + 1 - 1) with (length (c ++ [n])) in E by lia.
      rewrite nth_error_snoc in E; inversion E; subst; intros [Hs _]; apply Hf; exists v; auto.
    - intros u v E Hlk; rewrite nth_error_0_app in E; apply (Hh v E); exists u; auto.
  Qed.

  Lemma stop_maximal c n y : is_chain edge (c ++ [n]) ->
    (forall h, nth_error (c ++ [n]) 0 = Some h -> ~ left_ext h) -> only_succ edge n y -> ~ only_pred edge n y ->
    1 < length (c ++ [n]) -> maximal_chain edge (c ++ [n]).
  Proof.
    intros Hc Hh Hs Hp Hlen; split; [lia|split; [auto|split]].
    - intros u v E; rewrite app_length in E; simpl in E.
      replace (length c + 1 - 1) with (length c) in E by lia.
      rewrite nth_error_snoc in E; inversion E; subst; intros [Hs' Hp'].
      assert (v = y) as -> by (apply Hs, Hs'). auto.
    - intros u v E Hlk; apply (Hh v E); exists u; auto.
  Qed.

  Lemma turn_sound st st' : sound st -> turn st st' -> sound st'.
  Proof.
    intros Hs Ht; pose proof (s_te st Hs) as S1; pose proof (s_chain st Hs) as S2; pose proof (s_out st Hs) as S3.
    destruct Ht as [x E Hx Hf|x te E Hx Hf Hn|c n y E Hl Hf|c n y te E Hl Hf Hn|c n y E Hos Hop].
    - split; cb; auto.
      + intros v Hv; apply set_del_In in Hv; apply S1; tauto.
      + intros c Hc; inversion Hc; subst; split; [apply is_chain_one|].
        intros h Hh; simpl in Hh; inversion Hh; subst; auto.
    - split; cb; auto; [|discriminate].
      intros v Hv; apply (succs_new_In _ _ _ _ Hn) in Hv; destruct Hv as [Hv|[Hv _]].
      + apply set_del_In in Hv; apply S1; tauto.
      + apply (not_left_ext_of_branch x); auto.
    - destruct (S2 _ E) as [C1 C2]; split; cb; auto.
      intros c1 Hc; inversion Hc; subst; split; [apply is_chain_snoc; auto|].
      intros h; rewrite nth_error_0_app; auto.
    - destruct (S2 _ E) as [C1 C2]; split; cb; [|discriminate|].
      + intros v Hv; apply (succs_new_In _ _ _ _ Hn) in Hv; destruct Hv as [Hv|[Hv _]]; auto.
        apply (not_left_ext_of_branch y); auto.
      + intros c1 Hc; apply in_app_iff in Hc; destruct Hc as [Hc|[<-|[]]]; auto.
        apply last_maximal; auto.
    - destruct (S2 _ E) as [C1 C2]; split; cb; [|discriminate|].
      + intros v Hv; apply set_add_In in Hv; destruct Hv as [->|Hv]; auto.
        apply (not_left_ext_of_multi n); auto.
      + destruct (Nat.ltb_spec 1 (length (c ++ [n]))) as [Hlen|Hlen]; auto.
        intros c1 Hc; apply in_app_iff in Hc; destruct Hc as [Hc|[<-|[]]]; auto.
        eapply stop_maximal; eauto.
  Qed.

  (** *** Completeness *)
  Definition chain_last (st : cstate N) (x : N) : Prop := exists c, c_chain st = Some (c ++ [x]).
  Definition chain_head (st : cstate N) (x : N) : Prop := exists c, c_chain st = Some (x :: c).

  Record complete (st : cstate N) : Prop := {
    k_init : In initial (c_explore st) \/ In initial (c_explored st);
    k_succ : forall x y, In x (c_explored st) -> edge x y ->
             In y (c_explored st) \/ In y (c_explore st) \/ chain_last st x;
    k_head : forall x, In x (c_explored st) -> forced x ->
             left_ext x \/ chain_head st x \/
             (forall c, maximal_chain edge c -> nth_error c 0 = Some x -> In c (c_out st))
  }.

  Lemma maximal_is c h c' : maximal_chain edge c -> nth_error c 0 = Some h ->
    is_chain edge (h :: c') -> (forall u v, nth_error (h :: c') (length c') = Some u -> ~ link edge u v) -> c = h :: c'.
  Proof.
    intros [Hl [Hc [Hr _]]] Hh H1 H2; destruct c as [|h0 c0]; [discriminate|].
    simpl in Hh; inversion Hh; subst h0; f_equal.
    eapply right_max_unique; eauto.
    intros u v E; apply Hr; simpl; rewrite Nat.sub_0_r; auto.
  Qed.

  Lemma turn_complete st st' : base st -> sound st -> complete st -> turn st st' -> complete st'.
  Proof.
    intros Hb Hs Hk Ht; pose proof (k_init st Hk) as K1; pose proof (k_succ st Hk) as K2; pose proof (k_head st Hk) as K3.
    pose proof (b_chain st Hb) as B5; pose proof (s_chain st Hs) as S2.
    destruct Ht as [x E Hx Hf|x te E Hx Hf Hn|c n y E Hl Hf|c n y te E Hl Hf Hn|c n y E Hos Hop].
    - assert (Nl : forall z, ~ chain_last st z) by (intros z [c Hc]; congruence).
      assert (Nh : forall z, ~ chain_head st z) by (intros z [c Hc]; congruence).
      split; cb.
      + destruct (eq_dec initial x) as [->|Hne]; [right; apply set_add_In; auto|].
        destruct K1 as [K1|K1]; [left; apply set_del_In; auto|right; apply set_add_In; auto].
      + intros a b Ha Hab; destruct (eq_dec a x) as [->|Hne].
        * right; right; exists []; reflexivity.
        * apply set_add_In in Ha; destruct Ha as [->|Ha]; [congruence|].
          destruct (K2 a b Ha Hab) as [X|[X|X]]; [| |exfalso; eapply Nl; eauto].
          -- left; apply set_add_In; auto.
          -- destruct (eq_dec b x) as [->|Hne2]; [left; apply set_add_In; auto|].
             right; left; apply set_del_In; auto.
      + intros a Ha Hfa; destruct (eq_dec a x) as [->|Hne].
        * right; left; exists []; reflexivity.
        * apply set_add_In in Ha; destruct Ha as [->|Ha]; [congruence|].
          destruct (K3 a Ha Hfa) as [X|[X|X]]; [auto|exfalso; eapply Nh; eauto|auto].
    - assert (Nl : forall z, ~ chain_last st z) by (intros z [c Hc]; congruence).
      assert (Nh : forall z, ~ chain_head st z) by (intros z [c Hc]; congruence).
      pose proof (succs_new_In _ _ _ _ Hn) as Hte.
      split; cb.
      + destruct (eq_dec initial x) as [->|Hne]; [right; apply set_add_In; auto|].
        destruct K1 as [K1|K1]; [left; apply Hte; left; apply set_del_In; auto|right; apply set_add_In; auto].
      + intros a b Ha Hab; destruct (eq_dec a x) as [->|Hne].
        * destruct (in_dec eq_dec b (set_add x (c_explored st))) as [X|X]; [auto|].
          right; left; apply Hte; auto.
        * apply set_add_In in Ha; destruct Ha as [->|Ha]; [congruence|].
          destruct (K2 a b Ha Hab) as [X|[X|X]]; [| |exfalso; eapply Nl; eauto].
          -- left; apply set_add_In; auto.
          -- destruct (eq_dec b x) as [->|Hne2]; [left; apply set_add_In; auto|].
             right; left; apply Hte; left; apply set_del_In; auto.
      + intros a Ha Hfa; destruct (eq_dec a x) as [->|Hne]; [tauto|].
        apply set_add_In in Ha; destruct Ha as [->|Ha]; [congruence|].
        destruct (K3 a Ha Hfa) as [X|[X|X]]; [auto|exfalso; eapply Nh; eauto|auto].
    - split; cb.
      + destruct K1 as [K1|K1]; [auto|right; apply set_add_In; auto].
      + intros a b Ha Hab; destruct (eq_dec a y) as [->|Hne]; [right; right; exists (c ++ [n]); reflexivity|].
        apply set_add_In in Ha; destruct Ha as [->|Ha]; [congruence|].
        destruct (K2 a b Ha Hab) as [X|[X|[c1 X]]]; [left; apply set_add_In; auto|auto|].
        rewrite E in X; inversion X as [X1]; apply app_inj_tail in X1; destruct X1 as [_ <-].
        left; apply set_add_In; left; apply Hl, Hab.
      + intros a Ha Hfa; destruct (eq_dec a y) as [->|Hne]; [left; exists n; auto|].
        apply set_add_In in Ha; destruct Ha as [->|Ha]; [congruence|].
        destruct (K3 a Ha Hfa) as [X|[[c1 X]|X]]; [auto| |auto].
        right; left; rewrite E in X; inversion X as [X1]; rewrite X1; exists (c1 ++ [y]); reflexivity.
    - pose proof (succs_new_In _ _ _ _ Hn) as Hte.
      split; cb.
      + destruct K1 as [K1|K1]; [left; apply Hte; auto|right; apply set_add_In; auto].
      + intros a b Ha Hab; destruct (eq_dec a y) as [->|Hne].
        * destruct (in_dec eq_dec b (set_add y (c_explored st))) as [X|X]; [auto|].
          right; left; apply Hte; auto.
        * apply set_add_In in Ha; destruct Ha as [->|Ha]; [congruence|].
          destruct (K2 a b Ha Hab) as [X|[X|[c1 X]]]; [left; apply set_add_In; auto|right; left; apply Hte; auto|].
          rewrite E in X; inversion X as [X1]; apply app_inj_tail in X1; destruct X1 as [_ <-].
          left; apply set_add_In; left; apply Hl, Hab.
      + intros a Ha Hfa; destruct (eq_dec a y) as [->|Hne]; [tauto|].
        apply set_add_In in Ha; destruct Ha as [->|Ha]; [congruence|].
        destruct (K3 a Ha Hfa) as [X|[[c1 X]|X]]; [auto| |right; right; intros; apply in_app_iff; auto].
        right; right; intros c2 Hm Hh; apply in_app_iff; right; left.
        rewrite E in X; inversion X as [X1]; rewrite X1 in *.
        destruct (S2 _ E) as [C1 C2].
        symmetry; apply (maximal_is c2 a (c1 ++ [y])); auto.
        * change (a :: c1 ++ [y]) with ((a :: c1) ++ [y]); rewrite <- X1; apply is_chain_snoc; [rewrite X1; auto|auto].
        * intros u v Eu; change (a :: c1 ++ [y]) with ((a :: c1) ++ [y]) in Eu.
          rewrite app_length in Eu; simpl length in Eu; replace (length c1 + 1) with (length (a :: c1)) in Eu by (simpl; lia).
          rewrite nth_error_snoc in Eu; inversion Eu; subst; intros [Hos _]; apply Hf; exists v; auto.
    - split; cb.
      + destruct K1 as [K1|K1]; [left; apply set_add_In; auto|auto].
      + intros a b Ha Hab.
        destruct (K2 a b Ha Hab) as [X|[X|[c1 X]]]; [auto|right; left; apply set_add_In; auto|].
        rewrite E in X; inversion X as [X1]; apply app_inj_tail in X1; destruct X1 as [_ <-].
        right; left; apply set_add_In; left; apply Hos, Hab.
      + intros a Ha Hfa.
        destruct (K3 a Ha Hfa) as [X|[[c1 X]|X]]; [auto| |].
        * right; right; intros c2 Hm Hh.
          rewrite E in X; inversion X as [X1].
          destruct (S2 _ E) as [C1 C2].
          assert (Heq : c2 = a :: c1).
          { apply (maximal_is c2 a c1); auto; [rewrite <- X1; auto|].
            intros u v Eu; rewrite <- X1 in Eu.
            assert (Hlc : length c1 = length c).
            { apply (f_equal (@length N)) in X1; rewrite app_length in X1; simpl in X1; lia. }
            rewrite Hlc, nth_error_snoc in Eu; inversion Eu; subst; intros [Hs' Hp'].
            assert (v = y) as -> by (apply Hos, Hs'). auto. }
          rewrite X1; rewrite Heq in Hm.
          replace (Nat.ltb 1 (length (a :: c1))) with true by (symmetry; apply Nat.ltb_lt; destruct Hm; lia).
          apply in_app_iff; right; left; auto.
        * right; right; intros c2 Hm Hh; specialize (X c2 Hm Hh).
          destruct (Nat.ltb 1 (length (c ++ [n]))); auto. apply in_app_iff; auto.
  Qed.

  (** *** No duplicates, when no chain head follows a forced node *)
  Definition is_head (h : N) : Prop := exists c, maximal_chain edge c /\ nth_error c 0 = Some h.
  Definition out_heads (st : cstate N) : list (option N) := map (fun c => nth_error c 0) (c_out st).

  Record once (st : cstate N) : Prop := {
    o_nd : NoDup (out_heads st);
    o_out : forall h, In (Some h) (out_heads st) -> In h (c_explored st) /\ ~ In h (c_explore st);
    o_chain : forall h, chain_head st h -> is_head h -> In h (c_explored st) /\ ~ In h (c_explore st) /\ ~ In (Some h) (out_heads st)
  }.

  Definition no_forced_head : Prop := forall n y, only_succ edge n y -> ~ is_head y.

  Lemma out_head_is st h : sound st -> In (Some h) (out_heads st) -> is_head h.
  Proof.
    intros Hs Hin; apply in_map_iff in Hin; destruct Hin as [c [E Hc]]; exists c; split; auto.
    apply (s_out st Hs c Hc).
  Qed.

  Lemma turn_once st st' : no_forced_head -> base st -> sound st -> once st -> turn st st' -> once st'.
  Proof.
    intros Hno Hb Hs Ho Ht; pose proof (turn_sound st st' Hs Ht) as Hs'.
    pose proof (o_nd st Ho) as O1; pose proof (o_out st Ho) as O2; pose proof (o_chain st Ho) as O3.
    pose proof (b_chain st Hb) as B5; pose proof (s_chain st Hs) as S2.
    destruct Ht as [x E Hx Hf|x te E Hx Hf Hn|c n y E Hl Hf|c n y te E Hl Hf Hn|c n y E Hos Hop].
    - split; cb; auto.
      + intros h Hh; destruct (O2 h Hh); split; [apply set_add_In; auto|rewrite set_del_In; tauto].
      + intros h [c Hc] Hd; inversion Hc; subst; split; [apply set_add_In; auto|split; [rewrite set_del_In; tauto|]].
        intros Hin; apply O2 in Hin; tauto.
    - pose proof (succs_new_In _ _ _ _ Hn) as Hte.
      split; cb; auto.
      + intros h Hh; destruct (O2 h Hh) as [P1 P2]; split; [apply set_add_In; auto|].
        rewrite Hte, set_del_In, set_add_In; tauto.
      + intros h [c Hc]; discriminate.
    - split; cb; auto.
      + intros h Hh; destruct (O2 h Hh); split; [apply set_add_In; auto|auto].
      + intros h [c1 Hc] Hd.
        assert (Hch : chain_head st h).
        { destruct c as [|a c]; simpl in Hc; inversion Hc; subst; [exists []|exists (c ++ [n])]; auto. }
        destruct (O3 h Hch Hd) as [P1 [P2 P3]]; split; [apply set_add_In; auto|auto].
    - pose proof (succs_new_In _ _ _ _ Hn) as Hte.
      assert (Hhead : exists h, nth_error ((c ++ [n]) ++ [y]) 0 = Some h /\ chain_head st h).
      { destruct c as [|a c]; [exists n|exists a]; split; auto; [exists []|exists (c ++ [n])]; auto. }
      destruct Hhead as [h [Eh Hch]].
      assert (Hm : maximal_chain edge ((c ++ [n]) ++ [y])).
      { apply (s_out _ Hs'); cb; apply in_app_iff; simpl; auto. }
      destruct (O3 h Hch) as [P1 [P2 P3]]; [exists ((c ++ [n]) ++ [y]); auto|].
      split; cb; unfold out_heads; cb; try rewrite map_app; cbn [map]; try rewrite Eh.
      + apply NoDup_snoc; auto.
      + intros h' Hh; apply in_app_iff in Hh.
        assert (Hh' : In h' (c_explored st) /\ ~ In h' (c_explore st)).
        { destruct Hh as [Hh|[Hh|[]]]; [auto|inversion Hh; subst; auto]. }
        destruct Hh' as [Q1 Q2]; split; [apply set_add_In; auto|]. rewrite Hte, set_add_In; tauto.
      + intros h' [c1 Hc]; discriminate.
    - assert (Hhead : exists h, nth_error (c ++ [n]) 0 = Some h /\ chain_head st h).
      { destruct c as [|a c]; [exists n|exists a]; split; auto; [exists []|exists (c ++ [n])]; auto. }
      destruct Hhead as [h [Eh Hch]].
      assert (Hy : ~ is_head y) by (apply (Hno n y); auto).
      assert (O2' : forall h, In (Some h) (out_heads st) -> In h (c_explored st) /\ ~ In h (set_add y (c_explore st))).
      { intros h' Hh; destruct (O2 h' Hh) as [P1 P2]; split; auto. rewrite set_add_In; intros [->|X]; [|auto].
        apply Hy, (out_head_is st); auto. }
      destruct (Nat.ltb_spec 1 (length (c ++ [n]))) as [Hlen|Hlen].
      + assert (Hm : maximal_chain edge (c ++ [n])).
        { apply (s_out _ Hs'); cb. replace (Nat.ltb 1 (length (c ++ [n]))) with true by (symmetry; apply Nat.ltb_lt; auto).
          apply in_app_iff; simpl; auto. }
        destruct (O3 h Hch) as [P1 [P2 P3]]; [exists (c ++ [n]); auto|].
        split; cb; unfold out_heads; cb; try rewrite map_app; cbn [map]; try rewrite Eh.
        * apply NoDup_snoc; auto.
        * intros h' Hh; apply in_app_iff in Hh; destruct Hh as [Hh|[Hh|[]]]; [auto|inversion Hh; subst h'].
          split; auto. rewrite set_add_In; intros [->|X]; [|auto]. apply Hy; exists (c ++ [n]); auto.
        * intros h' [c1 Hc]; discriminate.
      + split; cb; auto. intros h' [c1 Hc]; discriminate.
  Qed.

  (** *** Termination *)
  Variable rank : N -> nat.
  Variable R : nat.
  Hypothesis Hrank : forall x y, reach edge initial x -> only_succ edge x y -> rank y < rank x.
  Hypothesis HR : forall x, rank x <= R.
  Hypothesis Hkeys : NoDup (keys ut).

  Definition wsum (l : list N) : nat := fold_right (fun x a => (2 * rank x + 3) + a) 0 l.
  Definition wchain (c : option (list N)) : nat :=
    match c with Some c => match rev c with n :: _ => 2 * rank n + 2 | [] => 0 end | None => 0 end.
  Definition unseen (st : cstate N) : nat := length (set_diff (keys ut) (c_explored st)).
  Definition weight (st : cstate N) : nat := wsum (c_explore st) + wchain (c_chain st).
  Definition bnd : nat := length (keys ut) * (2 * R + 3) + (2 * R + 2).
  Definition measure (st : cstate N) : nat := unseen st * (bnd + 1) + weight st.

  Lemma wsum_app a b : wsum (a ++ b) = wsum a + wsum b.
  Proof. induction a as [|x a IH]; [reflexivity|]. unfold wsum in *; cbn [app fold_right]; rewrite IH; lia. Qed.

  Lemma wsum_le l : wsum l <= length l * (2 * R + 3).
  Proof.
    induction l as [|x l IH]; simpl; auto. pose proof (HR x). unfold wsum in *; simpl in *; lia.
  Qed.

  Lemma wchain_le c : wchain c <= 2 * R + 2.
  Proof.
    destruct c as [c|]; simpl; [|lia]. destruct (rev c) as [|n l]; [lia|]. pose proof (HR n); lia.
  Qed.

  Lemma weight_le st : base st -> weight st <= bnd.
  Proof.
    intros Hb; unfold weight, bnd. pose proof (wsum_le (c_explore st)). pose proof (wchain_le (c_chain st)).
    assert (length (c_explore st) <= length (keys ut)).
    { apply NoDup_incl_length; [apply Hb|]. intros x Hx; apply (b_te st Hb x Hx). }
    nia.
  Qed.

  Lemma wsum_del x l : NoDup l -> In x l -> wsum l = wsum (set_del x l) + (2 * rank x + 3).
  Proof.
    intros Hn Hx; induction l as [|y l IH]; [destruct Hx|].
    inversion Hn as [|? ? Hy Hn']; subst.
    unfold set_del in *; cbn [filter]. destruct (eq_dec x y) as [<-|Hne]; cbn [negb].
    - assert (Hf : filter (fun y => negb (if eq_dec x y then true else false)) l = l).
      { clear - Hy; induction l as [|z l IH]; simpl; auto.
        destruct (eq_dec x z) as [->|]; simpl; [exfalso; apply Hy; simpl; auto|].
        rewrite IH; auto. intros Hin; apply Hy; simpl; auto. }
      rewrite Hf; unfold wsum; cbn [fold_right]; lia.
    - destruct Hx as [->|Hx]; [congruence|]. specialize (IH Hn' Hx); unfold wsum in *; cbn [fold_right]; rewrite IH; lia.
  Qed.

  Lemma unseen_add st y : In y (keys ut) -> ~ In y (c_explored st) ->
    length (set_diff (keys ut) (set_add y (c_explored st))) < unseen st.
  Proof.
    intros Hy Hn; unfold unseen.
    assert (Hl : length (y :: set_diff (keys ut) (set_add y (c_explored st))) <= length (set_diff (keys ut) (c_explored st))).
    { apply NoDup_incl_length.
      - constructor; [rewrite set_diff_In, set_add_In; tauto|apply set_diff_NoDup; auto].
      - intros v [<-|Hv]; [apply set_diff_In; auto|]. rewrite set_diff_In, set_add_In in Hv; apply set_diff_In; tauto. }
    simpl in Hl; lia.
  Qed.

  Lemma set_add_same y (l : list N) : In y l -> set_add y l = l.
  Proof. intros Hy; unfold set_add; apply mem_In in Hy; rewrite Hy; auto. Qed.

  Lemma set_union_same (b : list N) : forall a, (forall x, In x b -> In x a) -> set_union a b = a.
  Proof.
    unfold set_union; induction b as [|x b IH]; intros a Hb; simpl; auto.
    rewrite set_add_same by (apply Hb; simpl; auto). apply IH; intros; apply Hb; simpl; auto.
  Qed.

  Lemma measure_seen st st' : base st' -> unseen st' < unseen st -> measure st' < measure st.
  Proof. intros Hb Hu; pose proof (weight_le st' Hb); unfold measure; nia. Qed.

  Lemma measure_weight st st' : c_explored st' = c_explored st -> weight st' < weight st -> measure st' < measure st.
  Proof. intros Hu Hw; unfold measure, unseen; rewrite Hu; lia. Qed.

  Lemma turn_measure st st' : base st -> complete st -> turn st st' -> measure st' < measure st.
  Proof.
    intros Hb Hk Ht; pose proof (turn_base st st' Hb Ht) as Hb'.
    pose proof (b_te st Hb) as B1; pose proof (b_ex st Hb) as B2; pose proof (b_nte st Hb) as B3.
    pose proof (b_chain st Hb) as B5; pose proof (k_succ st Hk) as K2.
    destruct Ht as [x E Hx Hf|x te E Hx Hf Hn|c n y E Hl Hf|c n y te E Hl Hf Hn|c n y E Hos Hop].
    - destruct (in_dec eq_dec x (c_explored st)) as [Hin|Hin].
      + apply measure_weight; cb; [apply set_add_same; auto|].
        unfold weight; cb; rewrite E, (wsum_del x (c_explore st)) by auto; simpl; lia.
      + apply measure_seen; auto. unfold unseen at 1; cb; apply unseen_add; auto. apply B1; auto.
    - destruct (in_dec eq_dec x (c_explored st)) as [Hin|Hin].
      + apply measure_weight; cb; [apply set_add_same; auto|].
        destruct Hn as [us [Hus ->]].
        unfold weight; cb; rewrite E; simpl.
        rewrite set_union_same.
        * rewrite (wsum_del x (c_explore st)) by auto; lia.
        * intros v Hv; apply set_diff_In in Hv; destruct Hv as [Hv1 Hv2]; apply Hus in Hv1.
          rewrite set_add_In in Hv2. apply set_del_In; split; [tauto|].
          destruct (K2 x v Hin Hv1) as [X|[X|[c X]]]; [tauto|auto|congruence].
      + apply measure_seen; auto. unfold unseen at 1; cb; apply unseen_add; auto. apply B1; auto.
    - destruct (B5 _ E) as [c0 [n0 [En [_ Hn]]]]; apply app_inj_tail in En; destruct En as [<- <-].
      destruct (in_dec eq_dec y (c_explored st)) as [Hin|Hin].
      + apply measure_weight; cb; [apply set_add_same; auto|].
        unfold weight; cb; rewrite E; cbn [wchain].
        rewrite !rev_app_distr; simpl.
        pose proof (Hrank n y (proj2 (B2 n Hn)) (proj1 Hl)); lia.
      + apply measure_seen; auto. unfold unseen at 1; cb; apply unseen_add; auto. apply (Hnodes n y), Hl.
    - destruct (in_dec eq_dec y (c_explored st)) as [Hin|Hin].
      + apply measure_weight; cb; [apply set_add_same; auto|].
        destruct Hn as [us [Hus ->]].
        unfold weight; cb; rewrite E; cbn [wchain]; rewrite rev_app_distr; simpl.
        rewrite set_union_same; [lia|].
        intros v Hv; apply set_diff_In in Hv; destruct Hv as [Hv1 Hv2]; apply Hus in Hv1.
        rewrite set_add_In in Hv2.
        destruct (K2 y v Hin Hv1) as [X|[X|[c1 X]]]; [tauto|auto|].
        rewrite E in X; inversion X as [X1]; apply app_inj_tail in X1; destruct X1 as [_ <-].
        exfalso; apply Hf; destruct (B5 _ E) as [c0 [n0 [En [Hfn _]]]]; apply app_inj_tail in En; destruct En as [<- <-]; auto.
      + apply measure_seen; auto. unfold unseen at 1; cb; apply unseen_add; auto. apply (Hnodes n y), Hl.
    - destruct (B5 _ E) as [c0 [n0 [En [_ Hn]]]]; apply app_inj_tail in En; destruct En as [<- <-].
      apply measure_weight; cb; auto.
      unfold weight; cb; rewrite E; cbn [wchain]; rewrite rev_app_distr; simpl.
      pose proof (Hrank n y (proj2 (B2 n Hn)) Hos).
      unfold set_add; destruct (mem y (c_explore st)); [lia|]. rewrite wsum_app; unfold wsum; simpl; lia.
  Qed.

  Lemma run_terminates sched : forall fuel k st, base st -> sound st -> complete st -> measure st < fuel ->
    exists st', chain_run ut deg sched fuel k st = (st', SDone) /\ finished st' = true /\
                base st' /\ sound st' /\ complete st'.
  Proof.
    induction fuel as [|fuel IH]; intros k st Hb Hs Hk Hm; [lia|]; cbn [chain_run].
    destruct (finished st) eqn:Ef; [exists st; auto|].
    destruct (step_turn (sched k) st Hb Ef) as [st' [E Ht]]; rewrite E.
    apply IH; [eapply turn_base; eauto|eapply turn_sound; eauto|eapply turn_complete; eauto|].
    pose proof (turn_measure st st' Hb Hk Ht); lia.
  Qed.
End Loop.

(** ** The tables *)
Definition gedge {N L} `{EqDec N} `{EqDec L} (g : graph N L) (u v : N) : Prop := exists l, has_transition g u l v = true.

Section Tables.
  Context {N L : Type} `{EN : EqDec N} `{EL : EqDec L}.
  Variable ordt : list (L * N) -> list (L * N).
  Hypothesis Hordt : is_order ordt.
  Variable g : graph N L.
  Hypothesis Hw : gwf g.

  Definition tab_inv (done : list (N * L * N)) (ui : list (N * list N) * list (N * nat)) : Prop :=
    NoDup (keys (fst ui)) /\
    (forall n, In n (keys (fst ui)) <-> In n (all_nodes ordt g)) /\
    (forall s us, lookup s (fst ui) = Some us -> NoDup us /\ forall d, In d us <-> exists l, In (s, l, d) done) /\
    (forall d, (lookup d (snd ui) = None /\ forall s l, ~ In (s, l, d) done) \/
               exists ps, lookup d (snd ui) = Some (length ps) /\ NoDup ps /\
                          forall s, In s ps <-> exists l, In (s, l, d) done).

  Lemma tab_loop ts : forall done ui, tab_inv done ui ->
    (forall s l d, In (s, l, d) ts -> In s (all_nodes ordt g)) ->
    exists ui', foldM (fun (ui : list (N * list N) * list (N * nat)) (t : N * L * N) =>
             let '(s, l, d) := t in
             do us <- getitem s (fst ui);
             let deg := if mem d us then snd ui
                        else upd d (match lookup d (snd ui) with Some n => n | None => 0 end + 1) (snd ui) in
             Ok (upd s (set_add d us) (fst ui), deg)) ts ui = Ok ui' /\ tab_inv (done ++ ts) ui'.
  Proof.
    induction ts as [|[[s l] d] ts IH]; intros done [ut deg] Hi Hs; cbn [foldM].
    - rewrite app_nil_r; eauto.
    - destruct Hi as [I1 [I2 [I3 I4]]]; simpl fst in *; simpl snd in *.
      assert (Hsn : In s (all_nodes ordt g)) by (apply (Hs s l d); simpl; auto).
      pose proof Hsn as Hsk; apply I2, lookup_Some_key in Hsk; destruct Hsk as [us Es].
      unfold getitem; rewrite Es; cbn [bind].
      destruct (I3 s us Es) as [Hnd Hus].
      match goal with |- exists ui', foldM ?f ts ?u = _ /\ _ => destruct (IH (done ++ [(s, l, d)]) u) as [ui' [E Hi']] end.
      + assert (Hin : forall a b c, In (a, b, c) (done ++ [(s, l, d)]) <-> In (a, b, c) done \/ (a = s /\ b = l /\ c = d)).
        { intros a b c; rewrite in_app_iff; simpl; split.
          - intros [X|[X|[]]]; auto; inversion X; subst; auto.
          - intros [X|[-> [-> ->]]]; auto. }
        split; [|split; [|split]]; simpl fst; simpl snd.
        * apply keys_upd_NoDup; auto.
        * intros n; rewrite keys_upd_In, I2; split; [|auto]. intros [->|X]; auto.
        * intros s' us' E'; destruct (eq_dec s' s) as [->|Hne].
          -- rewrite lookup_upd_same in E'; inversion E'; subst; split; [apply set_add_NoDup; auto|].
             intros d'; rewrite set_add_In, Hus; split.
             ++ intros [->|[l' X]]; [exists l|exists l']; apply Hin; auto.
             ++ intros [l' X]; apply Hin in X; destruct X as [X|[_ [_ ->]]]; eauto.
          -- rewrite lookup_upd_other in E' by auto; destruct (I3 s' us' E') as [P1 P2]; split; auto.
             intros d'; rewrite P2; split; intros [l' X]; exists l'; [apply Hin; auto|].
             apply Hin in X; destruct X as [X|[-> _]]; [auto|congruence].
        * intros d'; destruct (mem d us) eqn:Em.
          -- apply mem_In, Hus in Em; destruct Em as [l0 Hl0].
             destruct (I4 d') as [[P1 P2]|[ps [P1 [P2 P3]]]].
             ++ left; split; auto. intros a b X; apply Hin in X; destruct X as [X|[-> [-> ->]]]; [eapply P2; eauto|].
                eapply P2; eauto.
             ++ right; exists ps; split; auto; split; auto. intros a; rewrite P3; split.
                ** intros [b X]; exists b; apply Hin; auto.
                ** intros [b X]; apply Hin in X; destruct X as [X|[-> [-> ->]]]; eauto.
          -- apply mem_not_In in Em; rewrite Hus in Em.
             destruct (eq_dec d' d) as [->|Hne].
             ++ right; rewrite lookup_upd_same.
                destruct (I4 d) as [[P1 P2]|[ps [P1 [P2 P3]]]].
                ** exists [s]; rewrite P1; split; [reflexivity|]; split; [repeat constructor; simpl; tauto|].
                   intros a; split.
                   --- intros [<-|[]]; exists l; apply Hin; auto.
                   --- intros [b X]; apply Hin in X; destruct X as [X|[-> _]]; [exfalso; eapply P2; eauto|simpl; auto].
                ** exists (s :: ps); rewrite P1; split; [f_equal; simpl; lia|]; split.
                   --- constructor; auto. rewrite P3; auto.
                   --- intros a; simpl; rewrite P3; split.
                       +++ intros [<-|[b X]]; [exists l|exists b]; apply Hin; auto.
                       +++ intros [b X]; apply Hin in X; destruct X as [X|[-> _]]; eauto.
             ++ rewrite lookup_upd_other by auto.
                destruct (I4 d') as [[P1 P2]|[ps [P1 [P2 P3]]]].
                ** left; split; auto. intros a b X; apply Hin in X; destruct X as [X|[_ [_ X]]]; [eapply P2; eauto|congruence].
                ** right; exists ps; split; auto; split; auto. intros a; rewrite P3; split; intros [b X]; exists b.
                   --- apply Hin; auto.
                   --- apply Hin in X; destruct X as [X|[_ [_ X]]]; [auto|congruence].
      + intros s' l' d' X; apply (Hs s' l' d'); simpl; auto.
      + exists ui'; rewrite <- app_assoc in Hi'; split; auto.
  Qed.

  Lemma tables_correct : exists ut deg, chain_tables ordt g = Ok (ut, deg) /\
    NoDup (keys ut) /\
    (forall n, In n (keys ut) <-> exists u v, gedge g u v /\ (n = u \/ n = v)) /\
    (forall n us, lookup n ut = Some us -> NoDup us /\ forall v, In v us <-> gedge g n v) /\
    (forall u v, gedge g u v -> exists k, lookup v deg = Some k /\ (k = 1 <-> only_pred (gedge g) u v)).
  Proof.
    destruct (tab_loop (all_transitions ordt g) [] (map (fun n => (n, @nil N)) (all_nodes ordt g), [])) as [[ut deg] [E Hi]].
    - assert (Ek : keys (map (fun n => (n, @nil N)) (all_nodes ordt g)) = all_nodes ordt g)
        by (unfold keys; rewrite map_map; simpl; apply map_id).
      split; [|split; [|split]]; simpl fst; simpl snd.
      + rewrite Ek; apply all_nodes_NoDup.
      + intros n; rewrite Ek; tauto.
      + intros s us Es; apply lookup_In, in_map_iff in Es; destruct Es as [n [En _]]; inversion En; subst.
        split; [constructor|]. intros d; split; [intros []|intros [l []]].
      + intros d; left; split; auto.
    - intros s l d Hin; apply (all_nodes_In ordt g Hordt (proj1 Hw)).
      apply (all_transitions_In ordt g Hordt (proj1 Hw)) in Hin; eauto 6.
    - exists ut, deg; destruct Hi as [I1 [I2 [I3 I4]]]; simpl fst in *; simpl snd in *.
      assert (Hat : forall s d, (exists l, In (s, l, d) ([] ++ all_transitions ordt g)) <-> gedge g s d).
      { intros s d; simpl; split; intros [l X]; exists l; apply (all_transitions_In ordt g Hordt (proj1 Hw)); auto. }
      split; [auto|split; [auto|split; [|split]]].
      + intros n; rewrite I2, (all_nodes_In ordt g Hordt (proj1 Hw)); split.
        * intros [s [l [d [X Y]]]]; exists s, d; split; auto; exists l; auto.
        * intros [s [d [[l X] Y]]]; exists s, l, d; auto.
      + intros n us En; destruct (I3 n us En) as [P1 P2]; split; auto. intros v; rewrite P2; apply Hat.
      + intros u v Huv. destruct (I4 v) as [[_ P2]|[ps [P1 [P2 P3]]]].
        * apply Hat in Huv; destruct Huv as [l X]; exfalso; eapply P2; eauto.
        * exists (length ps); split; auto.
          assert (Hps : forall s, In s ps <-> gedge g s v) by (intros s; rewrite P3; apply Hat).
          split.
          -- intros Hl; destruct ps as [|p [|q ps]]; try discriminate. split; auto.
             intros w Hww; apply Hps in Hww, Huv; destruct Hww as [<-|[]], Huv as [<-|[]]; auto.
          -- intros [_ Hall]; destruct ps as [|p [|q ps]]; auto.
             ++ apply Hps in Huv; destruct Huv.
             ++ assert (p = u) by (apply Hall, Hps; simpl; auto). assert (q = u) by (apply Hall, Hps; simpl; auto).
                subst; inversion P2 as [|? ? Hn _]; subst; exfalso; apply Hn; simpl; auto.
  Qed.
End Tables.

(** ** A rank from the absence of forced cycles *)
Section Rank.
  Context {N : Type} `{EN : EqDec N}.
  Variable edge : N -> N -> Prop.
  Variable ut : list (N * list N).
  Variable initial : N.
  Hypothesis Hut : forall n us, lookup n ut = Some us -> NoDup us /\ forall v, In v us <-> edge n v.
  Hypothesis Hnodes : forall u v, edge u v -> In u (keys ut) /\ In v (keys ut).
  Hypothesis Hno : forall x, reach edge initial x -> ~ forced_cycle_at edge x.

  Fixpoint flen (fuel : nat) (x : N) : nat :=
    match fuel with
    | 0 => 0
    | S f => match lookup x ut with Some [y] => S (flen f y) | _ => 0 end
    end.

  Lemma only_lookup x y : only_succ edge x y <-> lookup x ut = Some [y].
  Proof.
    split.
    - intros [He Hall]. destruct (proj2 (lookup_Some_key x ut) (proj1 (Hnodes x y He))) as [us E].
      destruct (Hut x us E) as [Hn Hu]; rewrite E; f_equal.
      destruct us as [|a [|b us]].
      + apply Hu in He; destruct He.
      + f_equal; apply Hall, Hu; simpl; auto.
      + assert (a = y) by (apply Hall, Hu; simpl; auto). assert (b = y) by (apply Hall, Hu; simpl; auto).
        subst; inversion Hn as [|? ? Hna _]; subst; exfalso; apply Hna; simpl; auto.
    - intros E; destruct (Hut x [y] E) as [_ Hu]; split; [apply Hu; simpl; auto|].
      intros w Hwx; apply Hu in Hwx; destruct Hwx as [->|[]]; auto.
  Qed.

  Lemma flen_bound fuel : forall x v, reach edge initial x -> NoDup v ->
    (forall u, In u v -> In u (keys ut) /\ clos_trans N (only_succ edge) u x) ->
    flen fuel x + length v <= length (keys ut).
  Proof.
    induction fuel as [|fuel IH]; intros x v Hr Hn Hv; simpl.
    - apply NoDup_incl_length; auto. intros u Hu; apply Hv; auto.
    - assert (Hb : length v <= length (keys ut)) by (apply NoDup_incl_length; auto; intros u Hu; apply Hv; auto).
      destruct (lookup x ut) as [[|y [|z us]]|] eqn:E; auto.
      assert (Hxy : only_succ edge x y) by (apply only_lookup; auto).
      assert (Hx : ~ In x v) by (intros X; apply Hv in X; apply (Hno x Hr), X).
      assert (X : flen fuel y + length (x :: v) <= length (keys ut)).
      { apply IH.
        - eapply rt_trans; [exact Hr|apply rt_step, Hxy].
        - constructor; auto.
        - intros u [<-|Hu].
          + split; [apply (Hnodes x y), Hxy|apply t_step; auto].
          + destruct (Hv u Hu) as [P1 P2]; split; auto. eapply t_trans; [exact P2|apply t_step; auto]. }
      simpl in X; lia.
  Qed.

  Lemma flen_stable fuel : forall x, flen fuel x < fuel -> flen (S fuel) x = flen fuel x.
  Proof.
    induction fuel as [|fuel IH]; intros x Hl; [lia|].
    cbn [flen] in *. destruct (lookup x ut) as [[|y [|z us]]|]; auto.
    f_equal; apply IH; lia.
  Qed.

  Definition frank (x : N) : nat := Nat.min (flen (S (length (keys ut))) x) (S (length (keys ut))).

  Lemma flen_le fuel : forall x, flen fuel x <= fuel.
  Proof.
    induction fuel as [|fuel IH]; intros x; simpl; auto.
    destruct (lookup x ut) as [[|y [|z us]]|]; try lia. specialize (IH y); lia.
  Qed.

  Lemma frank_lt x y : reach edge initial x -> only_succ edge x y -> frank y < frank x.
  Proof.
    intros Hr Hs; unfold frank.
    pose proof (flen_le (S (length (keys ut))) x); pose proof (flen_le (S (length (keys ut))) y).
    rewrite !Nat.min_l by auto.
    assert (Hry : reach edge initial y) by (eapply rt_trans; [exact Hr|apply rt_step, Hs]).
    pose proof (flen_bound (length (keys ut)) y [x] Hry) as B.
    assert (Hb : flen (length (keys ut)) y + 1 <= length (keys ut)).
    { apply B; [repeat constructor; simpl; tauto|].
      intros u [<-|[]]; split; [apply (Hnodes x y), Hs|apply t_step; auto]. }
    rewrite (flen_stable (length (keys ut)) y) by lia.
    cbn [flen]; rewrite (proj1 (only_lookup x y) Hs); lia.
  Qed.
End Rank.

(** ** get_max_chains *)
Section Top.
  Context {N L : Type} `{EN : EqDec N} `{EL : EqDec L}.
  Variable ordt : list (L * N) -> list (L * N).
  Hypothesis Hordt : is_order ordt.
  Variable g : graph N L.
  Hypothesis Hw : gwf g.
  Variable initial : N.

  Definition gnode_of (n : N) : Prop := exists u v, gedge g u v /\ (n = u \/ n = v).
  Definition cinit : cstate N := {| c_explore := [initial]; c_explored := []; c_chain := None; c_out := [] |}.

  Lemma base_init ut : In initial (keys ut) -> base (gedge g) ut initial cinit.
  Proof.
    intros Hi; split; cbn; try tauto; try discriminate.
    - intros x [<-|[]]; split; auto. apply rt_refl.
    - repeat constructor; simpl; tauto.
    - constructor.
  Qed.

  Lemma sound_init : ~ left_ext (gedge g) initial -> sound (gedge g) cinit.
  Proof.
    intros Hl; split; cbn; try tauto; try discriminate. intros x [<-|[]]; auto.
  Qed.

  Lemma complete_init : complete (gedge g) initial cinit.
  Proof. split; cbn; tauto. Qed.

  Lemma once_init : once (gedge g) cinit.
  Proof. split; cbn; try tauto; [constructor|]. intros h [c Hc]; discriminate. Qed.

  Lemma run_inv ut deg sched (P : cstate N -> Prop)
    (Hut : forall n us, lookup n ut = Some us -> NoDup us /\ forall v, In v us <-> gedge g n v)
    (Hnodes : forall u v, gedge g u v -> In u (keys ut) /\ In v (keys ut))
    (Hdeg : forall u v, gedge g u v -> exists k, lookup v deg = Some k /\ (k = 1 <-> only_pred (gedge g) u v))
    (HP : forall st st', base (gedge g) ut initial st -> P st -> turn (gedge g) st st' -> P st') :
    forall fuel k st, base (gedge g) ut initial st -> P st ->
      P (fst (chain_run ut deg sched fuel k st)) /\ forall e, snd (chain_run ut deg sched fuel k st) <> SRaised e.
  Proof.
    induction fuel as [|fuel IH]; intros k st Hb Hp; cbn [chain_run]; destruct (finished st) eqn:Ef;
      try (split; [exact Hp|discriminate]).
    destruct (step_turn (gedge g) ut deg initial Hut Hnodes Hdeg (sched k) st Hb Ef) as [st' [E Ht]]; rewrite E.
    apply IH; [eapply turn_base; eauto|eapply HP; eauto].
  Qed.

  Lemma not_node_raises (ut : list (N * list N)) deg sched fuel : ~ In initial (keys ut) ->
    fst (chain_run ut deg sched fuel 0 cinit) = cinit /\
    (snd (chain_run ut deg sched (S fuel) 0 cinit) = SRaised EKey).
  Proof.
    intros Hn; apply lookup_None in Hn.
    assert (Hm : forall a, nth_error [initial] (a mod length [initial]) = Some initial).
    { intros a; simpl length; rewrite Nat.mod_1_r; reflexivity. }
    assert (Hs : chain_step ut deg (sched 0) cinit = Err EKey).
    { unfold chain_step, cinit; cb; rewrite Hm; unfold getitem; rewrite Hn; reflexivity. }
    split; [destruct fuel|]; cbn [chain_run finished cinit c_explore c_chain]; auto; fold cinit; rewrite Hs; reflexivity.
  Qed.

  Lemma nodes_of (ut : list (N * list N)) : (forall n, In n (keys ut) <-> gnode_of n) ->
    forall u v, gedge g u v -> In u (keys ut) /\ In v (keys ut).
  Proof. intros Hk u v He; split; apply Hk; exists u, v; auto. Qed.

  Lemma chains_sound sched fuel : ~ left_ext (gedge g) initial ->
    (forall c, In c (fst (get_max_chains ordt sched initial g fuel)) -> maximal_chain (gedge g) c) /\
    (gnode_of initial -> forall e, snd (get_max_chains ordt sched initial g fuel) <> SRaised e) /\
    (~ gnode_of initial -> 0 < fuel -> get_max_chains ordt sched initial g fuel = ([], SRaised EKey)).
  Proof.
    intros Hi; unfold get_max_chains.
    destruct (tables_correct ordt Hordt g Hw) as [ut [deg [E [H1 [H2 [H3 H4]]]]]]; rewrite E; fold cinit.
    destruct (chain_run ut deg sched fuel 0 cinit) as [st r] eqn:Er.
    destruct (in_dec eq_dec initial (keys ut)) as [Hin|Hin].
    - destruct (run_inv ut deg sched (sound (gedge g)) H3 (nodes_of ut H2) H4) with (fuel := fuel) (k := 0) (st := cinit) as [R1 R2].
      + intros st0 st' _; apply turn_sound.
      + apply base_init; auto.
      + apply sound_init; auto.
      + rewrite Er in R1, R2; simpl in *; split; [apply (s_out _ _ R1)|split; [auto|]].
        intros Hn; exfalso; apply Hn, H2, Hin.
    - pose proof (not_node_raises ut deg sched fuel Hin) as [Q1 _]; rewrite Er in Q1; simpl in Q1; subst st.
      split; [simpl; tauto|split].
      + intros Hn; exfalso; apply Hin, H2, Hn.
      + intros _ Hf; destruct fuel as [|f]; [lia|].
        destruct (not_node_raises ut deg sched f Hin) as [_ Q2]; rewrite Er in Q2; simpl in Q2; subst r; reflexivity.
  Qed.

  Lemma finished_explored ut st : base (gedge g) ut initial st -> complete (gedge g) initial st -> finished st = true ->
    forall x, reach (gedge g) initial x -> In x (c_explored st).
  Proof.
    intros Hb Hk Hf x Hx.
    assert (Ete : c_explore st = []) by (unfold finished in Hf; destruct (c_explore st); [auto|discriminate]).
    assert (Ec : c_chain st = None) by (unfold finished in Hf; rewrite Ete in Hf; destruct (c_chain st); [discriminate|auto]).
    unfold reach in Hx; apply clos_rt_rtn1 in Hx; induction Hx as [|y z Hyz _ IH].
    - destruct (k_init _ _ _ Hk) as [X|X]; [rewrite Ete in X; destruct X|auto].
    - destruct (k_succ _ _ _ Hk y z IH Hyz) as [X|[X|[c X]]]; [auto|rewrite Ete in X; destruct X|congruence].
  Qed.

  Lemma chains_complete : ~ left_ext (gedge g) initial -> gnode_of initial ->
    (forall x, reach (gedge g) initial x -> ~ forced_cycle_at (gedge g) x) ->
    exists fuel0, forall sched fuel, fuel0 <= fuel ->
      exists out, get_max_chains ordt sched initial g fuel = (out, SDone) /\
        (forall c, In c out -> maximal_chain (gedge g) c) /\
        (forall c h, maximal_chain (gedge g) c -> nth_error c 0 = Some h -> reach (gedge g) initial h -> In c out) /\
        (no_forced_head (gedge g) -> NoDup out).
  Proof.
    intros Hi Hn Hno; unfold get_max_chains.
    destruct (tables_correct ordt Hordt g Hw) as [ut [deg [E [H1 [H2 [H3 H4]]]]]]; rewrite E; fold cinit.
    assert (Hnodes := nodes_of ut H2).
    set (rk := frank ut). set (R := S (length (keys ut))).
    assert (Hrank : forall x y, reach (gedge g) initial x -> only_succ (gedge g) x y -> rk y < rk x)
      by (intros x y; apply (frank_lt (gedge g) ut initial H3 Hnodes Hno)).
    assert (HR : forall x, rk x <= R) by (intros x; apply Nat.le_min_r).
    exists (S (measure ut rk R cinit)); intros sched fuel Hfuel.
    destruct (run_terminates (gedge g) ut deg initial H3 Hnodes H4 Hi rk R Hrank HR H1 sched fuel 0 cinit)
      as [st' [Er [Hf [Hb [Hs Hk]]]]].
    - apply base_init, H2, Hn.
    - apply sound_init; auto.
    - apply complete_init.
    - lia.
    - rewrite Er; exists (c_out st'); split; auto; split; [apply (s_out _ _ Hs)|split].
      + intros c h Hm Hh Hr.
        pose proof (finished_explored ut st' Hb Hk Hf h Hr) as Hex.
        assert (Hfo : forced (gedge g) h).
        { destruct Hm as [Hl [Hc _]]; destruct c as [|a [|b c]]; simpl in Hl; try lia.
          simpl in Hh; inversion Hh; subst; exists b; apply (Hc 0); reflexivity. }
        destruct (k_head _ _ _ Hk h Hex Hfo) as [X|[[c1 X]|X]]; [| |auto].
        * destruct X as [u X]; exfalso; destruct Hm as [_ [_ [_ Hleft]]]; apply (Hleft u h Hh X).
        * unfold finished in Hf; rewrite X in Hf; destruct (c_explore st'); discriminate.
      + intros Hnf.
        destruct (run_inv ut deg sched (fun st => sound (gedge g) st /\ once (gedge g) st) H3 Hnodes H4) with (fuel := fuel) (k := 0) (st := cinit) as [[_ R1] _].
        * intros st0 st1 Hb0 [Hs0 Ho0] Ht; split; [eapply turn_sound; eauto|eapply turn_once; eauto].
        * apply base_init, H2, Hn.
        * split; [apply sound_init; auto|apply once_init].
        * rewrite Er in R1; simpl in R1. eapply NoDup_map_inv, (o_nd _ _ R1).
  Qed.

  Lemma cycle_step x y : forced_cycle_at (gedge g) x -> gedge g x y -> forced_cycle_at (gedge g) y.
  Proof.
    intros Hc He; unfold forced_cycle_at in *; apply clos_trans_t1n in Hc.
    inversion Hc as [z Hz|z w Hz Hzw]; subst.
    - assert (y = x) as -> by (apply Hz, He). apply t_step; auto.
    - assert (y = z) as -> by (apply Hz, He).
      eapply t_trans; [apply clos_t1n_trans; exact Hzw|apply t_step; auto].
  Qed.

  (** If every reachable node can reach a node without successor, there is no forced cycle. *)
  Lemma sinks_no_cycle : (forall x, reach (gedge g) initial x -> exists t, reach (gedge g) x t /\ forall y, ~ gedge g t y) ->
    forall x, reach (gedge g) initial x -> ~ forced_cycle_at (gedge g) x.
  Proof.
    intros Hs x Hr Hc; destruct (Hs x Hr) as [t [Hxt Ht]].
    assert (Hct : forced_cycle_at (gedge g) t).
    { clear Ht; apply clos_rt_rtn1 in Hxt; induction Hxt as [|y z Hyz Hxt IH]; auto. apply (cycle_step y z); auto. }
    apply clos_trans_t1n in Hct; inversion Hct as [z Hz|z w Hz _]; subst; apply (Ht _ (proj1 Hz)).
  Qed.
End Top.

(** ** Conjugates of task graphs *)
Section ConjChains.
  Context {S A : Type} `{ES : EqDec S} `{EA : EqDec A}.
  Variable check : A -> S -> S -> res bool.
  Variables (ord : list (A * S) -> list (A * S)) (ords : list S -> list S) (initial terminal : A).
  Hypotheses (Ho1 : is_order ord) (Ho2 : is_order ords).
  Variables (h : list (list (item S A))) (c : graph A S).
  Hypothesis Hc : from_task_graph ord ords initial terminal (add_paths check h) = Ok c.
  Hypothesis Hfresh : forall s a d, step_of_some check h s a d -> a <> initial /\ a <> terminal.
  Hypothesis Hit : initial <> terminal.

  Lemma conj_spec : gwf c /\ forall x s y, has_transition c x s y = true <->
    conj_edge_spec (step_of_some check h) (starts_some check h) (ends_some check h) initial terminal x s y.
  Proof.
    destruct (add_paths_inv check h) as [Hw [Hi [Ht [Hs Hk]]]].
    destruct (conj_correct ord ords Ho1 Ho2 initial terminal (add_paths check h) Hw)
      as [[_ E]|[[_ [_ E]]|[_ [_ [c' [E [Hw' Hedge]]]]]]]; try congruence.
    rewrite E in Hc; inversion Hc; subst c'; split; auto.
    intros x s y; rewrite Hedge; split;
      intros X; inversion X as [s1 a1 d1 X1 X2|s1 a1 s2 X1 X2|s1 a1 s2 a2 d2 X1 X2 X3]; subst.
    + eapply CInit; [apply Hi; eauto|apply Hs; eauto].
    + eapply CTerm; [apply Hs; eauto|apply Ht; auto].
    + eapply CNext; [apply Hs; eauto|intros Y; apply X2, Ht, Y|apply Hs; eauto].
    + eapply CInit; [apply Hi; eauto|apply Hs; eauto].
    + eapply CTerm; [apply Hs; eauto|apply Ht; auto].
    + eapply CNext; [apply Hs; eauto|intros Y; apply X2, Ht, Y|apply Hs; eauto].
  Qed.

  Lemma ends_dec s : ends_some check h s \/ ~ ends_some check h s.
  Proof.
    destruct (add_paths_inv check h) as [_ [_ [Ht _]]].
    destruct (in_dec eq_dec s (tg_terminal (add_paths check h))) as [X|X]; [left|right]; rewrite <- (Ht s); auto.
  Qed.

  Lemma initial_no_pred u : ~ gedge c u initial.
  Proof.
    intros [l Hl]; apply conj_spec in Hl; inversion Hl as [s1 a1 d1 X1 X2|s1 a1 s2 X1 X2|s1 a1 s2 a2 d2 X1 X2 X3]; subst.
    - destruct (Hfresh _ _ _ X2); congruence.
    - congruence.
    - destruct (Hfresh _ _ _ X3); congruence.
  Qed.

  Lemma terminal_no_succ v : ~ gedge c terminal v.
  Proof.
    intros [l Hl]; apply conj_spec in Hl; inversion Hl as [s1 a1 d1 X1 X2|s1 a1 s2 X1 X2|s1 a1 s2 a2 d2 X1 X2 X3]; subst.
    - congruence.
    - destruct (Hfresh _ _ _ X1); congruence.
    - destruct (Hfresh _ _ _ X1); congruence.
  Qed.

  Lemma vp_reach p : vp check p ->
    (forall s a d, In (IState s, IAction a, IState d) (split_path p) -> step_of_some check h s a d) ->
    (forall s, last p IOther = IState s -> ends_some check h s) ->
    forall s a d, In (IState s, IAction a, IState d) (split_path p) -> reach (gedge c) a terminal.
  Proof.
    induction 1 as [|s|s a s' tl Hck Hv IH]; intros Hst Hl s1 a1 d1 Hin; try (simpl in Hin; tauto).
    assert (Hst' : forall s a d, In (IState s, IAction a, IState d) (split_path (IState s' :: tl)) -> step_of_some check h s a d)
      by (intros u b v X; apply Hst; simpl; auto).
    assert (Hl' : forall s0, last (IState s' :: tl) IOther = IState s0 -> ends_some check h s0)
      by (intros s0 X; apply Hl; exact X).
    specialize (IH Hst' Hl').
    destruct Hin as [Hin|Hin]; [|eapply IH; eauto].
    inversion Hin; subst s1 a1 d1; clear Hin.
    assert (Hstep : step_of_some check h s a s') by (apply Hst; simpl; auto).
    destruct (ends_dec s') as [He|He].
    - apply rt_step; exists s'; apply conj_spec; eapply CTerm; eauto.
    - inversion Hv as [|x E|x a2 s2 tl2 Hc2 Hv2 E]; subst.
      + exfalso; apply He, Hl'; reflexivity.
      + eapply rt_trans; [apply rt_step|eapply IH; simpl; left; reflexivity].
        exists s'; apply conj_spec; eapply CNext; eauto. apply Hst'; simpl; left; reflexivity.
  Qed.

  Lemma action_reaches s a d : step_of_some check h s a d -> reach (gedge c) a terminal.
  Proof.
    intros [p [Hin [Hok Hstep]]].
    apply (vp_reach p) with (s := s) (d := d).
    - apply path_ok_iff; auto.
    - intros u b v X; exists p; split; auto; split; auto. apply path_step_split; auto.
    - intros u Hu; exists p; split; auto; split; auto.
      apply (path_last_spec p u IOther); auto. intros ->; discriminate.
    - apply path_step_split; auto.
  Qed.

  Lemma all_reach_terminal x : gnode_of c x -> reach (gedge c) x terminal.
  Proof.
    intros [u [v [[l Hl] Hx]]]; apply conj_spec in Hl.
    destruct Hl as [s1 a1 d1 X1 X2|s1 a1 s2 X1 X2|s1 a1 s2 a2 d2 X1 X2 X3]; destruct Hx as [->| ->].
    - eapply rt_trans; [apply rt_step|eapply action_reaches; eauto].
      exists s1; apply conj_spec; eapply CInit; eauto.
    - eapply action_reaches; eauto.
    - eapply action_reaches; eauto.
    - apply rt_refl.
    - eapply action_reaches; eauto.
    - eapply action_reaches; eauto.
  Qed.

  Lemma initial_node : (exists s a d, step_of_some check h s a d) -> gnode_of c initial.
  Proof.
    intros [s [a [d [p [Hin [Hok [i [E1 [E2 E3]]]]]]]]].
    pose proof (proj1 (path_ok_iff check p) Hok) as Hv.
    destruct Hv as [|s0|s0 a0 s1 tl Hck Hv].
    - rewrite nth_nil in E1; discriminate.
    - assert (2 * i + 1 < length [@IState S A s0]) by (apply nth_error_Some; congruence). simpl length in *; lia.
    - exists initial, a0; split; auto; exists s0; apply conj_spec; eapply CInit.
      + exists (IState s0 :: IAction a0 :: IState s1 :: tl); split; auto; split; auto; reflexivity.
      + exists (IState s0 :: IAction a0 :: IState s1 :: tl); split; auto; split; auto; exists 0; simpl; auto.
  Qed.

  Lemma gnode_reach x : gnode_of c initial -> reach (gedge c) initial x -> gnode_of c x.
  Proof.
    intros Hi Hx; unfold reach in Hx; apply clos_rt_rtn1 in Hx; induction Hx as [|y z Hyz _ _]; auto.
    exists y, z; auto.
  Qed.

  Lemma conj_no_cycle : gnode_of c initial ->
    forall x, reach (gedge c) initial x -> ~ forced_cycle_at (gedge c) x.
  Proof.
    intros Hi; apply (sinks_no_cycle c initial).
    intros x Hx; exists terminal; split; [apply all_reach_terminal, gnode_reach; auto|apply terminal_no_succ].
  Qed.
End ConjChains.

(** ** With a forced cycle the search never ends *)
Section Endless.
  Context {N L : Type} `{EN : EqDec N} `{EL : EqDec L}.
  Variable ordt : list (L * N) -> list (L * N).
  Hypothesis Hordt : is_order ordt.
  Variable g : graph N L.
  Hypothesis Hw : gwf g.
  Variable initial : N.

  (** Once a node of a forced cycle is explored, one is always waiting or at the end of the current chain. *)
  Definition trapped (st : cstate N) : Prop :=
    (exists x, In x (c_explored st) /\ forced_cycle_at (gedge g) x) ->
    exists z, forced_cycle_at (gedge g) z /\ (In z (c_explore st) \/ chain_last st z).

  Lemma cycle_forced x : forced_cycle_at (gedge g) x -> forced (gedge g) x.
  Proof. intros Hc. apply clos_trans_t1n in Hc. inversion Hc as [z Hz|z w Hz _]; subst; [exists x|exists z]; exact Hz. Qed.

  Lemma snoc_last {X} (c c' : list X) x y : Some (c ++ [x]) = Some (c' ++ [y]) -> x = y.
  Proof. intros E. assert (E' : c ++ [x] = c' ++ [y]) by congruence. apply app_inj_tail in E'. tauto. Qed.

  Lemma turn_trapped st st' : trapped st -> turn (gedge g) st st' -> trapped st'.
  Proof.
    intros HT Ht (x & Hx & Hc).
    destruct Ht as [n Hch Hn Hf|n te Hch Hn Hf Hte|c n y Hch Hl Hf|c n y te Hch Hl Hf Hte|c n y Hch Ho Hp];
      cbn [c_explored c_explore c_chain] in *.
    - assert (D : forced_cycle_at (gedge g) n \/ (exists z, forced_cycle_at (gedge g) z /\ In z (set_del n (c_explore st)))).
      { apply set_add_In in Hx. destruct Hx as [->|Hx]; [auto|].
        destruct HT as (z & Hz & [Hin|[c Hz2]]); [exists x; auto| |congruence].
        destruct (eq_dec z n) as [->|Hne]; [auto|]. right; exists z; split; [exact Hz|]. apply set_del_In; auto. }
      destruct D as [D|(z & Hz & Hin)]; [exists n; split; [exact D|right; exists []; reflexivity]|exists z; auto].
    - apply set_add_In in Hx. destruct Hx as [->|Hx]; [exfalso; apply Hf, cycle_forced, Hc|].
      destruct HT as (z & Hz & [Hin|[c Hz2]]); [exists x; auto| |congruence].
      exists z; split; [exact Hz|left]. cbn [c_explore]. apply (succs_new_In _ _ _ _ _ Hte). left. apply set_del_In; split; [|exact Hin].
      intros ->. apply Hf, cycle_forced, Hz.
    - apply set_add_In in Hx. destruct Hx as [->|Hx]; [exists y; split; [exact Hc|right; eexists; reflexivity]|].
      destruct HT as (z & Hz & [Hin|[c1 Hz2]]); [exists x; auto|exists z; auto|].
      assert (n = z) as -> by (apply (snoc_last c c1); congruence).
      exists y; split; [apply (cycle_step g z y Hz), Hl|right; eexists; reflexivity].
    - apply set_add_In in Hx. destruct Hx as [->|Hx]; [exfalso; apply Hf, cycle_forced, Hc|].
      destruct HT as (z & Hz & [Hin|[c1 Hz2]]); [exists x; auto| |].
      + exists z; split; [exact Hz|left]. cbn [c_explore]. apply (succs_new_In _ _ _ _ _ Hte). auto.
      + assert (n = z) as -> by (apply (snoc_last c c1); congruence).
        exfalso; apply Hf, cycle_forced, (cycle_step g z y Hz), Hl.
    - destruct HT as (z & Hz & [Hin|[c1 Hz2]]); [exists x; auto| |].
      + exists z; split; [exact Hz|left]. cbn [c_explore]. apply set_add_In; auto.
      + assert (n = z) as -> by (apply (snoc_last c c1); congruence).
        exists y; split; [apply (cycle_step g z y Hz), Ho|left]. cbn [c_explore]. apply set_add_In; auto.
  Qed.

  Lemma run_done ut deg sched : forall fuel k (st st' : cstate N), chain_run ut deg sched fuel k st = (st', SDone) -> finished st' = true.
  Proof.
    induction fuel as [|fuel IH]; intros k st st' E; cbn [chain_run] in E; destruct (finished st) eqn:Ef; try (inversion E; subst; auto; fail).
    destruct (chain_step ut deg (sched k) st) as [st1|e]; [|discriminate]. eapply IH, E.
  Qed.

  Lemma chains_endless sched fuel : ~ left_ext (gedge g) initial -> gnode_of g initial ->
    (exists x, reach (gedge g) initial x /\ forced_cycle_at (gedge g) x) ->
    snd (get_max_chains ordt sched initial g fuel) = SRunning.
  Proof.
    intros Hi Hn (x & Hr & Hc). pose proof (chains_sound ordt Hordt g Hw initial sched fuel Hi) as (_ & Hnr & _).
    specialize (Hnr Hn). unfold get_max_chains in *.
    destruct (tables_correct ordt Hordt g Hw) as [ut [deg [E [H1 [H2 [H3 H4]]]]]]; rewrite E in *; fold (cinit initial) in *.
    destruct (chain_run ut deg sched fuel 0 (cinit initial)) as [st r] eqn:Er. cbn [snd] in *.
    destruct r as [| |e]; [exfalso|reflexivity|exfalso; apply (Hnr e eq_refl)].
    pose proof (run_done _ _ _ _ _ _ _ Er) as Hf.
    destruct (run_inv g initial ut deg sched (fun st => base (gedge g) ut initial st /\ sound (gedge g) st /\ complete (gedge g) initial st /\ trapped st) H3 (nodes_of g ut H2) H4)
      with (fuel := fuel) (k := 0) (st := cinit initial) as [(B & S & K & T) _].
    - intros st0 st1 Hb (_ & Hs & Hk & Ht) Hturn. split; [eapply turn_base; eauto; apply (nodes_of g ut H2)|].
      split; [eapply turn_sound; eauto|split; [eapply turn_complete; eauto|eapply turn_trapped; eauto]].
    - apply base_init, H2, Hn.
    - split; [apply base_init, H2, Hn|split; [apply sound_init; auto|split; [apply complete_init|]]].
      intros (y & [] & _).
    - rewrite Er in B, S, K, T; cbn [fst] in *.
      destruct T as (z & _ & [Hz|[c Hz]]).
      + exists x; split; [eapply finished_explored; eauto|exact Hc].
      + unfold finished in Hf. destruct (c_explore st); [destruct Hz|discriminate].
      + unfold finished in Hf. rewrite Hz in Hf. destruct (c_explore st); discriminate.
  Qed.
End Endless.
