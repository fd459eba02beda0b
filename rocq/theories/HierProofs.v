(** Compaction and the extraction of hierarchies. *)
From Verif Require Import PyBase PyBaseFacts GraphModel GraphSpec GraphProofs ChainModel ChainSpec ChainProofs CliqueModel CliqueSpec.
From Verif Require CliqueProofs.
From Verif Require Import HierModel HierSpec.
From Coq Require Import Relations.

(** ** The quotient of a relation with a source and a sink *)
Section Quot.
  Context {N : Type} `{EN : EqDec N}.
  Variable E : N -> N -> Prop.
  Variables i t : N.
  Definition nd (x : N) : Prop := exists u v, E u v /\ (x = u \/ x = v).

  Variables (K : list N) (M : N).
  Definition im (x : N) : N := if mem x K then M else x.
  Definition E' (s d : N) : Prop :=
    (E s d /\ ~ In s K /\ ~ In d K) \/ (s = M /\ ~ In d K /\ exists s0, In s0 K /\ E s0 d) \/
    (d = M /\ ~ In s K /\ exists d0, In d0 K /\ E s d0).
  Definition nd' (x : N) : Prop := exists u v, E' u v /\ (x = u \/ x = v).

  Lemma im_in x : In x K -> im x = M.
  Proof. intros Hx; unfold im; apply mem_In in Hx; rewrite Hx; reflexivity. Qed.
  Lemma im_out x : ~ In x K -> im x = x.
  Proof. intros Hx; unfold im; apply mem_not_In in Hx; rewrite Hx; reflexivity. Qed.

  Lemma edge_im x y : E x y -> (In x K /\ In y K) \/ E' (im x) (im y).
  Proof.
    intros He; destruct (in_dec eq_dec x K) as [Hx|Hx], (in_dec eq_dec y K) as [Hy|Hy]; [left; auto|right..];
      rewrite ?(im_in x), ?(im_in y), ?(im_out x), ?(im_out y) by auto; unfold E'; eauto 10.
  Qed.

  Lemma edge_im_inv u v : E' u v -> exists x y, E x y /\ u = im x /\ v = im y /\ ~ (In x K /\ In y K).
  Proof.
    intros [[He [H1 H2]]|[[-> [H2 [s [Hs He]]]]|[-> [H1 [d [Hd He]]]]]].
    - exists u, v; rewrite !im_out by auto; tauto.
    - exists s, v; rewrite im_in, im_out by auto; tauto.
    - exists u, d; rewrite im_out, im_in by auto; tauto.
  Qed.

  Lemma reach_im x y : reach E x y -> reach E' (im x) (im y).
  Proof.
    intros H; induction H as [x y He|x|x y z _ IH1 _ IH2].
    - destruct (edge_im x y He) as [[Hx Hy]|He']; [rewrite !im_in by auto; apply rt_refl|apply rt_step; auto].
    - apply rt_refl.
    - eapply rt_trans; eauto.
  Qed.

  Lemma nd'_im x : nd' x -> exists y, nd y /\ x = im y.
  Proof.
    intros [u [v [He Hx]]]; apply edge_im_inv in He; destruct He as [a [b [Hab [-> [-> _]]]]].
    destruct Hx as [->| ->]; [exists a|exists b]; split; auto; exists a, b; auto.
  Qed.

  Lemma nd'_cases x : nd' x -> (nd x /\ ~ In x K) \/ x = M.
  Proof.
    intros Hx; apply nd'_im in Hx; destruct Hx as [y [Hy ->]].
    destruct (in_dec eq_dec y K) as [Hk|Hk]; [right; apply im_in; auto|left; rewrite im_out by auto; auto].
  Qed.

  Lemma reach_first x y : reach E' x y -> x <> y -> exists z, E' x z.
  Proof.
    intros H Hne; apply clos_rt_rt1n in H; destruct H as [|z y Hxz _]; [congruence|eauto].
  Qed.
  Lemma reach_last x y : reach E' x y -> x <> y -> exists z, E' z y.
  Proof.
    intros H Hne; apply clos_rt_rtn1 in H; destruct H as [|z y Hxz _]; [congruence|eauto].
  Qed.

  Hypothesis A1 : forall u, ~ E u i.
  Hypothesis A2 : forall v, ~ E t v.
  Hypothesis A3 : forall x, nd x -> reach E x t.
  Hypothesis Hi : nd i.
  Hypothesis HK : forall x, In x K -> nd x.
  Hypothesis HM : ~ nd M.
  Hypothesis HK0 : K <> [].
  Hypothesis H1 : In i K -> forall u s, In s K -> ~ In u K -> ~ E u s.
  Hypothesis H2 : In t K -> forall s v, In s K -> ~ In v K -> ~ E s v.

  Lemma it_ne : i <> t.
  Proof.
    intros Hit; destruct Hi as [u [v [He [->| ->]]]]; [apply (A2 v); rewrite <- Hit; auto|apply (A1 u); auto].
  Qed.

  Lemma nd_t : nd t.
  Proof.
    pose proof (A3 i Hi) as Hr; apply clos_rt_rtn1 in Hr; inversion Hr as [Heq|z y Hz _ Hy]; [destruct (it_ne Heq)|].
    exists z, t; auto.
  Qed.

  Lemma nd_M x : nd x -> x <> M.
  Proof. intros Hx ->; auto. Qed.

  Lemma im_inj_out x y : nd x -> nd y -> ~ In y K -> im x = im y -> x = y.
  Proof.
    intros Hx Hy Hk Hq; rewrite (im_out y Hk) in Hq; unfold im in Hq.
    destruct (mem x K); [|auto]. exfalso; apply (nd_M y Hy); auto.
  Qed.

  Lemma A1' u : ~ E' u (im i).
  Proof.
    intros He; apply edge_im_inv in He; destruct He as [x [y [Hxy [_ [Hq Hn]]]]].
    destruct (in_dec eq_dec i K) as [Hk|Hk].
    - rewrite (im_in i Hk) in Hq. destruct (in_dec eq_dec y K) as [Hy|Hy].
      + apply (H1 Hk x y Hy); auto.
      + rewrite im_out in Hq by auto; apply HM; rewrite Hq; exists x, y; auto.
    - assert (y = i) by (apply im_inj_out; auto; exists x, y; auto). subst; apply (A1 x); auto.
  Qed.

  Lemma A2' v : ~ E' (im t) v.
  Proof.
    intros He; apply edge_im_inv in He; destruct He as [x [y [Hxy [Hq [_ Hn]]]]].
    destruct (in_dec eq_dec t K) as [Hk|Hk].
    - rewrite (im_in t Hk) in Hq. destruct (in_dec eq_dec x K) as [Hx|Hx].
      + apply (H2 Hk x y Hx); auto.
      + rewrite im_out in Hq by auto; apply HM; rewrite Hq; exists x, y; auto.
    - assert (x = t) by (apply im_inj_out; auto; [exists x, y; auto|apply nd_t]). subst; apply (A2 y); auto.
  Qed.

  Lemma A3' x : nd' x -> reach E' x (im t).
  Proof. intros Hx; apply nd'_im in Hx; destruct Hx as [y [Hy ->]]; apply reach_im; auto. Qed.

  Lemma reach_it : reach E' (im i) (im t).
  Proof. apply reach_im; auto. Qed.

  Lemma A4' : (nd' (im i) /\ nd' (im t) /\ im i <> im t) \/ ((forall u v, ~ E' u v) /\ im i = im t /\ im i = M /\ incl K K /\ forall x, nd x -> In x K).
  Proof.
    destruct (eq_dec (im i) (im t)) as [Hq|Hq].
    - right.
      assert (Hkt : In t K /\ In i K).
      { unfold im in Hq; destruct (mem i K) eqn:Ei, (mem t K) eqn:Et; rewrite ?mem_In in *; auto.
        - exfalso; apply (nd_M t nd_t); auto.
        - exfalso; apply (nd_M i Hi); auto.
        - destruct (it_ne Hq). }
      assert (Hno : forall u v, ~ E' u v).
      { intros u v He.
        assert (Hv : nd' v) by (exists u, v; auto).
        pose proof (A3' v Hv) as Hr; rewrite <- Hq in Hr.
        destruct (eq_dec v (im i)) as [->|Hne]; [apply (A1' u He)|].
        destruct (reach_last _ _ Hr Hne) as [z Hz]; apply (A1' z Hz). }
      split; [auto|split; [auto|split; [apply im_in, Hkt|split; [apply incl_refl|]]]].
      intros x Hx; destruct (in_dec eq_dec x K) as [|Hk]; auto; exfalso.
      pose proof (A3 x Hx) as Hr; apply reach_im in Hr; rewrite (im_out x Hk) in Hr.
      destruct (reach_first _ _ Hr) as [z Hz]; [|apply (Hno _ _ Hz)].
      rewrite (im_in t) by tauto; apply nd_M; auto.
    - left; split; [|split; auto].
      + destruct (reach_first _ _ reach_it Hq) as [z Hz]; exists (im i), z; auto.
      + destruct (reach_last _ _ reach_it Hq) as [z Hz]; exists z, (im t); auto.
  Qed.

  (** The nodes of the quotient, with its source when it has no edge. *)
  Lemma parts' m : nd' m \/ m = im i <-> (nd m /\ ~ In m K) \/ m = M.
  Proof.
    split.
    - intros [Hm| ->]; [apply nd'_cases; auto|].
      destruct (in_dec eq_dec i K) as [Hk|Hk]; [right; apply im_in; auto|left; rewrite im_out by auto; auto].
    - assert (Hgen : forall x, nd x -> nd' (im x) \/ im x = im i).
      { intros x Hx; destruct A4' as [[Hni [Hnt Hne]]|[_ [Hq [HqM [_ Hall]]]]].
        - left; destruct (eq_dec (im x) (im t)) as [->|Hxt]; auto.
          destruct (reach_first (im x) (im t) (reach_im _ _ (A3 x Hx)) Hxt) as [z Hz]; exists (im x), z; auto.
        - right; rewrite HqM; apply im_in, Hall, Hx. }
      intros [[Hm Hk]| ->].
      + rewrite <- (im_out m Hk); auto.
      + destruct K as [|s K0] eqn:EK; [congruence|].
        rewrite <- (im_in s) by (rewrite EK; simpl; auto). rewrite <- EK in *.
        apply Hgen, HK; rewrite EK; simpl; auto.
  Qed.
End Quot.

(** ** Chains and cliques meet the conditions of the quotient *)
Section Members.
  Context {N : Type} `{EN : EqDec N}.
  Variable E : N -> N -> Prop.
  Variables i t : N.
  Hypothesis A1 : forall u, ~ E u i.
  Hypothesis A2 : forall v, ~ E t v.
  Hypothesis A3 : forall x, nd E x -> reach E x t.

  Lemma chain_step_trans K : is_chain E K -> forall a d x y, nth_error K a = Some x -> nth_error K (a + S d) = Some y ->
    clos_trans N (only_succ E) x y.
  Proof.
    intros HK a d; induction d as [|d IH]; intros x y Hx Hy.
    - rewrite Nat.add_1_r in Hy; apply t_step; apply (HK a x y Hx Hy).
    - destruct (nth_error K (a + S d)) as [z|] eqn:Ez.
      + eapply t_trans; [apply IH; eauto|]. apply t_step. apply (HK (a + S d) z y Ez).
        replace (S (a + S d)) with (a + S (S d)) by lia; auto.
      + exfalso; apply nth_error_None in Ez. assert (a + S (S d) < length K) by (apply nth_error_Some; congruence). lia.
  Qed.

  Lemma no_forced_cycle x : ~ forced_cycle_at E x.
  Proof.
    intros Hc.
    assert (Hnx : nd E x) by (apply clos_trans_t1n in Hc; inversion Hc as [z Hz|z w Hz _]; subst; [exists x, x|exists x, z]; split; auto; apply Hz).
    assert (Hstep : forall a b, forced_cycle_at E a -> E a b -> forced_cycle_at E b).
    { intros a b Ha Hab; unfold forced_cycle_at in *; apply clos_trans_t1n in Ha; inversion Ha as [z Hz|z w Hz Hzw]; subst.
      - assert (b = a) as -> by (apply Hz, Hab); apply t_step; auto.
      - assert (b = z) as -> by (apply Hz, Hab). eapply t_trans; [apply clos_t1n_trans; exact Hzw|apply t_step; auto]. }
    assert (Hct : forced_cycle_at E t).
    { assert (Hgen : forall y, clos_refl_trans_n1 N E x y -> forced_cycle_at E y).
      { intros y Hr; induction Hr as [|y z Hyz _ IH]; [exact Hc|apply (Hstep y z); auto]. }
      apply Hgen, clos_rt_rtn1, (A3 x Hnx). }
    apply clos_trans_t1n in Hct; inversion Hct as [z Hz|z w Hz _]; subst; apply (A2 _ (proj1 Hz)).
  Qed.

  Lemma chain_NoDup K : is_chain E K -> NoDup K.
  Proof.
    intros HK; apply NoDup_nth_error; intros a b Ha Heq.
    destruct (nth_error K a) as [x|] eqn:Ex; [|apply nth_error_None in Ex; lia].
    symmetry in Heq; destruct (Nat.lt_trichotomy a b) as [Hlt|[->|Hlt]]; auto; exfalso.
    - apply (no_forced_cycle x). apply (chain_step_trans K HK a (b - a - 1) x x Ex). replace (a + S (b - a - 1)) with b by lia; auto.
    - apply (no_forced_cycle x). apply (chain_step_trans K HK b (a - b - 1) x x Heq). replace (b + S (a - b - 1)) with a by lia; auto.
  Qed.

  Lemma chain_nd K : 2 <= length K -> is_chain E K -> forall x, In x K -> nd E x.
  Proof.
    intros Hl HK x Hx; apply In_nth_error in Hx; destruct Hx as [a Ha].
    assert (Hlt : a < length K) by (apply nth_error_Some; congruence).
    destruct a as [|a].
    - destruct (nth_error K 1) as [y|] eqn:Ey; [|apply nth_error_None in Ey; lia].
      exists x, y; split; auto; apply (HK 0 x y Ha Ey).
    - destruct (nth_error K a) as [y|] eqn:Ey; [|apply nth_error_None in Ey; lia].
      exists y, x; split; auto; apply (HK a y x Ey Ha).
  Qed.

  Lemma chain_H1 K : is_chain E K -> In i K -> forall u s, In s K -> ~ In u K -> ~ E u s.
  Proof.
    intros HK Hi u s Hs Hu He.
    apply In_nth_error in Hi; destruct Hi as [a Ha]. apply In_nth_error in Hs; destruct Hs as [b Hb].
    assert (Hpred : forall k x, nth_error K (S k) = Some x -> forall w, E w x -> In w K).
    { intros k x Hx w Hw. destruct (nth_error K k) as [y|] eqn:Ey.
      - destruct (HK k y x Ey Hx) as [_ [_ Hp]]; rewrite (Hp w Hw); eapply nth_error_In; eauto.
      - apply nth_error_None in Ey; assert (S k < length K) by (apply nth_error_Some; congruence); lia. }
    destruct b as [|b]; [|apply Hu, (Hpred b s Hb u He)].
    destruct a as [|a].
    - rewrite Hb in Ha; inversion Ha; subst; apply (A1 u He).
    - destruct (nth_error K a) as [y|] eqn:Ey.
      + destruct (HK a y i Ey Ha) as [[He2 _] _]; apply (A1 y He2).
      + apply nth_error_None in Ey; assert (S a < length K) by (apply nth_error_Some; congruence); lia.
  Qed.

  Lemma chain_H2 K : is_chain E K -> In t K -> forall s v, In s K -> ~ In v K -> ~ E s v.
  Proof.
    intros HK Ht s v Hs Hv He.
    apply In_nth_error in Ht; destruct Ht as [a Ha]. apply In_nth_error in Hs; destruct Hs as [b Hb].
    destruct (nth_error K (S b)) as [y|] eqn:Ey.
    - destruct (HK b s y Hb Ey) as [[_ Hq] _]; apply Hv; rewrite (Hq v He); eapply nth_error_In; eauto.
    - destruct (nth_error K (S a)) as [z|] eqn:Ez.
      + destruct (HK a t z Ha Ez) as [[He2 _] _]; apply (A2 z He2).
      + apply nth_error_None in Ey, Ez.
        assert (a < length K) by (apply nth_error_Some; congruence). assert (b < length K) by (apply nth_error_Some; congruence).
        assert (a = b) by lia; subst; rewrite Hb in Ha; inversion Ha; subst; apply (A2 v He).
  Qed.

  (** A set of nodes that follow each other both ways. *)
  Definition both_clique (K : list N) : Prop := NoDup K /\ forall u v, In u K -> In v K -> u <> v -> E u v /\ E v u.

  Lemma clique_other (K : list N) x : 2 <= length K -> NoDup K -> In x K -> exists y, In y K /\ x <> y.
  Proof.
    intros Hl Hn Hx; destruct K as [|a [|b K]]; simpl in Hl; try lia.
    inversion Hn as [|? ? Ha Hn2]; subst.
    destruct (eq_dec x a) as [->|Hne]; [exists b; split; [simpl; auto|intros ->; apply Ha; simpl; auto]|exists a; simpl; auto].
  Qed.
  Lemma clique_nd K : 2 <= length K -> both_clique K -> forall x, In x K -> nd E x.
  Proof.
    intros Hl [Hn HK] x Hx; destruct (clique_other K x Hl Hn Hx) as [y [Hy Hne]].
    exists x, y; split; auto; apply HK; auto.
  Qed.
  Lemma clique_no_i K : 2 <= length K -> both_clique K -> ~ In i K.
  Proof.
    intros Hl [Hn HK] Hx; destruct (clique_other K i Hl Hn Hx) as [y [Hy Hne]].
    destruct (HK i y Hx Hy Hne) as [_ He]; apply (A1 y He).
  Qed.
  Lemma clique_no_t K : 2 <= length K -> both_clique K -> ~ In t K.
  Proof.
    intros Hl [Hn HK] Hx; destruct (clique_other K t Hl Hn Hx) as [y [Hy Hne]].
    destruct (HK t y Hx Hy Hne) as [He _]; apply (A2 y He).
  Qed.
End Members.

(** ** Cliques of any symmetric graph *)
Section CliqueSound.
  Context {N : Type} `{EN : EqDec N}.
  Variable g : ngraph N.
  Variables ordp ordd : list N -> list N -> list N.
  Hypothesis Hordp : forall r, is_order (ordp r).
  Hypothesis Hordd : forall r, is_order (ordd r).
  Notation adj := (CliqueProofs.adj g).
  Notation node := (CliqueProofs.node g).
  Hypothesis Hsym : forall u v, adj u v -> adj v u.

  Definition cinv (r p : list N) : Prop :=
    NoDup r /\ NoDup p /\ (forall u v, In u r -> In v r -> u <> v -> adj u v) /\
    (forall u, In u p -> node u /\ forall v, In v r -> adj v u).
  Definition csound (cs : list (list N)) : Prop :=
    forall c, In c cs -> NoDup c /\ forall u v, In u c -> In v c -> u <> v -> adj u v.

  Lemma cloop rec fuel (Hrec : forall r p x, cinv r p -> length p < fuel -> exists cs, rec r p x = Ok cs /\ csound cs)
    pivot : forall us r p x n, cinv r p -> length p <= n -> n <= fuel -> NoDup us -> incl us p -> In pivot p \/ (length p < n) ->
      (forall u, In u us -> ~ adj pivot u) ->
      exists cs, bk_loop rec g r us p x = Ok cs /\ csound cs.
  Proof.
    induction us as [|u us IH]; intros r p x n Hi Hl Hn Hnd Hincl Hp Hna; cbn [bk_loop].
    - exists []; split; auto; intros c [].
    - inversion Hnd as [|? ? Hnu Hnd']; subst.
      assert (Hu : In u p) by (apply Hincl; simpl; auto).
      destruct Hi as [I1 [I2 [I3 I4]]].
      destruct (I4 u Hu) as [Hnode Hadj].
      destruct (CliqueProofs.getitem_node g u Hnode) as [gu [Eu Hgu]]; rewrite Eu; cbn [bind].
      destruct (Hrec (set_union r [u]) (set_inter p gu) (set_inter x gu)) as [cs1 [E1 G1]].
      + split; [apply set_union_NoDup; auto|split; [apply set_inter_NoDup; auto|split]].
        * intros a b Ha Hb Hne; rewrite set_union_In in Ha, Hb; simpl in Ha, Hb.
          destruct Ha as [Ha|[<-|[]]], Hb as [Hb|[<-|[]]]; auto; try congruence.
        * intros a Ha; apply set_inter_In in Ha; destruct Ha as [Ha1 Ha2]; destruct (I4 a Ha1) as [J1 J2]; split; auto.
          intros v Hv; rewrite set_union_In in Hv; destruct Hv as [Hv|[<-|[]]]; auto. apply Hgu; auto.
      + assert (length (set_inter p gu) <= length p).
        { apply NoDup_incl_length; [apply set_inter_NoDup; auto|]. intros a Ha; apply set_inter_In in Ha; tauto. }
        destruct Hp as [Hp|Hp]; [|lia].
        assert (length (set_inter p gu) < length p); [|lia].
        apply CliqueProofs.length_inter_lt with pivot; auto.
        rewrite Hgu; intros X; apply (Hna u); simpl; auto.
      + rewrite E1; cbn [bind].
        assert (Hm : mem u p = true) by (apply mem_In; auto); rewrite Hm.
        destruct (IH r (set_del u p) (set_add u x) n) as [cs2 [E2 G2]]; auto.
        * split; [auto|split; [apply set_del_NoDup; auto|split; auto]].
          intros a Ha; apply set_del_In in Ha; apply I4; tauto.
        * pose proof (CliqueProofs.length_del_le p u); lia.
        * intros v Hv; apply set_del_In; split; [intros ->; auto|apply Hincl; simpl; auto].
        * destruct Hp as [Hp|Hp].
          -- destruct (eq_dec pivot u) as [->|Hne]; [|left; apply set_del_In; auto].
             right; assert (Hlt : length (u :: set_del u p) <= length p); [|simpl in Hlt; lia].
             apply NoDup_incl_length; [constructor; [rewrite set_del_In; tauto|apply set_del_NoDup; auto]|].
             intros a [<-|Ha]; auto; apply set_del_In in Ha; tauto.
          -- right; pose proof (CliqueProofs.length_del_le p u); lia.
        * intros v Hv; apply Hna; simpl; auto.
        * rewrite E2; cbn [bind]; eexists; split; [reflexivity|].
          intros c Hc; apply in_app_iff in Hc; destruct Hc; auto.
  Qed.

  Lemma bk_sound fuel : forall r p x, cinv r p -> length p < fuel ->
    exists cs, bron_kerbosch ordp ordd g fuel r p x = Ok cs /\ csound cs.
  Proof.
    induction fuel as [|fuel IH]; intros r p x Hi Hl; [lia|]; cbn [bron_kerbosch].
    destruct p as [|v p'] eqn:Ep.
    - destruct x as [|w x]; [exists [r]|exists []]; split; try reflexivity; intros c Hc; [|destruct Hc].
      destruct Hc as [<-|[]]; destruct Hi as [I1 [_ [I3 _]]]; auto.
    - rewrite <- Ep in *.
      assert (Hne : p <> []) by (rewrite Ep; discriminate).
      clear v p' Ep.
      pose proof (Hordp r p) as Hperm.
      destruct (ordp r p) as [|u0 us0] eqn:Eo.
      { apply Permutation_nil in Hperm; congruence. }
      assert (Hnodes : forall u, In u p -> node u) by (intros u Hu; apply Hi; auto).
      assert (Hin0 : forall u, In u (u0 :: us0) -> In u p).
      { intros u Hu; eapply Permutation_in; eauto. }
      assert (Hkeys : exists ks, mapM (fun u => do gu <- getitem u g; Ok (u, length (set_inter gu p))) (u0 :: us0) = Ok ks).
      { revert Hin0; generalize (u0 :: us0); induction l as [|u l IHl]; intros Hin0; cbn [mapM]; eauto.
        destruct (CliqueProofs.getitem_node g u) as [o [Eu _]]; [apply Hnodes, Hin0; simpl; auto|].
        rewrite Eu; cbn [bind]. destruct IHl as [ks ->]; [intros w Hw; apply Hin0; simpl; auto|]; cbn [bind]; eauto. }
      destruct Hkeys as [ks ->]; cbn [bind].
      set (key := fun u => match lookup u ks with Some n => n | None => 0 end).
      set (pivot := max_by key u0 us0).
      assert (Hpiv : In pivot p) by (apply Hin0, CliqueProofs.max_by_In).
      destruct (CliqueProofs.getitem_node g pivot (Hnodes _ Hpiv)) as [gp [Egp Hgp]]; rewrite Egp; cbn [bind].
      apply (cloop _ fuel IH pivot) with (n := length p); auto; try lia.
      + apply order_NoDup; auto. apply set_diff_NoDup, Hi.
      + intros u Hu; apply (proj1 (order_In _ (Hordd r) _ _)), set_diff_In in Hu; tauto.
      + intros u Hu; apply (proj1 (order_In _ (Hordd r) _ _)), set_diff_In in Hu; rewrite <- Hgp; tauto.
  Qed.
End CliqueSound.

Lemma cliques_sound {N L} `{EN : EqDec N} `{EL : EqDec L} ordt ordu ordp ordd (g : graph N L) :
  is_order ordt -> is_order ordu -> (forall r, is_order (ordp r)) -> (forall r, is_order (ordd r)) -> gwf g ->
  exists cs, get_max_cliques ordt ordu ordp ordd g = Ok cs /\ forall c, In c cs -> 2 <= length c /\ both_clique (gedge g) c.
Proof.
  intros Ho1 Ho2 Hp Hd Hw; unfold get_max_cliques.
  destruct (CliqueProofs.symmetric_graph_correct ordt ordu Ho1 Ho2 g Hw) as [sym [Es [Hk [Hn Ha]]]]; rewrite Es; cbn [bind].
  unfold max_cliques.
  destruct (bk_sound sym ordp ordd Hp Hd) with (fuel := S (length sym)) (r := @nil N) (p := keys sym) (x := @nil N) as [cs [Ecs Hcs]].
  - intros u v; rewrite !Ha; tauto.
  - split; [constructor|split; [auto|split; [simpl; tauto|]]]. intros u Hu; split; [auto|simpl; tauto].
  - unfold keys; rewrite map_length; lia.
  - rewrite Ecs; cbn [bind]; eexists; split; [reflexivity|].
    intros c Hc; apply filter_In in Hc; destruct Hc as [Hc Hl]; apply Nat.ltb_lt in Hl; split; [lia|].
    destruct (Hcs c Hc) as [H1 H2]; split; auto.
    intros u v Hu Hv Hne; specialize (H2 u v Hu Hv Hne); apply Ha in H2; exact H2.
Qed.

(** ** A bound on the search for chains *)
Definition chain_bound (n : nat) : nat :=
  n * (n * (2 * S n + 3) + (2 * S n + 2) + 1) + (n * (2 * S n + 3) + (2 * S n + 2)) + 1.

Lemma NoDup_same_length {X} (a b : list X) : NoDup a -> NoDup b -> (forall x, In x a <-> In x b) -> length a = length b.
Proof. intros Ha Hb H; apply Nat.le_antisymm; apply NoDup_incl_length; auto; intros x; apply H. Qed.

Lemma all_nodes_nd {N L} `{EN : EqDec N} `{EL : EqDec L} ordt (g : graph N L) : is_order ordt -> gwf g ->
  forall n, In n (all_nodes ordt g) <-> nd (gedge g) n.
Proof.
  intros Ho Hw n; rewrite (all_nodes_In ordt g Ho (proj1 Hw)); unfold nd, gedge; split.
  - intros [s [l [d [Hh Hn]]]]; exists s, d; split; eauto.
  - intros [u [v [[l Hl] Hn]]]; exists u, l, v; auto.
Qed.

Lemma chains_bounded {N L} `{EN : EqDec N} `{EL : EqDec L} ordt (g : graph N L) initial : is_order ordt -> gwf g ->
  ~ left_ext (gedge g) initial -> nd (gedge g) initial ->
  (forall x, reach (gedge g) initial x -> ~ forced_cycle_at (gedge g) x) ->
  forall sched fuel, chain_bound (length (all_nodes ordt g)) <= fuel ->
    exists out, get_max_chains ordt sched initial g fuel = (out, SDone) /\
      (forall c, In c out -> maximal_chain (gedge g) c) /\
      (forall c h, maximal_chain (gedge g) c -> nth_error c 0 = Some h -> reach (gedge g) initial h -> In c out).
Proof.
  intros Hordt Hw Hi Hn Hno sched fuel Hfuel; unfold get_max_chains.
  destruct (tables_correct ordt Hordt g Hw) as [ut [deg [E [H1 [H2 [H3 H4]]]]]]; rewrite E; fold (cinit initial).
  assert (Hnodes := nodes_of g ut H2).
  set (rk := frank ut). set (R := S (length (keys ut))).
  assert (Hlen : length (keys ut) = length (all_nodes ordt g)).
  { apply NoDup_same_length; [auto|apply all_nodes_NoDup|]. intros x; rewrite H2, all_nodes_nd by auto; reflexivity. }
  assert (Hrank : forall x y, reach (gedge g) initial x -> only_succ (gedge g) x y -> rk y < rk x)
    by (intros x y; apply (frank_lt (gedge g) ut initial H3 Hnodes Hno)).
  assert (HR : forall x, rk x <= R) by (intros x; apply Nat.le_min_r).
  assert (Hb0 : base (gedge g) ut initial (cinit initial)) by (apply base_init, H2, Hn).
  assert (Hm : measure ut rk R (cinit initial) < fuel).
  { eapply Nat.lt_le_trans; [|exact Hfuel]; unfold measure.
    pose proof (weight_le (gedge g) ut initial rk R HR (cinit initial) Hb0) as Hwt; unfold bnd in Hwt.
    assert (Hu : unseen ut (cinit initial) <= length (keys ut)).
    { unfold unseen; apply NoDup_incl_length; [apply set_diff_NoDup; auto|]. intros x Hx; apply set_diff_In in Hx; tauto. }
    unfold chain_bound; rewrite <- Hlen; unfold bnd; fold R.
    pose proof (Nat.mul_le_mono_r _ _ (length (keys ut) * (2 * R + 3) + (2 * R + 2) + 1) Hu). lia. }
  destruct (run_terminates (gedge g) ut deg initial H3 Hnodes H4 Hi rk R Hrank HR H1 sched fuel 0 (cinit initial))
    as [st' [Er [Hf [Hb [Hs Hk]]]]]; auto.
  - apply sound_init; auto.
  - apply complete_init.
  - rewrite Er; exists (c_out st'); split; auto; split; [apply (s_out _ _ Hs)|].
    intros c h Hm' Hh Hr.
    pose proof (finished_explored g initial ut st' Hb Hk Hf h Hr) as Hex.
    assert (Hfo : forced (gedge g) h).
    { destruct Hm' as [Hl [Hc _]]; destruct c as [|a [|b c]]; simpl in Hl; try lia.
      simpl in Hh; inversion Hh; subst; exists b; apply (Hc 0); reflexivity. }
    destruct (k_head _ _ _ Hk h Hex Hfo) as [X|[[c1 X]|X]]; [| |auto].
    + destruct X as [u X]; exfalso; destruct Hm' as [_ [_ [_ Hleft]]]; apply (Hleft u h Hh X).
    + unfold finished in Hf; rewrite X in Hf; destruct (c_explore st'); discriminate.
Qed.

(** ** Trees of actions *)
Fixpoint hsize {B} (n : hnode B) : nat :=
  match n with Plain _ => 1 | Meta _ l => S (fold_right (fun x a => hsize x + a) 0 l) end.

Lemma hsize_in {B} (k : mkind) (l : list (hnode B)) x : In x l -> hsize x < hsize (Meta k l).
Proof.
  intros Hx; cbn [hsize]; induction l as [|y l IH]; [destruct Hx|]; cbn [fold_right].
  destruct Hx as [<-|Hx]; [lia|specialize (IH Hx); lia].
Qed.

Lemma leaves_meta {B} k (l : list (hnode B)) b : In b (leaves (Meta k l)) <-> exists x, In x l /\ In b (leaves x).
Proof. cbn [leaves]; apply in_flat_map. Qed.

Lemma leaves_NoDup {B} k (l : list (hnode B)) : NoDup l -> (forall x, In x l -> NoDup (leaves x)) ->
  (forall x y b, In x l -> In y l -> In b (leaves x) -> In b (leaves y) -> x = y) -> NoDup (leaves (Meta k l)).
Proof.
  cbn [leaves]; induction l as [|x l IH]; intros Hn Hl Hd; [constructor|]; cbn [flat_map].
  inversion Hn as [|? ? Hx Hn']; subst.
  apply NoDup_app_disj; [apply Hl; simpl; auto| |].
  - apply IH; auto; [intros y Hy; apply Hl; simpl; auto|]. intros a b c Ha Hb; apply Hd; simpl; auto.
  - intros b Hb Hb'; apply in_flat_map in Hb'; destruct Hb' as [y [Hy Hby]].
    assert (x = y) by (apply (Hd x y b); simpl; auto). subst; auto.
Qed.

(** ** The invariant of the extraction *)
Section Extract.
  Context {B L : Type} `{EB : EqDec B} `{EL : EqDec L}.
  Variable e : L.
  Variables (orig : B -> Prop) (nx : B -> B -> Prop) (i0 t0 : B).
  Hypothesis Horig : forall a b, nx a b -> orig a /\ orig b.

  Definition part (c : conj B L) (m : hnode B) : Prop := nd (gedge (cj_graph c)) m \/ m = cj_initial c.

  Record hinv (c : conj B L) : Prop := {
    v_wf : gwf (cj_graph c);
    v_A1 : forall u, ~ gedge (cj_graph c) u (cj_initial c);
    v_A2 : forall v, ~ gedge (cj_graph c) (cj_terminal c) v;
    v_A3 : forall x, nd (gedge (cj_graph c)) x -> reach (gedge (cj_graph c)) x (cj_terminal c);
    v_A4 : nd (gedge (cj_graph c)) (cj_initial c) \/
           ((forall u v, ~ gedge (cj_graph c) u v) /\ cj_initial c = cj_terminal c);
    v_leaves : forall m, part c m -> NoDup (leaves m) /\ leaves m <> [] /\ forall b, In b (leaves m) -> orig b;
    v_disj : forall m m' b, part c m -> part c m' -> In b (leaves m) -> In b (leaves m') -> m = m';
    v_cover : forall b, orig b -> exists m, part c m /\ In b (leaves m);
    v_edge : forall m m', part c m -> part c m' -> m <> m' -> (gedge (cj_graph c) m m' <-> joined nx m m');
    v_grp : forall m, part c m -> grouped nx m;
    v_i : In i0 (leaves (cj_initial c));
    v_t : part c (cj_terminal c) /\ In t0 (leaves (cj_terminal c))
  }.

  Lemma gedge_compacted (g g' : graph (hnode B) L) K M :
    (forall s l d, has_transition g' s l d = true <->
       compacted (fun s l d => has_transition g s l d = true) K M e s l d) ->
    forall s d, gedge g' s d <-> E' (gedge g) K M s d.
  Proof.
    intros H s d; unfold E', gedge; split.
    - intros [l Hl]; apply H in Hl; destruct Hl as [[Hh [H1 H2]]|[[_ [-> [H2 [s0 [l0 [Hs Hh]]]]]]|[_ [-> [H1 [d0 [l0 [Hd Hh]]]]]]]].
      + left; eauto.
      + right; left; eauto 6.
      + right; right; eauto 6.
    - intros [[[l Hh] [H1 H2]]|[[-> [H2 [s0 [Hs [l0 Hh]]]]]|[-> [H1 [d0 [Hd [l0 Hh]]]]]]].
      + exists l; apply H; left; auto.
      + exists e; apply H; right; left; eauto 8.
      + exists e; apply H; right; right; eauto 8.
  Qed.

  Lemma nd_ext {N} (E1 E2 : N -> N -> Prop) : (forall x y, E1 x y <-> E2 x y) -> forall x, nd E1 x <-> nd E2 x.
  Proof. intros H x; unfold nd; split; intros [u [v [He Hx]]]; exists u, v; split; auto; apply H; auto. Qed.
  Lemma reach_ext {N} (E1 E2 : N -> N -> Prop) : (forall x y, E1 x y <-> E2 x y) -> forall x y, reach E1 x y -> reach E2 x y.
  Proof.
    intros H x y Hr; induction Hr as [x y Hxy|x|x y z _ IH1 _ IH2]; [apply rt_step, H; auto|apply rt_refl|eapply rt_trans; eauto].
  Qed.

  Lemma part_nd c m : hinv c -> nd (gedge (cj_graph c)) (cj_initial c) -> (part c m <-> nd (gedge (cj_graph c)) m).
  Proof. intros Hv Hi; split; [intros [H| ->]; auto|intros H; left; auto]. Qed.

  (** One compaction. *)
  Lemma compact_hinv ordt c k K : is_order ordt -> hinv c -> nd (gedge (cj_graph c)) (cj_initial c) ->
    NoDup K -> 2 <= length K -> (forall x, In x K -> nd (gedge (cj_graph c)) x) ->
    (In (cj_initial c) K -> forall u s, In s K -> ~ In u K -> ~ gedge (cj_graph c) u s) ->
    (In (cj_terminal c) K -> forall s v, In s K -> ~ In v K -> ~ gedge (cj_graph c) s v) ->
    grouped nx (Meta k K) ->
    exists c', cj_compact e ordt c K (Meta k K) = Ok c' /\ hinv c' /\
      length (all_nodes ordt (cj_graph c')) < length (all_nodes ordt (cj_graph c)).
  Proof.
    intros Ho Hv Hi HKn HKl HK H1 H2 Hg; set (M := Meta k K) in *.
    destruct Hv as [Vw V1 V2 V3 V4 Vl Vd Vc Ve Vg Vi Vt].
    set (g := cj_graph c) in *; set (i := cj_initial c) in *; set (t := cj_terminal c) in *.
    assert (HK0 : K <> []) by (destruct K; simpl in HKl; [lia|discriminate]).
    assert (HKx : exists x, In x K) by (clear -HK0; destruct K as [|x K0]; [congruence|exists x; simpl; auto]).
    assert (HMsize : forall x, In x K -> x <> M).
    { intros x Hx ->; pose proof (hsize_in k K M Hx); unfold M in *; lia. }
    assert (HM : ~ nd (gedge g) M).
    { intros Hm; destruct HKx as [x Hx].
      assert (Px : part c x) by (left; apply HK; auto).
      destruct (Vl x Px) as [_ [Hne _]]; destruct (leaves x) as [|b lx] eqn:El; [congruence|].
      assert (Hb : In b (leaves x)) by (rewrite El; simpl; auto).
      apply (HMsize x Hx), (Vd x M b); auto; [left; auto|apply leaves_meta; eauto]. }
    unfold cj_compact; fold g i t.
    destruct (compact_correct ordt e g K M Ho Vw) as [g' [Eg [Hw' Hh]]]; rewrite Eg; cbn [bind].
    eexists; split; [reflexivity|].
    pose proof (gedge_compacted g g' K M Hh) as He.
    pose proof (nd_ext _ _ He) as Hnd.
    pose proof (parts' (gedge g) i t K M V1 V2 V3 Hi HK HM HK0 H1 H2) as Hparts.
    set (c' := {| cj_graph := g'; cj_initial := if mem i K then M else i; cj_terminal := if mem t K then M else t |}).
    assert (Hpart : forall m, part c' m <-> (nd (gedge g) m /\ ~ In m K) \/ m = M).
    { intros m; unfold part, c'; cbn [cj_graph cj_initial]; rewrite Hnd; apply Hparts. }
    assert (HpM : forall m, part c' m -> m <> M -> part c m /\ ~ In m K).
    { intros m Hm Hne; apply Hpart in Hm; destruct Hm as [[Hm Hk]| ->]; [split; [left; auto|auto]|congruence]. }
    assert (HpK : forall x, In x K -> part c x) by (intros x Hx; left; auto).
    split.
    - constructor; unfold c'; cbn [cj_graph cj_initial cj_terminal]; fold c'.
      + auto.
      + intros u Hu; apply He in Hu; revert Hu; apply (A1' (gedge g) i K M V1 Hi HM H1).
      + intros v Hv; apply He in Hv; revert Hv; apply (A2' (gedge g) i t K M V1 V2 V3 Hi HM H1 H2).
      + intros x Hx; apply Hnd in Hx. apply (reach_ext (E' (gedge g) K M)); [intros a b; symmetry; apply He|].
        apply (A3' (gedge g) t K M V3 x Hx).
      + destruct (A4' (gedge g) i t K M V1 V2 V3 Hi HM H1 H2) as [[Hni _]|[Hno [Hq _]]].
        * left; apply Hnd; auto.
        * right; split; [intros u v Huv; apply He in Huv; apply (Hno u v Huv)|exact Hq].
      + intros m Hm; destruct (eq_dec m M) as [->|Hne]; [|apply Vl, HpM; auto].
        split; [|split].
        * apply leaves_NoDup; auto; [intros x Hx; apply Vl; auto|]. intros x y b Hx Hy; apply Vd; auto.
        * destruct HKx as [x Hx].
          destruct (Vl x (HpK x Hx)) as [_ [Hn _]]; destruct (leaves x) as [|b lx] eqn:El; [congruence|].
          intros Hnil; assert (Hb : In b (leaves M)) by (apply leaves_meta; exists x; rewrite El; simpl; auto).
          rewrite Hnil in Hb; destruct Hb.
        * intros b Hb; apply leaves_meta in Hb; destruct Hb as [x [Hx Hb]]; apply (Vl x (HpK x Hx)); auto.
      + intros m m' b Hm Hm' Hb Hb'.
        destruct (eq_dec m M) as [->|Hne], (eq_dec m' M) as [->|Hne']; auto.
        * exfalso; apply leaves_meta in Hb; destruct Hb as [x [Hx Hb]]; destruct (HpM m' Hm' Hne') as [Pm Hk].
          assert (x = m') by (apply (Vd x m' b); auto). subst; auto.
        * exfalso; apply leaves_meta in Hb'; destruct Hb' as [x [Hx Hb']]; destruct (HpM m Hm Hne) as [Pm Hk].
          assert (x = m) by (apply (Vd x m b); auto). subst; auto.
        * apply (Vd m m' b); auto; apply HpM; auto.
      + intros b Hb; destruct (Vc b Hb) as [m [Hm Hbm]].
        destruct (in_dec eq_dec m K) as [Hk|Hk].
        * exists M; split; [apply Hpart; auto|apply leaves_meta; eauto].
        * exists m; split; auto; apply Hpart; left; split; auto. destruct Hm as [Hm| ->]; auto.
      + intros m m' Hm Hm' Hne; rewrite He.
        destruct (eq_dec m M) as [->|HmM]; [|destruct (eq_dec m' M) as [->|HmM']].
        * destruct (HpM m' Hm' (not_eq_sym Hne)) as [Pm' Hk']; split.
          -- intros [[Hx _]|[[_ [_ [s0 [Hs Hx]]]]|[-> _]]]; [exfalso; apply HM; exists M, m'; auto| |congruence].
             apply (Ve s0 m') in Hx; auto; [|intros ->; auto].
             destruct Hx as [a [b [Ha [Hb Hab]]]]; exists a, b; split; auto; apply leaves_meta; eauto.
          -- intros [a [b [Ha [Hb Hab]]]]; apply leaves_meta in Ha; destruct Ha as [s0 [Hs Ha]].
             right; left; split; auto; split; auto; exists s0; split; auto.
             apply Ve; auto; [intros ->; auto|exists a, b; auto].
        * destruct (HpM m Hm HmM) as [Pm Hk]; split.
          -- intros [[Hx _]|[[-> _]|[_ [_ [d0 [Hd Hx]]]]]]; [exfalso; apply HM; exists m, M; auto|congruence|].
             apply (Ve m d0) in Hx; auto; [|intros ->; auto].
             destruct Hx as [a [b [Ha [Hb Hab]]]]; exists a, b; split; auto; split; auto; apply leaves_meta; eauto.
          -- intros [a [b [Ha [Hb Hab]]]]; apply leaves_meta in Hb; destruct Hb as [d0 [Hd Hb]].
             right; right; split; auto; split; auto; exists d0; split; auto.
             apply Ve; auto; [intros ->; auto|exists a, b; auto].
        * destruct (HpM m Hm HmM) as [Pm Hk], (HpM m' Hm' HmM') as [Pm' Hk']; rewrite <- (Ve m m' Pm Pm' Hne); split.
          -- intros [[Hx _]|[[-> _]|[-> _]]]; auto; congruence.
          -- intros Hx; left; auto.
      + intros m Hm; destruct (eq_dec m M) as [->|Hne]; auto. apply Vg, HpM; auto.
      + destruct (mem i K) eqn:Em; auto. apply mem_In in Em; apply leaves_meta; exists i; auto.
      + destruct Vt as [Pt Ht]; destruct (mem t K) eqn:Em.
        * apply mem_In in Em; split; [apply Hpart; auto|apply leaves_meta; exists t; auto].
        * apply mem_not_In in Em; split; auto; apply Hpart; left; split; auto. destruct Pt as [Pt| ->]; auto.
    - cbn [c' cj_graph].
      assert (Hle : length (all_nodes ordt g' ++ K) <= length (M :: all_nodes ordt g)).
      { apply NoDup_incl_length.
        - apply NoDup_app_disj; [apply all_nodes_NoDup|auto|].
          intros x Hx Hk; apply (all_nodes_nd ordt g' Ho Hw'), Hnd, nd'_cases in Hx; destruct Hx as [[_ Hx]|Hx]; auto.
          apply (HMsize x Hk Hx).
        - intros x Hx; apply in_app_iff in Hx; destruct Hx as [Hx|Hx].
          + apply (all_nodes_nd ordt g' Ho Hw'), Hnd, nd'_cases in Hx; destruct Hx as [[Hx _]|Hx]; [right|left; auto].
            apply (all_nodes_nd ordt g Ho Vw); auto.
          + right; apply (all_nodes_nd ordt g Ho Vw); auto. }
      rewrite app_length in Hle; cbn [length] in Hle; lia.
  Qed.

  Lemma owner c a : hinv c -> orig a -> exists m, part c m /\ In a (leaves m).
  Proof. intros Hv; apply (v_cover c Hv). Qed.

  Lemma chain_grouped c K : hinv c -> nd (gedge (cj_graph c)) (cj_initial c) -> 2 <= length K -> is_chain (gedge (cj_graph c)) K ->
    grouped nx (Meta KSequence K).
  Proof.
    intros Hv Hi Hl HK.
    assert (HP : forall x, In x K -> part c x) by (intros x Hx; left; apply (chain_nd _ K); auto).
    assert (HN : NoDup K) by (apply (chain_NoDup (gedge (cj_graph c)) (cj_terminal c)); auto; [apply (v_A2 c Hv)|apply (v_A3 c Hv)]).
    constructor; auto.
    - intros x Hx; apply (v_grp c Hv); auto.
    - intros a x y Hx Hy.
      assert (Px : part c x) by (apply HP; eapply nth_error_In; eauto).
      assert (Py : part c y) by (apply HP; eapply nth_error_In; eauto).
      destruct (HK a x y Hx Hy) as [[He Hs] [_ Hp]].
      assert (Hne : x <> y).
      { intros ->; assert (a = S a); [|lia]. apply (proj1 (NoDup_nth_error K) HN); [apply nth_error_Some; congruence|congruence]. }
      split; [apply (v_edge c Hv); auto|split].
      + intros u v Hu Huv; destruct (owner c v Hv (proj2 (Horig u v Huv))) as [m [Pm Hm]].
        destruct (eq_dec x m) as [->|Hxm]; auto. right.
        rewrite <- (Hs m); auto. apply (v_edge c Hv); auto. exists u, v; auto.
      + intros u v Hvl Huv; destruct (owner c u Hv (proj1 (Horig u v Huv))) as [m [Pm Hm]].
        destruct (eq_dec m y) as [->|Hxm]; auto. left.
        rewrite <- (Hp m); auto. apply (v_edge c Hv); auto. exists u, v; auto.
  Qed.

  Lemma clique_grouped c K : hinv c -> 2 <= length K -> both_clique (gedge (cj_graph c)) K -> grouped nx (Meta KParallel K).
  Proof.
    intros Hv Hl HK.
    assert (HP : forall x, In x K -> part c x) by (intros x Hx; left; apply (clique_nd _ K); auto).
    constructor; auto.
    - intros x Hx; apply (v_grp c Hv); auto.
    - intros x y Hx Hy Hne; destruct HK as [_ HK]; destruct (HK x y Hx Hy Hne).
      split; apply (v_edge c Hv); auto.
  Qed.

  Definition orders_ok (o : orders B L) : Prop :=
    is_order (o_trans o) /\ is_order (o_unique o) /\ (forall r, is_order (o_pivot o r)) /\ (forall r, is_order (o_rest o r)).

  Definition done (c : conj B L) : Prop :=
    (forall u v, ~ gedge (cj_graph c) u v) \/
    ((forall K h, maximal_chain (gedge (cj_graph c)) K -> nth_error K 0 = Some h -> ~ reach (gedge (cj_graph c)) (cj_initial c) h) /\
     (forall K, maximal_clique (nd (gedge (cj_graph c))) (fun u v => gedge (cj_graph c) u v /\ gedge (cj_graph c) v u) K -> 2 <= length K ->
                ~ (forall u, In u K -> ~ gedge (cj_graph c) u u))).

  Lemma chain_bound_le n m : n <= m -> chain_bound n <= chain_bound m.
  Proof.
    intros H; unfold chain_bound.
    assert (H1 : n * (2 * S n + 3) <= m * (2 * S m + 3)) by (apply Nat.mul_le_mono; lia).
    assert (H2 : n * (n * (2 * S n + 3) + (2 * S n + 2) + 1) <= m * (m * (2 * S m + 3) + (2 * S m + 2) + 1)) by (apply Nat.mul_le_mono; lia).
    lia.
  Qed.

  Lemma nodes_length o1 o2 (g : graph (hnode B) L) : is_order o1 -> is_order o2 -> gwf g ->
    length (all_nodes o1 g) = length (all_nodes o2 g).
  Proof.
    intros H1 H2 Hw; apply NoDup_same_length; try apply all_nodes_NoDup. intros x; rewrite !all_nodes_nd by auto; reflexivity.
  Qed.

  Lemma extract_correct (ords : nat -> orders B L) (Hords : forall k, orders_ok (ords k)) fuel : forall turns k c, hinv c ->
    length (all_nodes (o_trans (ords k)) (cj_graph c)) < turns ->
    chain_bound (length (all_nodes (o_trans (ords k)) (cj_graph c))) <= fuel ->
    exists r, extract e ords fuel turns k c = Ok r /\ hinv r /\ done r.
  Proof.
    induction turns as [|turns IH]; intros k c Hv Hl Hf; [lia|]; cbn [extract].
    destruct (Hords k) as [O1 [O2 [O3 O4]]].
    set (o := ords k) in *; set (g := cj_graph c) in *.
    pose proof (v_wf c Hv) as Hw; fold g in Hw.
    destruct (Nat.leb (length (all_nodes (o_trans o) g)) 1) eqn:En.
    { exists c; split; auto; split; auto; left; apply Nat.leb_le in En.
      intros u v Huv; destruct (v_A4 c Hv) as [[x [y [Hxy Hi]]]|[Hno _]]; [|apply (Hno u v Huv)].
      pose proof (v_A1 c Hv) as A1; destruct Hi as [Hi|Hi]; [|apply (A1 x); rewrite Hi; auto].
      assert (Hne : x <> y) by (intros ->; apply (A1 y); rewrite Hi; auto).
      assert (2 <= length (all_nodes (o_trans o) g)); [|lia].
      apply (NoDup_incl_length (l := [x; y])).
      - repeat constructor; simpl; [intros [->|[]]; auto|tauto].
      - intros z Hz; apply all_nodes_nd; auto; exists x, y; split; auto; simpl in Hz; intuition. }
    assert (Hi : nd (gedge g) (cj_initial c)).
    { destruct (v_A4 c Hv) as [Hi|[Hno _]]; auto. exfalso; apply Nat.leb_gt in En.
      destruct (all_nodes (o_trans o) g) as [|x l] eqn:Ex; [simpl in En; lia|].
      assert (Hx : nd (gedge g) x) by (apply (all_nodes_nd (o_trans o) g O1 Hw); rewrite Ex; simpl; auto).
      destruct Hx as [u [v [Huv _]]]; apply (Hno u v Huv). }
    assert (Hstep : forall kk K, NoDup K -> 2 <= length K -> (forall x, In x K -> nd (gedge g) x) ->
      (In (cj_initial c) K -> forall u s, In s K -> ~ In u K -> ~ gedge g u s) ->
      (In (cj_terminal c) K -> forall s v, In s K -> ~ In v K -> ~ gedge g s v) -> grouped nx (Meta kk K) ->
      exists r, (do c' <- cj_compact e (o_trans o) c K (Meta kk K); extract e ords fuel turns (S k) c') = Ok r /\ hinv r /\ done r).
    { intros kk K K1 K2 K3 K4 K5 K6.
      destruct (compact_hinv (o_trans o) c kk K O1 Hv Hi K1 K2 K3 K4 K5 K6) as [c' [Ec [Hv' Hlt]]]; rewrite Ec; cbn [bind].
      destruct (Hords (S k)) as [O1' _].
      rewrite (nodes_length (o_trans o) (o_trans (ords (S k))) (cj_graph c') O1 O1' (v_wf c' Hv')) in Hlt; fold g in Hlt.
      apply IH; auto; [lia|]. eapply Nat.le_trans; [|exact Hf]. apply chain_bound_le; lia. }
    unfold next_chain; fold g.
    destruct (chains_bounded (o_trans o) g (cj_initial c) O1 Hw) with (sched := o_pop o) (fuel := fuel) as [out [Eo [Hs Hc]]]; auto.
    { intros [u [[Hu _] _]]; apply (v_A1 c Hv u Hu). }
    { intros x _; apply (no_forced_cycle _ (cj_terminal c)); [apply (v_A2 c Hv)|apply (v_A3 c Hv)]. }
    rewrite Eo; destruct out as [|K out]; cbn [bind].
    - destruct (cliques_sound (o_trans o) (o_unique o) (o_pivot o) (o_rest o) g O1 O2 O3 O4 Hw) as [cs [Ecs Hcs]].
      rewrite Ecs; cbn [bind]; destruct cs as [|K cs].
      + exists c; split; auto; split; auto; right; fold g; split.
        * intros K h Hm Hh Hr; apply (Hc K h Hm Hh Hr).
        * intros K HK H2 Hno.
          destruct (CliqueProofs.get_max_cliques_correct (o_trans o) (o_unique o) O1 O2 g Hw (o_pivot o) (o_rest o) O3 O4) as [cs [Ecs' [_ [Hall _]]]].
          rewrite Ecs in Ecs'; inversion Ecs'; subst cs.
          destruct (Hall K) as [c' [[] _]]; auto; [|intros u Hu [X _]; apply (Hno u Hu X)].
          destruct HK as [[C1 [C2 C3]] C4]; split; [split; [auto|split; auto]|].
          -- intros u Hu; apply all_nodes_nd; auto.
          -- intros v Hv'; apply C4, (all_nodes_nd (o_trans o) g O1 Hw); auto.
      + destruct (Hcs K) as [Hl2 Hb]; [simpl; auto|].
        pose proof (clique_no_i (gedge g) (cj_initial c) (v_A1 c Hv) K Hl2 Hb) as Hni.
        pose proof (clique_no_t (gedge g) (cj_terminal c) (v_A2 c Hv) K Hl2 Hb) as Hnt.
        apply (Hstep KParallel K); auto; try tauto; [apply Hb|apply (clique_nd _ K); auto|apply (clique_grouped c); auto].
    - destruct (Hs K) as [Hl2 [Hch _]]; [simpl; auto|].
      apply (Hstep KSequence K); auto.
      + apply (chain_NoDup (gedge g) (cj_terminal c)); [apply (v_A2 c Hv)|apply (v_A3 c Hv)|auto].
      + apply (chain_nd _ K); auto.
      + apply (chain_H1 (gedge g) (cj_initial c)); auto; apply (v_A1 c Hv).
      + apply (chain_H2 (gedge g) (cj_terminal c)); auto; apply (v_A2 c Hv).
      + apply (chain_grouped c); auto.
  Qed.
End Extract.

(** ** Walks through a compacted graph *)
Section Walks.
  Context {N : Type} `{EN : EqDec N}.
  Variables (E : N -> N -> Prop) (K : list N) (M : N).

  Lemma is_walk_cons (R : N -> N -> Prop) a b w : is_walk R (a :: b :: w) <-> R a b /\ is_walk R (b :: w).
  Proof.
    split.
    - intros H; split; [apply (H 0); reflexivity|]. intros k u v Hu Hv; apply (H (S k)); auto.
    - intros [H1 H2] [|k] u v Hu Hv; [simpl in Hu, Hv; inversion Hu; inversion Hv; subst; auto|apply (H2 k); auto].
  Qed.
  Lemma is_walk_one (R : N -> N -> Prop) a : is_walk R [a].
  Proof. intros [|[|k]] u v Hu Hv; simpl in *; discriminate. Qed.

  Lemma last_any (w : list N) d d' : w <> [] -> last w d = last w d'.
  Proof.
    induction w as [|x w IHw]; intros Hn; [congruence|].
    destruct w as [|y w]; [reflexivity|]. change (last (y :: w) d = last (y :: w) d'); apply IHw; discriminate.
  Qed.

  Lemma walk_merges w : forall a, is_walk E (a :: w) ->
    exists w', merges K M (a :: w) (im K M a :: w') /\ is_walk (E' E K M) (im K M a :: w') /\
      forall d, last (im K M a :: w') d = im K M (last (a :: w) a).
  Proof.
    induction w as [|b w IH]; intros a Hw.
    - exists []; split; [|split; [apply is_walk_one|reflexivity]].
      destruct (in_dec eq_dec a K) as [Ha|Ha].
      + rewrite im_in by auto. apply (MStay K M a [] [] []); [intros x [<-|[]]; auto|intros x Hx; discriminate|constructor].
      + rewrite im_out by auto. constructor; auto; constructor.
    - apply is_walk_cons in Hw; destruct Hw as [Hab Hw].
      destruct (IH b Hw) as [w' [Hm [Hw' Hlast]]].
      assert (Hl : last (a :: b :: w) a = last (b :: w) b).
      { change (last (a :: b :: w) a) with (last (b :: w) a). apply last_any; discriminate. }
      destruct (in_dec eq_dec a K) as [Ha|Ha].
      + rewrite (im_in K M a Ha). destruct (in_dec eq_dec b K) as [Hb|Hb].
        * rewrite (im_in K M b Hb) in *.
          exists w'; split; [|split; [auto|intros d; rewrite Hl; apply Hlast]].
          inversion Hm as [|n w1 w1' Hn Hm1 E1 E2|n stay w1 w1' Hincl Hfst Hm1 E1 E2]; subst; [contradiction|].
          apply (MStay K M a (b :: stay) w1 w'); auto. intros x [<-|Hx]; auto.
        * exists (im K M b :: w'); split; [|split].
          -- apply (MStay K M a [] (b :: w)); auto; [intros x [<-|[]]; auto|]. simpl; intros x Hx; inversion Hx; subst; auto.
          -- apply is_walk_cons; split; auto. rewrite (im_out K M b Hb); right; left; eauto.
          -- intros d; rewrite Hl; apply Hlast.
      + exists (im K M b :: w'); split; [|split].
        * rewrite (im_out K M a Ha); constructor; auto.
        * apply is_walk_cons; split; auto. destruct (edge_im E K M a b Hab) as [[X _]|X]; auto; contradiction.
        * intros d; rewrite Hl; apply Hlast.
  Qed.

  Lemma walk_between_merges a b w : walk_between E a b w ->
    exists w', merges K M w w' /\ walk_between (E' E K M) (im K M a) (im K M b) w'.
  Proof.
    intros [Hw [Ha [Hn Hb]]]; destruct w as [|x w]; [congruence|]; simpl in Ha; inversion Ha; subst x.
    destruct (walk_merges w a Hw) as [w' [Hm [Hw' Hl]]].
    exists (im K M a :: w'); split; auto; split; auto; split; [reflexivity|split; [discriminate|]].
    rewrite (nth_error_last _ a) by discriminate; rewrite Hl.
    rewrite (nth_error_last _ a) in Hb by discriminate; assert (Hb' : last (a :: w) a = b) by congruence; rewrite Hb'; reflexivity.
  Qed.
End Walks.

Lemma merges_ext_walk {N} (R R' : N -> N -> Prop) a b w : (forall x y, R x y <-> R' x y) -> walk_between R a b w -> walk_between R' a b w.
Proof. intros H [Hw Hr]; split; auto; intros k u v Hu Hv; apply H, (Hw k); auto. Qed.

(** ** The conjugate of a task graph meets the invariant *)
Section ConjHinv.
  Context {S B : Type} `{ES : EqDec S} `{EB : EqDec B}.
  Variable check : hnode B -> S -> S -> res bool.
  Variables (ord : list (hnode B * S) -> list (hnode B * S)) (ords : list S -> list S) (i t : B).
  Hypotheses (Ho1 : is_order ord) (Ho2 : is_order ords).
  Variables (h : list (list (item S (hnode B)))) (g : graph (hnode B) S).
  Hypothesis Hc : from_task_graph ord ords (Plain i) (Plain t) (add_paths check h) = Ok g.
  Hypothesis Hplain : forall s a d, step_of_some check h s a d -> exists b, a = Plain b /\ b <> i /\ b <> t.
  Hypothesis Hit : i <> t.
  Hypothesis Hex : exists s a d, step_of_some check h s a d.

  Definition task_action (b : B) : Prop := b = i \/ b = t \/ exists s d, step_of_some check h s (Plain b) d.
  Definition can_follow (a b : B) : Prop := gedge g (Plain a) (Plain b).

  Lemma Hfr s a d : step_of_some check h s a d -> a <> Plain i /\ a <> Plain t.
  Proof. intros Hs; destruct (Hplain s a d Hs) as [b [-> [H1 H2]]]; split; congruence. Qed.
  Lemma Hne : Plain i <> Plain t.
  Proof. congruence. Qed.

  Lemma nd_gnode x : nd (gedge g) x <-> gnode_of g x.
  Proof. reflexivity. Qed.

  Lemma node_iff x : nd (gedge g) x <-> exists b, x = Plain b /\ task_action b.
  Proof.
    destruct (conj_spec check ord ords (Plain i) (Plain t) Ho1 Ho2 h g Hc Hfr Hne) as [Hw Hspec].
    split.
    - intros [u [v [[l Hl] Hx]]]; apply Hspec in Hl.
      assert (Hst : forall s a d, step_of_some check h s a d -> exists b, a = Plain b /\ task_action b).
      { intros s a d Hs; destruct (Hplain s a d Hs) as [b [-> _]]; exists b; split; auto; right; right; eauto. }
      destruct Hl as [s1 a1 d1 X1 X2|s1 a1 s2 X1 X2|s1 a1 s2 a2 d2 X1 X2 X3]; destruct Hx as [->| ->]; eauto.
      + exists i; split; auto; left; auto.
      + exists t; split; auto; right; left; auto.
    - assert (Hni : nd (gedge g) (Plain i)) by (apply (initial_node check ord ords (Plain i) (Plain t) Ho1 Ho2 h g Hc Hfr Hne Hex)).
      assert (Hrt : forall z, reach (gedge g) z (Plain t) -> z <> Plain t -> nd (gedge g) z).
      { intros z Hr Hx; apply clos_rt_rt1n in Hr; inversion Hr as [Heq|y z1 Hy _ Hz]; [congruence|]. exists z, y; auto. }
      intros [b [-> [->|[->|[s [d Hs]]]]]]; auto.
      + pose proof (all_reach_terminal check ord ords (Plain i) (Plain t) Ho1 Ho2 h g Hc Hfr Hne (Plain i) Hni) as Hr.
        apply clos_rt_rtn1 in Hr; inversion Hr as [Heq|y z Hy _ Hz]; [congruence|]. exists y, (Plain t); auto.
      + apply Hrt; [|apply (Hfr s (Plain b) d Hs)].
        apply (action_reaches check ord ords (Plain i) (Plain t) Ho1 Ho2 h g Hc Hfr Hne s (Plain b) d Hs).
  Qed.

  Lemma conj_hinv : hinv task_action can_follow i t {| cj_graph := g; cj_initial := Plain i; cj_terminal := Plain t |}.
  Proof.
    destruct (conj_spec check ord ords (Plain i) (Plain t) Ho1 Ho2 h g Hc Hfr Hne) as [Hw Hspec].
    assert (Hni : nd (gedge g) (Plain i)) by (apply node_iff; exists i; split; auto; left; auto).
    assert (Hpt : forall m, part {| cj_graph := g; cj_initial := Plain i; cj_terminal := Plain t |} m -> exists b, m = Plain b /\ task_action b).
    { intros m [Hm| ->]; [apply node_iff; auto|exists i; split; auto; left; auto]. }
    constructor; cbn [cj_graph cj_initial cj_terminal].
    - auto.
    - apply (initial_no_pred check ord ords (Plain i) (Plain t) Ho1 Ho2 h g Hc Hfr Hne).
    - apply (terminal_no_succ check ord ords (Plain i) (Plain t) Ho1 Ho2 h g Hc Hfr Hne).
    - apply (all_reach_terminal check ord ords (Plain i) (Plain t) Ho1 Ho2 h g Hc Hfr Hne).
    - left; auto.
    - intros m Hm; destruct (Hpt m Hm) as [b [-> Hb]]; cbn [leaves]; split; [repeat constructor; simpl; tauto|split; [discriminate|]].
      intros a [<-|[]]; auto.
    - intros m m' b Hm Hm' Hb Hb'; destruct (Hpt m Hm) as [a [-> _]], (Hpt m' Hm') as [a' [-> _]].
      destruct Hb as [<-|[]], Hb' as [<-|[]]; auto.
    - intros b Hb; exists (Plain b); split; [left; apply node_iff; eauto|simpl; auto].
    - intros m m' Hm Hm' _; destruct (Hpt m Hm) as [a [-> _]], (Hpt m' Hm') as [a' [-> _]]; unfold joined, can_follow; cbn [leaves]; split.
      + intros He; exists a, a'; simpl; auto.
      + intros [x [y [[<-|[]] [[<-|[]] He]]]]; auto.
    - intros m Hm; destruct (Hpt m Hm) as [b [-> _]]; constructor.
    - simpl; auto.
    - split; [left; apply node_iff; exists t; split; auto; right; left; auto|simpl; auto].
  Qed.

  Lemma can_follow_action a b : can_follow a b -> task_action a /\ task_action b.
  Proof.
    intros He; split.
    - assert (Hn : nd (gedge g) (Plain a)) by (exists (Plain a), (Plain b); auto).
      apply node_iff in Hn; destruct Hn as [x [Hx Hn]]; inversion Hx; subst; auto.
    - assert (Hn : nd (gedge g) (Plain b)) by (exists (Plain a), (Plain b); auto).
      apply node_iff in Hn; destruct Hn as [x [Hx Hn]]; inversion Hx; subst; auto.
  Qed.
End ConjHinv.
