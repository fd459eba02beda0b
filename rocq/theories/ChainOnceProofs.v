(** Which chains get_max_chains may yield twice. *)
From Verif Require Import PyBase PyBaseFacts GraphModel GraphSpec GraphProofs ChainModel ChainSpec ChainProofs ChainOnceSpec.
From Coq Require Import Relations.

Lemma twice_app {X} (c : X) out l : twice c out -> twice c (out ++ l).
Proof.
  intros (i & j & H & Hi & Hj). exists i, j. split; [exact H|].
  split; rewrite nth_error_app1; auto; apply nth_error_Some; congruence.
Qed.
Lemma twice_new {X} (c : X) out : In c out -> twice c (out ++ [c]).
Proof.
  intros Hin. apply In_nth_error in Hin. destruct Hin as [i Hi]. exists i, (length out).
  assert (i < length out) by (apply nth_error_Some; congruence).
  split; [lia|]. split; [rewrite nth_error_app1; auto|]. rewrite nth_error_app2, Nat.sub_diag; auto.
Qed.
Lemma twice_snoc {X} (c d : X) out : twice c (out ++ [d]) -> twice c out \/ (c = d /\ In c out).
Proof.
  intros (i & j & H & Hi & Hj).
  assert (D : forall k, nth_error (out ++ [d]) k = Some c -> nth_error out k = Some c \/ (k = length out /\ c = d)).
  { intros k E. destruct (Nat.lt_ge_cases k (length out)) as [L|L]; [rewrite nth_error_app1 in E; auto|].
    rewrite nth_error_app2 in E by exact L. destruct (k - length out) as [|q] eqn:Ek; [|destruct q; discriminate].
    right. split; [lia|]. cbn in E. congruence. }
  destruct (D i Hi) as [Di|[Di Ei]]; destruct (D j Hj) as [Dj|[Dj Ej]].
  - left; exists i, j; auto.
  - right; split; [exact Ej|eapply nth_error_In, Di].
  - right; split; [exact Ei|eapply nth_error_In, Dj].
  - lia.
Qed.

Section Once.
  Context {N : Type} `{EN : EqDec N}.
  Variable edge : N -> N -> Prop.
  Variable ut : list (N * list N).
  Variable deg : list (N * nat).
  Variable initial : N.
  Hypothesis Hut : forall n us, lookup n ut = Some us -> NoDup us /\ forall v, In v us <-> edge n v.
  Hypothesis Hnodes : forall u v, edge u v -> node ut u /\ node ut v.
  Hypothesis Hdeg : forall u v, edge u v -> exists k, lookup v deg = Some k /\ (k = 1 <-> only_pred edge u v).
  Hypothesis Hpred : forall u, ~ edge u initial.

  Lemma no_left : ~ left_ext edge initial.
  Proof. intros [u [[H _] _]]. exact (Hpred u H). Qed.

  (** ** A chain yielded twice is found again *)
  Inductive seen (E : list N) : N -> Prop :=
  | seen_init : seen E initial
  | seen_step u v : seen E u -> In u E -> edge u v -> seen E v.

  Lemma seen_mono E F v : (forall x, In x E -> In x F) -> seen E v -> seen F v.
  Proof. intros H. induction 1; [constructor|econstructor; eauto]. Qed.

  Lemma seen_off E n v : ~ In n E -> seen E v -> In v E -> reach_off edge n initial v.
  Proof.
    intros Hn. induction 1 as [|u v Hu IH Hin He]; intros Hv.
    - split; [intros ->; exact (Hn Hv)|apply rt_refl].
    - destruct (IH Hin) as [H0 H1]. split; [exact H0|]. eapply rt_trans; [exact H1|]. apply rt_step. split; [exact He|]. intros ->. exact (Hn Hv).
  Qed.

  Lemma seen_pred E u v : seen E v -> edge u v -> exists m, In m E /\ edge m v /\ seen E m.
  Proof. intros H He. destruct H as [|m v Hm Hin Hmv]; [exfalso; exact (Hpred u He)|exists m; auto]. Qed.

  Lemma again_step x y : found_again edge initial x -> only_succ edge x y -> found_again edge initial y.
  Proof. intros (z & Hz & Hzx) Hxy. exists z. split; [exact Hz|]. eapply rt_trans; [exact Hzx|apply rt_step, Hxy]. Qed.

  (** The current chain is a new one: none of its nodes was explored when it was started. *)
  Definition fresh_chain (st : cstate N) (ch : list N) : Prop :=
    exists E, (forall v, In v (c_explored st) <-> In v E \/ In v ch) /\ (forall v, In v E -> seen E v) /\
      (forall v, In v ch -> ~ In v E) /\ (forall h, nth_error ch 0 = Some h -> seen E h) /\
      (forall c h, In c (c_out st) -> nth_error c 0 = Some h -> In h E).

  Record hist (st : cstate N) : Prop := {
    i_seen : forall v, In v (c_explore st) \/ In v (c_explored st) -> seen (c_explored st) v;
    i_again : forall v, In v (c_explore st) -> In v (c_explored st) -> found_again edge initial v;
    i_chain : forall ch, c_chain st = Some ch -> fresh_chain st ch \/ forall v, In v ch -> found_again edge initial v;
    i_in : forall ch v, c_chain st = Some ch -> In v ch -> In v (c_explored st);
    i_out : forall c h, In c (c_out st) -> nth_error c 0 = Some h -> In h (c_explored st);
    i_twice : forall c h, twice c (c_out st) -> nth_error c 0 = Some h -> found_again edge initial h
  }.

  Lemma hist_init : hist {| c_explore := [initial]; c_explored := []; c_chain := None; c_out := [] |}.
  Proof.
    split; cb.
    - intros v [[<-|[]]|[]]. constructor.
    - intros v _ [].
    - discriminate.
    - discriminate.
    - intros c h [].
    - intros c h (i & j & _ & Hi & _). destruct i; discriminate.
  Qed.

  Lemma chain_inner ch i v : is_chain edge ch -> nth_error ch (S i) = Some v -> left_ext edge v.
  Proof.
    intros Hc E. destruct (nth_error ch i) as [u|] eqn:Eu; [exists u; exact (Hc i u v Eu E)|].
    apply nth_error_None in Eu. assert (S i < length ch) by (apply nth_error_Some; congruence). lia.
  Qed.

  (** What a chain does to the yielded lists, when it ends. *)
  Lemma yield_hist st ch d h : hist st -> c_chain st = Some ch -> nth_error ch 0 = Some h -> nth_error d 0 = Some h ->
    (forall c h, twice c (c_out st ++ [d]) -> nth_error c 0 = Some h -> found_again edge initial h).
  Proof.
    intros Hh Hc H0 Hd c h' Ht E'. apply twice_snoc in Ht. destruct Ht as [Ht|[-> Hin]]; [exact (i_twice st Hh c h' Ht E')|].
    assert (h' = h) as -> by congruence.
    destruct (i_chain st Hh ch Hc) as [(E & _ & _ & HE & _ & Ho)|Ha]; [|apply Ha; eapply nth_error_In, H0].
    exfalso. exact (HE h (nth_error_In _ _ H0) (Ho d h Hin Hd)).
  Qed.

  Lemma turn_hist st st' : base edge ut initial st -> sound edge st -> hist st -> turn edge st st' -> hist st'.
  Proof.
    intros Hb Hs Hh Ht.
    pose proof (i_seen st Hh) as I1; pose proof (i_again st Hh) as I2; pose proof (i_chain st Hh) as I3.
    pose proof (i_in st Hh) as I4; pose proof (i_out st Hh) as I5; pose proof (i_twice st Hh) as I6.
    pose proof (s_te _ _ Hs) as S1; pose proof (s_chain _ _ Hs) as S2.
    assert (Hadd : forall a v, seen (c_explored st) v -> seen (set_add a (c_explored st)) v).
    { intros a v. apply seen_mono. intros x Hx. apply set_add_In; auto. }
    destruct Ht as [x E Hx Hf|x te E Hx Hf Hn|c n y E Hl Hf|c n y te E Hl Hf Hn|c n y E Hos Hop].
    - split; cb.
      + intros v Hv. apply Hadd, I1. destruct Hv as [Hv|Hv]; [apply set_del_In in Hv; tauto|].
        apply set_add_In in Hv. destruct Hv as [->|Hv]; auto.
      + intros v Hv Hv'. apply set_del_In in Hv. apply set_add_In in Hv'. apply I2; [tauto|]. destruct Hv' as [->|]; tauto.
      + intros ch Hch. assert (ch = [x]) as -> by congruence.
        destruct (in_dec eq_dec x (c_explored st)) as [Hin|Hnin].
        * right. intros v [<-|[]]. apply I2; auto.
        * left. exists (c_explored st). cb. split; [intros v; rewrite set_add_In; cbn; intuition congruence|]. split; [auto|].
          split; [intros v [<-|[]]; exact Hnin|]. split; [|exact I5]. intros h Eh. cbn in Eh. assert (h = x) as -> by congruence. auto.
      + intros ch v Hch Hv. assert (ch = [x]) as -> by congruence. destruct Hv as [<-|[]]. apply set_add_In; auto.
      + intros c h Hc Eh. apply set_add_In; right; eauto.
      + exact I6.
    - pose proof (succs_new_In _ _ _ _ _ Hn) as Hte. split; cb.
      + intros v Hv. assert (Hsx : seen (set_add x (c_explored st)) x) by (apply Hadd, I1; auto).
        destruct Hv as [Hv|Hv].
        * apply Hte in Hv. destruct Hv as [Hv|[Hv _]]; [apply set_del_In in Hv; apply Hadd, I1; tauto|].
          eapply seen_step; [exact Hsx|apply set_add_In; auto|exact Hv].
        * apply set_add_In in Hv. destruct Hv as [->|Hv]; [exact Hsx|apply Hadd, I1; auto].
      + intros v Hv Hv'. apply Hte in Hv. destruct Hv as [Hv|[_ Hv]]; [|tauto].
        apply set_del_In in Hv. apply set_add_In in Hv'. apply I2; [tauto|]. destruct Hv' as [->|]; tauto.
      + discriminate.
      + discriminate.
      + intros c h Hc Eh. apply set_add_In; right; eauto.
      + exact I6.
    - assert (Hin : In n (c_explored st)) by (apply (I4 _ n E), in_app_iff; cbn; auto).
      assert (Hsy : seen (set_add y (c_explored st)) y).
      { eapply seen_step; [apply Hadd, I1; right; exact Hin|apply set_add_In; auto|apply Hl]. }
      assert (Hly : left_ext edge y) by (exists n; exact Hl).
      split; cb.
      + intros v [Hv|Hv]; [apply Hadd, I1; auto|]. apply set_add_In in Hv. destruct Hv as [->|Hv]; [exact Hsy|apply Hadd, I1; auto].
      + intros v Hv Hv'. apply I2; [exact Hv|]. apply set_add_In in Hv'. destruct Hv' as [->|]; [exfalso; exact (S1 y Hv Hly)|auto].
      + intros ch Hch. assert (ch = (c ++ [n]) ++ [y]) as -> by congruence.
        destruct (I3 _ E) as [(E0 & H1 & H2 & H3 & H4 & H5)|Ha].
        * left. exists E0. cb. split; [|split; [exact H2|split; [|split; [|exact H5]]]].
          -- intros v. rewrite set_add_In, H1, !in_app_iff. cbn. intuition congruence.
          -- intros v Hv. apply in_app_iff in Hv. destruct Hv as [Hv|[<-|[]]]; [auto|]. intros Hy.
             destruct (seen_pred E0 n y (H2 y Hy) (proj1 (proj1 Hl))) as (m & Hm & Hmy & _).
             assert (m = n) as -> by (apply (proj2 (proj2 Hl)), Hmy). apply (H3 n); [apply in_app_iff; cbn; auto|exact Hm].
          -- intros h. rewrite nth_error_0_app. apply H4.
        * right. intros v Hv. apply in_app_iff in Hv. destruct Hv as [Hv|[<-|[]]]; [auto|].
          apply again_step with n; [apply Ha, in_app_iff; cbn; auto|apply Hl].
      + intros ch v Hch Hv. assert (ch = (c ++ [n]) ++ [y]) as -> by congruence. apply set_add_In.
        apply in_app_iff in Hv. destruct Hv as [Hv|[<-|[]]]; [right; eauto|auto].
      + intros c1 h Hc Eh. apply set_add_In; right; eauto.
      + exact I6.
    - assert (Hin : In n (c_explored st)) by (apply (I4 _ n E), in_app_iff; cbn; auto).
      assert (Hsy : seen (set_add y (c_explored st)) y).
      { eapply seen_step; [apply Hadd, I1; right; exact Hin|apply set_add_In; auto|apply Hl]. }
      assert (Hly : left_ext edge y) by (exists n; exact Hl).
      pose proof (succs_new_In _ _ _ _ _ Hn) as Hte.
      destruct (nth_error (c ++ [n]) 0) as [h0|] eqn:E0; [|destruct c; discriminate]. split; cb.
      + intros v [Hv|Hv].
        * apply Hte in Hv. destruct Hv as [Hv|[Hv _]]; [apply Hadd, I1; auto|]. eapply seen_step; [exact Hsy|apply set_add_In; auto|exact Hv].
        * apply set_add_In in Hv. destruct Hv as [->|Hv]; [exact Hsy|apply Hadd, I1; auto].
      + intros v Hv Hv'. apply Hte in Hv. destruct Hv as [Hv|[_ Hv]]; [|tauto].
        apply I2; [exact Hv|]. apply set_add_In in Hv'. destruct Hv' as [->|]; [exfalso; exact (S1 y Hv Hly)|auto].
      + discriminate.
      + discriminate.
      + intros c1 h Hc Eh. apply set_add_In; right. apply in_app_iff in Hc. destruct Hc as [Hc|[<-|[]]]; [eauto|].
        rewrite nth_error_0_app in Eh. eapply I4; [exact E|eapply nth_error_In, Eh].
      + eapply yield_hist; eauto. rewrite nth_error_0_app. exact E0.
    - assert (Hin : In n (c_explored st)) by (apply (I4 _ n E), in_app_iff; cbn; auto).
      destruct (nth_error (c ++ [n]) 0) as [h0|] eqn:E0; [|destruct c; discriminate]. split; cb.
      + intros v [Hv|Hv]; [|auto]. apply set_add_In in Hv. destruct Hv as [->|Hv]; [|auto].
        eapply seen_step; [apply I1; right; exact Hin|exact Hin|apply Hos].
      + intros v Hv Hv'. apply set_add_In in Hv. destruct Hv as [->|Hv]; [|auto].
        destruct (I3 _ E) as [(F & H1 & H2 & H3 & H4 & H5)|Ha]; [|apply again_step with n; [apply Ha, in_app_iff; cbn; auto|exact Hos]].
        assert (Hns : ~ In n F) by (apply H3, in_app_iff; cbn; auto).
        assert (Hsy : seen F y).
        { apply H1 in Hv'. destruct Hv' as [Hv'|Hv']; [auto|]. apply In_nth_error in Hv'. destruct Hv' as [[|i] Hi]; [exact (H4 y Hi)|].
          exfalso. apply (not_left_ext_of_multi edge n y Hos Hop). eapply chain_inner; [exact (proj1 (S2 _ E))|exact Hi]. }
        destruct (seen_pred F n y Hsy (proj1 Hos)) as (m & Hm & Hmy & Hms).
        exists y. split; [|apply rt_refl]. exists m, n. split; [intros ->; exact (Hns Hm)|]. split; [exact Hmy|]. split; [exact Hos|].
        split; [exact (proj2 (b_ex _ _ _ _ Hb n Hin))|]. eapply seen_off; eauto.
      + discriminate.
      + discriminate.
      + intros c1 h Hc Eh. destruct (Nat.ltb 1 (length (c ++ [n]))); [|eauto]. apply in_app_iff in Hc. destruct Hc as [Hc|[<-|[]]]; [eauto|].
        eapply I4; [exact E|eapply nth_error_In, Eh].
      + destruct (Nat.ltb 1 (length (c ++ [n]))); [|exact I6]. eapply yield_hist; eauto.
  Qed.

  (** ** A chain that is found again is yielded twice in some order *)
  Definition good (st : cstate N) : Prop := base edge ut initial st /\ sound edge st /\ complete edge initial st.

  Lemma turn_good st st' : good st -> turn edge st st' -> good st'.
  Proof.
    intros (Hb & Hs & Hk) Ht. split; [eapply turn_base; eauto|]. split; [eapply turn_sound; eauto|].
    eapply turn_complete; eauto. exact no_left.
  Qed.

  Lemma run_ext (s1 s2 : nat -> nat) : forall fuel k st, (forall j, k <= j -> s1 j = s2 j) -> chain_run ut deg s1 fuel k st = chain_run ut deg s2 fuel k st.
  Proof.
    induction fuel as [|fuel IH]; intros k st Hj; cbn [chain_run]; destruct (finished st); auto.
    rewrite (Hj k) by lia. destruct (chain_step ut deg (s2 k) st); auto. apply IH. intros j Hle. apply Hj. lia.
  Qed.

  Lemma done_explored st : good st -> finished st = true -> forall x, reach edge initial x -> In x (c_explored st).
  Proof.
    intros (Hb & _ & Hk) Hf x Hx.
    assert (Ete : c_explore st = []) by (unfold finished in Hf; destruct (c_explore st); [auto|discriminate]).
    assert (Ec : c_chain st = None) by (unfold finished in Hf; rewrite Ete in Hf; destruct (c_chain st); [discriminate|auto]).
    unfold reach in Hx. apply clos_rt_rtn1 in Hx. induction Hx as [|y z Hyz _ IH].
    - destruct (k_init _ _ _ Hk) as [X|X]; [rewrite Ete in X; destruct X|auto].
    - destruct (k_succ _ _ _ Hk y z IH Hyz) as [X|[X|[c X]]]; [auto|rewrite Ete in X; destruct X|congruence].
  Qed.

  Section Again.
  Variable rank : N -> nat.
  Variable R : nat.
  Hypothesis Hrank : forall x y, reach edge initial x -> only_succ edge x y -> rank y < rank x.
  Hypothesis HR : forall x, rank x <= R.
  Hypothesis Hkeys : NoDup (keys ut).
  Variables (c : list N) (h x m n : N).
  Hypothesis Hmax : maximal_chain edge c.
  Hypothesis Hhead : nth_error c 0 = Some h.
  Hypothesis Hxh : clos_refl_trans N (only_succ edge) x h.
  Hypothesis Hmn : m <> n.
  Hypothesis Hmx : edge m x.
  Hypothesis Hnx : only_succ edge n x.
  Hypothesis Hn : reach edge initial n.
  Hypothesis Hm : reach_off edge n initial m.

  Lemma only_rank : forall u v, reach edge initial u -> clos_trans N (only_succ edge) u v -> rank v < rank u /\ reach edge initial v.
  Proof.
    intros u v Hu H. apply clos_trans_t1n in H. induction H as [u v H|u w v H _ IH].
    - split; [apply Hrank; auto|eapply reach_step; [exact Hu|apply H]].
    - destruct IH as [H1 H2]; [eapply reach_step; [exact Hu|apply H]|]. pose proof (Hrank u w Hu H). split; [lia|exact H2].
  Qed.

  Lemma head_forced : forced edge h.
  Proof.
    destruct Hmax as [Hl [Hc _]]. destruct c as [|a [|b c']]; simpl in Hl; try lia.
    simpl in Hhead. inversion Hhead; subst. exists b. apply (Hc 0); reflexivity.
  Qed.
  Lemma head_left : ~ left_ext edge h.
  Proof. intros [u Hu]. destruct Hmax as [_ [_ [_ H]]]. exact (H u h Hhead Hu). Qed.

  Definition leads (z : N) : Prop := clos_refl_trans N (only_succ edge) z h.
  Definition leads_on (z : N) : Prop := exists y, only_succ edge z y /\ leads y.
  Lemma leads_cases z : leads z -> z = h \/ leads_on z.
  Proof.
    intros H. apply clos_rt_rt1n in H. inversion H as [|y w H1 H2]; subst; [auto|right].
    exists y. split; [exact H1|apply clos_rt1n_rt, H2].
  Qed.
  Lemma leads_forced z : leads z -> forced edge z.
  Proof. intros H. destruct (leads_cases z H) as [->|(y & Hy & _)]; [exact head_forced|exists y; exact Hy]. Qed.
  Lemma leads_next z y : leads_on z -> only_succ edge z y -> leads y.
  Proof. intros (w & Hw & Hl) Hy. assert (y = w) as -> by (apply Hw, Hy). exact Hl. Qed.

  (** Something will start the chain. *)
  Definition pending (st : cstate N) : Prop :=
    (exists z, In z (c_explore st) /\ leads z) \/ (exists w, chain_last st w /\ leads_on w) \/ chain_head st h.

  Lemma chain_yields st st' : good st -> chain_head st h -> turn edge st st' -> chain_head st' h \/ c_out st' = c_out st ++ [c].
  Proof.
    intros (Hb & Hs & _) [c1 Hc1] Ht.
    destruct Ht as [v E Hx Hf|v te E Hx Hf Hns|c0 v y E Hl Hf|c0 v y te E Hl Hf Hns|c0 v y E Hos Hop]; try congruence.
    - left. exists (c1 ++ [y]). cb. assert (X : c0 ++ [v] = h :: c1) by congruence. rewrite X. reflexivity.
    - right. cb. f_equal. f_equal. assert (X : c0 ++ [v] = h :: c1) by congruence. rewrite X.
      symmetry. apply (maximal_is edge c h (c1 ++ [y]) Hmax Hhead).
      + change (h :: c1 ++ [y]) with ((h :: c1) ++ [y]). rewrite <- X. apply is_chain_snoc; [rewrite X; exact (proj1 (s_chain _ _ Hs _ Hc1))|exact Hl].
      + intros a b Ea. change (h :: c1 ++ [y]) with ((h :: c1) ++ [y]) in Ea. rewrite app_length in Ea. simpl length in Ea.
        replace (length c1 + 1) with (length (h :: c1)) in Ea by (simpl; lia).
        rewrite nth_error_snoc in Ea. inversion Ea; subst. intros [Hos _]. apply Hf. exists b. auto.
    - right. cb. assert (X : c0 ++ [v] = h :: c1) by congruence.
      assert (Heq : c = h :: c1).
      { apply (maximal_is edge c h c1 Hmax Hhead); [exact (proj1 (s_chain _ _ Hs _ Hc1))|].
        intros a b Ea. rewrite <- X in Ea.
        assert (Hlc : length c1 = length c0). { apply (f_equal (@length N)) in X. rewrite app_length in X. simpl in X. lia. }
        rewrite Hlc, nth_error_snoc in Ea. inversion Ea; subst. intros [Hs' Hp'].
        assert (b = y) as -> by (apply Hos, Hs'). auto. }
      rewrite X, <- Heq. replace (Nat.ltb 1 (length c)) with true; [reflexivity|].
      symmetry. apply Nat.ltb_lt. destruct Hmax. lia.
  Qed.

  Lemma turn_pending st st' : good st -> pending st -> turn edge st st' -> pending st' \/ c_out st' = c_out st ++ [c].
  Proof.
    intros Hg [(z & Hz & Hl)|[(w & [cw Hw] & Hl)|Hh]] Ht.
    - left. destruct Ht as [v E Hx Hf|v te E Hx Hf Hns|c0 v y E Hlk Hf|c0 v y te E Hlk Hf Hns|c0 v y E Hos Hop].
      + destruct (eq_dec z v) as [->|Hne].
        * destruct (leads_cases v Hl) as [->|Hlo]; [right; right; exists []; reflexivity|right; left; exists v; split; [exists []; reflexivity|exact Hlo]].
        * left. exists z. split; [cb; apply set_del_In; auto|exact Hl].
      + left. exists z. split; [cb|exact Hl]. apply (succs_new_In _ _ _ _ _ Hns). left. apply set_del_In. split; [|exact Hz].
        intros ->. exact (Hf (leads_forced v Hl)).
      + left. exists z. auto.
      + left. exists z. split; [cb; apply (succs_new_In _ _ _ _ _ Hns); auto|exact Hl].
      + left. exists z. split; [cb; apply set_add_In; auto|exact Hl].
    - left. destruct Ht as [v E Hx Hf|v te E Hx Hf Hns|c0 v y E Hlk Hf|c0 v y te E Hlk Hf Hns|c0 v y E Hos Hop]; try congruence;
        (assert (w = v) as -> by (apply (snoc_last cw c0); congruence)).
      + assert (Ly : leads y) by (apply (leads_next v y Hl), Hlk).
        destruct (leads_cases y Ly) as [->|Ho]; [exfalso; apply head_left; exists v; exact Hlk|].
        right; left. exists y. split; [exists (c0 ++ [v]); reflexivity|exact Ho].
      + exfalso. apply Hf, leads_forced, (leads_next v y Hl), Hlk.
      + left. exists y. split; [cb; apply set_add_In; auto|exact (leads_next v y Hl Hos)].
    - destruct (chain_yields st st' Hg Hh Ht) as [X|X]; [left; right; right; exact X|right; exact X].
  Qed.

  (** Second part: from the time when everything but [n] has been done. *)
  Definition second (st : cstate N) : Prop :=
    twice c (c_out st) \/ (In c (c_out st) /\ (~ In n (c_explored st) \/ pending st)).

  Lemma out_grows st st' : turn edge st st' -> exists l, c_out st' = c_out st ++ l.
  Proof.
    intros Ht. destruct Ht as [v E Hx Hf|v te E Hx Hf Hns|c0 v y E Hlk Hf|c0 v y te E Hlk Hf Hns|c0 v y E Hos Hop]; cb;
      try (exists []; rewrite app_nil_r; reflexivity); [eexists; reflexivity|].
    destruct (Nat.ltb _ _); [eexists; reflexivity|exists []; rewrite app_nil_r; reflexivity].
  Qed.

  Lemma turn_second st st' : good st -> second st -> turn edge st st' -> second st'.
  Proof.
    intros Hg Hsec Ht. destruct (out_grows st st' Ht) as [l El].
    destruct Hsec as [H|[Hin D]]; [left; rewrite El; apply twice_app, H|].
    assert (Hin' : In c (c_out st')) by (rewrite El; apply in_app_iff; auto).
    destruct D as [D|D].
    2:{ destruct (turn_pending st st' Hg D Ht) as [X|X]; [right; auto|left; rewrite X; apply twice_new, Hin]. }
    destruct (in_dec eq_dec n (c_explored st')) as [Hi|Hi]; [|right; auto].
    right. split; [exact Hin'|right].
    assert (Hon : leads_on n) by (exists x; auto). assert (Hfn : forced edge n) by (exists x; exact Hnx).
    destruct Ht as [v E Hx Hf|v te E Hx Hf Hns|c0 v y E Hlk Hf|c0 v y te E Hlk Hf Hns|c0 v y E Hos Hop]; cbn [c_explored] in Hi.
    - apply set_add_In in Hi. destruct Hi as [<-|Hi]; [|tauto]. right; left. exists n. split; [exists []; reflexivity|exact Hon].
    - apply set_add_In in Hi. destruct Hi as [<-|Hi]; tauto.
    - apply set_add_In in Hi. destruct Hi as [<-|Hi]; [|tauto]. right; left. exists n. split; [exists (c0 ++ [v]); reflexivity|exact Hon].
    - apply set_add_In in Hi. destruct Hi as [<-|Hi]; tauto.
    - tauto.
  Qed.

  Lemma run_second sched : forall fuel k st, good st -> second st -> measure ut rank R st < fuel ->
    exists st', chain_run ut deg sched fuel k st = (st', SDone) /\ twice c (c_out st').
  Proof.
    induction fuel as [|fuel IH]; intros k st Hg Hsec Hlt; [lia|]. cbn [chain_run].
    destruct (finished st) eqn:Ef.
    - exists st. split; [reflexivity|]. destruct Hsec as [H|[_ [H|H]]]; [exact H|exfalso; apply H, done_explored; auto|exfalso].
      unfold finished in Ef. destruct H as [(z & Hz & _)|[(w & [cw Hw] & _)|[cw Hw]]].
      + destruct (c_explore st); [destruct Hz|discriminate].
      + rewrite Hw in Ef. destruct (c_explore st); discriminate.
      + rewrite Hw in Ef. destruct (c_explore st); discriminate.
    - destruct (step_turn edge ut deg initial Hut Hnodes Hdeg (sched k) st (proj1 Hg) Ef) as [st' [E Ht]]. rewrite E.
      apply IH; [eapply turn_good; eauto|eapply turn_second; eauto|].
      pose proof (turn_measure edge ut initial Hnodes rank R Hrank HR Hkeys st st' (proj1 Hg) (proj2 (proj2 Hg)) Ht). lia.
  Qed.

  (** First part: everything that can be done without [n]. *)
  Definition before (z : N) : Prop := clos_refl_trans N (link edge) z n.
  Lemma before_cases z : before z -> z = n \/ exists y, link edge z y /\ before y.
  Proof.
    intros H. apply clos_rt_rt1n in H. inversion H as [|y w H1 H2]; subst; [auto|right].
    exists y. split; [exact H1|apply clos_rt1n_rt, H2].
  Qed.
  Lemma before_dec : forall k z, rank z <= k -> reach edge initial z -> node ut z -> before z \/ ~ before z.
  Proof.
    induction k as [k IH] using lt_wf_ind. intros z Hk Hz Nz.
    destruct (eq_dec z n) as [->|Hne]; [left; apply rt_refl|].
    destruct (forced_dec edge ut Hut z Nz) as [[y Hy]|Hf].
    2:{ right. intros B. destruct (before_cases z B) as [->|(y & Hl & _)]; [tauto|]. apply Hf. exists y. apply Hl. }
    destruct (Hdeg z y (proj1 Hy)) as [d [_ Hd]]. destruct (Nat.eq_dec d 1) as [Hd1|Hd1].
    - pose proof (Hrank z y Hz Hy) as Hr.
      destruct (IH (rank y)) with (z := y) as [B|B]; [lia|lia|eapply reach_step; [exact Hz|apply Hy]|apply (Hnodes z y), Hy| |].
      + left. eapply rt_trans; [apply rt_step; split; [exact Hy|apply Hd, Hd1]|exact B].
      + right. intros B'. destruct (before_cases z B') as [->|(w & Hl & Hw)]; [tauto|]. apply B.
        assert (w = y) as <- by (apply Hy, Hl). exact Hw.
    - right. intros B. destruct (before_cases z B) as [->|(w & Hl & Hw)]; [tauto|]. apply Hd1, Hd.
      assert (w = y) as <- by (apply Hy, Hl). apply Hl.
  Qed.

  Lemma pick_dec : forall l, (forall z, In z l -> node ut z /\ reach edge initial z) ->
    (exists i z, nth_error l i = Some z /\ ~ before z) \/ (forall z, In z l -> before z).
  Proof.
    induction l as [|a l IH]; intros Hl; [right; intros z []|].
    destruct (Hl a) as [Na Ra]; [cbn; auto|].
    destruct (before_dec (rank a) a (le_n _) Ra Na) as [B|B]; [|left; exists 0, a; auto].
    destruct IH as [(i & z & E & Hz)|Hall]; [intros z Hz; apply Hl; cbn; auto|left; exists (S i), z; auto|].
    right. intros z [<-|Hz]; auto.
  Qed.

  Lemma link_only a b : clos_refl_trans N (link edge) a b -> clos_refl_trans N (only_succ edge) a b.
  Proof. induction 1 as [a b H|a|a b d _ IH1 _ IH2]; [apply rt_step, H|apply rt_refl|eapply rt_trans; eauto]. Qed.
  Lemma star_plus a b d : only_succ edge a b -> clos_refl_trans N (only_succ edge) b d -> clos_trans N (only_succ edge) a d.
  Proof.
    intros Ha H. apply clos_rt_rtn1 in H. induction H as [|u v Huv _ IH]; [apply t_step, Ha|eapply t_trans; [exact IH|apply t_step, Huv]].
  Qed.

  Definition avoids (st : cstate N) : Prop := forall v, In v (c_explored st) -> ~ before v.

  Lemma stuck_second st : good st -> avoids st -> c_chain st = None -> (forall z, In z (c_explore st) -> before z) -> second st.
  Proof.
    intros (Hb & Hs & Hk) Ha Hc Hall. right.
    assert (Nn : ~ In n (c_explored st)) by (intros H; apply (Ha n H), rt_refl).
    split; [|left; exact Nn].
    assert (Hsucc : forall u v, In u (c_explored st) -> edge u v -> In v (c_explored st) \/ before v).
    { intros u v Hu He. destruct (k_succ _ _ _ Hk u v Hu He) as [H|[H|[cu H]]]; [auto|auto|congruence]. }
    assert (Hcyc : forall z, clos_refl_trans N (only_succ edge) x z -> ~ before z).
    { intros z Hxz B. pose proof (proj1 (only_rank n n Hn (star_plus n x n Hnx (rt_trans _ _ _ _ _ Hxz (link_only z n B))))). lia. }
    assert (Hm' : In m (c_explored st)).
    { destruct Hm as [Hi Hp]. assert (D : m <> n /\ (In m (c_explored st) \/ before m)).
      { clear Hmn Hmx. apply clos_rt_rtn1 in Hp. clear Hm. induction Hp as [|u v [Huv Hv] _ [Hun IH]]; (split; [assumption|]).
        - destruct (k_init _ _ _ Hk) as [X|X]; auto.
        - destruct IH as [X|X]; [exact (Hsucc u v X Huv)|].
          destruct (before_cases u X) as [->|(w & Hl & Hw)]; [tauto|right; assert (v = w) as -> by (apply Hl, Huv); exact Hw]. }
      destruct D as [_ [D|D]]; [exact D|exfalso]. destruct (before_cases m D) as [E|(w & Hl & _)]; [congruence|].
      assert (x = w) as E by (apply Hl, Hmx). subst w. apply Hmn. symmetry. apply (proj2 (proj2 Hl)), Hnx. }
    assert (Hall' : forall z, clos_refl_trans N (only_succ edge) x z -> In z (c_explored st)).
    { intros z Hz. pose proof Hz as Hz'. apply clos_rt_rtn1 in Hz. induction Hz as [|u v Huv Hxu IH].
      - destruct (Hsucc m x Hm' Hmx) as [X|X]; [exact X|exfalso; exact (Hcyc x (rt_refl _ _ _) X)].
      - destruct (Hsucc u v (IH (clos_rtn1_rt _ _ _ _ Hxu)) (proj1 Huv)) as [X|X]; [exact X|exfalso; exact (Hcyc v Hz' X)]. }
    destruct (k_head _ _ _ Hk h (Hall' h Hxh) head_forced) as [X|[[c1 X]|X]]; [exfalso; exact (head_left X)|congruence|exact (X c Hmax Hhead)].
  Qed.

  Lemma turn_avoids st st' : good st -> avoids st -> turn edge st st' ->
    (forall z, In z (c_explore st) -> ~ In z (c_explored st') \/ In z (c_explored st) \/ ~ before z \/ c_chain st <> None) -> avoids st'.
  Proof.
    intros (Hb & _) Ha Ht Hp v Hv B.
    destruct Ht as [z E Hx Hf|z te E Hx Hf Hns|c0 z y E Hlk Hf|c0 z y te E Hlk Hf Hns|c0 z y E Hos Hop]; cbn [c_explored] in *.
    - apply set_add_In in Hv. destruct Hv as [->|Hv]; [|exact (Ha v Hv B)].
      destruct (Hp z Hx) as [X|[X|[X|X]]]; [apply X, set_add_In; auto|exact (Ha z X B)|tauto|congruence].
    - apply set_add_In in Hv. destruct Hv as [->|Hv]; [|exact (Ha v Hv B)].
      destruct (Hp z Hx) as [X|[X|[X|X]]]; [apply X, set_add_In; auto|exact (Ha z X B)|tauto|congruence].
    - apply set_add_In in Hv. destruct Hv as [->|Hv]; [|exact (Ha v Hv B)].
      destruct (b_chain _ _ _ _ Hb _ E) as (c1 & z1 & E1 & _ & Hin). apply app_inj_tail in E1. destruct E1 as [_ <-].
      apply (Ha z Hin). eapply rt_trans; [apply rt_step, Hlk|exact B].
    - apply set_add_In in Hv. destruct Hv as [->|Hv]; [|exact (Ha v Hv B)].
      destruct (b_chain _ _ _ _ Hb _ E) as (c1 & z1 & E1 & _ & Hin). apply app_inj_tail in E1. destruct E1 as [_ <-].
      apply (Ha z Hin). eapply rt_trans; [apply rt_step, Hlk|exact B].
    - exact (Ha v Hv B).
  Qed.

  (** Only the picked node is popped. *)
  Lemma step_picks pick st st' z : c_chain st = None -> nth_error (c_explore st) (pick mod length (c_explore st)) = Some z ->
    chain_step ut deg pick st = Ok st' -> c_explored st' = set_add z (c_explored st).
  Proof.
    intros Hc Hz E. unfold chain_step in E. rewrite Hc, Hz in E.
    destruct (getitem z ut) as [us|] eqn:Eu; cbn [bind] in E; [|discriminate].
    destruct (Nat.eqb (length us) 1); [|unfold explore_successors in E; rewrite Eu in E; cbn [bind] in E];
      (assert (st' = _) as -> by (symmetry; injection E; exact (fun x => x)); reflexivity) || (inversion E; subst; reflexivity).
  Qed.

  Lemma run_first : forall b k st, good st -> avoids st -> measure ut rank R st < b ->
    exists sched fuel st', chain_run ut deg sched fuel k st = (st', SDone) /\ twice c (c_out st').
  Proof.
    induction b as [|b IH]; intros k st Hg Ha Hlt; [lia|].
    assert (D : second st \/ exists pick, finished st = false /\
       forall st', chain_step ut deg pick st = Ok st' -> turn edge st st' -> avoids st').
    { destruct (c_chain st) as [ch|] eqn:Ec.
      - right. exists 0. split; [unfold finished; rewrite Ec; destruct (c_explore st); reflexivity|].
        intros st' _ Ht. eapply turn_avoids; eauto. intros z _. right; right; right. congruence.
      - destruct (pick_dec (c_explore st)) as [(i & z & Ez & Hz)|Hall]; [intros z Hz; exact (b_te _ _ _ _ (proj1 Hg) z Hz)| |left; apply stuck_second; auto].
        right. exists i. assert (Hi : i < length (c_explore st)) by (apply nth_error_Some; congruence).
        split; [unfold finished; destruct (c_explore st); [cbn in Hi; lia|reflexivity]|].
        intros st' Es Ht. eapply turn_avoids; eauto. intros y Hy.
        rewrite (step_picks i st st' z Ec) by (rewrite ?Nat.mod_small; auto). rewrite set_add_In.
        destruct (eq_dec y z) as [->|Hne]; [auto|]. destruct (in_dec eq_dec y (c_explored st)); tauto. }
    destruct D as [D|(pick & Ef & Hp)].
    - destruct (run_second (fun _ => 0) (S (measure ut rank R st)) k st Hg D (le_n _)) as (st' & E & T).
      exists (fun _ => 0), (S (measure ut rank R st)), st'. auto.
    - destruct (step_turn edge ut deg initial Hut Hnodes Hdeg pick st (proj1 Hg) Ef) as [st1 [E Ht]].
      pose proof (turn_measure edge ut initial Hnodes rank R Hrank HR Hkeys st st1 (proj1 Hg) (proj2 (proj2 Hg)) Ht).
      destruct (IH (S k) st1) as (s & fuel & st' & Er & T); [eapply turn_good; eauto|eapply Hp; eauto|lia|].
      exists (fun j => if Nat.eqb j k then pick else s j), (S fuel), st'. split; [|exact T].
      cbn [chain_run]. rewrite Ef, Nat.eqb_refl, E, <- Er. apply run_ext. intros j Hj.
      destruct (Nat.eqb_spec j k); [lia|reflexivity].
  Qed.
  End Again.
End Once.

(** ** get_max_chains *)
Section TopOnce.
  Context {N L : Type} `{EN : EqDec N} `{EL : EqDec L}.
  Variable ordt : list (L * N) -> list (L * N).
  Hypothesis Hordt : is_order ordt.
  Variable g : graph N L.
  Hypothesis Hw : gwf g.
  Variable initial : N.
  Hypothesis Hpred : forall u, ~ gedge g u initial.
  Hypothesis Hnode : gnode_of g initial.

  Lemma twice_again sched fuel c h : twice c (fst (get_max_chains ordt sched initial g fuel)) -> nth_error c 0 = Some h ->
    found_again (gedge g) initial h.
  Proof.
    unfold get_max_chains.
    destruct (tables_correct ordt Hordt g Hw) as [ut [deg [E [H1 [H2 [H3 H4]]]]]]; rewrite E; fold (cinit initial).
    destruct (chain_run ut deg sched fuel 0 (cinit initial)) as [st r] eqn:Er. cbn [fst]. intros T Eh.
    destruct (run_inv g initial ut deg sched (fun st => sound (gedge g) st /\ hist (gedge g) initial st) H3 (nodes_of g ut H2) H4)
      with (fuel := fuel) (k := 0) (st := cinit initial) as [(_ & I) _].
    - intros st0 st1 Hb (Hs & Hh) Ht. split; [eapply turn_sound; eauto|eapply turn_hist; eauto].
    - apply base_init, H2, Hnode.
    - split; [apply sound_init, no_left; exact Hpred|apply hist_init].
    - rewrite Er in I. exact (i_twice _ _ _ I c h T Eh).
  Qed.

  Lemma again_twice c h : (forall x, reach (gedge g) initial x -> ~ forced_cycle_at (gedge g) x) ->
    maximal_chain (gedge g) c -> nth_error c 0 = Some h -> found_again (gedge g) initial h ->
    exists sched fuel out, get_max_chains ordt sched initial g fuel = (out, SDone) /\ twice c out.
  Proof.
    intros Hno Hmax Hhead (x & (m & n & Hmn & Hmx & Hnx & Hn & Hm) & Hxh). unfold get_max_chains.
    destruct (tables_correct ordt Hordt g Hw) as [ut [deg [E [H1 [H2 [H3 H4]]]]]]; rewrite E; fold (cinit initial).
    assert (Hnodes := nodes_of g ut H2).
    set (rk := frank ut). set (R := S (length (keys ut))).
    assert (Hrank : forall x y, reach (gedge g) initial x -> only_succ (gedge g) x y -> rk y < rk x)
      by (intros a b; apply (frank_lt (gedge g) ut initial H3 Hnodes Hno)).
    assert (HR : forall x, rk x <= R) by (intros a; apply Nat.le_min_r).
    destruct (run_first (gedge g) ut deg initial H3 Hnodes H4 Hpred rk R Hrank HR H1 c h x m n Hmax Hhead Hxh Hmn Hmx Hnx Hn Hm
       (S (measure ut rk R (cinit initial))) 0 (cinit initial)) as (sched & fuel & st' & Er & T).
    - split; [apply base_init, H2, Hnode|]. split; [apply sound_init, no_left; exact Hpred|apply complete_init].
    - intros v [].
    - lia.
    - exists sched, fuel, (c_out st'). rewrite Er. auto.
  Qed.
End TopOnce.
