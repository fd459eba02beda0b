(** C88: the exact condition with deterministic. *)
From Coq Require Import Lia Lqa.
From Verif Require Import PyBase PyBaseFacts QBase PomdpModel PomdpSpec PomdpProofs Props_Pomdp HtmModel HtmSpec HtmProofs ConvModel NodeModel NodeSpec ConvSpec NodeProofs NodeProofs2 NodeProofs3 NodeProofs4 ConvProofs ConvProofs2 ConvProofs3 ConvProofs4 NameSpec NameProofs Props_Conv.
Local Open Scope list_scope.
Local Open Scope nat_scope.

Lemma leads_later {P} (t : n2p P) k o q : leads t k o q -> forall j, o = Some j -> k < j.
Proof.
  induction 1 as [a|l1 t l2 i o q H IH|l1 t l2 i j q H IH|l1 t t' l2 i j q q' H IH He|l1 t i q H IH]; intros j0 E; rewrite ?count_total in *; try discriminate.
  - destruct o as [j|]; [|discriminate]. injection E as <-. specialize (IH j eq_refl). lia.
  - injection E as <-. specialize (IH j eq_refl). lia.
  - injection E as <-. apply leads_bound in H. rewrite total_app. cbn [total fold_right]. lia.
Qed.

(** With deterministic, this is the exact condition: after a leaf that the robot can do, the continuations are equally likely. *)
Theorem C88_same_exact : forall exp t_ask t_tell fl t_wait intr end_reward root solver p t k par_ l,
  inhabited root -> task_to_pomdp exp t_ask t_tell fl t_wait intr end_reward root solver = Ok p -> deterministic fl = true -> unfolds root t ->
  param t k par_ -> NoDup l -> (forall o, In o l <-> exists q, leads t k o q) ->
  (forall a s', a < nA p -> ~ of_leaf k s' ->
     (Tr p a (human k) s' * (1 - Tr p (physical k) (robot k) (robot k)) == Tr p (physical k) (robot k) s' * (1 - Tr p a (human k) (human k)))%Q) <->
  (fail_proba par_ == 1)%Q \/ (forall o q, leads t k o q -> q == 1 / inject_Z (Z.of_nat (length l)))%Q.
Proof.
  intros exp t_ask t_tell fl t_wait intr end_reward root solver p t k par_ l HI E Hd U Pp N HIn.
  destruct (C67_moves _ _ _ _ _ _ _ _ _ _ HI E) as (t1 & U1 & M). assert (t1 = t) as -> by (eapply unfolds_unique; eauto). destruct (C65_tables _ _ _ _ _ _ _ _ _ _ HI E) as (t' & U' & Es & Ea & _). assert (t' = t) as -> by (eapply unfolds_unique; eauto).
  assert (Hk : k < length (leaves t)) by (destruct Pp as (a & Ha & _); apply nth_error_Some; congruence).
  assert (H1 : human k < nS p) by (rewrite Es; unfold human; destruct (reward_state fl); lia). assert (H2 : robot k < nS p) by (rewrite Es; unfold robot; destruct (reward_state fl); lia). assert (H3 : physical k < nA p) by (rewrite Ea; unfold physical; lia). assert (H4 : ask_finished k < nA p) by (rewrite Ea; unfold ask_finished; lia).
  split.
  - intros H. destruct (Qeq_dec (fail_proba par_) 1) as [F|F]; [left; exact F|]. right. intros o q Hl. destruct (Qeq_dec q (1 / inject_Z (Z.of_nat (length l)))) as [Q|Q]; [exact Q|]. exfalso.
    apply (C88_same_refuted _ _ _ _ _ _ _ _ _ _ _ _ _ l o q HI E Hd U Pp F N HIn Hl Q). apply H; [exact H4|]. unfold of_leaf, before_leaf, human, robot. pose proof (leads_later _ _ _ _ Hl) as LT. destruct o as [j|]; cbn [place]; [specialize (LT j eq_refl); unfold before_leaf; lia|unfold over, number; lia].
  - intros H a s' Ha Hs.
    rewrite (proj1 (M _ _ _ H3 H2) _ (go_fail _ _ _ _ _ _ _ _ _ Pp eq_refl)).
    assert (D : (exists o q, leads t k o q /\ s' = place t o) \/ ~ (exists o q, leads t k o q /\ s' = place t o)).
    { destruct (in_dec Nat.eq_dec s' (map (place t) l)) as [K|K]; [left|right].
      - apply in_map_iff in K. destruct K as (o & <- & K). apply HIn in K. destruct K as [q K]. eauto.
      - intros (o & q & K1 & ->). apply K. apply in_map, HIn. eauto. }
    assert (R0 : ~ (exists o q, leads t k o q /\ s' = place t o) -> (Tr p (physical k) (robot k) s' == 0)%Q).
    { intros K. rewrite (proj2 (M _ _ s' H3 H2)); [reflexivity|]. intros q0 G. unfold of_leaf, before_leaf, human, robot in *.
      inversion G as [k' q' P' A'|k' q' P' A'|k' q' P' A'|k' q' P' A1 A2|k' q' P' A'|k' q' o q1 P' A' Hl|k' q' P' A1|k' q' d D' P' La'|k' q' d o q1 D' P' La' Hl|k' q' D' P' A'|k' q' l1 o D' P' A' N' HIn' Hl|Lo Re|Lo Re|Lo Re|j q1 Lo En]; unfold over, before_leaf, human, robot in *; unfold number in *; try lia; try congruence.
      assert (k' = k) as -> by lia. apply K. eauto. }
    destruct (Nat.eq_dec a (ask_finished k)) as [->|Na].
    + rewrite (proj2 (M _ _ (human k) H4 H1)).
      * destruct D as [(o & q & Hl & ->)|D].
        -- rewrite (proj1 (M _ _ _ H3 H2) _ (go_success _ _ _ _ _ _ _ _ _ o q Pp eq_refl Hl)), (proj1 (M _ _ _ H4 H1) _ (go_asked _ _ _ _ _ _ _ _ _ l o Hd Pp eq_refl N HIn (proj2 (HIn o) (ex_intro _ q Hl)))).
           destruct H as [H|H]; [rewrite H; ring|]. rewrite <- (H o q Hl). ring.
        -- rewrite (R0 D), (proj2 (M _ _ s' H4 H1)); [ring|]. intros q0 G. unfold of_leaf, before_leaf, human, robot in *.
           inversion G as [k' q' P' A'|k' q' P' A'|k' q' P' A'|k' q' P' A1 A2|k' q' P' A'|k' q' o q1 P' A' Hl|k' q' P' A1|k' q' d D' P' La'|k' q' d o q1 D' P' La' Hl|k' q' D' P' A'|k' q' l1 o D' P' A' N' HIn' Hl|Lo Re|Lo Re|Lo Re|j q1 Lo En]; unfold over, before_leaf, human, robot in *; unfold number in *; try lia; try congruence.
           assert (k' = k) as -> by lia. apply D. apply HIn' in Hl. destruct Hl as [q1 Hl]. eauto.
      * intros q0 G. inversion G as [k' q' P' A'|k' q' P' A'|k' q' P' A'|k' q' P' A1 A2|k' q' P' A'|k' q' o1 q1 P' A' Hl'|k' q' P' A1|k' q' d D' P' La'|k' q' d o1 q1 D' P' La' Hl'|k' q' D' P' A'|k' q' l1 o1 D' P' A' N' HIn' Hl'|Lo Re|Lo Re|Lo Re|j q1 Lo En]; unfold ask_finished, over, before_leaf, human, robot in *; unfold number in *; try lia; try congruence.
        destruct o1; cbn [place] in *; unfold over, before_leaf, number in *; lia.
    + rewrite (proj1 (M _ _ _ Ha H1) _ (go_unasked _ _ _ _ _ _ _ _ _ Hd Pp Na)). rewrite (proj2 (M _ _ s' Ha H1)); [ring|]. intros q0 G. unfold of_leaf, before_leaf, human, robot in *.
      inversion G as [k' q' P' A'|k' q' P' A'|k' q' P' A'|k' q' P' A1 A2|k' q' P' A'|k' q' o q1 P' A' Hl|k' q' P' A1|k' q' d D' P' La'|k' q' d o q1 D' P' La' Hl|k' q' D' P' A'|k' q' l1 o D' P' A' N' HIn' Hl|Lo Re|Lo Re|Lo Re|j q1 Lo En]; unfold over, before_leaf, human, robot in *; unfold number in *; try lia; try congruence.
      assert (k' = k) as -> by lia. contradiction.
Qed.
Print Assumptions C88_same_exact.
(** A choice of two tasks has equally likely continuations; a nested choice does not (see C88_ex). *)
Definition ex_fair : comb collab := Node Sequential [ex_leaf "A"; Node Alternative [ex_leaf "B"; ex_leaf "C"] None None "choice" true (Some [1 # 2; 1 # 2])] None None "task" true None.
Example C88_exact_ex : map (ex_entry ex_fair (ex_flags true false false false) (physical 0) (robot 0)) [before_leaf 1; before_leaf 2; robot 0] = [Ok (2 # 5); Ok (2 # 5); Ok (1 # 5)] /\
  map (ex_entry ex_fair (ex_flags true false false false) (ask_finished 0) (human 0)) [before_leaf 1; before_leaf 2; human 0] = [Ok (1 # 2); Ok (1 # 2); Ok 0%Q] /\
  NoDup [Some 1; Some 2] /\ forall o, In o [Some 1; Some 2] <-> exists q, leads (ex_unfolded ex_fair) 0 o q.
Proof.
  split; [vm_compute; reflexivity|]. split; [vm_compute; reflexivity|]. split; [repeat constructor; cbn; intuition discriminate|].
  intros o. let x := eval vm_compute in (ex_unfolded ex_fair) in change (ex_unfolded ex_fair) with x. split.
  - intros [<-|[<-|[]]]; match goal with |- exists q, leads (NSeq [?t; NAlt [?u; ?v]]) _ _ _ => eexists; first [exact (le_next [] t (NAlt [u; v]) [] 0 0 _ _ (le_leaf _) (en_alt [] u [v] 0 1 (en_leaf _)))|exact (le_next [] t (NAlt [u; v]) [] 0 1 _ _ (le_leaf _) (en_alt [u] v [] 0 1 (en_leaf _)))] end.
  - intros [q H]. pose proof (leads_later _ _ _ _ H) as H1. pose proof (leads_bound_next _ _ _ _ H) as H2. destruct o as [j|].
    + specialize (H1 j eq_refl). specialize (H2 j eq_refl). cbn in H2. assert (j = 1 \/ j = 2) as [-> | ->] by lia; cbn; auto.
    + exfalso. inversion H as [| | | |l1 t i q0 H3 E1 E2]; subst. match type of E1 with _ ++ _ = [_; _] => destruct l1 as [|x [|y l1]]; [discriminate| |destruct l1; discriminate] end. injection E1 as -> _. cbn in E2. lia.
Qed.
