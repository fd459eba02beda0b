(** Proofs about tasks made of sequences only. *)
From Coq Require Import Lia.
From Verif Require Import PyBase PyBaseFacts QBase HtmModel HtmSpec HtmProofs NodeModel NodeSpec NodeProofs NodeProofs2 NodeProofs3 NodeProofs4 DagSpec OrderSpec.
Local Open Scope list_scope.
Local Open Scope nat_scope.

Section Order.
  Context {P : Type}.

  Lemma in_order_ind' (Pr : comb P -> list (action P) -> Prop) :
    (forall a i p h, Pr (Leaf a i p h) [a]) ->
    (forall ch i p n h pr ls, Forall2 in_order ch ls -> Forall2 Pr ch ls -> Pr (Node Sequential ch i p n h pr) (concat ls)) ->
    forall c l, in_order c l -> Pr c l.
  Proof.
    intros H1 H2. fix IH 3. intros c l [a i p h|ch i p n h pr ls F]; [apply H1|]. apply H2; [exact F|].
    induction F as [|x y ch' ls' Hx F IHF]; constructor; [apply IH; exact Hx|exact IHF].
  Qed.

  Ltac order_ind c l := let H := fresh in intros H; pattern c, l; match goal with |- ?Pr c l => refine (in_order_ind' Pr _ _ c l H) end; clear H c l; cbv beta.

  (** Trees of sequences. *)
  Inductive rows : n2p P -> Prop :=
  | rw_leaf a : rows (NLeaf a)
  | rw_seq l : Forall rows l -> rows (NSeq l).
  Lemma unfolds_rows (c : comb P) l : in_order c l -> forall t, unfolds c t -> rows t /\ leaves t = l.
  Proof.
    order_ind c l; [intros a i p h t U|intros ch i p n h pr ls _ IH t U].
    - inversion U; subst. split; [constructor|reflexivity].
    - inversion U as [| ? ? ? ? ? ? ts F | |]; subst. cbn [leaves]. enough (Forall rows ts /\ flat_map leaves ts = concat ls) as [A B] by (split; [constructor; exact A|exact B]).
      clear U. revert ts F. induction IH as [|x y ch' ls' Hx _ IHF]; intros ts F; inversion F as [|? t1 ? ts1 U1 F1]; subst; [split; [constructor|reflexivity]|].
      destruct (Hx _ U1) as [A1 A2]. destruct (IHF _ F1) as [B1 B2]. split; [constructor; auto|]. cbn. rewrite A2, B2. reflexivity.
  Qed.
  Lemma in_order_unfolds (c : comb P) l : in_order c l -> exists t, unfolds c t.
  Proof.
    order_ind c l; [intros; eexists; constructor|intros ch i p n h pr ls _ IH].
    enough (exists ts, Forall2 unfolds ch ts) as [ts F] by (exists (NSeq ts); constructor; exact F).
    induction IH as [|x y ch' ls' [t Ht] _ [ts IHF]]; [exists []; constructor|]. exists (t :: ts). constructor; auto.
  Qed.
  Lemma map_add_seq k a n : map (Nat.add k) (seq a n) = seq (k + a) n.
  Proof. revert a. induction n as [|n IH]; intros a; cbn; [reflexivity|]. rewrite IH, Nat.add_succ_r. reflexivity. Qed.
  Lemma rows_run t : rows t -> forall r, run t r <-> r = seq 0 (n_leaves t).
  Proof.
    induction t as [a|l IH|l IH] using n2p_ind'; intros R; inversion R as [|l0 F]; subst.
    - intros r. split; [intros H; inversion H; reflexivity|intros ->; constructor].
    - enough (G : forall r, run_seq l r <-> r = seq 0 (total l)).
      { intros r. split; [intros H; inversion H; apply G; auto|intros E; constructor; apply G; exact E]. }
      clear R. induction IH as [|t l Ht _ IHl]; intros r.
      + split; [intros H; inversion H; reflexivity|intros ->; constructor].
      + inversion F as [|? ? Rt Rl]; subst. specialize (IHl Rl). cbn [total fold_right]. fold (total l). rewrite seq_app. cbn [Nat.add].
        assert (C : count [t] = n_leaves t) by (rewrite count_total; cbn; lia).
        split.
        * intros H. inversion H as [|? ? r1 r2 H1 H2]; subst. apply (Ht Rt) in H1. apply IHl in H2. subst. rewrite C, map_add_seq, Nat.add_0_r. reflexivity.
        * intros ->. rewrite <- (Nat.add_0_r (n_leaves t)) at 2. rewrite <- map_add_seq, <- C. constructor; [apply (Ht Rt); rewrite C; reflexivity|apply IHl; reflexivity].
  Qed.
  Lemma rows_enters t : rows t -> forall j q, enters t j q -> j = 0 /\ q = 1%Q.
  Proof.
    intros R j q H. induction H as [a|t l j q H IH|l1 t l2 j q H IH]; [auto|apply IH; inversion R as [|? F]; inversion F; auto|inversion R].
  Qed.
  Lemma rows_leads_one t : rows t -> forall i o q, leads t i o q -> q = 1%Q.
  Proof.
    intros R i o q H. induction H as [a|l1 t l2 i o q H IH|l1 t l2 i j q H IH|l1 t t' l2 i j q q' H IH H'|l1 t i q H IH]; [reflexivity|inversion R| | |]; inversion R as [|? F]; apply Forall_app in F; destruct F as [_ F]; inversion F as [|? ? R1 F1]; subst.
    - apply IH, R1.
    - inversion F1 as [|? ? R2 _]; subst. rewrite (IH R1). destruct (rows_enters _ R2 _ _ H') as [_ ->]. reflexivity.
    - apply IH, R1.
  Qed.
  Lemma in_order_executes {L} (lab : action P -> L) (c : comb P) l : in_order c l -> forall w, executes lab c w <-> w = map lab l.
  Proof.
    order_ind c l; [intros a i p h w|intros ch i p n h pr ls _ IH w].
    - split; [intros H; inversion H; reflexivity|intros ->; constructor].
    - assert (G : forall ws, Forall2 (executes lab) ch ws <-> ws = map (map lab) ls).
      { clear w. induction IH as [|x y ch' ls' Hx _ IHF]; intros ws.
        - split; [intros H; inversion H; reflexivity|intros ->; constructor].
        - split; [intros H; inversion H as [|? w1 ? ws1 H1 H2]; subst; apply Hx in H1; apply IHF in H2; subst; reflexivity|intros ->; constructor; [apply Hx; reflexivity|apply IHF; reflexivity]]. }
      rewrite concat_map. split.
      + intros H. inversion H as [| ? ? ? ? ? ? ws F | |]; subst. apply G in F. subst. reflexivity.
      + intros ->. constructor. apply G. reflexivity.
  Qed.
  Lemma in_order_leaves (G : action P -> Prop) (c : comb P) l : in_order c l -> Forall G l -> forall a i p h, In (Leaf a i p h) (HtmSpec.preorder c) -> G a.
  Proof.
    order_ind c l; [intros b i0 p0 h0 F a i p h I|intros ch i0 p0 n h0 pr ls _ IH F a i p h I].
    - cbn in I. destruct I as [I|[]]. inversion I; subst. inversion F; auto.
    - cbn in I. destruct I as [I|I]; [discriminate I|]. induction IH as [|x y ch' ls' Hx _ IHF]; [destruct I|]. cbn in F, I. apply Forall_app in F. destruct F as [F1 F2]. apply in_app_iff in I. destruct I as [I|I]; [eapply Hx; eauto|apply IHF; auto].
  Qed.
End Order.
