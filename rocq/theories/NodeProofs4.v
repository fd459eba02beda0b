(** Proofs for NodeModel: the tree a task unfolds to is unique, and proper for inhabited tasks. *)
From Coq Require Import Lia Permutation.
From Verif Require Import PyBase PyBaseFacts QBase HtmModel HtmSpec HtmProofs NodeModel NodeSpec NodeProofs NodeProofs2.
Local Open Scope list_scope.
Local Open Scope nat_scope.

Section Nodes.
  Context {P : Type}.
  Lemma mapM_In {A B} (f : A -> res B) l l' y : mapM f l = Ok l' -> In y l' -> exists x, In x l /\ f x = Ok y.
  Proof. intros E Hy. apply mapM_Forall2 in E. induction E as [|a b l l' H E IH]; [destruct Hy|]. destruct Hy as [<-|Hy]; [exists a; cbn; auto|]. destruct (IH Hy) as (x & Hx & E'). exists x. cbn; auto. Qed.
  Lemma mapM_length {A B} (f : A -> res B) l l' : mapM f l = Ok l' -> length l' = length l.
  Proof. intros E. apply mapM_Forall2 in E. induction E; cbn; auto. Qed.
  Lemma mapM_ok_iff {A B} (f : A -> res B) l l' : Forall2 (fun x y => f x = Ok y) l l' -> mapM f l = Ok l'.
  Proof. induction 1 as [|x y l l' H F IH]; cbn; [reflexivity|]. rewrite H, IH. reflexivity. Qed.

  Lemma deep_copy_inhabited fmt (c c' : comb P) : inhabited c -> deep_copy fmt c = Ok c' -> inhabited c'.
  Proof.
    revert c'. induction c as [a i p h|k ch i p n h pr IH] using comb_ind'; intros c' HI; cbn [deep_copy].
    - destruct (action_copy fmt a); cbn [bind]; [|discriminate]. intros E. inversion E. constructor.
    - inversion HI as [|k0 ch0 i0 p0 n0 h0 pr0 Hne HF]; subst. destruct (mapM (deep_copy fmt) ch) as [ch'|] eqn:E; cbn [bind]; [|discriminate]. intros E0. apply mk_comb_inv in E0. destruct E0 as [[pr' ->] _].
      constructor.
      + apply mapM_length in E. destruct ch'; [destruct ch; cbn in E; congruence|discriminate].
      + rewrite Forall_forall in *. intros y Hy. destruct (mapM_In _ _ _ _ E Hy) as (x & Hx & Ex). eapply IH; eauto.
  Qed.
  Lemma unfolds_proper_aux m : forall (c : comb P) t, levels c <= m -> inhabited c -> unfolds c t -> proper t.
  Proof.
    induction m as [|m IH]; intros c t Hl HI U; [destruct c as [|k]; cbn in Hl; [lia|destruct k; cbn in Hl; lia]|].
    assert (M : forall (ch : list (comb P)) (l : list (n2p P)), Forall2 unfolds ch l -> Forall inhabited ch -> (forall x, In x ch -> levels x <= m) -> Forall proper l).
    { intros ch l F FI FL. induction F as [|x y ch l H F IHF]; constructor; inversion FI; subst; [apply (IH x); auto; apply FL; left; auto|apply IHF; auto; intros; apply FL; right; auto]. }
    assert (NE : forall (A B : Type) (f : A -> B -> Prop) ch l, Forall2 f ch l -> ch <> [] -> l <> []) by (intros A B f ch l F Hne; destruct F; congruence).
    destruct U as [a i p h|ch i p n h pr l F|ch i p n h pr l F|ch i p n h pr l F]; [constructor| | |]; inversion HI as [|k0 ch0 i0 p0 n0 h0 pr0 Hne HF]; subst; pose proof (levels_max ch) as ML; cbn [levels] in Hl.
    - constructor; [eapply NE; eauto|]. apply (M ch); auto. intros x Hx. specialize (ML x Hx). lia.
    - constructor; [eapply NE; eauto|]. apply (M ch); auto. intros x Hx. specialize (ML x Hx). lia.
    - assert (PN : permutations ch <> []). { intros E. pose proof (perms_n_length (length ch) ch eq_refl) as Lp. fold (permutations ch) in Lp. rewrite E in Lp. pose proof (lt_O_fact (length ch)). cbn in Lp. lia. }
      constructor; [eapply NE; eauto; destruct (permutations ch); cbn; congruence|].
      assert (A : forall ip, In ip (combine (seq 0 (length (permutations ch))) (permutations ch)) -> Permutation (snd ip) ch). { intros [k q] H. apply in_combine_r in H. apply (perms_n_In _ _ _ eq_refl) in H. auto. }
      induction F as [|[k q] y ips l H F IHF]; constructor; [|apply IHF; intros; apply A; right; auto]. specialize (A _ (or_introl eq_refl)). cbn [snd] in A. inversion H as [k' ch' copies l' Ec FU]; subst.
      assert (Pq : q <> []) by (intros ->; apply Permutation_nil in A; congruence). assert (Cn : copies <> []) by (apply mapM_length in Ec; destruct copies; [destruct q; cbn in Ec; congruence|discriminate]).
      constructor; [eapply NE; eauto|]. apply (M copies); auto.
      + rewrite Forall_forall in *. intros x Hx. destruct (mapM_In _ _ _ _ Ec Hx) as (z & Hz & Ez). eapply deep_copy_inhabited; [|exact Ez]. apply HF. eapply Permutation_in; eauto.
      + intros x Hx. destruct (mapM_In _ _ _ _ Ec Hx) as (z & Hz & Ez). rewrite (proj2 (deep_copy_levels _ _) _ Ez). specialize (ML z ltac:(eapply Permutation_in; eauto)). lia.
  Qed.
  Lemma unfolds_proper (c : comb P) t : inhabited c -> unfolds c t -> proper t.
  Proof. apply (unfolds_proper_aux (levels c)). auto. Qed.

  (** from_node computes the tree. *)
  Lemma from_node_complete fuel : forall (c : comb P) t, levels c <= fuel -> unfolds c t -> from_node (fun _ => Ok tt) fuel c = Ok t.
  Proof.
    induction fuel as [|m IH]; intros c t Hl U; [destruct c as [|k]; cbn in Hl; [lia|destruct k; cbn in Hl; lia]|].
    assert (M : forall (ch : list (comb P)) (l : list (n2p P)), Forall2 unfolds ch l -> (forall x, In x ch -> levels x <= m) -> mapM (from_node (fun _ => Ok tt) m) ch = Ok l).
    { intros ch l F FL. apply mapM_ok_iff. induction F as [|x y ch l H F IHF]; constructor; [apply IH; auto; apply FL; left; auto|apply IHF; auto; intros; apply FL; right; auto]. }
    destruct U as [a i p h|ch i p n h pr l F|ch i p n h pr l F|ch i p n h pr l F]; [reflexivity| | |]; pose proof (levels_max ch) as ML; cbn [levels] in Hl; cbn [from_node].
    - rewrite (M ch l F); [reflexivity|]. intros x Hx. specialize (ML x Hx). lia.
    - rewrite (M ch l F); [reflexivity|]. intros x Hx. specialize (ML x Hx). lia.
    - fold (enum (permutations ch)) in F.
      assert (PN : permutations ch <> []). { intros E. pose proof (perms_n_length (length ch) ch eq_refl) as Lp. fold (permutations ch) in Lp. rewrite E in Lp. pose proof (lt_O_fact (length ch)). cbn in Lp. lia. }
      set (g := fun ip : nat * list (comb P) => do cs <- mapM (deep_copy (order_fmt (fst ip))) (snd ip); mk_comb Sequential cs None None (order_fmt (fst ip) n) false None).
      assert (A : exists ch', mapM g (enum (permutations ch)) = Ok ch' /\ Forall2 unfolds ch' l).
      { clear - F. induction F as [|[k q] y ips l H F (ch' & E & FU)]; [exists []; split; constructor|]. inversion H as [k' c' copies l' Ec FU']; subst. fold (order_fmt k) in Ec. exists (Node Sequential copies None None (order_fmt k n) false None :: ch'). cbn [mapM]. unfold g at 1. cbn [fst snd]. change (fun s : string => (s ++ " order-" ++ str_nat k)%string) with (order_fmt k) in Ec. rewrite Ec. cbn [bind mk_comb]. rewrite E. cbn [bind]. split; [reflexivity|]. constructor; [constructor; auto|auto]. }
      destruct A as (ch' & E & FU). assert (Hne : length ch' <> 0) by (apply mapM_length in E; rewrite enum_length in E; rewrite E; destruct (permutations ch); cbn; congruence).
      assert (TA : exists pr', to_alternative ch n h = Ok (Node Alternative ch' None None n h pr')). { unfold to_alternative. fold g. rewrite E. cbn [bind mk_comb]. rewrite !alt_proba_None by auto. cbn [bind]. eauto. }
      destruct TA as [pr' TA]. rewrite TA. cbn [bind]. destruct (to_alternative_levels ch n h) as [_ T2]. destruct (T2 _ TA) as (ch2 & i' & p' & n' & h' & pr2 & Eq & _ & T3). assert (ch2 = ch') as -> by congruence. rewrite (M ch' l FU); [reflexivity|]. intros x Hx. specialize (T3 x Hx). lia.
  Qed.
  Lemma unfolds_unique (c : comb P) t t' : unfolds c t -> unfolds c t' -> t = t'.
  Proof. intros U U'. pose proof (from_node_complete (levels c) c t (Nat.le_refl _) U) as E. rewrite (from_node_complete (levels c) c t' (Nat.le_refl _) U') in E. congruence. Qed.
  (** A property of leaves kept by copies holds for the leaves of the unfolding. *)
  Lemma unfolds_leaves (G : action P -> Prop) : (forall fmt a a', G a -> action_copy fmt a = Ok a' -> G a') -> forall (c : comb P) t, (forall a i p h, In (Leaf a i p h) (HtmSpec.preorder c) -> G a) -> unfolds c t -> Forall G (leaves t).
  Proof.
    intros GC. assert (D : forall fmt (c c' : comb P), deep_copy fmt c = Ok c' -> (forall a i p h, In (Leaf a i p h) (HtmSpec.preorder c) -> G a) -> forall a i p h, In (Leaf a i p h) (HtmSpec.preorder c') -> G a).
    { intros fmt. induction c as [a i p h|k ch i p n h pr IH] using comb_ind'; intros c' E HG b j q g Hb; cbn [deep_copy] in E.
      - destruct (action_copy fmt a) as [a'|] eqn:Ea; cbn [bind] in E; [|discriminate]. inversion E; subst. destruct Hb as [Hb|[]]. inversion Hb; subst. eapply GC; [|exact Ea]. eapply HG. left; reflexivity.
      - destruct (mapM (deep_copy fmt) ch) as [ch'|] eqn:Em; cbn [bind] in E; [|discriminate]. apply mk_comb_inv in E. destruct E as [[pr' ->] _].
        cbn [HtmSpec.preorder] in Hb. destruct Hb as [Hb|Hb]; [discriminate|]. apply in_flat_map in Hb. destruct Hb as (y & Hy & Hb). destruct (mapM_In _ _ _ _ Em Hy) as (x & Hx & Ex). rewrite Forall_forall in IH. refine (IH x Hx y Ex _ b j q g Hb). intros a' i' p' h' Ha'. eapply HG. cbn. right. apply in_flat_map. eauto. }
    assert (A : forall m (c : comb P) t, levels c <= m -> (forall a i p h, In (Leaf a i p h) (HtmSpec.preorder c) -> G a) -> unfolds c t -> Forall G (leaves t)).
    { induction m as [|m IH]; intros c t Hl HG U; [destruct c as [|k]; cbn in Hl; [lia|destruct k; cbn in Hl; lia]|].
      assert (M : forall (ch : list (comb P)) (l : list (n2p P)), Forall2 unfolds ch l -> (forall c, In c ch -> levels c <= m /\ forall a i p h, In (Leaf a i p h) (HtmSpec.preorder c) -> G a) -> Forall G (flat_map leaves l)).
      { intros ch l F FL. induction F as [|x y ch l H F IHF]; cbn; [constructor|]. apply Forall_app. split; [apply (IH x); auto; apply (FL x (or_introl eq_refl))|apply IHF; auto; intros; apply FL; right; auto]. }
      destruct U as [a i p h|ch i p n h pr l F|ch i p n h pr l F|ch i p n h pr l F]; [cbn; constructor; [eapply HG; left; reflexivity|constructor]| | |]; pose proof (levels_max ch) as ML; cbn [levels] in Hl; cbn [leaves].
      - apply (M ch); auto. intros x Hx. specialize (ML x Hx). split; [lia|]. intros a' i' p' h' Ha'. eapply HG. cbn. right. apply in_flat_map. eauto.
      - apply (M ch); auto. intros x Hx. specialize (ML x Hx). split; [lia|]. intros a' i' p' h' Ha'. eapply HG. cbn. right. apply in_flat_map. eauto.
      - assert (B : forall ip, In ip (combine (seq 0 (length (permutations ch))) (permutations ch)) -> Permutation (snd ip) ch). { intros [k q] H. apply in_combine_r in H. apply (perms_n_In _ _ _ eq_refl) in H. auto. }
        induction F as [|[k q] y ips l H F IHF]; cbn [flat_map]; [constructor|]. apply Forall_app. split; [|apply IHF; intros; apply B; right; auto]. specialize (B _ (or_introl eq_refl)). cbn [snd] in B. inversion H as [k' ch' copies l' Ec FU]; subst. cbn [leaves]. apply (M copies); auto.
        intros x Hx. destruct (mapM_In _ _ _ _ Ec Hx) as (z & Hz & Ez). assert (In z ch) as Hz' by (eapply Permutation_in; eauto). rewrite (proj2 (deep_copy_levels _ _) _ Ez). specialize (ML z Hz'). split; [lia|]. refine (D _ z x Ez _). intros a' i' p' h' Ha'. eapply HG. cbn. right. apply in_flat_map. eauto. }
    intros c t. apply (A (levels c)). auto.
  Qed.
End Nodes.
