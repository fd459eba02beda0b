(** Proofs about the trees of converters. *)
From Coq Require Import Lia Factorial Field.
From Verif Require Import PyBase PyBaseFacts QBase HtmModel HtmSpec HtmProofs NodeModel NodeSpec.
Local Open Scope list_scope.
Local Open Scope nat_scope.

Section Nodes.
  Context {P : Type}.

  Lemma n2p_ind' (Pr : n2p P -> Prop) :
    (forall a, Pr (NLeaf a)) -> (forall l, Forall Pr l -> Pr (NSeq l)) -> (forall l, Forall Pr l -> Pr (NAlt l)) -> forall t, Pr t.
  Proof. intros H1 H2 H3; fix IH 1; intros [a|l|l]; [apply H1|apply H2|apply H3]; induction l; constructor; auto. Qed.

  Definition total (l : list (n2p P)) : nat := fold_right (fun c m => n_leaves c + m) 0 l.
  Lemma total_app l l' : total (l ++ l') = total l + total l'.
  Proof. induction l as [|c l IH]; cbn; [reflexivity|]. fold (total (l ++ l')) (total l). lia. Qed.
  Lemma n_leaves_length (t : n2p P) : n_leaves t = length (leaves t).
  Proof.
    induction t as [a|l IH|l IH] using n2p_ind'; [reflexivity| |]; cbn [n_leaves leaves]; induction IH as [|c l H _ IHl]; cbn; auto; rewrite app_length, <- IHl, H; reflexivity.
  Qed.
  Lemma count_total (l : list (n2p P)) : count l = total l.
  Proof. unfold count. induction l as [|c l IH]; [reflexivity|]. cbn [flat_map total fold_right]. fold (total l). rewrite app_length, IH, n_leaves_length. reflexivity. Qed.

  (** *** from_node *)
  Lemma levels_max (ch : list (comb P)) c : In c ch -> levels c <= fold_right (fun c m => Nat.max (levels c) m) 0 ch.
  Proof. induction ch as [|x ch IH]; cbn; [tauto|]. intros [->|H]; [lia|]. specialize (IH H). lia. Qed.
  Lemma levels_le (ch : list (comb P)) m : (forall c, In c ch -> levels c <= m) -> fold_right (fun c m => Nat.max (levels c) m) 0 ch <= m.
  Proof. induction ch as [|x ch IH]; cbn; [lia|]. intros H. pose proof (H x (or_introl eq_refl)). specialize (IH (fun c Hc => H c (or_intror Hc))). lia. Qed.
  Lemma alt_proba_nofuel n p : alt_proba n p <> Err EFuel.
  Proof.
    destruct p as [l|]; cbn; [|destruct n; cbn; discriminate]. destruct l as [|x l]; cbn; [discriminate|]. repeat (match goal with |- context [if ?b then _ else _] => destruct b end); discriminate.
  Qed.
  Lemma mk_comb_nofuel k (ch : list (comb P)) i p n h pr : mk_comb k ch i p n h pr <> Err EFuel.
  Proof.
    destruct k; cbn [mk_comb]; try discriminate. pose proof (alt_proba_nofuel (length ch) pr). pose proof (alt_proba_nofuel (length ch) None).
    destruct (alt_proba (length ch) pr); cbn [bind]; [|congruence]. destruct (alt_proba (length ch) None); cbn [bind]; congruence.
  Qed.
  Lemma mk_comb_levels k (ch : list (comb P)) i p n h pr c : mk_comb k ch i p n h pr = Ok c -> levels c = levels (Node k ch i p n h pr).
  Proof. intros E. apply mk_comb_inv in E. destruct E as [[pr' ->] _]; reflexivity. Qed.
  Lemma mapM_nofuel {A B} (f : A -> res B) l : (forall x, In x l -> f x <> Err EFuel) -> mapM f l <> Err EFuel.
  Proof.
    induction l as [|x l IH]; cbn; intros H; [discriminate|]. pose proof (H x (or_introl eq_refl)). specialize (IH (fun y Hy => H y (or_intror Hy))).
    destruct (f x); cbn; [|congruence]. destruct (mapM f l); cbn; congruence.
  Qed.
  Lemma deep_copy_levels fmt (c : comb P) : deep_copy fmt c <> Err EFuel /\ forall c', deep_copy fmt c = Ok c' -> levels c' = levels c.
  Proof.
    induction c as [a i p h|k ch i p n h pr IH] using comb_ind'; cbn [deep_copy].
    - unfold action_copy. destruct (a_class a); cbn [bind]; split; try discriminate; intros c' E; inversion E; reflexivity.
    - rewrite Forall_forall in IH. assert (NF : mapM (deep_copy fmt) ch <> Err EFuel) by (apply mapM_nofuel; intros x Hx; apply IH; auto).
      destruct (mapM (deep_copy fmt) ch) as [ch'|e] eqn:E; cbn [bind]; [|split; [congruence|discriminate]]. split; [apply mk_comb_nofuel|].
      intros c' E'. apply mk_comb_levels in E'. rewrite E'. cbn [levels]. f_equal. apply mapM_Forall2 in E. clear - IH E. induction E as [|x y l l' H E IHE]; [reflexivity|]. cbn.
      rewrite (proj2 (IH x (or_introl eq_refl)) _ H), IHE; [reflexivity|]. intros z Hz. apply IH. right; auto.
  Qed.
  Lemma to_alternative_levels (ch : list (comb P)) name hl : to_alternative ch name hl <> Err EFuel /\
    forall c, to_alternative ch name hl = Ok c -> exists ch' i p n h pr, c = Node Alternative ch' i p n h pr /\
      mapM (fun ip : nat * list (comb P) => do cs <- mapM (deep_copy (order_fmt (fst ip))) (snd ip); mk_comb Sequential cs None None (order_fmt (fst ip) name) false None) (enum (permutations ch)) = Ok ch' /\
      forall x, In x ch' -> levels x <= 1 + fold_right (fun c m => Nat.max (levels c) m) 0 ch.
  Proof.
    unfold to_alternative. set (f := fun ip : nat * list (comb P) => _).
    assert (NF : mapM f (enum (permutations ch)) <> Err EFuel).
    { apply mapM_nofuel. intros [i p] _. unfold f; cbn [fst snd]. assert (M : mapM (deep_copy (order_fmt i)) p <> Err EFuel) by (apply mapM_nofuel; intros; apply deep_copy_levels).
      destruct (mapM (deep_copy (order_fmt i)) p); cbn [bind]; [discriminate|congruence]. }
    destruct (mapM f (enum (permutations ch))) as [seqs|e] eqn:E; cbn [bind]; [|split; [congruence|discriminate]]. split; [apply mk_comb_nofuel|].
    intros c Ec. apply mk_comb_inv in Ec. assert (exists pr, c = Node Alternative seqs None None name hl pr) as [pr ->] by (destruct Ec as [[pr' ->] _]; eauto).
    do 6 eexists. split; [reflexivity|]. split; [reflexivity|]. intros x Hx. apply mapM_Forall2 in E. clear - E Hx.
    assert (exists ip, In ip (enum (permutations ch)) /\ f ip = Ok x) as ([i p] & Hp & Ef).
    { induction E as [|y z l l' H E IH]; [destruct Hx|]. destruct Hx as [->|Hx]; [eexists; split; [left; reflexivity|auto]|]. destruct (IH Hx) as (ip & A & B). exists ip. split; [right; auto|auto]. }
    unfold f in Ef; cbn [fst snd] in Ef. destruct (mapM (deep_copy (order_fmt i)) p) as [cs|] eqn:Em; cbn [bind] in Ef; [|discriminate]. assert (x = Node Sequential cs None None (order_fmt i name) false None) as -> by (cbn in Ef; congruence).
    cbn [levels]. apply le_n_S, levels_le. intros c Hc. apply mapM_Forall2 in Em.
    assert (exists c0, In c0 p /\ deep_copy (order_fmt i) c0 = Ok c) as (c0 & Hc0 & Ed).
    { clear - Em Hc. induction Em as [|y z l l' H E IH]; [destruct Hc|]. destruct Hc as [->|Hx]; [eexists; split; [left; reflexivity|auto]|]. destruct (IH Hx) as (ip & A & B). exists ip. split; [right; auto|auto]. }
    rewrite (proj2 (deep_copy_levels _ _) _ Ed). apply levels_max. apply in_combine_r in Hp. apply (perms_n_In _ _ _ eq_refl) in Hp. eapply Permutation_in; eauto.
  Qed.
  (** The fuel [levels] is always enough. *)
  Lemma from_node_fuel leaf fuel (c : comb P) : (forall a, leaf a <> Err EFuel) -> levels c <= fuel -> from_node leaf fuel c <> Err EFuel.
  Proof.
    intros HL. revert c. induction fuel as [|fuel IH]; intros [a i p h|k ch i p n h pr] Hl; [cbn in Hl; lia|destruct k; cbn in Hl; lia| |].
    - cbn. specialize (HL a). destruct (leaf a); cbn; congruence.
    - assert (M : forall ch', (forall x, In x ch' -> levels x <= fuel) -> mapM (from_node leaf fuel) ch' <> Err EFuel) by (intros ch' H; apply mapM_nofuel; auto).
      assert (ML : forall x, In x ch -> levels x <= fold_right (fun c m => Nat.max (levels c) m) 0 ch) by apply levels_max.
      destruct k; cbn [from_node levels] in *.
      + specialize (M ch ltac:(intros x Hx; specialize (ML x Hx); lia)). destruct (mapM (from_node leaf fuel) ch); cbn; congruence.
      + specialize (M ch ltac:(intros x Hx; specialize (ML x Hx); lia)). destruct (mapM (from_node leaf fuel) ch); cbn; congruence.
      + destruct (to_alternative_levels ch n h) as [T1 T2]. destruct (to_alternative ch n h) as [alt|e]; cbn [bind]; [|congruence].
        destruct (T2 alt eq_refl) as (ch' & i' & p' & n' & h' & pr' & -> & _ & T3). specialize (M ch' ltac:(intros x Hx; specialize (T3 x Hx); lia)). destruct (mapM (from_node leaf fuel) ch'); cbn; congruence.
  Qed.
  Lemma from_node_unfolds leaf fuel (c : comb P) t : from_node leaf fuel c = Ok t -> unfolds c t.
  Proof.
    revert c t. induction fuel as [|fuel IH]; intros c t E; [discriminate|].
    assert (M : forall ch l, mapM (from_node leaf fuel) ch = Ok l -> Forall2 unfolds ch l).
    { intros ch l Em. apply mapM_Forall2 in Em. clear - Em IH. induction Em; constructor; auto. }
    destruct c as [a i p h|k ch i p n h pr]; cbn [from_node] in E; [destruct (leaf a); cbn in E; [|discriminate]; assert (t = NLeaf a) as -> by congruence; constructor|].
    destruct k.
    - destruct (mapM (from_node leaf fuel) ch) as [l|] eqn:Em; cbn in E; [|discriminate]. assert (t = NSeq l) as -> by congruence. constructor. auto.
    - destruct (mapM (from_node leaf fuel) ch) as [l|] eqn:Em; cbn in E; [|discriminate]. assert (t = NAlt l) as -> by congruence. constructor. auto.
    - destruct (to_alternative_levels ch n h) as [T1 T2]. destruct (to_alternative ch n h) as [alt|e]; cbn [bind] in E; [|discriminate].
      destruct (T2 alt eq_refl) as (ch' & i' & p' & n' & h' & pr' & -> & T3 & _). destruct (mapM (from_node leaf fuel) ch') as [l|] eqn:Em; cbn in E; [|discriminate]. assert (t = NAlt l) as -> by congruence.
      constructor. fold (enum (permutations ch)). apply M in Em. apply mapM_Forall2 in T3. clear - T3 Em. revert l Em. induction T3 as [|[k p] s l0 l1 H T3 IH]; intros l Em; inversion Em as [|s' t0 x1 l2 U Em']; subst; constructor; auto.
      cbn [fst snd] in H. destruct (mapM (deep_copy (order_fmt k)) p) as [cs|] eqn:Ec; cbn in H; [|discriminate]. assert (s = Node Sequential cs None None (order_fmt k n) false None) as -> by congruence.
      inversion U; subst. econstructor; [exact Ec|auto].
  Qed.

  (** *** Success *)
  (** G: the leaves that are accepted *)
  Inductive ready (G : action P -> Prop) : comb P -> Prop :=
  | re_leaf a i p h : G a -> ready G (Leaf a i p h)
  | re_node k ch i p n h pr : ch <> [] -> Forall (ready G) ch -> (k = Alternative -> forall l, pr = Some l -> valid_proba l) -> ready G (Node k ch i p n h pr).
  Lemma constructed_ready (G : action P -> Prop) c : constructed c -> inhabited c -> (forall a i p h, In (Leaf a i p h) (HtmSpec.preorder c) -> G a) -> ready G c.
  Proof.
    intros HC. pose proof (constructed_copy_ok c HC) as CO. clear HC. induction c as [a i p h|k ch i p n h pr IH] using comb_ind'; intros HI HG.
    - constructor. apply (HG a i p h). cbn; auto.
    - inversion HI as [|k0 ch0 i0 p0 n0 h0 pr0 Hne HF]; subst. constructor; [auto| |].
      + rewrite Forall_forall in *. intros x Hx. apply IH; auto.
        * intros y Hy. apply CO. cbn. right. apply in_flat_map. eauto.
        * intros a j q g Ha. apply (HG a j q g). cbn. right. apply in_flat_map. eauto.
      + intros -> l ->. specialize (CO _ (or_introl eq_refl)). cbn in CO. apply CO. reflexivity.
  Qed.
  Section Success.
    Variable G : action P -> Prop.
    Hypothesis GC : forall fmt a, G a -> exists a', action_copy fmt a = Ok a' /\ G a'.
    Lemma mk_comb_ready k (ch : list (comb P)) n h pr : ch <> [] -> Forall (ready G) ch -> (k = Alternative -> forall l, pr = Some l -> valid_proba l) -> exists c, mk_comb k ch None None n h pr = Ok c /\ ready G c.
    Proof.
      intros Hne HF HP. assert (length ch <> 0) by (destruct ch; cbn; [congruence|lia]). destruct k; cbn [mk_comb]; try (eexists; split; [reflexivity|]; constructor; auto; discriminate).
      rewrite alt_proba_None by auto. assert (exists l, alt_proba (length ch) pr = Ok l) as [l ->].
      { destruct pr as [l|]; [|rewrite alt_proba_None by auto; eauto]. destruct (alt_proba_spec (length ch) l) as [[-> _]|[_ N]]; [eauto|]. exfalso. apply N. auto. }
      cbn [bind]. eexists. split; [reflexivity|]. constructor; auto. intros _ l' El. assert (l' = repeat (1 # Pos.of_nat (length ch)) (length ch)) as -> by congruence. apply uniform_valid; auto.
    Qed.
    Lemma deep_copy_ready fmt (c : comb P) : ready G c -> exists c', deep_copy fmt c = Ok c' /\ ready G c'.
    Proof.
      induction c as [a i p h|k ch i p n h pr IH] using comb_ind'; intros R; inversion R as [a0 i0 p0 h0 HG|k0 ch0 i0 p0 n0 h0 pr0 Hne HF HP]; subst; cbn [deep_copy].
      - destruct (GC fmt a HG) as (a' & -> & HG'). cbn. eexists. split; [reflexivity|]. constructor; auto.
      - assert (exists ch', mapM (deep_copy fmt) ch = Ok ch' /\ Forall (ready G) ch' /\ length ch' = length ch) as (ch' & -> & HF' & Hl).
        { clear - IH HF. induction ch as [|x ch IHc]; [exists []; repeat split; constructor|]. inversion IH; inversion HF; subst. destruct IHc as (ch' & E & F & L); auto. destruct (H1 H5) as (x' & E' & R'). exists (x' :: ch'). cbn. rewrite E', E. cbn. repeat split; auto. }
        cbn [bind]. apply mk_comb_ready; auto. destruct ch'; [destruct ch; cbn in Hl; congruence|discriminate].
    Qed.
    Lemma mapM_copy fmt ch : Forall (ready G) ch -> exists ch', mapM (deep_copy fmt) ch = Ok ch' /\ Forall (ready G) ch' /\ length ch' = length ch.
    Proof.
      induction ch as [|x ch IHc]; intros HF; [exists []; repeat split; constructor|]. inversion HF; subst. destruct IHc as (ch' & E & F & L); auto. destruct (deep_copy_ready fmt x) as (x' & E' & R'); auto. exists (x' :: ch'). cbn. rewrite E', E. cbn. repeat split; auto.
    Qed.
    Lemma to_alternative_ready ch name hl : ch <> [] -> Forall (ready G) ch -> exists ch' pr, to_alternative ch name hl = Ok (Node Alternative ch' None None name hl pr) /\ ch' <> [] /\ Forall (ready G) ch'.
    Proof.
      intros Hne HF. unfold to_alternative. set (f := fun ip : nat * list (comb P) => _).
      assert (exists ch', mapM f (enum (permutations ch)) = Ok ch' /\ Forall (ready G) ch' /\ length ch' = length (permutations ch)) as (ch' & -> & HF' & Hl).
      { rewrite <- enum_length. assert (A : forall ip, In ip (enum (permutations ch)) -> snd ip <> [] /\ Forall (ready G) (snd ip)).
        { intros [k p] Hp. cbn. apply in_combine_r in Hp. apply (perms_n_In _ _ _ eq_refl) in Hp. split; [intros ->; apply Permutation_nil in Hp; congruence|]. rewrite Forall_forall in *. intros x Hx. apply HF. eapply Permutation_in; eauto. }
        induction (enum (permutations ch)) as [|[k p] l IH]; [exists []; repeat split; constructor|]. destruct IH as (ch' & E & F & L); [intros; apply A; right; auto|].
        destruct (A _ (or_introl eq_refl)) as [A1 A2]. cbn [snd] in A1, A2. destruct (mapM_copy (order_fmt k) p A2) as (p' & Ep & Fp & Lp). exists (Node Sequential p' None None (order_fmt k name) false None :: ch'). cbn [mapM]. unfold f at 1. cbn [fst snd]. rewrite Ep. cbn [bind mk_comb]. rewrite E. cbn.
        split; [reflexivity|]. split; [|auto]. constructor; [|auto]. constructor; auto; [destruct p'; [destruct p; cbn in Lp; congruence|discriminate]|discriminate]. }
      cbn [bind]. assert (Hne' : ch' <> []).
      { unfold permutations in Hl. rewrite perms_n_length in Hl by auto. intros ->. cbn in Hl. pose proof (lt_O_fact (length ch)). lia. }
      cbn [mk_comb]. rewrite !alt_proba_None by (destruct ch'; cbn; congruence). cbn [bind]. eexists ch', _. split; [reflexivity|]. auto.
    Qed.
    Lemma from_node_ok leaf : (forall a, G a -> leaf a = Ok tt) -> forall fuel c, ready G c -> levels c <= fuel -> exists t, from_node leaf fuel c = Ok t /\ proper t /\ Forall G (leaves t).
    Proof.
      intros HL. induction fuel as [|fuel IH]; intros c R Hl; [destruct c as [|k]; cbn in Hl; [lia|destruct k; cbn in Hl; lia]|].
      assert (M : forall ch, Forall (ready G) ch -> (forall x, In x ch -> levels x <= fuel) -> exists l, mapM (from_node leaf fuel) ch = Ok l /\ Forall proper l /\ Forall G (flat_map leaves l) /\ length l = length ch).
      { intros ch HF HLv. induction HF as [|x ch Hx HF IHc]; [exists []; repeat split; constructor|]. destruct IHc as (l & E & F1 & F2 & L); [intros; apply HLv; right; auto|]. destruct (IH x Hx (HLv x (or_introl eq_refl))) as (t & Et & Pt & Gt).
        exists (t :: l). cbn. rewrite Et, E. cbn. repeat split; auto. apply Forall_app. auto. }
      inversion R as [a i p h HG|k ch i p n h pr Hne HF HP]; subst; [cbn; rewrite HL by auto; cbn; eexists; split; [reflexivity|]; split; constructor; auto|].
      assert (NE : forall ch' : list (comb P), ch' <> [] -> forall l : list (n2p P), length l = length ch' -> l <> []) by (intros [|x ch'] H [|y l]; cbn; congruence).
      pose proof (levels_max ch) as ML. destruct k; cbn [from_node levels] in *.
      - destruct (M ch HF ltac:(intros x Hx; specialize (ML x Hx); lia)) as (l & -> & F1 & F2 & L). cbn. eexists. split; [reflexivity|]. split; [constructor; eauto|auto].
      - destruct (M ch HF ltac:(intros x Hx; specialize (ML x Hx); lia)) as (l & -> & F1 & F2 & L). cbn. eexists. split; [reflexivity|]. split; [constructor; eauto|auto].
      - destruct (to_alternative_ready ch n h Hne HF) as (ch' & pr' & Ea & Hne' & HF'). destruct (to_alternative_levels ch n h) as [_ T2]. destruct (T2 _ Ea) as (ch2 & i' & p' & n' & h' & pr2 & Eq & _ & T3). assert (ch2 = ch') as -> by congruence.
        rewrite Ea. cbn [bind]. destruct (M ch' HF' ltac:(intros x Hx; specialize (T3 x Hx); lia)) as (l & -> & F1 & F2 & L). cbn. eexists. split; [reflexivity|]. split; [constructor; eauto|auto].
    Qed.
  End Success.
End Nodes.
