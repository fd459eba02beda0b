(** Limits along the tree of a task, and the costs of its unfolding: for C128. *)
From Coq Require Import Lia Lqa Permutation.
From Verif Require Import PyBase PyBaseFacts QBase PomdpModel PomdpSpec PomdpProofs HtmModel HtmSpec HtmProofs DagModel DagSpec DagProofs ConvModel NodeModel NodeSpec ConvSpec NodeProofs NodeProofs2 NodeProofs3 NodeProofs4 ConvProofs2 EpiSpec EpiProofs EpiProofs2 AverageSpec AverageProofs MeanSpec.
Local Open Scope list_scope.
Local Open Scope nat_scope.

Lemma Forall2_In_r {A B} (R : A -> B -> Prop) l l' y : Forall2 R l l' -> In y l' -> exists x, In x l /\ R x y.
Proof. induction 1 as [|a b l l' H _ IH]; intros Hy; [destruct Hy|]. destruct Hy as [<-|Hy]; [exists a; split; [left|]; auto|]. destruct (IH Hy) as (x & Hx & K). exists x. split; [right|]; auto. Qed.
Lemma Forall2_length {A B} (R : A -> B -> Prop) l l' : Forall2 R l l' -> length l = length l'.
Proof. induction 1; cbn; congruence. Qed.
(** Weighted sums *)
Definition wsum (l : list (nat * Q)) (g : nat -> Q) : Q := sum_over l (fun x => snd x * g (fst x))%Q.
Lemma wsum_cons x l g : wsum (x :: l) g = (snd x * g (fst x) + wsum l g)%Q.
Proof. reflexivity. Qed.
Lemma wsum_app l l' g : (wsum (l ++ l') g == wsum l g + wsum l' g)%Q.
Proof. unfold wsum. apply sum_app. Qed.
Lemma wsum_ext l g h : (forall x, In x l -> (g (fst x) == h (fst x))%Q) -> (wsum l g == wsum l h)%Q.
Proof. intros H. apply sum_ext. intros x Hx. rewrite (H x Hx). reflexivity. Qed.
Lemma wsum_look l g n : NoDup (map fst l) -> (forall x, In x l -> fst x < n) -> (sum_n n (fun s => look l s * g s) == wsum l g)%Q.
Proof.
  induction l as [|[i q] l IH]; intros N B.
  - unfold wsum; cbn. apply sum_n_zero. intros i _. unfold look. cbn. ring.
  - inversion N as [|x y N1 N2]; subst. rewrite wsum_cons. cbn [fst snd]. rewrite <- IH by (auto; intros; apply B; right; auto).
    assert (E : (sum_n n (fun s => if i =? s then q * g s else 0) == q * g i)%Q).
    { rewrite (sum_n_one n _ i); [rewrite Nat.eqb_refl; reflexivity|apply (B (i, q)); left; auto|intros j _ Hj; rewrite (proj2 (Nat.eqb_neq i j)) by auto; reflexivity]. }
    rewrite <- E. unfold sum_n. rewrite <- sum_plus. apply sum_ext. intros s _. rewrite look_cons. destruct (Nat.eqb_spec i s) as [->|D]; [|ring].
    rewrite look_notin by auto. ring.
Qed.

(** The cost of an unfolding *)
Section Tree.
  Variable cost : action collab -> Q.
  Fixpoint tree_cost (t : n2p collab) : Q :=
    match t with
    | NLeaf a => cost a
    | NSeq l => total_of (map tree_cost l)
    | NAlt l => (total_of (map tree_cost l) / inject_Z (Z.of_nat (length l)))%Q
    end.

  Variable V : nat -> nat -> Q.
  Variable fls : list (@linfo collab).
  Definition leaving (next : list (nat * Q)) (n : nat) : Q := wsum next (fun j => V n (3 * j)).
  Hypothesis Hleaf : forall li, In li fls -> forall v, tends_to (leaving (li_next li)) v -> tends_to (fun n => V n (3 * li_k li)) (v - cost (li_a li))%Q.
  Lemma nonzero_length {A} (x : A) l : ~ (inject_Z (Z.of_nat (length (x :: l))) == 0)%Q.
  Proof. cbn [length]. unfold Qeq, inject_Z. cbn [Qnum Qden]. lia. Qed.
  Lemma tree_limit t : proper t -> forall k next after v, (forall li, In li (flat t k next after) -> In li fls) -> tends_to (leaving next) v -> tends_to (leaving (shift k (inits t))) (v - tree_cost t)%Q.
  Proof.
    induction t as [a|l IH|l IH] using n2p_ind'; intros Pt k next after v HI Hn; inversion Pt as [|l0 Hne HF|l0 Hne HF]; subst; cbn [flat inits tree_cost] in *.
    - specialize (Hleaf _ (HI _ (or_introl eq_refl)) v Hn). cbn [li_k li_a] in Hleaf. eapply tends_ext; [| |exact Hleaf]; [|reflexivity].
      intros n. unfold leaving, shift. cbn [map fst snd]. rewrite wsum_cons. cbn [fst snd]. unfold wsum. cbn [sum_over fold_right]. rewrite Nat.add_0_r. ring.
    - assert (K : forall l, Forall (fun t => proper t -> forall k next after v, (forall li, In li (flat t k next after) -> In li fls) -> tends_to (leaving next) v -> tends_to (leaving (shift k (inits t))) (v - tree_cost t)%Q) l ->
        Forall proper l -> forall k, (forall li, In li (flat_seq flat l k next after) -> In li fls) -> tends_to (leaving (next_of l k next)) (v - total_of (map tree_cost l))%Q).
      { clear - Hn. induction l as [|c l IHl]; intros IH HF k HI; inversion IH as [|? ? I1 I2]; inversion HF as [|? ? F1 F2]; subst; cbn [next_of map total_of flat_seq] in *.
        - eapply tends_ext; [intros n; reflexivity| |exact Hn]. ring.
        - assert (Hl : tends_to (leaving (next_of l (k + n_leaves c) next)) (v - total_of (map tree_cost l))%Q) by (apply IHl; auto; intros li Hli; apply HI; apply in_or_app; auto).
          assert (Hc : tends_to (leaving (shift k (inits c))) (v - total_of (map tree_cost l) - tree_cost c)%Q) by (apply (I1 F1 k _ (after ++ seq (k + n_leaves c) (total l)) _ ltac:(intros li Hli; apply HI; apply in_or_app; left; exact Hli) Hl)).
          eapply tends_ext; [intros n; reflexivity| |exact Hc]. ring. }
      specialize (K l IH HF k HI). destruct l as [|c l]; [congruence|]. exact K.
    - assert (K : forall q l, Forall (fun t => proper t -> forall k next after v, (forall li, In li (flat t k next after) -> In li fls) -> tends_to (leaving next) v -> tends_to (leaving (shift k (inits t))) (v - tree_cost t)%Q) l ->
        Forall proper l -> forall m, (forall li, In li (flat_alt flat l (k + m) next after) -> In li fls) -> tends_to (leaving (shift k (alt_inits inits q m l))) (q * (inject_Z (Z.of_nat (length l)) * v - total_of (map tree_cost l)))%Q).
      { clear - Hn. intros q. induction l as [|c l IHl]; intros IH HF m HI; inversion IH as [|? ? I1 I2]; inversion HF as [|? ? F1 F2]; subst; cbn [map total_of flat_alt alt_inits] in *.
        - eapply tends_ext; [| |apply (tends_const 0%Q)]; [intros n; reflexivity|]. cbn [length]. change (inject_Z (Z.of_nat 0)) with 0%Q. ring.
        - assert (Hl : tends_to (leaving (shift k (alt_inits inits q (m + n_leaves c) l))) (q * (inject_Z (Z.of_nat (length l)) * v - total_of (map tree_cost l)))%Q).
          { apply IHl; auto. intros li Hli. apply HI. apply in_or_app. right. rewrite <- Nat.add_assoc. exact Hli. }
          assert (Hc : tends_to (leaving (shift (k + m) (inits c))) (v - tree_cost c)%Q) by (eapply (I1 F1 (k + m)); [|exact Hn]; intros li Hli; apply HI; apply in_or_app; left; exact Hli).
          eapply tends_ext; [| |exact (tends_add _ _ _ _ (tends_scale _ _ q Hc) Hl)].
          + intros n. unfold leaving, shift. rewrite map_app, wsum_app. apply Qplus_comp; [|reflexivity]. rewrite map_map. unfold wsum. rewrite !sum_map. cbn [fst snd]. rewrite <- sum_scale_l || idtac.
            clear. induction (inits c) as [|x l IH]; cbn [sum_over fold_right]; [ring|]. fold (sum_over l (fun x0 => snd x0 * V n (3 * (k + m + fst x0))%nat)%Q) in *. fold (sum_over l (fun x0 => snd x0 * q * V n (3 * (k + (m + fst x0)))%nat)%Q) in *. rewrite <- IH. rewrite Nat.add_assoc. ring.
          + cbn [length]. rewrite Nat2Z.inj_succ. unfold Z.succ. rewrite inject_Z_plus. change (inject_Z 1) with 1%Q. ring. }
      specialize (K (1 / inject_Z (Z.of_nat (length l)))%Q l IH HF 0). rewrite Nat.add_0_r in K. specialize (K HI).
      eapply tends_ext; [intros n; reflexivity| |exact K]. destruct l as [|c l]; [congruence|]. pose proof (nonzero_length c l). field. auto.
  Qed.
End Tree.

(** *** The costs of a task and of its unfolding *)
Section Unfold.
  Variable cost : action collab -> Q.
  Variable G : action collab -> Prop.
  Hypothesis HC : forall i a a', action_copy (order_fmt i) a = Ok a' -> cost a' = cost a /\ (G a -> G a').
  Definition leaves_ok (c : comb collab) : Prop := forall a i p h, In (Leaf a i p h) (HtmSpec.preorder c) -> G a.

  Lemma total_perm l l' : Permutation l l' -> (total_of l == total_of l')%Q.
  Proof. induction 1 as [|x l l' _ IH|x y l|l l' l'' _ IH1 _ IH2]; cbn [total_of]; [reflexivity|rewrite IH; reflexivity|ring|rewrite IH1; exact IH2]. Qed.
  Lemma total_forall2 (l l' : list Q) : Forall2 Qeq l l' -> (total_of l == total_of l')%Q.
  Proof. induction 1 as [|x y l l' H _ IH]; cbn [total_of]; [reflexivity|rewrite H, IH; reflexivity]. Qed.
  Lemma total_all (l : list Q) v : Forall (fun x => x == v)%Q l -> (total_of l == inject_Z (Z.of_nat (length l)) * v)%Q.
  Proof.
    induction 1 as [|x l H _ IH]; cbn [total_of length]; [change (inject_Z (Z.of_nat 0)) with 0%Q; ring|]. rewrite H, IH, Nat2Z.inj_succ. unfold Z.succ. rewrite inject_Z_plus. change (inject_Z 1) with 1%Q. ring.
  Qed.
  Lemma forall2_map {A B} (f : A -> Q) (g : B -> Q) l l' : Forall2 (fun x y => g y == f x)%Q l l' -> Forall2 Qeq (map g l') (map f l).
  Proof. induction 1; constructor; auto. Qed.
  Lemma mean_children k ch ch' i p n h pr i' p' n' h' pr' : Forall2 (fun c c' => mean_cost cost c' == mean_cost cost c)%Q ch ch' -> (mean_cost cost (Node k ch' i' p' n' h' pr') == mean_cost cost (Node k ch i p n h pr))%Q.
  Proof.
    intros H. pose proof (Forall2_length _ _ _ H) as EL. pose proof (total_forall2 _ _ (forall2_map _ _ _ _ H)) as E. destruct k; cbn [mean_cost]; rewrite E, ?EL; reflexivity.
  Qed.
  Lemma mean_copied i (c : comb collab) : forall c' fmt, copied (fun a a' => action_copy (order_fmt i) a = Ok a') fmt c c' -> (mean_cost cost c' == mean_cost cost c)%Q /\ (leaves_ok c -> leaves_ok c').
  Proof.
    induction c as [a j p h|k ch j p n h pr IH] using comb_ind'; intros c' fmt Hc.
    - inversion Hc as [? a' ? ? ? Hn HR|]; subst. destruct (HC _ _ _ HR) as [E EG]. split; [cbn [mean_cost]; rewrite E; reflexivity|]. intros H b i' p' h' [K|[]]. assert (a' = b) as <- by congruence. apply EG. eapply H. left. reflexivity.
    - inversion Hc as [|? ? ch' ? ? ? ? ? pr' HF]; subst.
      assert (F : Forall2 (fun c c' => (mean_cost cost c' == mean_cost cost c)%Q /\ (leaves_ok c -> leaves_ok c')) ch ch'). { clear - IH HF. induction HF as [|x y l l' H HF IHF]; constructor; inversion IH; subst; eauto. }
      split.
      + apply mean_children. clear - F. induction F as [|x y l l' [H _] F IHF]; constructor; auto.
      + intros H b i' p' h' K. cbn in K. destruct K as [K|K]; [discriminate|]. apply in_flat_map in K. destruct K as (y & Hy & K). destruct (Forall2_In_r _ _ _ _ F Hy) as (x & Hx & _ & HG). eapply HG; [|exact K]. intros b' i0 p0 h0 K'. eapply H. cbn. right. apply in_flat_map. eauto.
  Qed.

  Definition claim (c : comb collab) (t : n2p collab) : Prop := (tree_cost cost t == mean_cost cost c)%Q /\ (leaves_ok c -> Forall G (leaves t)).
  Lemma claims_total ch l : Forall2 claim ch l -> (total_of (map (tree_cost cost) l) == total_of (map (mean_cost cost) ch))%Q.
  Proof. intros F. apply total_forall2, forall2_map. induction F as [|x y ch l [H _] F IH]; constructor; auto. Qed.
  Lemma claims_leaves ch l : Forall2 claim ch l -> (forall x, In x ch -> leaves_ok x) -> Forall G (flat_map leaves l).
  Proof. induction 1 as [|x y ch l [_ H] F IH]; intros K; cbn [flat_map]; [constructor|]. apply Forall_app. split; [apply H, K; left; auto|apply IH; intros; apply K; right; auto]. Qed.
  Lemma leaves_ok_child k ch i p n h pr x : leaves_ok (Node k ch i p n h pr) -> In x ch -> leaves_ok x.
  Proof. intros H Hx a j q g K. eapply H. cbn. right. apply in_flat_map. eauto. Qed.
  Lemma claim_aux m : forall (c : comb collab) t, levels c <= m -> unfolds c t -> claim c t.
  Proof.
    induction m as [|m IH]; intros c t Hl U; [destruct c as [|k]; cbn in Hl; [lia|destruct k; cbn in Hl; lia]|].
    assert (M : forall (ch : list (comb collab)) (l : list (n2p collab)), Forall2 unfolds ch l -> (forall x, In x ch -> levels x <= m) -> Forall2 claim ch l).
    { intros ch l F FL. induction F as [|x y ch l H F IHF]; constructor; [apply (IH x); auto; apply FL; left; auto|apply IHF; intros; apply FL; right; auto]. }
    destruct U as [a i p h|ch i p n h pr l F|ch i p n h pr l F|ch i p n h pr l F]; pose proof (levels_max ch) as ML || idtac; cbn [levels] in Hl.
    - split; [reflexivity|]. intros H. constructor; [|constructor]. eapply H. left. reflexivity.
    - assert (FS : Forall2 claim ch l) by (apply M; [auto|intros x Hx; specialize (ML x Hx); lia]). split; [cbn [tree_cost mean_cost]; apply claims_total; auto|]. intros H. cbn [leaves]. eapply claims_leaves; eauto. intros x Hx. eapply leaves_ok_child; eauto.
    - assert (FS : Forall2 claim ch l) by (apply M; [auto|intros x Hx; specialize (ML x Hx); lia]). split; [cbn [tree_cost mean_cost]; rewrite (claims_total _ _ FS), (Forall2_length _ _ _ FS); reflexivity|]. intros H. cbn [leaves]. eapply claims_leaves; eauto. intros x Hx. eapply leaves_ok_child; eauto.
    - assert (Perm : forall ip, In ip (combine (seq 0 (length (permutations ch))) (permutations ch)) -> Permutation (snd ip) ch). { intros [k q] H. apply in_combine_r in H. apply (perms_n_In _ _ _ eq_refl) in H. auto. }
      assert (O1 : forall ip t, In ip (combine (seq 0 (length (permutations ch))) (permutations ch)) -> order ip t -> (tree_cost cost t == total_of (map (mean_cost cost) ch))%Q /\ ((forall x, In x ch -> leaves_ok x) -> Forall G (leaves t))).
      { intros [k q] t Hip Ho. specialize (Perm _ Hip). cbn [snd] in *. inversion Ho as [? ? copies l' Ec FU]; subst.
        assert (FS : Forall2 claim copies l'). { apply M; [auto|]. intros x Hx. destruct (mapM_In _ _ _ _ Ec Hx) as (z & Hz & Ez). rewrite (proj2 (deep_copy_levels _ _) _ Ez). specialize (ML z ltac:(eapply Permutation_in; eauto)). lia. }
        assert (CP : Forall2 (fun c c' => (mean_cost cost c' == mean_cost cost c)%Q /\ (leaves_ok c -> leaves_ok c')) q copies).
        { apply mapM_Forall2 in Ec. clear - Ec HC. induction Ec as [|x y q copies Hx F IHF]; constructor; auto. change (fun s : string => (s ++ " order-" ++ str_nat k)%string) with (order_fmt k) in Hx. apply deep_copy_copied in Hx. destruct Hx as [Hx _]. apply (mean_copied _ _ _ _ Hx). }
        split.
        - cbn [tree_cost]. rewrite (claims_total _ _ FS). rewrite <- (total_perm _ _ (Permutation_map (mean_cost cost) Perm)). apply total_forall2, forall2_map. clear - CP. induction CP as [|x y a b [H _] CP IH]; constructor; auto.
        - intros H. cbn [leaves]. eapply claims_leaves; eauto. intros y Hy. destruct (Forall2_In_r _ _ _ _ CP Hy) as (x & Hx & _ & HG). apply HG, H. eapply Permutation_in; eauto. }
      assert (O2 : forall t, In t l -> (tree_cost cost t == total_of (map (mean_cost cost) ch))%Q /\ ((forall x, In x ch -> leaves_ok x) -> Forall G (leaves t))).
      { intros t Ht. destruct (Forall2_In_r _ _ _ _ F Ht) as (ip & Hip & Ho). eapply O1; eauto. }
      split.
      + cbn [tree_cost mean_cost]. rewrite (total_all (map (tree_cost cost) l) (total_of (map (mean_cost cost) ch))).
        * rewrite map_length. assert (Ne : l <> []).
          { intros ->. apply Forall2_length in F. rewrite combine_length, seq_length, Nat.min_id in F. assert (K : In ch (permutations ch)) by (apply (perms_n_In _ _ _ eq_refl); reflexivity). destruct (permutations ch); [destruct K|discriminate]. }
          destruct l as [|x l]; [congruence|]. pose proof (nonzero_length x l). field. auto.
        * apply Forall_forall. intros y Hy. apply in_map_iff in Hy. destruct Hy as (t & <- & Ht). apply O2, Ht.
      + intros H. cbn [leaves]. apply Forall_forall. intros a Ha. apply in_flat_map in Ha. destruct Ha as (t & Ht & Ha). destruct (O2 t Ht) as [_ K]. specialize (K ltac:(intros x Hx; eapply leaves_ok_child; eauto)). rewrite Forall_forall in K. auto.
  Qed.
  Lemma unfolds_cost (c : comb collab) t : unfolds c t -> claim c t.
  Proof. apply (claim_aux (levels c)). auto. Qed.
End Unfold.
