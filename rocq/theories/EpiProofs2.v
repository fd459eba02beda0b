(** Proofs for C117 and C118: runs and executions; episodes. *)
From Coq Require Import Lia Lqa Permutation.
From Verif Require Import PyBase PyBaseFacts QBase HtmModel HtmSpec HtmProofs DagModel DagSpec DagProofs PomdpModel PomdpSpec NodeModel NodeSpec ConvSpec NodeProofs NodeProofs2 NodeProofs3 NodeProofs4 EpiSpec EpiProofs.
Local Open Scope list_scope.
Local Open Scope nat_scope.

Section Words.
  Context {P L : Type}.
  Variable lab : action P -> L.
  Definition keeps : Prop := forall i a a', action_copy (order_fmt i) a = Ok a' -> lab a' = lab a.
  Definition parallel_in (c : comb P) : Prop := exists ch i p n h pr, In (Node Parallel ch i p n h pr) (HtmSpec.preorder c).
  Notation n2p := (n2p P).
  Definition label (ls : list (action P)) (k : nat) : option L := option_map lab (nth_error ls k).
  Lemma label_left ls ls' r : (forall i, In i r -> i < length ls) -> map (label (ls ++ ls')) r = map (label ls) r.
  Proof. intros H. apply map_ext_in. intros k Hk. unfold label. rewrite nth_error_app1; auto. Qed.
  Lemma label_right ls ls' r : map (label (ls ++ ls')) (map (Nat.add (length ls)) r) = map (label ls') r.
  Proof. rewrite map_map. apply map_ext. intros k. unfold label. rewrite nth_error_app2 by lia. f_equal. f_equal. lia. Qed.
  Definition says (c : comb P) (t : n2p) : Prop := forall word, executes lab c word <-> exists r, run t r /\ map (label (leaves t)) r = map Some word.

  Lemma says_seq ch l : Forall2 says ch l -> forall W, (exists ws, Forall2 (executes lab) ch ws /\ W = concat ws) <-> exists r, run_seq l r /\ map (label (flat_map leaves l)) r = map Some W.
  Proof.
    induction 1 as [|c t ch l Hc F IH]; intros W.
    - split.
      + intros (ws & H & ->). inversion H; subst. exists []. split; [constructor|reflexivity].
      + intros (r & H & E). inversion H; subst. exists []. split; [constructor|]. destruct W; [reflexivity|discriminate].
    - cbn [flat_map]. split.
      + intros (ws & H & ->). inversion H as [|? w ? ws' H1 H2]; subst. apply Hc in H1. destruct H1 as (r & R1 & E1). destruct (proj1 (IH (concat ws'))) as (r' & R2 & E2); [eauto|]. exists (r ++ map (Nat.add (count [t])) r'). split; [constructor; auto|]. cbn [concat]. rewrite !map_app. rewrite label_left by (intros i Hi; rewrite <- n_leaves_length; eapply run_bound; eauto). rewrite E1. f_equal. unfold count. cbn [flat_map]. rewrite app_nil_r, label_right. auto.
      + intros (r & H & E). inversion H as [|? ? r1 r2 H1 H2]; subst. rewrite map_app in E. rewrite label_left in E by (intros i Hi; rewrite <- n_leaves_length; eapply run_bound; eauto). unfold count in E. cbn [flat_map] in E. rewrite app_nil_r, label_right in E. symmetry in E. apply map_eq_app_inv in E. destruct E as (w1 & w2 & -> & E1 & E2).
        assert (X1 : executes lab c w1) by (apply Hc; eauto). destruct (proj2 (IH w2)) as (ws & X2 & ->); [eauto|]. exists (w1 :: ws). split; [constructor; auto|reflexivity].
  Qed.
  Lemma says_alt ch l : Forall2 says ch l -> forall W, (exists c, In c ch /\ executes lab c W) <-> exists r, run (NAlt l) r /\ map (label (flat_map leaves l)) r = map Some W.
  Proof.
    intros F W. split.
    - intros (c & Hin & Hx). apply in_split in Hin. destruct Hin as (k1 & k2 & ->). apply Forall2_app_inv_l in F. destruct F as (l1 & l2 & F1 & F2 & ->). inversion F2 as [|? t ? l2' Hc F3]; subst. apply Hc in Hx. destruct Hx as (r & Hr & E). exists (map (Nat.add (count l1)) r). split; [constructor; auto|]. rewrite flat_map_app. unfold count. rewrite label_right. cbn [flat_map]. rewrite label_left by (intros i Hi; rewrite <- n_leaves_length; eapply run_bound; eauto). auto.
    - intros (r & H & E). inversion H as [| |l1 t l2 r0 H0]; subst. apply Forall2_app_inv_r in F. destruct F as (k1 & k2 & F1 & F2 & ->). inversion F2 as [|c ? k2' ? Hc F3]; subst. exists c. split; [apply in_or_app; right; left; auto|]. apply Hc. exists r0. split; [auto|]. rewrite flat_map_app in E. unfold count in E. rewrite label_right in E. cbn [flat_map] in E. rewrite label_left in E by (intros i Hi; rewrite <- n_leaves_length; eapply run_bound; eauto). auto.
  Qed.
  Lemma says_aux m : forall (c : comb P) t, levels c <= m -> (parallel_in c -> keeps) -> unfolds c t -> says c t.
  Proof.
    induction m as [|m IH]; intros c t Hl HK U; [destruct c as [|k]; cbn in Hl; [lia|destruct k; cbn in Hl; lia]|].
    assert (M : forall (ch : list (comb P)) (l : list n2p), Forall2 unfolds ch l -> (forall x, In x ch -> levels x <= m) -> (forall x, In x ch -> parallel_in x -> keeps) -> Forall2 says ch l).
    { intros ch l F FL FK. induction F as [|x y ch l H F IHF]; constructor; [apply (IH x); auto; [apply FL|apply FK]; left; auto|apply IHF; intros; [apply FL|eapply FK; [|eassumption]]; right; auto]. }
    assert (HC : forall x, In x (match c with Node _ ch _ _ _ _ _ => ch | Leaf _ _ _ _ => [] end) -> parallel_in x -> keeps).
    { intros x Hx (ch' & i' & p' & n' & h' & pr' & K). apply HK. exists ch', i', p', n', h', pr'. destruct c; [destruct Hx|]. cbn. right. apply in_flat_map. eauto. }
    destruct U as [a i p h|ch i p n h pr l F|ch i p n h pr l F|ch i p n h pr l F]; pose proof (levels_max ch) as ML || idtac; cbn [levels] in Hl; intros W.
    - split.
      + intros H. inversion H; subst. exists [0]. split; [constructor|reflexivity].
      + intros (r & H & E). inversion H; subst. cbn in E. destruct W as [|w [|? ?]]; try discriminate. assert (w = lab a) as -> by (cbn in E; congruence). constructor.
    - cbn [leaves]. assert (FS : Forall2 says ch l) by (apply M; [auto|intros x Hx; specialize (ML x Hx); lia|exact HC]). split.
      + intros H. inversion H as [|? ? ? ? ? ? ws Hw| |]; subst. destruct (proj1 (says_seq ch l FS (concat ws))) as (r & R & E); [eauto|]. exists r. split; [constructor; auto|auto].
      + intros (r & H & E). inversion H as [|? ? Hr|]; subst. destruct (proj2 (says_seq ch l FS W)) as (ws & X & ->); [eauto|]. constructor. auto.
    - cbn [leaves]. assert (FS : Forall2 says ch l) by (apply M; [auto|intros x Hx; specialize (ML x Hx); lia|exact HC]). rewrite <- (says_alt ch l FS W). split.
      + intros H. inversion H; subst. eauto.
      + intros (c & H1 & H2). econstructor; eauto.
    - cbn [leaves]. assert (Hlab : keeps) by (apply HK; do 6 eexists; left; reflexivity).
      assert (Perm : forall ip, In ip (combine (seq 0 (length (permutations ch))) (permutations ch)) -> Permutation (snd ip) ch). { intros [k q] H. apply in_combine_r in H. apply (perms_n_In _ _ _ eq_refl) in H. auto. }
      assert (All : forall q, Permutation ch q -> exists k, In (k, q) (combine (seq 0 (length (permutations ch))) (permutations ch))).
      { intros q Hq. assert (Hin : In q (permutations ch)) by (apply (perms_n_In _ _ _ eq_refl); apply Permutation_sym; auto). apply In_nth_error in Hin. destruct Hin as [k Hk]. exists k. apply (enum_nth (permutations ch)) in Hk. apply nth_error_In in Hk. exact Hk. }
      (* one order *)
      assert (O1 : forall ip t, In ip (combine (seq 0 (length (permutations ch))) (permutations ch)) -> order ip t -> forall W, (exists ws, Forall2 (executes lab) (snd ip) ws /\ W = concat ws) <-> exists r, run t r /\ map (label (leaves t)) r = map Some W).
      { intros [k q] t Hip Ho W0. specialize (Perm _ Hip). cbn [snd] in *. inversion Ho as [? ? copies l' Ec FU]; subst. cbn [leaves].
        assert (FS : Forall2 says copies l'). { apply M; [auto| |auto]. intros x Hx. destruct (mapM_In _ _ _ _ Ec Hx) as (z & Hz & Ez). rewrite (proj2 (deep_copy_levels _ _) _ Ez). specialize (ML z ltac:(eapply Permutation_in; eauto)). lia. }
        assert (CP : forall ws, Forall2 (executes lab) q ws <-> Forall2 (executes lab) copies ws).
        { apply mapM_Forall2 in Ec. clear - Ec Hlab. induction Ec as [|x y q copies Hx F IHF]; intros ws; split; intros HF; inversion HF as [|? w ? ws' H1 H2]; subst; constructor; try (apply IHF; auto); change (fun s : string => (s ++ " order-" ++ str_nat k)%string) with (order_fmt k) in Hx; apply deep_copy_copied in Hx; destruct Hx as [Hx _]; apply (executes_copied lab Hlab _ _ _ _ Hx); auto. }
        assert (RS : forall r, run (NSeq l') r <-> run_seq l' r) by (intros r; split; [intros H; inversion H; auto|constructor; auto]).
        rewrite (says_seq copies l' FS W0) || idtac. split.
        - intros (ws & Hw & ->). apply CP in Hw. destruct (proj1 (says_seq copies l' FS (concat ws))) as (r & R & E); [eauto|]. exists r. split; [apply RS; auto|auto].
        - intros (r & R & E). apply RS in R. destruct (proj2 (says_seq copies l' FS W0)) as (ws & X & ->); [eauto|]. exists ws. split; [apply CP; auto|auto]. }
      split.
      + intros H. inversion H as [| | |? ? ? ? ? ? q ws Hq Hw]; subst. destruct (All q Hq) as [k Hk]. pose proof Hk as Hk'. apply in_split in Hk. destruct Hk as (i1 & i2 & Ei). rewrite Ei in F. apply Forall2_app_inv_l in F. destruct F as (l1 & l2 & F1 & F2 & ->). inversion F2 as [|? t ? l2' Hc F3]; subst. destruct (proj1 (O1 _ _ Hk' Hc (concat ws))) as (r & Hr & E); [eauto|]. exists (map (Nat.add (count l1)) r). split; [constructor; auto|]. rewrite flat_map_app. unfold count. rewrite label_right. cbn [flat_map]. rewrite label_left by (intros j Hj; rewrite <- n_leaves_length; eapply run_bound; eauto). auto.
      + intros (r & H & E). inversion H as [| |l1 t l2 r0 H0]; subst. apply Forall2_app_inv_r in F. destruct F as (i1 & i2 & F1 & F2 & Ei). inversion F2 as [|ip ? i2' ? Hc F3]; subst.
        assert (Hip : In ip (combine (seq 0 (length (permutations ch))) (permutations ch))) by (rewrite Ei; apply in_or_app; right; left; auto). rewrite flat_map_app in E. unfold count in E. rewrite label_right in E. cbn [flat_map] in E. rewrite label_left in E by (intros j Hj; rewrite <- n_leaves_length; eapply run_bound; eauto).
        destruct (proj2 (O1 _ _ Hip Hc W)) as (ws & X & ->); [eauto|]. apply exec_par with (snd ip); auto. apply Permutation_sym. auto.
  Qed.
  Lemma runs_executions (c : comb P) t : (parallel_in c -> keeps) -> unfolds c t -> forall word, executes lab c word <-> exists r, run t r /\ seen lab t r = map Some word.
  Proof. intros HK U. apply (says_aux (levels c) c t (Nat.le_refl _) HK U). Qed.
  Lemma run_word (c : comb P) t r : (parallel_in c -> keeps) -> unfolds c t -> run t r -> exists word, executes lab c word /\ seen lab t r = map Some word.
  Proof.
    intros HK U Hr. assert (A : exists word, seen lab t r = map Some word).
    { assert (B : forall i, In i r -> i < length (leaves t)) by (intros i Hi; rewrite <- n_leaves_length; eapply run_bound; eauto). clear Hr. unfold seen. induction r as [|i r IH]; [exists []; reflexivity|]. destruct IH as [w E]; [intros; apply B; right; auto|]. destruct (nth_error (leaves t) i) as [a|] eqn:Ea; [|apply nth_error_None in Ea; specialize (B i (or_introl eq_refl)); lia]. exists (lab a :: w). cbn [map]. rewrite Ea, E. reflexivity. }
    destruct A as [w E]. exists w. split; [|auto]. apply (runs_executions c t HK U). eauto.
  Qed.
End Words.

(** *** Merging *)
Lemma merged_snoc l : forall k k', merged (l ++ [k; k']) = if k =? k' then merged (l ++ [k]) else merged (l ++ [k]) ++ [k'].
Proof.
  induction l as [|x l IH]; intros k k'; [cbn; destruct (Nat.eqb_spec k k') as [->|]; reflexivity|].
  destruct l as [|y l]; [cbn; destruct (x =? k), (Nat.eqb_spec k k') as [->|]; try reflexivity|]. specialize (IH k k'). cbn [app] in IH |- *. change (merged (x :: y :: l ++ [k; k'])) with (if x =? y then merged (y :: l ++ [k; k']) else x :: merged (y :: l ++ [k; k'])). change (merged (x :: y :: l ++ [k])) with (if x =? y then merged (y :: l ++ [k]) else x :: merged (y :: l ++ [k])).
  rewrite IH. destruct (x =? y), (k =? k'); reflexivity.
Qed.
Lemma merged_last l k : exists m, merged (l ++ [k]) = m ++ [k].
Proof.
  revert k. induction l as [|x l IH] using rev_ind; intros k; [exists []; reflexivity|]. rewrite <- app_assoc. cbn [app]. rewrite merged_snoc. destruct (Nat.eqb_spec x k) as [->|]; [apply IH|]. destruct (IH x) as [m ->]. eauto.
Qed.

(** *** Episodes: a table of moves between leaves *)
Section Episodes.
  Context {P : Type}.
  Variable t : n2p P.
  Variable p : pomdp.
  Variable leaf_of : nat -> nat.
  Variable fin : nat.
  Hypothesis Pt : proper t.
  Hypothesis Starts : forall s, ~ (Start p s == 0)%Q -> s < fin /\ exists q, enters t (leaf_of s) q.
  Hypothesis Moves : forall a s s', a < nA p -> s < fin -> ~ (Tr p a s s' == 0)%Q ->
    (s' < fin /\ (leaf_of s' = leaf_of s \/ exists q, leads t (leaf_of s) (Some (leaf_of s')) q)) \/ (s' = fin /\ exists q, leads t (leaf_of s) None q).
  Hypothesis Leaf : forall s, s < fin -> leaf_of s < n_leaves t.

  Lemma removelast_snoc {A} (l : list A) x : removelast (l ++ [x]) = l.
  Proof. apply removelast_last. Qed.
  Lemma episode_upto l : episode p l -> forall l' s, l = l' ++ [s] -> Forall (fun s => s < fin) l' ->
    (s < fin /\ upto t (gone_through leaf_of fin l)) \/ (s = fin /\ exists m i q, gone_through leaf_of fin l = m ++ [i] /\ upto t (m ++ [i]) /\ leads t i None q).
  Proof.
    unfold gone_through. induction 1 as [s Hs Hn|l s a s' He IH Ha Hs' Hn]; intros l' s0 E F.
    - destruct l' as [|x l']; [|destruct l'; discriminate]. assert (s0 = s) as -> by (cbn in E; congruence). destruct (Starts s Hn) as [A [q B]]. left. split; [auto|]. cbn [filter]. rewrite (proj2 (Nat.ltb_lt _ _) A). cbn [map merged]. econstructor; eauto.
    - assert (E2 : l' = l ++ [s] /\ s0 = s'). { change (l ++ [s; s']) with (l ++ [s] ++ [s']) in E. rewrite app_assoc in E. apply app_inj_tail in E. intuition. } destruct E2 as [-> ->]. rewrite Forall_app in F. destruct F as [F1 F2]. inversion F2 as [|? ? Fs _]; subst.
      destruct (IH l s eq_refl F1) as [[_ U]|[E0 _]]; [|lia]. rewrite !filter_app, !map_app in *. cbn [filter] in *. rewrite (proj2 (Nat.ltb_lt _ _) Fs) in *. cbn [map] in *. set (ks := map leaf_of (filter (fun s => s <? fin) l)) in *.
      destruct (Moves a s s' Ha Fs Hn) as [[A [B|[q B]]]|[-> [q B]]].
      + left. split; [auto|]. rewrite (proj2 (Nat.ltb_lt _ _) A). cbn [map]. rewrite merged_snoc, B, Nat.eqb_refl. auto.
      + left. split; [auto|]. rewrite (proj2 (Nat.ltb_lt _ _) A). cbn [map]. rewrite merged_snoc. pose proof (leads_lt t _ _ _ B _ eq_refl). destruct (Nat.eqb_spec (leaf_of s) (leaf_of s')) as [|_]; [lia|]. destruct (merged_last ks (leaf_of s)) as [m Em]. rewrite Em in *. rewrite <- app_assoc. cbn [app]. econstructor; eauto.
      + right. split; [auto|]. rewrite Nat.ltb_irrefl. cbn [map]. destruct (merged_last ks (leaf_of s)) as [m Em]. exists m, (leaf_of s), q. rewrite Em in *. auto.
  Qed.
  Lemma episode_run l : episode p l -> Forall (fun s => s < fin) (removelast l) ->
    exists r, run t r /\ gone_through leaf_of fin l = firstn (length (gone_through leaf_of fin l)) r /\ (last l 0 = fin -> gone_through leaf_of fin l = r).
  Proof.
    intros He F. assert (El : exists l' s, l = l' ++ [s]) by (destruct He as [s|l s a s']; [exists [], s; reflexivity|exists (l ++ [s]), s'; rewrite <- app_assoc; reflexivity]). destruct El as (l' & s & ->). rewrite removelast_snoc in F. rewrite last_last.
    destruct (episode_upto _ He l' s eq_refl F) as [[Hs U]|[-> (m & i & q & E & U & Hl)]].
    - assert (Em : exists m, gone_through leaf_of fin (l' ++ [s]) = m ++ [leaf_of s]) by (unfold gone_through; rewrite filter_app, map_app; cbn [filter]; rewrite (proj2 (Nat.ltb_lt _ _) Hs); apply merged_last). destruct Em as [m Em]. rewrite Em in *. destruct (upto_run t m (leaf_of s) Pt U (Leaf s Hs)) as [r Hr]. exists (m ++ [leaf_of s] ++ r). split; [auto|]. split; [|intros; lia]. rewrite app_assoc, firstn_app, Nat.sub_diag, firstn_all. cbn. rewrite app_nil_r. reflexivity.
    - rewrite E. exists (m ++ [i]). split; [eapply upto_end; eauto|]. split; [rewrite firstn_all; reflexivity|auto].
  Qed.
End Episodes.
