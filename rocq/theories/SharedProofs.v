(** Proofs for C95. *)
From Verif Require Import PyBase PyBaseFacts QBase PomdpModel BeliefModel EvalModel PolicyModel PomcpModel PomcpSpec PomcpProofs PomcpProofs2 SharedModel SharedSpec.
From Coq Require Import Lia.
Local Open Scope list_scope.
Local Open Scope nat_scope.

Section Proofs.
  Context {X St B H : Type}.
  Variable P : search X St B H.
  Variable same : B -> B -> bool.
  Hypothesis same_refl : forall b, same b b = true.
  (** Any property of beliefs kept by filtering *)
  Variable G : B -> Prop.
  Hypothesis G_follow : forall b a o b1, G b -> may_follow P b a o b1 -> G b1.

  (** *** Stores *)
  Lemma modify_nth (st : store B) : forall i f j, nth_error (modify st i f) j = if Nat.eqb j i then option_map f (nth_error st j) else nth_error st j.
  Proof.
    induction st as [|n st IH]; intros i f j.
    - cbn [modify]. destruct (Nat.eqb j i); destruct j; reflexivity.
    - destruct i as [|i], j as [|j]; cbn [modify nth_error]; try reflexivity. rewrite IH. reflexivity.
  Qed.
  Lemma modify_beliefs (st : store B) : forall i f, (forall n, sn_belief (f n) = sn_belief n) -> map sn_belief (modify st i f) = map sn_belief st.
  Proof. induction st as [|n st IH]; intros [|i] f Hf; cbn [modify map]; [auto|auto|rewrite Hf; auto|rewrite IH; auto]. Qed.
  Lemma modify_length (st : store B) : forall i f, length (modify st i f) = length st.
  Proof. induction st as [|n st IH]; intros [|i] f; cbn [modify length]; auto. Qed.
  Lemma modify_modify (st : store B) : forall i f g, modify (modify st i f) i g = modify st i (fun n => g (f n)).
  Proof. induction st as [|n st IH]; intros [|i] f g; cbn [modify]; [auto|auto|auto|rewrite IH; auto]. Qed.
  Lemma index_of_Some (st : store B) b : forall i, index_of same st b = Some i -> exists n, nth_error st i = Some n /\ same (sn_belief n) b = true.
  Proof.
    induction st as [|n st IH]; intros i E; cbn [index_of] in E; [discriminate|].
    destruct (same (sn_belief n) b) eqn:Es; [assert (i = 0) as -> by congruence; exists n; auto|].
    destruct (index_of same st b) as [k|]; [|discriminate]. cbn [option_map] in E. assert (i = S k) as -> by congruence. apply IH. reflexivity.
  Qed.
  Lemma index_of_None (st : store B) b : index_of same st b = None -> forall n, In n st -> same (sn_belief n) b = false.
  Proof.
    induction st as [|m st IH]; intros E n Hn; cbn [index_of] in E; [destruct Hn|].
    destruct (same (sn_belief m) b) eqn:Es; [discriminate|]. destruct (index_of same st b) as [k|] eqn:Ek; [discriminate|]. destruct Hn as [<-|Hn]; auto.
  Qed.

  (** *** What the store satisfies: [bs] are the beliefs of all nodes *)
  Definition node_ok (bs : list B) (n : snode B) : Prop :=
    length (sn_kids n) = n_actions P /\ s_all_visits n <= n_simulations (sn_avg n) /\
    forall a k o j, nth_error (sn_kids n) a = Some (Some k) -> lookup o (k_obs k) = Some j ->
      exists b m, nth_error bs j = Some m /\ may_follow P (sn_belief n) a o b /\ same m b = true /\ NoDup (map fst (k_obs k)).
  Definition distinct (bs : list B) : Prop := forall i j b c, i < j -> nth_error bs i = Some b -> nth_error bs j = Some c -> same b c = false.
  Definition store_ok (st : store B) : Prop := (forall n, In n st -> node_ok (map sn_belief st) n) /\ distinct (map sn_belief st) /\
    forall b, In b (map sn_belief st) -> G b.

  (** *** How it grows *)
  Definition node_ext (n n' : snode B) : Prop :=
    sn_belief n' = sn_belief n /\ n_simulations (sn_avg n) <= n_simulations (sn_avg n') /\
    forall a k, nth_error (sn_kids n) a = Some (Some k) -> exists k', nth_error (sn_kids n') a = Some (Some k') /\
      n_simulations (k_avg k) <= n_simulations (k_avg k') /\ forall o j, lookup o (k_obs k) = Some j -> lookup o (k_obs k') = Some j.
  Definition extends (st st' : store B) : Prop :=
    (exists bs, map sn_belief st' = map sn_belief st ++ bs) /\
    forall i n, nth_error st i = Some n -> exists n', nth_error st' i = Some n' /\ node_ext n n'.

  Lemma node_ext_refl n : node_ext n n.
  Proof. split; [auto|split; [auto|]]. intros a k E; exists k; auto. Qed.
  Lemma node_ext_trans n1 n2 n3 : node_ext n1 n2 -> node_ext n2 n3 -> node_ext n1 n3.
  Proof.
    intros (A1 & A2 & A3) (B1 & B2 & B3). split; [congruence|split; [lia|]]. intros a k E. destruct (A3 a k E) as (k1 & E1 & L1 & K1).
    destruct (B3 a k1 E1) as (k2 & E2 & L2 & K2). exists k2. split; [auto|split; [lia|auto]].
  Qed.
  Lemma extends_refl st : extends st st.
  Proof. split; [exists []; rewrite app_nil_r; auto|]. intros i n E; exists n; split; [auto|apply node_ext_refl]. Qed.
  Lemma extends_trans s1 s2 s3 : extends s1 s2 -> extends s2 s3 -> extends s1 s3.
  Proof.
    intros [[b1 E1] F1] [[b2 E2] F2]. split; [exists (b1 ++ b2); rewrite E2, E1, app_assoc; auto|].
    intros i n E. destruct (F1 i n E) as (n1 & N1 & X1). destruct (F2 i n1 N1) as (n2 & N2 & X2). exists n2. split; [auto|eapply node_ext_trans; eauto].
  Qed.
  Lemma extends_length st st' : extends st st' -> length st <= length st'.
  Proof. intros [[bs E] _]. apply (f_equal (@length B)) in E. rewrite app_length, !map_length in E. lia. Qed.

  Lemma node_ok_app bs bs' n : node_ok bs n -> node_ok (bs ++ bs') n.
  Proof.
    intros (A1 & A2 & A3). split; [auto|split; [auto|]]. intros a k o j E1 E2. destruct (A3 a k o j E1 E2) as (b & m & E3 & E4 & E5). exists b, m.
    split; [|auto]. rewrite nth_error_app1; [auto|]. apply nth_error_Some. congruence.
  Qed.

  (** A change of one node *)
  Lemma modify_ok st i f : store_ok st -> (forall n, sn_belief (f n) = sn_belief n) ->
    (forall n, nth_error st i = Some n -> node_ok (map sn_belief st) n -> node_ok (map sn_belief st) (f n) /\ node_ext n (f n)) ->
    store_ok (modify st i f) /\ extends st (modify st i f).
  Proof.
    intros (S1 & S2 & S3) Hb Hf. split; [split; [|split]|split].
    - intros n Hn. rewrite modify_beliefs by auto. apply In_nth_error in Hn. destruct Hn as [j Ej]. rewrite modify_nth in Ej.
      destruct (Nat.eqb_spec j i) as [Hji|]; [subst j|apply S1; eapply nth_error_In; eauto].
      destruct (nth_error st i) as [m|] eqn:Em; [|discriminate]. cbn in Ej. assert (n = f m) as -> by congruence. apply Hf; auto. apply S1. eapply nth_error_In; eauto.
    - rewrite modify_beliefs by auto. auto.
    - rewrite modify_beliefs by auto. auto.
    - exists []. rewrite app_nil_r. apply modify_beliefs. auto.
    - intros j n Ej. rewrite modify_nth, Ej. destruct (Nat.eqb_spec j i) as [Hji|]; [subst j|exists n; split; [auto|apply node_ext_refl]].
      exists (f n). split; [reflexivity|]. apply Hf; auto. apply S1. eapply nth_error_In; eauto.
  Qed.

  Lemma lookup_upd (o j o' : nat) d : lookup o' (upd o j d) = if Nat.eqb o' o then Some j else lookup o' d.
  Proof.
    destruct (Nat.eqb_spec o' o) as [->|Hne]; [apply lookup_upd_same|apply lookup_upd_other; auto].
  Qed.

  Lemma visits_same (n n' : snode B) : length (sn_kids n') = length (sn_kids n) -> (forall a, s_visits n' a = s_visits n a) -> s_all_visits n' = s_all_visits n.
  Proof. intros L E. unfold s_all_visits. rewrite L. apply list_sum_ext. auto. Qed.

  (** The changes made by the search *)
  Lemma safe_ok bs (n : snode B) a : node_ok bs n -> node_ok bs (sn_safe a n) /\ node_ext n (sn_safe a n).
  Proof.
    intros (A1 & A2 & A3). unfold sn_safe. destruct (nth_error (sn_kids n) a) as [[k|]|] eqn:Ea.
    - split; [split; [auto|split; auto]|]. split; [auto|split; [auto|]]. cbn [sn_kids]. intros a' k' E; exists k'; auto.
    - assert (Hlt : a < length (sn_kids n)) by (apply nth_error_Some; congruence).
      assert (K : forall a', nth_error (set_nth (sn_kids n) a (Some k_new)) a' = if Nat.eqb a' a then Some (Some k_new) else nth_error (sn_kids n) a').
      { intros a'. destruct (Nat.eqb_spec a' a) as [->|]; [apply set_nth_same; auto|apply set_nth_other; auto]. }
      split; [split; [|split]|].
      + cbn [sn_kids]. rewrite set_nth_length. auto.
      + cbn [sn_avg]. etransitivity; [|exact A2]. apply Nat.eq_le_incl, visits_same; cbn [sn_kids]; [apply set_nth_length|].
        intros a'. unfold s_visits. cbn [sn_kids]. rewrite K. destruct (Nat.eqb_spec a' a) as [->|]; [rewrite Ea; reflexivity|reflexivity].
      + cbn [sn_kids sn_belief]. intros a' k o j. rewrite K. destruct (Nat.eqb_spec a' a) as [->|]; [|eauto].
        intros E1 E2. assert (k = k_new) as -> by congruence. discriminate.
      + split; [auto|split; [auto|]]. cbn [sn_kids]. intros a' k E. rewrite K. destruct (Nat.eqb_spec a' a) as [->|]; [congruence|]. exists k; auto.
    - split; [split; [auto|split; auto]|]. split; [auto|split; [auto|]]. cbn [sn_kids]. intros a' k' E; exists k'; auto.
  Qed.

  Lemma kid_nth (n : snode B) a f a' k : nth_error (sn_kids n) a = Some (Some k) ->
    nth_error (sn_kids (sn_kid a f n)) a' = if Nat.eqb a' a then Some (Some (f k)) else nth_error (sn_kids n) a'.
  Proof.
    intros Ea. unfold sn_kid. cbn [sn_kids]. rewrite Ea. assert (Hlt : a < length (sn_kids n)) by (apply nth_error_Some; congruence).
    destruct (Nat.eqb_spec a' a) as [->|]; [apply set_nth_same; auto|apply set_nth_other; auto].
  Qed.
  Lemma kid_length (n : snode B) a f : length (sn_kids (sn_kid a f n)) = length (sn_kids n).
  Proof. unfold sn_kid. cbn [sn_kids]. destruct (nth_error (sn_kids n) a) as [[k|]|]; auto. apply set_nth_length. Qed.

  Lemma obs_NoDup bs n a k : node_ok bs n -> nth_error (sn_kids n) a = Some (Some k) -> NoDup (map fst (k_obs k)).
  Proof.
    intros (_ & _ & A3) Ea. destruct (k_obs k) as [|[o j] l] eqn:E; [constructor|]. rewrite <- E. destruct (A3 a k o j Ea) as (b & m & _ & _ & _ & ND); [|auto].
    rewrite E. cbn [lookup]. destruct (eq_dec o o); congruence.
  Qed.
  Lemma put_ok bs n a o j k b m : node_ok bs n -> nth_error (sn_kids n) a = Some (Some k) -> lookup o (k_obs k) = None ->
    may_follow P (sn_belief n) a o b -> nth_error bs j = Some m -> same m b = true ->
    node_ok bs (sn_kid a (k_put o j) n) /\ node_ext n (sn_kid a (k_put o j) n).
  Proof.
    intros NK Ea El Hm Ej Hs. pose proof (keys_upd_NoDup o j (k_obs k) (obs_NoDup _ _ _ _ NK Ea)) as ND. destruct NK as (A1 & A2 & A3).
    assert (K := fun a' => kid_nth n a (k_put o j) a' k Ea).
    split; [split; [|split]|].
    - rewrite kid_length. auto.
    - cbn [sn_kid sn_avg]. etransitivity; [|exact A2]. apply Nat.eq_le_incl, visits_same; [apply kid_length|].
      intros a'. unfold s_visits. rewrite K. destruct (Nat.eqb_spec a' a) as [->|]; [rewrite Ea; reflexivity|reflexivity].
    - intros a' k' o' j'. rewrite K. change (sn_belief (sn_kid a (k_put o j) n)) with (sn_belief n). destruct (Nat.eqb_spec a' a) as [->|]; [|eauto].
      intros E1 E2. assert (k' = k_put o j k) as -> by congruence. cbn [k_put k_obs] in E2. rewrite lookup_upd in E2.
      destruct (Nat.eqb_spec o' o) as [->|]; [assert (j' = j) as -> by congruence; exists b, m; auto|].
      destruct (A3 _ _ _ _ Ea E2) as (b0 & m0 & E3 & E4 & E5 & _). exists b0, m0. auto.
    - split; [auto|split; [auto|]]. intros a' k' E. rewrite K. destruct (Nat.eqb_spec a' a) as [->|]; [|exists k'; auto].
      assert (k' = k) as -> by congruence. eexists; split; [reflexivity|]. cbn [k_put k_avg k_obs]. split; [auto|]. intros o' j' E'. rewrite lookup_upd.
      destruct (Nat.eqb_spec o' o) as [->|]; [congruence|auto].
  Qed.

  Lemma update_ok bs n v : node_ok bs n -> node_ok bs (sn_update P v n) /\ node_ext n (sn_update P v n).
  Proof.
    intros (A1 & A2 & A3). split; [split; [auto|split; [|auto]]|].
    - cbn [sn_update sn_avg avg_update n_simulations]. etransitivity; [|apply le_S, A2]. apply Nat.eq_le_incl, visits_same; reflexivity.
    - split; [auto|split; [cbn; lia|]]. cbn [sn_update sn_kids]. intros a k E; exists k; auto.
  Qed.

  Lemma both_ok bs n a v k : node_ok bs n -> nth_error (sn_kids n) a = Some (Some k) ->
    node_ok bs (sn_update P v (sn_kid a (k_update P v) n)) /\ node_ext n (sn_update P v (sn_kid a (k_update P v) n)).
  Proof.
    intros (A1 & A2 & A3) Ea.
    assert (K := fun a' => kid_nth n a (k_update P v) a' k Ea).
    assert (Hlt : a < length (sn_kids n)) by (apply nth_error_Some; congruence).
    split; [split; [|split]|].
    - cbn [sn_update sn_kids]. rewrite kid_length. auto.
    - cbn [sn_update sn_kid sn_avg avg_update n_simulations]. apply le_n_S in A2. etransitivity; [|exact A2]. apply Nat.eq_le_incl.
      unfold s_all_visits at 1. cbn [sn_update sn_kids]. rewrite kid_length.
      apply (list_sum_bump (s_visits n) _ a); [apply seq_NoDup|apply in_seq; lia| |].
      + unfold s_visits. cbn [sn_update sn_kids]. rewrite K, Nat.eqb_refl, Ea. reflexivity.
      + intros a' _ Hne. unfold s_visits. cbn [sn_update sn_kids]. rewrite K. destruct (Nat.eqb_spec a' a); [congruence|reflexivity].
    - cbn [sn_update sn_kids]. intros a' k' o' j'. rewrite K. change (sn_belief (sn_update P v (sn_kid a (k_update P v) n))) with (sn_belief n).
      destruct (Nat.eqb_spec a' a) as [->|]; [|eauto]. intros E1 E2. assert (k' = k_update P v k) as -> by congruence. cbn [k_update k_obs] in *. eauto.
    - split; [auto|split; [cbn; lia|]]. cbn [sn_update sn_kids]. intros a' k' E. rewrite K. destruct (Nat.eqb_spec a' a) as [->|]; [|exists k'; auto].
      assert (k' = k) as -> by congruence. eexists; split; [reflexivity|]. cbn. auto.
  Qed.

  Lemma new_ok bs b : node_ok bs (sn_new P b).
  Proof.
    assert (K : forall a k, nth_error (sn_kids (sn_new P b)) a <> Some (Some k)).
    { intros a k E. cbn [sn_new sn_kids] in E. apply nth_error_In, repeat_spec in E. discriminate. }
    split; [cbn; apply repeat_length|split].
    - unfold s_all_visits. rewrite (list_sum_ext _ (fun _ => 0)).
      + generalize (seq 0 (length (sn_kids (sn_new P b)))). intros l. induction l; cbn; auto.
      + intros a _. unfold s_visits. destruct (nth_error (sn_kids (sn_new P b)) a) as [[k|]|] eqn:E; auto. destruct (K _ _ E).
    - intros a k o j E. destruct (K _ _ E).
  Qed.

  Lemma node_for_belief_ok st b st' j : store_ok st -> G b -> node_for_belief P same st b = (st', j) ->
    store_ok st' /\ extends st st' /\ exists n, nth_error st' j = Some n /\ same (sn_belief n) b = true.
  Proof.
    intros (S1 & S2 & S3) Gb E. unfold node_for_belief in E. destruct (index_of same st b) as [i|] eqn:Ei.
    - assert (st' = st) as -> by congruence. assert (j = i) as -> by congruence. split; [split; [auto|split; auto]|]. split; [apply extends_refl|]. apply index_of_Some; auto.
    - assert (st' = st ++ [sn_new P b]) as -> by congruence. assert (j = length st) as -> by congruence. split; [split; [|split]|split; [split|]].
      + intros n Hn. apply in_app_or in Hn. rewrite map_app. destruct Hn as [Hn|[<-|[]]]; [apply node_ok_app, S1, Hn|apply new_ok].
      + rewrite map_app. intros i j c d Hij Ec Ed. destruct (Nat.lt_ge_cases j (length st)) as [Hj|Hj].
        * rewrite nth_error_app1 in Ec, Ed by (rewrite map_length; lia). apply (S2 i j); auto.
        * assert (j = length st).
          { assert (j < length (map sn_belief st ++ map sn_belief [sn_new P b])) by (apply nth_error_Some; congruence). rewrite app_length, !map_length in *. cbn in *. lia. }
          subst j. rewrite nth_error_app1 in Ec by (rewrite map_length; lia). rewrite nth_error_app2, map_length, Nat.sub_diag in Ed by (rewrite map_length; lia).
          cbn in Ed. assert (d = b) as -> by congruence. rewrite nth_error_map in Ec. destruct (nth_error st i) as [n|] eqn:En; [|discriminate].
          cbn in Ec. assert (c = sn_belief n) as -> by congruence. apply (index_of_None st b Ei). eapply nth_error_In; eauto.
      + rewrite map_app. intros c Hc. apply in_app_or in Hc. destruct Hc as [Hc|[<-|[]]]; auto.
      + exists [b]. rewrite map_app. reflexivity.
      + intros i n E'. exists n. split; [|apply node_ext_refl]. rewrite nth_error_app1; [auto|]. apply nth_error_Some. congruence.
      + exists (sn_new P b). split; [rewrite nth_error_app2, Nat.sub_diag by auto; reflexivity|apply same_refl].
  Qed.

  Lemma s_rollout_ok fuel st j h x st' x' v : store_ok st -> s_rollout P fuel st j h x = (st', x', v) -> store_ok st' /\ extends st st'.
  Proof.
    intros S0 E. unfold s_rollout in E.
    assert (R : store_ok st /\ extends st st) by (split; [auto|apply extends_refl]).
    destruct (s_reached P h); [assert (st' = st) as -> by congruence; auto|].
    destruct (nth_error st j) as [n|] eqn:En; [|assert (st' = st) as -> by congruence; auto].
    destruct (rollouts P (s_rollouts P) fuel (sn_belief n) h 0 x) as [[r|e] y]; [|assert (st' = st) as -> by congruence; auto].
    destruct (Nat.eqb (s_rollouts P) 0); [assert (st' = st) as -> by congruence; auto|]. cbv zeta in E.
    match type of E with (modify st j ?f, _, _) = _ => assert (st' = modify st j f) as -> by congruence end.
    apply modify_ok; auto. intros m _ Hm. apply update_ok. auto.
  Qed.

  Lemma safe_child_after (st : store B) i n a k : nth_error st i = Some n -> sn_child n a = Ok k ->
    exists n', nth_error (modify st i (sn_safe a)) i = Some n' /\ sn_belief n' = sn_belief n /\ nth_error (sn_kids n') a = Some (Some k).
  Proof.
    intros En Ek. rewrite modify_nth, Nat.eqb_refl, En. exists (sn_safe a n). split; [reflexivity|]. split; [reflexivity|].
    unfold sn_child in Ek. unfold sn_safe. cbn [sn_kids]. destruct (nth_error (sn_kids n) a) as [[k0|]|] eqn:Ea; [rewrite Ea; congruence| |discriminate].
    rewrite set_nth_same; [congruence|]. apply nth_error_Some. congruence.
  Qed.

  Lemma put_modify_ok st i n a k o b st1 j : store_ok st -> nth_error st i = Some n -> nth_error (sn_kids n) a = Some (Some k) -> lookup o (k_obs k) = None ->
    may_follow P (sn_belief n) a o b -> node_for_belief P same st b = (st1, j) ->
    store_ok (modify st1 i (sn_kid a (k_put o j))) /\ extends st (modify st1 i (sn_kid a (k_put o j))).
  Proof.
    intros S0 En Ek El Hm Ef.
    assert (Gb : G b) by (apply (G_follow (sn_belief n) a o); auto; apply (proj2 (proj2 S0)), in_map; eapply nth_error_In; eauto).
    destruct (node_for_belief_ok st b st1 j S0 Gb Ef) as (S1 & X1 & m & Em & Hs).
    assert (Y : store_ok (modify st1 i (sn_kid a (k_put o j))) /\ extends st1 (modify st1 i (sn_kid a (k_put o j)))).
    { apply modify_ok; auto. intros n1 En1 Hn1.
      assert (n1 = n).
      { unfold node_for_belief in Ef. destruct (index_of same st b); [congruence|]. assert (st1 = st ++ [sn_new P b]) as -> by congruence.
        rewrite nth_error_app1 in En1; [congruence|]. apply nth_error_Some. congruence. }
      subst n1. apply (put_ok (map sn_belief st1) n a o j k b (sn_belief m)); auto. rewrite nth_error_map, Em. reflexivity. }
    destruct Y as [Y1 Y2]. split; [auto|eapply extends_trans; eauto].
  Qed.

  Lemma s_simulate_ok : forall fuel st i s h action x st' x' v, store_ok st -> s_simulate P same fuel st i s h action x = (st', x', v) ->
    store_ok st' /\ extends st st'.
  Proof.
    induction fuel as [|fuel IH]; intros st i s h action x st' x' v S0 E; cbn [s_simulate] in E.
    - assert (R : store_ok st /\ extends st st) by (split; [auto|apply extends_refl]).
      destruct (nth_error st i) as [n|]; [|assert (st' = st) as -> by congruence; auto].
      destruct (s_reached P h); assert (st' = st) as -> by congruence; auto.
    - assert (R : store_ok st /\ extends st st) by (split; [auto|apply extends_refl]).
      destruct (nth_error st i) as [n|] eqn:En; [|assert (st' = st) as -> by congruence; auto].
      destruct (s_reached P h); [assert (st' = st) as -> by congruence; auto|].
      destruct (match action with Some a => (Ok a, x) | None => best_action P (as_tree n) (s_exploration P) (s_relative P) x end) as [ra y].
      destruct ra as [a|e]; cbn [bind] in E; [|assert (st' = st) as -> by congruence; auto].
      destruct (sn_child n a) as [k|e] eqn:Ek; cbn [bind] in E; [|assert (st' = st) as -> by congruence; auto].
      assert (R1 : store_ok (modify st i (sn_safe a)) /\ extends st (modify st i (sn_safe a))).
      { apply modify_ok; auto. intros m _ Hm. apply safe_ok. auto. }
      destruct (safe_child_after st i n a k En Ek) as (n1 & En1 & Eb1 & Ek1).
      set (st1 := modify st i (sn_safe a)) in *. destruct R1 as [S1 X1].
      destruct (s_transition P a s y) as [[[[s' o] r]|e] z]; [|assert (st' = st1) as -> by congruence; auto]. cbv zeta in E.
      set (h' := s_decrement P h a s s' o) in *.
      match type of E with match ?t with _ => _ end = _ => assert (R2 : forall st2 x2 v2, t = (st2, x2, v2) -> store_ok st2 /\ extends st1 st2) end.
      { intros st2 x2 v2. destruct (lookup o (k_obs k)) as [j|] eqn:El; [intros E2; apply (IH _ _ _ _ _ _ _ _ _ S1 E2)|].
        destruct (s_succ P (sn_belief n) a o z) as [rb z1] eqn:Es. destruct rb as [b|e].
        - destruct (node_for_belief P same st1 b) as [st3 j] eqn:Ef.
          destruct (put_modify_ok st1 i n1 a k o b st3 j S1 En1 Ek1 El) as [S3 X3]; [rewrite Eb1; exists z, z1; auto|auto|].
          destruct (s_rollout P fuel (modify st3 i (sn_kid a (k_put o j))) j h' z1) as [[st4 x4] v4] eqn:Er.
          intros E2. assert (st2 = st4) as -> by congruence. destruct (s_rollout_ok _ _ _ _ _ _ _ _ S3 Er) as [S4 X4]. split; [auto|eapply extends_trans; eauto].
        - intros E2. assert (st2 = st1) as -> by (destruct e; congruence). split; [auto|apply extends_refl]. }
      match type of E with match ?t with _ => _ end = _ => destruct t as [[st2 x2] v2] end.
      destruct (R2 st2 x2 v2 eq_refl) as [S2 X2]. pose proof (extends_trans _ _ _ X1 X2) as X12.
      destruct v2 as [v2|e]; [|assert (st' = st2) as -> by congruence; auto].
      rewrite modify_modify in E. match type of E with (modify st2 i ?f, _, _) = _ => assert (st' = modify st2 i f) as -> by congruence end.
      destruct X2 as [_ X2]. destruct (X2 i n1 En1) as (n2 & En2 & _ & _ & K2). destruct (K2 a k Ek1) as (k2 & Ek2 & _).
      assert (Y : store_ok (modify st2 i (fun n0 => sn_update P (r + s_discount P * v2) (sn_kid a (k_update P (r + s_discount P * v2)) n0))) /\
                  extends st2 (modify st2 i (fun n0 => sn_update P (r + s_discount P * v2) (sn_kid a (k_update P (r + s_discount P * v2)) n0)))).
      { apply modify_ok; auto. intros m Em Hm. assert (m = n2) as -> by congruence. apply (both_ok _ _ _ _ k2); auto. }
      destruct Y as [Y1 Y2]. split; [auto|eapply extends_trans; eauto].
  Qed.

  Lemma s_simulate_from_ok fuel action st i x st' x' v : store_ok st -> s_simulate_from P same fuel action st i x = (st', x', v) -> store_ok st' /\ extends st st'.
  Proof.
    intros S0 E. unfold s_simulate_from in E. assert (R : store_ok st /\ extends st st) by (split; [auto|apply extends_refl]).
    destruct (nth_error st i) as [n|]; [|assert (st' = st) as -> by congruence; auto].
    destruct (s_sample P (sn_belief n) x) as [[s|e] y]; [|assert (st' = st) as -> by congruence; auto].
    eapply s_simulate_ok; eauto.
  Qed.

  (** get_node: the node found is at the end of the history *)
  Lemma find_extends st st' : extends st st' -> forall h i j, s_find st i h = Some j -> s_find st' i h = Some j.
  Proof.
    intros [_ XX]. induction h as [|[a o] h IH]; intros i j E; cbn [s_find] in *; [auto|].
    destruct (nth_error st i) as [n|] eqn:En; [|discriminate]. destruct (XX i n En) as (n' & -> & _ & _ & K).
    destruct (nth_error (sn_kids n) a) as [[k|]|] eqn:Ea; try discriminate. destruct (K a k Ea) as (k' & -> & _ & L).
    destruct (lookup o (k_obs k)) as [j'|] eqn:El; [|discriminate]. rewrite (L o j' El). auto.
  Qed.

  Lemma s_get_node_ok : forall h st i x st' x' v, store_ok st -> s_get_node P same st i h x = (st', x', v) ->
    store_ok st' /\ extends st st' /\ forall j, v = Ok j -> s_find st' i h = Some j.
  Proof.
    induction h as [|[a o] h IH]; intros st i x st' x' v S0 E; cbn [s_get_node s_find] in *.
    - assert (st' = st) as -> by congruence. split; [auto|split; [apply extends_refl|congruence]].
    - assert (R : store_ok st /\ extends st st) by (split; [auto|apply extends_refl]).
      destruct (nth_error st i) as [n|] eqn:En; [|assert (st' = st) as -> by congruence; split; [auto|split; [apply R|intros j Ej; congruence]]].
      destruct (sn_child n a) as [k|e] eqn:Ek; [|assert (st' = st) as -> by congruence; split; [auto|split; [apply R|intros j Ej; congruence]]].
      assert (R1 : store_ok (modify st i (sn_safe a)) /\ extends st (modify st i (sn_safe a))).
      { apply modify_ok; auto. intros m _ Hm. apply safe_ok. auto. }
      destruct (safe_child_after st i n a k En Ek) as (n1 & En1 & Eb1 & Ek1).
      cbv zeta in E. set (st1 := modify st i (sn_safe a)) in *. destruct R1 as [S1 X1].
      assert (Fin : forall st2 j, store_ok st2 -> extends st1 st2 ->
                (exists n2 k2, nth_error st2 i = Some n2 /\ nth_error (sn_kids n2) a = Some (Some k2) /\ lookup o (k_obs k2) = Some j) ->
                s_get_node P same st2 j h x' = s_get_node P same st2 j h x' -> forall y, s_get_node P same st2 j h y = (st', x', v) ->
                store_ok st' /\ extends st st' /\ forall j', v = Ok j' -> s_find st' i ((a, o) :: h) = Some j').
      { intros st2 j S2 X2 (n2 & k2 & En2 & Ek2 & El2) _ y E2. destruct (IH _ _ _ _ _ _ S2 E2) as (S3 & X3 & F3).
        split; [auto|]. split; [eapply extends_trans; [|exact X3]; eapply extends_trans; eauto|]. intros j' Ej. cbn [s_find].
        destruct X3 as [_ X3]. destruct (X3 i n2 En2) as (n3 & -> & _ & _ & K3). destruct (K3 a k2 Ek2) as (k3 & -> & _ & L3). rewrite (L3 _ _ El2). apply F3. auto. }
      destruct (lookup o (k_obs k)) as [j|] eqn:El.
      + apply (Fin st1 j S1 (extends_refl _)) with (y := x); auto. exists n1, k; auto.
      + destruct (s_succ P (sn_belief n) a o x) as [rb z1] eqn:Es. destruct rb as [b|e].
        * destruct (node_for_belief P same st1 b) as [st3 j] eqn:Ef.
          destruct (put_modify_ok st1 i n1 a k o b st3 j S1 En1 Ek1 El) as [S3 X3]; [rewrite Eb1; exists x, z1; auto|auto|].
          apply (Fin _ j S3 X3) with (y := z1); auto.
          assert (Gb : G b) by (apply (G_follow (sn_belief n) a o); [apply (proj2 (proj2 S0)), in_map; eapply nth_error_In; eauto|exists x, z1; auto]).
          destruct (node_for_belief_ok st1 b st3 j S1 Gb Ef) as (_ & [_ X4] & _). destruct (X4 i n1 En1) as (n4 & En4 & _ & _ & K4). destruct (K4 a k Ek1) as (k4 & Ek4 & _).
          exists (sn_kid a (k_put o j) n4), (k_put o j k4). rewrite modify_nth, Nat.eqb_refl, En4. split; [reflexivity|].
          rewrite (kid_nth n4 a (k_put o j) a k4 Ek4), Nat.eqb_refl. split; [reflexivity|]. cbn [k_put k_obs]. rewrite lookup_upd, Nat.eqb_refl. reflexivity.
        * assert (st' = st1) as -> by congruence. split; [auto|split; [auto|intros j Ej; congruence]].
  Qed.

  (** *** Runners *)
  Definition run_ok (b : B) (l : list event) (r : srunner B) : Prop :=
    store_ok (sr_store r) /\ (exists n, nth_error (sr_store r) 0 = Some n /\ sn_belief n = b) /\
    (sr_last r, sr_history r) = fold_left expect l (None, []) /\ s_find (sr_store r) 0 (sr_history r) = Some (sr_node r).

  Lemma run_extends b l r st hist node last : run_ok b l r -> store_ok st -> extends (sr_store r) st ->
    s_find st 0 hist = Some node -> forall ev, (last, hist) = expect (sr_last r, sr_history r) ev ->
    run_ok b (l ++ [ev]) {| sr_store := st; sr_history := hist; sr_node := node; sr_last := last |}.
  Proof.
    intros (_ & (n & En & Eb) & Ee & _) S1 X1 Hf ev Hev. split; [auto|]. cbn [sr_store sr_history sr_node sr_last]. split; [|split; [|auto]].
    - destruct X1 as [_ X1]. destruct (X1 0 n En) as (n' & En' & E & _). exists n'. split; [auto|congruence].
    - rewrite fold_left_app. cbn [fold_left]. rewrite <- Ee. auto.
  Qed.

  Lemma s_simulations_ok : forall k fuel r x r' x' v, store_ok (sr_store r) -> s_simulations P same k fuel r x = (r', x', v) ->
    store_ok (sr_store r') /\ extends (sr_store r) (sr_store r') /\ sr_history r' = sr_history r /\ sr_node r' = sr_node r /\ sr_last r' = sr_last r.
  Proof.
    induction k as [|k IH]; intros fuel r x r' x' v S0 E; cbn [s_simulations] in E.
    - assert (r' = r) as -> by congruence. split; [auto|split; [apply extends_refl|auto]].
    - destruct (s_simulate_from P same fuel None (sr_store r) (sr_node r) x) as [[st y] w] eqn:Es. destruct (s_simulate_from_ok _ _ _ _ _ _ _ _ S0 Es) as [S1 X1].
      cbv zeta in E. destruct w as [w|e].
      + destruct (IH _ _ _ _ _ _ (S1 : store_ok (sr_store {| sr_store := st; sr_history := sr_history r; sr_node := sr_node r; sr_last := sr_last r |})) E) as (S2 & X2 & A & C & D).
        cbn [sr_store sr_history sr_node sr_last] in *. split; [auto|]. split; [eapply extends_trans; eauto|auto].
      + match type of E with (?q, _, _) = _ => assert (r' = q) as -> by congruence end. cbn. auto.
  Qed.

  Lemma strace_ok b l r : strace P same b l r -> G b -> run_ok b l r.
  Proof.
    induction 1 as [x b x' r Es Ei|b l r k fuel x r' x' nm T IH E|b l r k fuel x r' x' e T IH E|b l r ob o x r' x' T IH E Eo|b l r ob x r' x' e T IH E|b l r T IH|b l r fuel action i x st x' v T IH E]; intros Gb; try specialize (IH Gb).
    - unfold sr_init in Ei. rewrite Es in Ei. cbn [bind] in Ei. unfold node_for_belief in Ei. cbn [index_of fst app] in Ei.
      assert (r = sr_reset [sn_new P b]) as -> by congruence. split; [|cbn; split; [exists (sn_new P b); auto|auto]].
      split; [intros n [<-|[]]; apply new_ok|split; [|intros c [<-|[]]; auto]]. intros i j c d Hij Ec Ed. cbn in Ec, Ed. destruct j as [|[|j]]; [lia|discriminate|discriminate].
    - unfold s_get_action in E. destruct (s_simulations P same k fuel r x) as [[r1 y] w] eqn:Es. pose proof IH as (S0 & _ & _ & F0).
      destruct (s_simulations_ok _ _ _ _ _ _ _ S0 Es) as (S1 & X1 & A & C & D). destruct w as [w|e]; [|discriminate].
      destruct (nth_error (sr_store r1) (sr_node r1)) as [n|]; [|discriminate]. destruct (best_action P (as_tree n) 0 false y) as [[a|e] z]; [|discriminate].
      match type of E with (?q, _, _) = _ => assert (r' = q) as -> by congruence end. cbn [sr_last]. apply (run_extends b l r); auto; cbn [sr_store]; auto.
      + rewrite A, C. eapply find_extends; eauto.
      + cbn. rewrite A. reflexivity.
    - unfold s_get_action in E. destruct (s_simulations P same k fuel r x) as [[r1 y] w] eqn:Es. pose proof IH as (S0 & _ & _ & F0).
      destruct (s_simulations_ok _ _ _ _ _ _ _ S0 Es) as (S1 & X1 & A & C & D).
      assert (R1 : r' = r1 -> run_ok b (l ++ [EvAction None]) r').
      { intros ->. destruct r1 as [st1 h1 n1 l1]. cbn in *. apply (run_extends b l r); auto; [rewrite A, C; eapply find_extends; eauto|cbn; congruence]. }
      destruct w as [w|e']; [|apply R1; congruence].
      destruct (nth_error (sr_store r1) (sr_node r1)) as [n|] eqn:En; [|apply R1; congruence]. destruct (best_action P (as_tree n) 0 false y) as [[a|e'] z] eqn:Eb; [|apply R1; congruence].
      apply best_lt in Eb. cbn [as_tree o_kids] in Eb. rewrite map_length in Eb.
      assert (Hn : length (sn_kids n) = n_actions P) by (apply (proj1 S1 n); eapply nth_error_In; eauto).
      destruct (nth_error (s_actions P) a) eqn:Ea; [discriminate|]. apply nth_error_None in Ea. unfold n_actions in Hn. lia.
    - unfold s_step in E. destruct (sr_last r) as [a|] eqn:El; [|discriminate]. rewrite Eo in E. cbv zeta in E. pose proof IH as (S0 & _ & _ & F0).
      destruct (s_get_node P same (sr_store r) 0 (sr_history r ++ [(a, o)]) x) as [[st y] w] eqn:Eg. destruct (s_get_node_ok _ _ _ _ _ _ _ S0 Eg) as (S1 & X1 & F1).
      destruct w as [i|e]; [|discriminate]. match type of E with (?q, _, _) = _ => assert (r' = q) as -> by congruence end.
      apply (run_extends b l r); auto. cbn. rewrite El. reflexivity.
    - unfold s_step in E. pose proof IH as (S0 & _ & _ & F0).
      assert (R1 : r' = r -> run_ok b (l ++ [EvStep None]) r').
      { intros ->. destruct r as [st1 h1 n1 l1]. cbn in *. apply (run_extends b l _ _ _ _ _ IH); auto. apply extends_refl. }
      destruct (sr_last r) as [a|] eqn:El; [|apply R1; congruence]. destruct (list_index (s_observations P) ob) as [o|e']; [|apply R1; congruence]. cbv zeta in E.
      destruct (s_get_node P same (sr_store r) 0 (sr_history r ++ [(a, o)]) x) as [[st y] w] eqn:Eg. destruct (s_get_node_ok _ _ _ _ _ _ _ S0 Eg) as (S1 & X1 & F1).
      destruct w as [i|e']; [discriminate|]. match type of E with (?q, _, _) = _ => assert (r' = q) as -> by congruence end.
      apply (run_extends b l r); auto; [eapply find_extends; eauto|cbn; congruence].
    - pose proof IH as (S0 & (n & En & Eb) & _ & F0). apply (run_extends b l r); auto. apply extends_refl.
    - pose proof IH as (S0 & _ & _ & F0). destruct (s_simulate_from_ok _ _ _ _ _ _ _ _ S0 E) as [S1 X1].
      apply (run_extends b l r); auto. eapply find_extends; eauto.
  Qed.

  Lemma find_filters st : store_ok st -> forall h i n j, nth_error st i = Some n -> s_find st i h = Some j ->
    exists m, nth_error st j = Some m /\ same_filters P same (sn_belief n) h (sn_belief m).
  Proof.
    intros (S1 & _) h. induction h as [|[a o] h IH]; intros i n j En E; cbn [s_find] in E.
    - assert (j = i) as -> by congruence. exists n. split; [auto|constructor].
    - rewrite En in E. destruct (nth_error (sn_kids n) a) as [[k|]|] eqn:Ea; try discriminate. destruct (lookup o (k_obs k)) as [j'|] eqn:El; [|discriminate].
      destruct (S1 n (nth_error_In _ _ En)) as (_ & _ & K). destruct (K a k o j' Ea El) as (b & m & Em & Hm & Hs & _).
      rewrite nth_error_map in Em. destruct (nth_error st j') as [n'|] eqn:En'; [|discriminate]. cbn in Em. assert (m = sn_belief n') as -> by congruence.
      destruct (IH j' n' j En' E) as (m & Em' & F). exists m. split; [auto|]. econstructor; eauto.
  Qed.

  Lemma one_node st i j n m : (forall b c, same b c = same c b) -> store_ok st -> nth_error st i = Some n -> nth_error st j = Some m ->
    same (sn_belief n) (sn_belief m) = true -> i = j.
  Proof.
    intros Sy (_ & S2 & _) En Em E. assert (Bn : nth_error (map sn_belief st) i = Some (sn_belief n)) by (rewrite nth_error_map, En; reflexivity).
    assert (Bm : nth_error (map sn_belief st) j = Some (sn_belief m)) by (rewrite nth_error_map, Em; reflexivity).
    destruct (Nat.lt_trichotomy i j) as [L|[L|L]]; [|auto|].
    - rewrite (S2 i j _ _ L Bn Bm) in E. discriminate.
    - rewrite Sy, (S2 j i _ _ L Bm Bn) in E. discriminate.
  Qed.
End Proofs.
