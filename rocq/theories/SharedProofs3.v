(** Proofs for C95: without sharing, the search is the one of C57 to C63. *)
From Verif Require Import PyBase PyBaseFacts QBase PomdpModel BeliefModel PolicyModel PomcpModel PomcpSpec PomcpProofs PomcpProofs2 SharedModel SharedSpec SharedProofs.
From Coq Require Import Lia.
Local Open Scope list_scope.
Local Open Scope nat_scope.

Lemma keys_upd_old {V} (o : nat) (v : V) : forall d, lookup o d <> None -> map fst (upd o v d) = map fst d.
Proof. induction d as [|[k w] d IH]; cbn [lookup upd]; [congruence|]. destruct (eq_dec o k) as [->|]; cbn [map fst]; intros Hn; [auto|rewrite IH; auto]. Qed.
Lemma keys_upd_new {V} (o : nat) (v : V) : forall d, lookup o d = None -> map fst (upd o v d) = map fst d ++ [o].
Proof. induction d as [|[k w] d IH]; cbn [lookup upd]; [auto|]. destruct (eq_dec o k) as [->|]; cbn [map fst app]; intros Hn; [congruence|rewrite IH; auto]. Qed.
Lemma keys_lookup {V W} (o : nat) : forall (d : list (nat * V)) (e : list (nat * W)), map fst d = map fst e -> lookup o d = None <-> lookup o e = None.
Proof.
  induction d as [|[k w] d IH]; intros [|[k' w'] e] E; try discriminate; [tauto|]. cbn [map fst] in E. assert (k' = k) as -> by congruence. assert (map fst d = map fst e) as E' by congruence.
  cbn [lookup]. destruct (eq_dec o k); [split; congruence|auto].
Qed.
Lemma map_set_nth {A C} (f : A -> C) (l : list A) : forall i v, map f (set_nth l i v) = set_nth (map f l) i (f v).
Proof. induction l as [|y l IH]; intros [|i] v; cbn [set_nth map]; auto. rewrite IH. auto. Qed.
Lemma set_nth_id {A} (l : list A) : forall i v, nth_error l i = Some v -> set_nth l i v = l.
Proof. induction l as [|y l IH]; intros [|i] v E; cbn [set_nth nth_error] in *; try congruence. rewrite IH; auto. Qed.

Ltac fin E := match type of E with (_, ?a, ?b) = (_, ?c, ?d) => assert (c = a) as -> by congruence; assert (d = b) as -> by congruence end; eexists; split; [reflexivity|].

Section Refine.
  Context {X St B H : Type}.
  Variable P : search X St B H.
  Variable same : B -> B -> bool.
  Hypothesis same_refl : forall b, same b b = true.
  Notation store_ok := (store_ok P same (fun _ => True)).
  Lemma Gtrue : forall (b : B) (a o : nat) (b1 : B), True -> may_follow P b a o b1 -> True. Proof. auto. Qed.

  (** *** Views *)
  Lemma view_kid (s : snode B) (n : onode B) a : s_view s = t_view n ->
    match nth_error (sn_kids s) a, nth_error (o_kids n) a with
    | Some (Some k), Some (Some c) => k_avg k = a_avg c /\ map fst (k_obs k) = map fst (a_kids c)
    | Some None, Some None => True
    | None, None => True
    | _, _ => False
    end.
  Proof.
    unfold s_view, t_view. intros E.
    assert (E3 : map (option_map (fun k => (k_avg k, map fst (k_obs k)))) (sn_kids s) = map (option_map (fun c => (a_avg c, map fst (a_kids c)))) (o_kids n)) by congruence.
    apply (f_equal (fun l => nth_error l a)) in E3. rewrite !nth_error_map in E3.
    destruct (nth_error (sn_kids s) a) as [[k|]|], (nth_error (o_kids n) a) as [[c|]|]; cbn [option_map] in E3; try discriminate; auto. split; congruence.
  Qed.
  Lemma view_avg (s : snode B) (n : onode B) : s_view s = t_view n -> sn_avg s = o_avg n /\ sn_belief s = o_belief n.
  Proof. unfold s_view, t_view. intros E. split; congruence. Qed.

  Lemma best_avgs (n m : onode B) : o_avg n = o_avg m -> map (option_map a_avg) (o_kids n) = map (option_map a_avg) (o_kids m) ->
    forall e rel x, best_action P n e rel x = best_action P m e rel x.
  Proof.
    intros E1 E2 e rel x.
    assert (L : length (o_kids n) = length (o_kids m)) by (apply (f_equal (@length _)) in E2; rewrite !map_length in E2; auto).
    assert (N : not_init n = not_init m).
    { unfold not_init. rewrite L. apply filter_ext. intros i. apply (f_equal (fun l => nth i l None)) in E2.
      change (@None vavg) with (option_map (@a_avg B) None) in E2. rewrite !map_nth in E2.
      destruct (nth i (o_kids n) None) as [c|], (nth i (o_kids m) None) as [d|]; cbn [option_map] in E2; try discriminate; auto. unfold a_count. congruence. }
    assert (F : forall (g : option vavg -> Q) , map (fun c => g (option_map a_avg c)) (o_kids n) = map (fun c => g (option_map a_avg c)) (o_kids m)).
    { intros g. rewrite <- !(map_map (option_map (@a_avg B)) g). rewrite E2. auto. }
    assert (V : values n = values m).
    { unfold values. pose proof (F (fun c => match c with Some c => avg_value c | None => 0%Q end)) as F1. etransitivity; [|etransitivity; [exact F1|]]; apply map_ext; intros [c|]; reflexivity. }
    assert (A : augmented P n e rel = augmented P m e rel).
    { unfold augmented. cbv zeta. rewrite V. unfold o_count. rewrite E1. set (e' := if negb (Qle_bool e 0) && rel then (e * (qmax (values m) - qmin (values m)))%Q else e).
      pose proof (F (fun c => match c with Some c => (avg_value c + e' * s_bonus P (n_simulations (o_avg m)) (n_simulations c))%Q | None => 0%Q end)) as F1.
      etransitivity; [|etransitivity; [exact F1|]]; apply map_ext; intros [c|]; reflexivity. }
    unfold best_action. rewrite N, A. unfold o_count. rewrite E1. auto.
  Qed.
  Lemma best_view (s : snode B) (n : onode B) : s_view s = t_view n -> forall e rel x, best_action P (as_tree s) e rel x = best_action P n e rel x.
  Proof.
    intros E. apply best_avgs; [apply view_avg in E; apply E|]. unfold s_view, t_view in E.
    assert (E3 : map (option_map (fun k => (k_avg k, map fst (k_obs k)))) (sn_kids s) = map (option_map (fun c => (a_avg c, map fst (a_kids c)))) (o_kids n)) by congruence.
    apply (f_equal (map (option_map fst))) in E3. rewrite !map_map in E3. cbn [as_tree o_kids]. rewrite !map_map.
    etransitivity; [|etransitivity; [exact E3|]]; apply map_ext; intros [c|]; reflexivity.
  Qed.

  (** *** A part of the store that holds a tree *)
  Inductive holds (st : store B) : nat -> onode B -> Prop :=
  | holds_intro i n s : nth_error st i = Some s -> s_view s = t_view n ->
      (forall a k c o j m, nth_error (sn_kids s) a = Some (Some k) -> nth_error (o_kids n) a = Some (Some c) -> lookup o (k_obs k) = Some j -> lookup o (a_kids c) = Some m -> holds st j m) ->
      holds st i n.

  Lemma holds_child st i n s a k c o j m : holds st i n -> nth_error st i = Some s -> nth_error (sn_kids s) a = Some (Some k) -> nth_error (o_kids n) a = Some (Some c) ->
    lookup o (k_obs k) = Some j -> lookup o (a_kids c) = Some m -> holds st j m.
  Proof. intros Hn En. destruct Hn as [i n s0 En0 V K]. assert (s0 = s) as -> by congruence. intros. eapply K; eauto. Qed.
  Lemma find_app (st : store B) : forall h1 h2 i j, s_find st i h1 = Some j -> s_find st i (h1 ++ h2) = s_find st j h2.
  Proof.
    induction h1 as [|[a o] h1 IH]; intros h2 i j E; cbn [s_find app] in *; [assert (j = i) as -> by congruence; auto|].
    destruct (nth_error st i) as [n|]; [|discriminate]. destruct (nth_error (sn_kids n) a) as [[k|]|]; try discriminate. destruct (lookup o (k_obs k)) as [j'|]; [|discriminate]. auto.
  Qed.
  Lemma find_step (st : store B) i s a k o j h : nth_error st i = Some s -> nth_error (sn_kids s) a = Some (Some k) -> lookup o (k_obs k) = Some j -> s_find st i ((a, o) :: h) = s_find st j h.
  Proof. intros E1 E2 E3. cbn [s_find]. rewrite E1, E2, E3. auto. Qed.

  Lemma holds_frame st st' k n : holds st k n -> (forall h j, s_find st k h = Some j -> nth_error st' j = nth_error st j) -> holds st' k n.
  Proof.
    induction 1 as [i n s En V _ IH]. intros Fr. econstructor; [rewrite (Fr [] i) by auto; exact En|auto|].
    intros a k c o j m Ek Ec El Em. eapply IH; eauto. intros h j' Hj. apply (Fr ((a, o) :: h)). rewrite (find_step st i s a k o j); auto.
  Qed.
  Lemma holds_find st : forall h i n, holds st i n -> match PomcpSpec.find n h with
               | Some m => exists j s, s_find st i h = Some j /\ nth_error st j = Some s /\ s_view s = t_view m
               | None => s_find st i h = None
               end.
  Proof.
    induction h as [|[a o] h IH]; intros i n Hn; destruct Hn as [i n s En V K].
    - cbn [PomcpSpec.find s_find]. exists i, s. auto.
    - cbn [PomcpSpec.find s_find]. rewrite En. pose proof (view_kid s n a V) as VK. destruct (nth_error (sn_kids s) a) as [[k|]|] eqn:Ek, (nth_error (o_kids n) a) as [[c|]|] eqn:Ec; try destruct VK; auto.
      destruct (lookup o (a_kids c)) as [m|] eqn:Em.
      + destruct (lookup o (k_obs k)) as [j|] eqn:El; [apply IH; eapply K; eauto|]. apply (keys_lookup o (k_obs k) (a_kids c)) in El; [congruence|auto].
      + rewrite (proj2 (keys_lookup o (k_obs k) (a_kids c) H1)) by auto. auto.
  Qed.
  Lemma find_holds st : forall h i n j m, holds st i n -> s_find st i h = Some j -> PomcpSpec.find n h = Some m -> holds st j m.
  Proof.
    induction h as [|[a o] h IH]; intros i n j m Hn E F; cbn [PomcpSpec.find s_find] in *; [congruence|]. destruct Hn as [i n s En V K].
    rewrite En in E. destruct (nth_error (sn_kids s) a) as [[k|]|] eqn:Ek; try discriminate. destruct (nth_error (o_kids n) a) as [[c|]|] eqn:Ec; try discriminate.
    destruct (lookup o (k_obs k)) as [j'|] eqn:El; [|discriminate]. destruct (lookup o (a_kids c)) as [m'|] eqn:Em; [|discriminate]. apply (IH j' m'); auto. eapply K; eauto.
  Qed.

  Definition inj (st : store B) : Prop := forall h1 h2 i, s_find st 0 h1 = Some i -> s_find st 0 h2 = Some i -> h1 = h2.
  Definition reach (st : store B) : Prop := forall k, k < length st -> exists h, s_find st 0 h = Some k.
  Definition frame (st st' : store B) (i : nat) : Prop := forall k s, nth_error st k = Some s -> nth_error st' k = Some s \/ exists h, s_find st' i h = Some k.
  Lemma inj_back st st' : extends st st' -> inj st' -> inj st.
  Proof. intros XX I h1 h2 i E1 E2. eapply I; eapply find_extends; eauto. Qed.
  Lemma inj_from st h0 i : inj st -> s_find st 0 h0 = Some i -> forall h1 h2 k, s_find st i h1 = Some k -> s_find st i h2 = Some k -> h1 = h2.
  Proof. intros I E0 h1 h2 k E1 E2. apply (app_inv_head h0). apply (I _ _ k); erewrite find_app; eauto. Qed.
  Lemma frame_refl st i : frame st st i.
  Proof. intros k s E. auto. Qed.
  Lemma frame_trans s1 s2 s3 i : extends s2 s3 -> frame s1 s2 i -> frame s2 s3 i -> frame s1 s3 i.
  Proof.
    intros XX F1 F2 k s E. destruct (F1 k s E) as [E2|[h E2]]; [apply F2; auto|]. right. exists h. eapply find_extends; eauto.
  Qed.
  Lemma frame_modify (st : store B) i f : frame st (modify st i f) i.
  Proof. intros k s E. rewrite modify_nth. destruct (Nat.eqb_spec k i) as [->|]; [right; exists []; auto|auto]. Qed.

  (** A change of the top node that keeps its links *)
  Lemma holds_top (st : store B) h0 i s f n n' : inj st -> s_find st 0 h0 = Some i -> nth_error st i = Some s -> holds st i n -> s_view (f s) = t_view n' ->
    (forall a k' o j, nth_error (sn_kids (f s)) a = Some (Some k') -> lookup o (k_obs k') = Some j -> exists k, nth_error (sn_kids s) a = Some (Some k) /\ lookup o (k_obs k) = Some j) ->
    (forall a c' o m, nth_error (o_kids n') a = Some (Some c') -> lookup o (a_kids c') = Some m -> exists c, nth_error (o_kids n) a = Some (Some c) /\ lookup o (a_kids c) = Some m) ->
    holds (modify st i f) i n'.
  Proof.
    intros I E0 En Hn V K1 K2. destruct Hn as [i n s0 En0 V0 K]. assert (s0 = s) as -> by congruence. econstructor; [rewrite modify_nth, Nat.eqb_refl, En; reflexivity|exact V|].
    intros a k' c' o j m Ek' Ec' El Em. destruct (K1 a k' o j Ek' El) as (k & Ek & El'). destruct (K2 a c' o m Ec' Em) as (c & Ec & Em').
    eapply holds_frame; [eapply K; eauto|]. intros h k2 Hk. rewrite modify_nth. destruct (Nat.eqb_spec k2 i) as [->|]; [|auto].
    assert ((a, o) :: h = []) by (eapply (inj_from st h0 i I E0); [erewrite find_step; eauto|reflexivity]). discriminate.
  Qed.

  (** The child of an action is created *)
  Lemma child_view (s : snode B) (n : onode B) a : s_view s = t_view n ->
    match sn_child s a, safe_child n a with
    | Ok k, Ok c => k_avg k = a_avg c /\ map fst (k_obs k) = map fst (a_kids c)
    | Err e, Err e' => e = e'
    | _, _ => False
    end.
  Proof.
    intros V. pose proof (view_kid s n a V) as VK. unfold sn_child, safe_child. destruct (nth_error (sn_kids s) a) as [[k|]|], (nth_error (o_kids n) a) as [[c|]|]; try destruct VK; auto.
  Qed.
  Lemma holds_safe (st : store B) h0 i s n a k c : inj st -> s_find st 0 h0 = Some i -> nth_error st i = Some s -> holds st i n -> sn_child s a = Ok k -> safe_child n a = Ok c ->
    holds (modify st i (sn_safe a)) i (set_kid n a c).
  Proof.
    intros I E0 En Hn Ek Ec. assert (V : s_view s = t_view n) by (destruct Hn as [i n s0 En0 V0 _]; congruence). pose proof (view_kid s n a V) as VK. eapply holds_top; eauto.
    - unfold sn_child, safe_child in *. destruct (view_avg s n V) as [V1 V2]. unfold s_view, t_view in *. unfold sn_safe. cbn [set_kid sn_avg sn_belief sn_kids o_avg o_belief o_kids] in *.
      destruct (nth_error (sn_kids s) a) as [[k0|]|] eqn:Ek0, (nth_error (o_kids n) a) as [[c0|]|] eqn:Ec0; try destruct VK; try discriminate.
      + assert (c0 = c) as -> by congruence. rewrite (set_nth_id (o_kids n) a (Some c)) by auto. exact V.
      + rewrite !map_set_nth. assert (c = a_new) as -> by congruence. cbn [option_map a_new k_new k_avg k_obs a_avg a_kids map]. f_equal; [congruence|]. f_equal. congruence.
    - intros a' k' o j E1 E2. unfold sn_safe in E1. cbn [sn_kids] in E1. destruct (nth_error (sn_kids s) a) as [[k0|]|] eqn:Ek0; [eauto| |eauto].
      destruct (Nat.eq_dec a' a) as [->|Hne]; [rewrite set_nth_same in E1 by (apply nth_error_Some; congruence); assert (k' = k_new) as -> by congruence; discriminate|].
      rewrite set_nth_other in E1 by auto. eauto.
    - intros a' c' o m E1 E2. cbn [set_kid o_kids] in E1. pose proof (safe_child_lt n a c Ec) as La.
      destruct (Nat.eq_dec a' a) as [->|Hne]; [|rewrite set_nth_other in E1 by auto; eauto]. rewrite set_nth_same in E1 by auto. assert (c' = c) as -> by congruence.
      unfold safe_child in Ec. destruct (nth_error (o_kids n) a) as [[c0|]|]; [|assert (c = a_new) as -> by congruence; discriminate|discriminate]. exists c. split; [congruence|auto].
  Qed.

  (** The averages of a node and of its action are updated *)
  Lemma holds_update (st : store B) h0 i s n a k c v : inj st -> s_find st 0 h0 = Some i -> nth_error st i = Some s -> holds st i n -> nth_error (sn_kids s) a = Some (Some k) -> nth_error (o_kids n) a = Some (Some c) ->
    holds (modify st i (fun s => sn_update P v (sn_kid a (k_update P v) s))) i (o_update P (set_kid n a (a_update P c v)) v).
  Proof.
    intros I E0 En Hn Ek Ec. assert (V : s_view s = t_view n) by (destruct Hn as [i n s0 En0 V0 _]; congruence). pose proof (view_kid s n a V) as VK. rewrite Ek, Ec in VK. destruct VK as [VK1 VK2]. eapply holds_top; eauto; cbv beta.
    - destruct (view_avg s n V) as [V1 V2]. unfold s_view, t_view in *. unfold sn_kid. cbn [sn_update set_kid o_update sn_avg sn_belief sn_kids o_avg o_belief o_kids] in *. rewrite Ek, !map_set_nth.
      cbn [option_map k_update a_update k_avg k_obs a_avg a_kids]. rewrite VK1, VK2, V1, V2. do 2 f_equal. congruence.
    - intros a' k' o j E1 E2. cbn [sn_update sn_kids] in E1. rewrite (kid_nth s a _ a' k Ek) in E1. destruct (Nat.eqb_spec a' a) as [->|]; [|eauto]. assert (k' = k_update P v k) as -> by congruence. eauto.
    - intros a' c' o m E1 E2. cbn [o_update set_kid o_kids] in E1. destruct (Nat.eq_dec a' a) as [->|Hne]; [|rewrite set_nth_other in E1 by auto; eauto].
      rewrite set_nth_same in E1 by (apply nth_error_Some; congruence). assert (c' = a_update P c v) as -> by congruence. eauto.
  Qed.

  (** A change below the child of an observation *)
  Lemma holds_below (st st2 : store B) h0 i s n a k c o j m m' : extends st st2 -> inj st2 -> s_find st 0 h0 = Some i -> nth_error st i = Some s -> holds st i n ->
    nth_error (sn_kids s) a = Some (Some k) -> nth_error (o_kids n) a = Some (Some c) -> lookup o (k_obs k) = Some j -> lookup o (a_kids c) = Some m ->
    frame st st2 j -> holds st2 j m' -> holds st2 i (set_kid n a (put c o m')).
  Proof.
    intros XX I E0 En Hn Ek Ec El Em Fr Hm. destruct Hn as [i n s0 En0 V K]. assert (s0 = s) as -> by congruence. clear En0.
    pose proof (inj_back _ _ XX I) as I0. pose proof (find_extends _ _ XX _ _ _ E0) as E02.
    assert (L : s_find st2 i [(a, o)] = Some j) by (eapply find_extends; [eauto|]; erewrite find_step; eauto; reflexivity).
    assert (En2 : nth_error st2 i = Some s).
    { destruct (Fr i s En) as [E|[h E]]; [auto|]. assert ((a, o) :: h = []) by (eapply (inj_from st2 h0 i I E02); [|reflexivity]; etransitivity; [apply (find_app st2 [(a, o)] h i j L)|auto]). discriminate. }
    pose proof (view_kid s n a V) as VK. rewrite Ek, Ec in VK. destruct VK as [VK1 VK2]. econstructor; [exact En2| |].
    - unfold s_view, t_view in *. cbn [set_kid o_avg o_belief o_kids]. rewrite map_set_nth. cbn [option_map put a_avg a_kids]. rewrite keys_upd_old by congruence.
      rewrite set_nth_id; [exact V|]. rewrite nth_error_map, Ec. reflexivity.
    - intros a' k' c' o' j' m2 Ek' Ec' El' Em'. cbn [set_kid o_kids] in Ec'.
      assert (Old : (a', o') <> (a, o) -> forall m0 c0, nth_error (o_kids n) a' = Some (Some c0) -> lookup o' (a_kids c0) = Some m0 -> holds st2 j' m0).
      { intros Hne m0 c0 Ec0 Em0. eapply holds_frame; [eapply K; eauto|]. intros h k2 Hk2. destruct (nth_error st k2) as [s2|] eqn:Es2.
        - destruct (Fr k2 s2 Es2) as [E|[h2 E]]; [auto|]. assert (((a', o') :: h) = ((a, o) :: h2)).
          { eapply (inj_from st2 h0 i I E02); [|etransitivity; [apply (find_app st2 [(a, o)] h2 i j L)|exact E]].
            eapply find_extends; [eauto|]. erewrite find_step; eauto. }
          congruence.
        - exfalso. revert Hk2 Es2. clear - K Ek' Ec0 El' Em0. pose proof (K _ _ _ _ _ _ Ek' Ec0 El' Em0) as Hj. intros Hk2 Es2. pose proof (holds_find st h j' m0 Hj) as HF.
          destruct (PomcpSpec.find m0 h) as [q|]; [destruct HF as (j2 & s2 & F1 & F2 & _); congruence|congruence]. }
      destruct (Nat.eq_dec a' a) as [->|Hne]; [|rewrite set_nth_other in Ec' by auto; eapply Old; eauto; congruence].
      rewrite set_nth_same in Ec' by (apply nth_error_Some; congruence). assert (c' = put c o m') as -> by congruence. cbn [put a_kids] in Em'.
      destruct (Nat.eq_dec o' o) as [->|Hno]; [|rewrite lookup_upd_other in Em' by auto; eapply Old; eauto; congruence].
      rewrite lookup_upd_same in Em'. assert (m2 = m') as -> by congruence. assert (k' = k) as -> by congruence. assert (j' = j) as -> by congruence. auto.
  Qed.

  (** A new node for an observation *)
  Lemma holds_new (st : store B) b i : nth_error st i = Some (sn_new P b) -> holds st i (o_new P b).
  Proof.
    intros E. econstructor; [exact E| |].
    - unfold s_view, t_view. cbn [sn_new o_new sn_avg sn_belief sn_kids o_avg o_belief o_kids]. f_equal. clear. induction (n_actions P) as [|k IH]; cbn; [auto|rewrite IH; auto].
    - intros a k c o j m Ek. cbn [sn_new sn_kids] in Ek. apply nth_error_In, repeat_spec in Ek. discriminate.
  Qed.
  Lemma holds_put (st : store B) h0 i s n a k c o b : inj st -> s_find st 0 h0 = Some i -> nth_error st i = Some s -> holds st i n ->
    nth_error (sn_kids s) a = Some (Some k) -> nth_error (o_kids n) a = Some (Some c) -> lookup o (k_obs k) = None ->
    holds (modify (st ++ [sn_new P b]) i (sn_kid a (k_put o (length st)))) i (set_kid n a (put c o (o_new P b))).
  Proof.
    intros I E0 En Hn Ek Ec El. destruct Hn as [i n s0 En0 V K]. assert (s0 = s) as -> by congruence. clear En0.
    pose proof (view_kid s n a V) as VK. rewrite Ek, Ec in VK. destruct VK as [VK1 VK2].
    assert (Hi : i < length st) by (apply nth_error_Some; congruence).
    econstructor; [rewrite modify_nth, Nat.eqb_refl, nth_error_app1, En by auto; reflexivity| |].
    - destruct (view_avg s n V) as [V1 V2]. unfold s_view, t_view in *. unfold sn_kid. cbn [set_kid sn_avg sn_belief sn_kids o_avg o_belief o_kids] in *. rewrite Ek, !map_set_nth.
      cbn [option_map k_put put k_avg k_obs a_avg a_kids]. rewrite !keys_upd_new by (auto; apply (keys_lookup o (k_obs k) (a_kids c)); auto). rewrite VK1, VK2, V1, V2. do 2 f_equal. congruence.
    - intros a' k' c' o' j' m2 Ek' Ec' El' Em'. cbn [set_kid o_kids] in Ec'. rewrite (kid_nth s a _ a' k Ek) in Ek'.
      assert (Old : forall m0 c0 k0, nth_error (sn_kids s) a' = Some (Some k0) -> nth_error (o_kids n) a' = Some (Some c0) -> lookup o' (k_obs k0) = Some j' -> lookup o' (a_kids c0) = Some m0 ->
                    holds (modify (st ++ [sn_new P b]) i (sn_kid a (k_put o (length st)))) j' m0).
      { intros m0 c0 k0 Ek0 Ec0 El0 Em0. pose proof (K _ _ _ _ _ _ Ek0 Ec0 El0 Em0) as Hj. eapply holds_frame; [exact Hj|]. intros h k2 Hk2. pose proof (holds_find st h j' m0 Hj) as HF.
        destruct (PomcpSpec.find m0 h) as [q|]; [destruct HF as (j2 & s2 & F1 & F2 & _)|congruence]. assert (j2 = k2) as -> by congruence.
        rewrite modify_nth, nth_error_app1 by (apply nth_error_Some; congruence). destruct (Nat.eqb_spec k2 i) as [->|]; [|auto].
        assert ((a', o') :: h = []) by (eapply (inj_from st h0 i I E0); [rewrite (find_step st i s a' k0 o' j'); eauto|reflexivity]). discriminate. }
      destruct (Nat.eqb_spec a' a) as [->|Hne]; [|rewrite set_nth_other in Ec' by auto; eapply Old; eauto].
      rewrite set_nth_same in Ec' by (apply nth_error_Some; congruence). assert (c' = put c o (o_new P b)) as -> by congruence. assert (k' = k_put o (length st) k) as -> by congruence.
      cbn [put a_kids k_put k_obs] in Em', El'. destruct (Nat.eq_dec o' o) as [->|Hno]; [|rewrite lookup_upd_other in Em' by auto; rewrite lookup_upd_other in El' by auto; eapply Old; eauto].
      rewrite lookup_upd_same in Em'. rewrite lookup_upd_same in El'. assert (j' = length st) as -> by congruence. assert (m2 = o_new P b) as -> by congruence. apply holds_new.
      rewrite modify_nth, nth_error_app2, Nat.sub_diag by auto. destruct (Nat.eqb_spec (length st) i); [lia|reflexivity].
  Qed.

  (** *** Simulations *)
  Lemma linked (st : store B) h0 i s a k o j : s_find st 0 h0 = Some i -> nth_error st i = Some s -> nth_error (sn_kids s) a = Some (Some k) -> lookup o (k_obs k) = Some j ->
    s_find st 0 (h0 ++ [(a, o)]) = Some j.
  Proof. intros E0 En Ek El. rewrite (find_app st h0 [(a, o)] 0 i E0). erewrite find_step; eauto. reflexivity. Qed.
  Lemma reach_extends st st' : extends st st' -> reach st -> forall k, k < length st -> exists h, s_find st' 0 h = Some k.
  Proof. intros XX R k Hk. destruct (R k Hk) as [h E]. exists h. eapply find_extends; eauto. Qed.

  (** A belief without sharing gets a new node *)
  Lemma put_new (st st3 : store B) h0 i s a k o b j : store_ok st -> reach st -> s_find st 0 h0 = Some i -> nth_error st i = Some s -> nth_error (sn_kids s) a = Some (Some k) -> lookup o (k_obs k) = None ->
    may_follow P (sn_belief s) a o b -> node_for_belief P same st b = (st3, j) -> inj (modify st3 i (sn_kid a (k_put o j))) ->
    st3 = st ++ [sn_new P b] /\ j = length st /\ reach (modify st3 i (sn_kid a (k_put o j))).
  Proof.
    intros S0 R E0 En Ek El Hm Ef I. destruct (put_modify_ok P same same_refl (fun _ => True) Gtrue st i s a k o b st3 j S0 En Ek El Hm Ef) as [S3 X3].
    pose proof (find_extends _ _ X3 _ _ _ E0) as E03.
    assert (Hl : s_find (modify st3 i (sn_kid a (k_put o j))) 0 (h0 ++ [(a, o)]) = Some j).
    { assert (Hn3 : nth_error st3 i = Some s).
      { unfold node_for_belief in Ef. destruct (index_of same st b); [congruence|]. assert (st3 = st ++ [sn_new P b]) as -> by congruence. rewrite nth_error_app1; [auto|]. apply nth_error_Some. congruence. }
      eapply (linked _ h0 i (sn_kid a (k_put o j) s) a (k_put o j k)); auto.
      - rewrite modify_nth, Nat.eqb_refl, Hn3. reflexivity.
      - rewrite (kid_nth s a _ a k Ek), Nat.eqb_refl. reflexivity.
      - cbn [k_put k_obs]. apply lookup_upd_same. }
    unfold node_for_belief in Ef. destruct (index_of same st b) as [j0|] eqn:Ei.
    - exfalso. assert (st3 = st) as -> by congruence. assert (j0 = j) as -> by congruence. apply index_of_Some in Ei. destruct Ei as (sj & Ej & _).
      destruct (R j) as [h Eh]; [apply nth_error_Some; congruence|].
      assert (h = h0 ++ [(a, o)]) as -> by (eapply I; [eapply find_extends; eauto|exact Hl]).
      rewrite (find_app st h0 [(a, o)] 0 i E0) in Eh. cbn [s_find] in Eh. rewrite En, Ek, El in Eh. discriminate.
    - assert (st3 = st ++ [sn_new P b]) as -> by congruence. assert (j = length st) as -> by congruence. split; [auto|split; [auto|]].
      intros q Hq. rewrite modify_length, app_length in Hq. cbn [length] in Hq. destruct (Nat.eq_dec q (length st)) as [->|Hne]; [eauto|]. apply (reach_extends _ _ X3 R). lia.
  Qed.

  Lemma s_rollout_refines fuel (st : store B) h0 i s n a k c o j m h x st' x' v : inj st' -> store_ok st -> s_find st 0 h0 = Some i -> nth_error st i = Some s -> holds st i n ->
    nth_error (sn_kids s) a = Some (Some k) -> nth_error (o_kids n) a = Some (Some c) -> lookup o (k_obs k) = Some j -> lookup o (a_kids c) = Some m ->
    s_rollout P fuel st j h x = (st', x', v) -> exists m', rollout_from_node P fuel m h x = (m', x', v) /\ holds st' i (set_kid n a (put c o m')) /\ frame st st' j /\ length st' = length st.
  Proof.
    intros I S0 E0 En Hn Ek Ec El Em E. destruct (s_rollout_ok P same (fun _ => True) _ _ _ _ _ _ _ _ S0 E) as [_ XX].
    assert (Hm : holds st j m) by (destruct Hn as [i n s0 En0 V K]; assert (s0 = s) as -> by congruence; eapply K; eauto).
    assert (Keep : holds st i (set_kid n a (put c o m))) by (eapply (holds_below st st); eauto using extends_refl, frame_refl; eapply inj_back; eauto).
    pose proof Hm as Hm'. destruct Hm' as [j m sj Ej Vj Kj]. destruct (view_avg sj m Vj) as [V1 V2]. unfold s_rollout in E. unfold rollout_from_node.
    destruct (s_reached P h); [assert (st' = st) as -> by congruence; exists m; split; [congruence|split; [auto|split; [apply frame_refl|auto]]]|].
    rewrite Ej, V2 in E. destruct (rollouts P (s_rollouts P) fuel (o_belief m) h 0 x) as [[r|e] y]; [|assert (st' = st) as -> by congruence; exists m; split; [congruence|split; [auto|split; [apply frame_refl|auto]]]].
    destruct (Nat.eqb (s_rollouts P) 0); [assert (st' = st) as -> by congruence; exists m; split; [congruence|split; [auto|split; [apply frame_refl|auto]]]|]. cbv zeta in *.
    match type of E with (modify st j ?f, _, _) = _ => assert (st' = modify st j f) as -> by congruence end.
    exists (o_update P m (r / inject_Z (Z.of_nat (s_rollouts P)))). split; [congruence|]. split; [|split; [apply frame_modify|apply modify_length]].
    eapply (holds_below st); eauto using frame_modify. eapply (holds_top st (h0 ++ [(a, o)]) j sj _ m); try (intros; cbn in *; solve [eauto using linked, inj_back]).
    - unfold s_view, t_view in *. cbn [sn_update o_update sn_avg sn_belief sn_kids o_avg o_belief o_kids]. rewrite V1, V2. f_equal. congruence.
  Qed.

  Lemma frame_below st st2 i a o j : s_find st2 i [(a, o)] = Some j -> frame st st2 j -> frame st st2 i.
  Proof. intros L Fr q s E. destruct (Fr q s E) as [E2|[h E2]]; [auto|]. right. exists ((a, o) :: h). etransitivity; [apply (find_app st2 [(a, o)] h i j L)|auto]. Qed.

  Lemma s_simulate_refines : forall fuel st i n s h action x st' x' v h0, inj st' -> store_ok st -> reach st -> s_find st 0 h0 = Some i -> holds st i n ->
    s_simulate P same fuel st i s h action x = (st', x', v) ->
    exists n', simulate P fuel n s h action x = (n', x', v) /\ holds st' i n' /\ reach st' /\ frame st st' i.
  Proof.
    induction fuel as [|fuel IH]; intros st i n s h action x st' x' v h0 I S0 R E0 Hn E; cbn [s_simulate simulate] in *; destruct Hn as [i n sn En V K]; pose proof (holds_intro st i n sn En V K) as Hn; destruct (view_avg sn n V) as [V1 V2]; rewrite En, V1 in E.
    - destruct (s_reached P h); assert (st' = st) as -> by congruence; exists n; (split; [congruence|split; [auto|split; [auto|apply frame_refl]]]).
    - destruct (s_reached P h); [assert (st' = st) as -> by congruence; exists n; split; [congruence|split; [auto|split; [auto|apply frame_refl]]]|].
      rewrite (best_view sn n V) in E.
      destruct (match action with Some a => (Ok a, x) | None => best_action P n (s_exploration P) (s_relative P) x end) as [[a|e] y]; cbn [bind] in *;
        [|assert (st' = st) as -> by congruence; exists n; split; [congruence|split; [auto|split; [auto|apply frame_refl]]]].
      pose proof (child_view sn n a V) as VC. destruct (sn_child sn a) as [k|e] eqn:Ek, (safe_child n a) as [c|e'] eqn:Ec; cbn [bind] in *;
        [destruct VC as [VC1 VC2]|destruct VC|destruct VC|subst e'; assert (st' = st) as -> by congruence; exists n; split; [congruence|split; [auto|split; [auto|apply frame_refl]]]].
      assert (R1 : store_ok (modify st i (sn_safe a)) /\ extends st (modify st i (sn_safe a))).
      { apply modify_ok; auto. intros m _ Hm. apply safe_ok. auto. }
      destruct (safe_child_after st i sn a k En Ek) as (s1 & En1 & Eb1 & Ek1).
      assert (Hn1 : inj st -> holds (modify st i (sn_safe a)) i (set_kid n a c)) by (intros; eapply holds_safe; eauto).
      set (st1 := modify st i (sn_safe a)) in *. destruct R1 as [S1 X1].
      assert (F1 : frame st st1 i) by apply frame_modify.
      assert (R1 : reach st1) by (intros q Hq; unfold st1 in Hq; rewrite modify_length in Hq; apply (reach_extends _ _ X1 R); auto).
      pose proof (find_extends _ _ X1 _ _ _ E0) as E01.
      pose proof (safe_child_lt n a c Ec) as La. assert (Ec1 : nth_error (o_kids (set_kid n a c)) a = Some (Some c)) by (apply kid_set_same; auto).
      destruct (s_transition P a s y) as [[[[s' o] r]|e] z]; [|assert (st' = st1) as -> by congruence; exists (set_kid n a c); split; [congruence|split; [apply Hn1; eapply inj_back; eauto|split; auto]]].
      cbv zeta in E. set (h' := s_decrement P h a s s' o) in *. change (o_belief (set_kid n a c)) with (o_belief n) in *.
      match type of E with match ?t with _ => _ end = _ => assert (R2 : forall st2 x2 v2, t = (st2, x2, v2) -> inj st2 -> store_ok st2 /\ extends st1 st2 /\
        exists c2, match lookup o (a_kids c) with
                   | None => let (b, x) := s_succ P (o_belief n) a o z in
                       match b with
                       | Err EMaxSamples => (c, x, Ok 0%Q)
                       | Err e => (c, x, Err e)
                       | Ok b => let '(m, x, v) := rollout_from_node P fuel (o_new P b) h' x in (put c o m, x, match v with Err EMaxSamples => Ok 0%Q | v => v end)
                       end
                   | Some m => let '(m, x, v) := simulate P fuel m s' h' None z in (put c o m, x, v)
                   end = (c2, x2, v2) /\ holds st2 i (set_kid n a c2) /\ reach st2 /\ frame st1 st2 i) end.
      { intros st2 x2 v2 E2 I2. destruct (lookup o (k_obs k)) as [j|] eqn:El.
        - destruct (s_simulate_ok P same same_refl (fun _ => True) Gtrue _ _ _ _ _ _ _ _ _ _ S1 E2) as [S2 X2]. split; [auto|split; [auto|]].
          pose proof (Hn1 (inj_back _ _ (extends_trans _ _ _ X1 X2) I2)) as HH1.
          destruct (lookup o (a_kids c)) as [m|] eqn:Em; [|apply (keys_lookup o (k_obs k) (a_kids c)) in Em; [congruence|auto]].
          assert (Hm : holds st1 j m) by (eapply holds_child; eauto).
          destruct (IH _ _ _ _ _ _ _ _ _ _ (h0 ++ [(a, o)]) I2 S1 R1 (linked _ _ _ _ _ _ _ _ E01 En1 Ek1 El) Hm E2) as (m' & Es & Hm' & R2 & F2). rewrite Es.
          exists (put c o m'). split; [auto|]. split; [|split; [auto|]].
          + rewrite <- (set_kid_set_kid n a c). eapply (holds_below st1 st2); eauto.
          + eapply frame_below; [|exact F2]. eapply find_extends; [exact X2|]. erewrite find_step; eauto. reflexivity.
        - rewrite V2 in E2. destruct (lookup o (a_kids c)) as [m|] eqn:Em; [apply (keys_lookup o (k_obs k) (a_kids c)) in El; [congruence|auto]|].
          destruct (s_succ P (o_belief n) a o z) as [rb z1] eqn:Es. destruct rb as [b|e].
          + destruct (node_for_belief P same st1 b) as [st3 j] eqn:Ef. assert (Hmf : may_follow P (sn_belief s1) a o b) by (rewrite Eb1, V2; exists z, z1; auto).
            destruct (put_modify_ok P same same_refl (fun _ => True) Gtrue st1 i s1 a k o b st3 j S1 En1 Ek1 El Hmf Ef) as [S3 X3].
            destruct (s_rollout P fuel (modify st3 i (sn_kid a (k_put o j))) j h' z1) as [[st4 x4] v4] eqn:Er. assert (st2 = st4) as -> by congruence.
            destruct (s_rollout_ok P same (fun _ => True) _ _ _ _ _ _ _ _ S3 Er) as [S4 X4]. split; [auto|]. pose proof (extends_trans _ _ _ X3 X4) as X34. split; [auto|].
            pose proof (inj_back _ _ X34 I2) as I1. pose proof (Hn1 (inj_back _ _ X1 I1)) as HH1. pose proof (inj_back _ _ X4 I2) as I3.
            destruct (put_new st1 st3 h0 i s1 a k o b j S1 R1 E01 En1 Ek1 El Hmf Ef I3) as (E3 & Ej & R3).
            assert (HH3 : holds (modify st3 i (sn_kid a (k_put o j))) i (set_kid (set_kid n a c) a (put c o (o_new P b)))) by (subst st3 j; eapply holds_put; eauto).
            rewrite set_kid_set_kid in HH3.
            assert (En3 : nth_error (modify st3 i (sn_kid a (k_put o j))) i = Some (sn_kid a (k_put o j) s1)).
            { subst st3. rewrite modify_nth, Nat.eqb_refl, nth_error_app1, En1 by (apply nth_error_Some; congruence). reflexivity. }
            assert (Ek3 : nth_error (sn_kids (sn_kid a (k_put o j) s1)) a = Some (Some (k_put o j k))) by (rewrite (kid_nth s1 a _ a k Ek1), Nat.eqb_refl; reflexivity).
            assert (El3 : lookup o (k_obs (k_put o j k)) = Some j) by (cbn [k_put k_obs]; apply lookup_upd_same).
            assert (F3 : frame st1 (modify st3 i (sn_kid a (k_put o j))) i).
            { intros q sq Eq. destruct (frame_modify st3 i (sn_kid a (k_put o j)) q sq) as [F|F]; [|auto|auto]. subst st3. rewrite nth_error_app1; [auto|]. apply nth_error_Some. congruence. }
            destruct (s_rollout_refines fuel _ h0 i _ _ a _ (put c o (o_new P b)) o j (o_new P b) h' z1 st4 x4 v4 I2 S3 (find_extends _ _ X3 _ _ _ E01) En3 HH3 Ek3) as (m' & Em' & HH4 & F4 & L4); auto.
            { apply kid_set_same. auto. }
            { cbn [put a_kids]. apply lookup_upd_same. }
            rewrite Em'. exists (put c o m'). split; [congruence|]. split; [|split].
            * rewrite put_put, set_kid_set_kid in HH4. exact HH4.
            * intros q Hq. rewrite L4 in Hq. apply (reach_extends _ _ X4 R3 q Hq).
            * eapply frame_trans; [exact X4|exact F3|]. eapply frame_below; [|exact F4]. eapply find_extends; [exact X4|]. erewrite find_step; eauto. reflexivity.
          + assert (st2 = st1) as -> by (destruct e; congruence). split; [auto|]. split; [apply extends_refl|]. exists c. split; [destruct e; congruence|].
            split; [apply Hn1; eapply inj_back; eauto|]. split; [auto|apply frame_refl]. }
      match type of E with match ?t with _ => _ end = _ => destruct t as [[st2 x2] v2] end.
      assert (I2 : inj st2).
      { destruct v2 as [v2|e]; [|assert (st' = st2) as -> by congruence; auto].
        intros h1 h2 q Q1 Q2. match type of E with (?t, _, _) = _ => assert (Et : st' = t) by congruence end. clear E. rewrite modify_modify in Et. revert I. rewrite Et. intros I.
        assert (Lk : forall hh q0, s_find (modify st2 i (fun n0 => sn_update P (r + s_discount P * v2) (sn_kid a (k_update P (r + s_discount P * v2)) n0))) q0 hh = s_find st2 q0 hh).
        { clear. induction hh as [|[a' o'] hh IHh]; intros q0; cbn [s_find]; [auto|]. rewrite modify_nth. destruct (Nat.eqb_spec q0 i) as [->|].
          - destruct (nth_error st2 i) as [n|]; [|auto]. cbn [option_map sn_update sn_kids]. destruct (nth_error (sn_kids n) a) as [[k|]|] eqn:Ea.
            + rewrite (kid_nth n a _ a' k Ea). destruct (Nat.eqb_spec a' a) as [->|]; [rewrite Ea; cbn [k_update k_obs]; destruct (lookup o' (k_obs k)); auto|].
              destruct (nth_error (sn_kids n) a') as [[k'|]|]; auto. destruct (lookup o' (k_obs k')); auto.
            + unfold sn_kid. cbn [sn_kids]. rewrite Ea. destruct (nth_error (sn_kids n) a') as [[k'|]|]; auto. destruct (lookup o' (k_obs k')); auto.
            + unfold sn_kid. cbn [sn_kids]. rewrite Ea. destruct (nth_error (sn_kids n) a') as [[k'|]|]; auto. destruct (lookup o' (k_obs k')); auto.
          - destruct (nth_error st2 q0) as [n1|]; auto. destruct (nth_error (sn_kids n1) a') as [[k'|]|]; auto. destruct (lookup o' (k_obs k')); auto. }
        apply (I h1 h2 q); rewrite Lk; auto. }
      destruct (R2 st2 x2 v2 eq_refl I2) as (S2 & X2 & c2 & -> & HH2 & Rc2 & F2). pose proof (frame_trans _ _ _ _ X2 F1 F2) as F12.
      destruct v2 as [v2|e].
      + rewrite modify_modify in E. match type of E with (modify st2 i ?f, _, _) = _ => assert (st' = modify st2 i f) as -> by congruence end.
        assert (x' = x2) as -> by congruence. assert (v = Ok (r + s_discount P * v2)%Q) as -> by congruence. eexists. split; [reflexivity|].
        destruct X2 as [Xb X2]. destruct (X2 i s1 En1) as (s2 & En2 & _ & _ & K2). destruct (K2 a k Ek1) as (k2 & Ek2 & _).
        assert (Ec2 : nth_error (o_kids (set_kid n a c2)) a = Some (Some c2)) by (apply kid_set_same; auto).
        pose proof (find_extends _ _ (conj Xb X2) _ _ _ E01) as E02.
        split; [|split].
        * rewrite set_kid_set_kid. rewrite <- (set_kid_set_kid n a c2). eapply holds_update; eauto.
        * intros q Hq. rewrite modify_length in Hq. destruct (Rc2 q Hq) as [hq Eq]. exists hq. eapply find_extends; [|exact Eq].
          assert (Y : store_ok (modify st2 i (fun n0 => sn_update P (r + s_discount P * v2) (sn_kid a (k_update P (r + s_discount P * v2)) n0))) /\
                  extends st2 (modify st2 i (fun n0 => sn_update P (r + s_discount P * v2) (sn_kid a (k_update P (r + s_discount P * v2)) n0)))).
          { apply modify_ok; auto. intros m Em Hm. assert (m = s2) as -> by congruence. apply (both_ok P same _ _ _ _ k2); auto. }
          apply Y.
        * eapply frame_trans; [|exact F12|apply frame_modify].
          assert (Y : store_ok (modify st2 i (fun n0 => sn_update P (r + s_discount P * v2) (sn_kid a (k_update P (r + s_discount P * v2)) n0))) /\
                  extends st2 (modify st2 i (fun n0 => sn_update P (r + s_discount P * v2) (sn_kid a (k_update P (r + s_discount P * v2)) n0)))).
          { apply modify_ok; auto. intros m Em Hm. assert (m = s2) as -> by congruence. apply (both_ok P same _ _ _ _ k2); auto. }
          apply Y.
      + assert (st' = st2) as -> by congruence. rewrite set_kid_set_kid. exists (set_kid n a c2). split; [congruence|]. auto.
  Qed.

  (** *** The runner *)
  Lemma s_simulate_from_refines fuel action st i n x st' x' v h0 : inj st' -> store_ok st -> reach st -> s_find st 0 h0 = Some i -> holds st i n ->
    s_simulate_from P same fuel action st i x = (st', x', v) ->
    exists n', simulate_from_node P fuel action n x = (n', x', v) /\ holds st' i n' /\ reach st' /\ frame st st' i.
  Proof.
    intros I S0 R E0 Hn E. unfold s_simulate_from in E. unfold simulate_from_node. pose proof Hn as Hn'. destruct Hn' as [i n s En V K]. rewrite En in E. destruct (view_avg s n V) as [_ V2]. rewrite V2 in E.
    destruct (s_sample P (o_belief n) x) as [[q|e] y]; [eapply s_simulate_refines; eauto|].
    assert (st' = st) as -> by congruence. exists n. split; [congruence|]. split; [auto|split; [auto|apply frame_refl]].
  Qed.
  Lemma at_refines {A} (f : onode B -> X -> onode B * X * res A) st st' i x x' (v : res A) : extends st st' -> inj st' -> frame st st' i ->
    (forall m, holds st i m -> exists m', f m x = (m', x', v) /\ holds st' i m') ->
    forall hn n0 i0 h0, s_find st 0 h0 = Some i0 -> holds st i0 n0 -> s_find st i0 hn = Some i -> exists n', at_node f n0 hn x = (n', x', v) /\ holds st' i0 n'.
  Proof.
    intros XX I Fr Hf. induction hn as [|[a o] hn IH]; intros n0 i0 h0 E0 Hn E; cbn [s_find at_node] in *.
    - assert (i0 = i) as -> by congruence. auto.
    - pose proof Hn as Hn'. destruct Hn' as [i0 n0 s En V K]. rewrite En in E. pose proof (view_kid s n0 a V) as VK.
      destruct (nth_error (sn_kids s) a) as [[k|]|] eqn:Ek; try discriminate. destruct (nth_error (o_kids n0) a) as [[c|]|] eqn:Ec; try destruct VK as []. rename H0 into VK1. rename H1 into VK2.
      destruct (lookup o (k_obs k)) as [j|] eqn:El; [|discriminate].
      destruct (lookup o (a_kids c)) as [m|] eqn:Em; [|apply (keys_lookup o (k_obs k) (a_kids c)) in Em; [congruence|auto]].
      destruct (IH m j (h0 ++ [(a, o)]) (linked _ _ _ _ _ _ _ _ E0 En Ek El) (K _ _ _ _ _ _ Ek Ec El Em) E) as (m' & -> & Hm').
      exists (set_kid n0 a (put c o m')). split; [auto|]. eapply (holds_below st st'); eauto.
      intros q sq Eq. destruct (Fr q sq Eq) as [F|[h F]]; [auto|]. right. exists (hn ++ h). rewrite (find_app st' hn h j i); [auto|]. eapply find_extends; eauto.
  Qed.

  Definition J (r : srunner B) (t : runner B) : Prop :=
    store_ok (sr_store r) /\ reach (sr_store r) /\ holds (sr_store r) 0 (r_root t) /\ sr_history r = r_history t /\ s_find (sr_store r) 0 (r_node t) = Some (sr_node r) /\ sr_last r = r_last t.

  Lemma s_simulations_refines : forall k fuel r t x r' x' v, inj (sr_store r') -> J r t -> s_simulations P same k fuel r x = (r', x', v) ->
    exists t', simulations P k fuel t x = (t', x', v) /\ J r' t'.
  Proof.
    induction k as [|k IH]; intros fuel r t x r' x' v I HJ E; cbn [s_simulations simulations] in *; [exists t; split; [congruence|assert (r' = r) as -> by congruence; auto]|].
    destruct (s_simulate_from P same fuel None (sr_store r) (sr_node r) x) as [[st y] w] eqn:Es. destruct HJ as (S0 & R & Hn & Eh & En & El).
    destruct (s_simulate_from_ok P same same_refl (fun _ => True) Gtrue _ _ _ _ _ _ _ _ S0 Es) as [S1 X1].
    set (r1 := {| sr_store := st; sr_history := sr_history r; sr_node := sr_node r; sr_last := sr_last r |}) in *.
    assert (I1 : inj st).
    { cbv zeta in E. destruct w as [w|e]; [|match type of E with (?q, _, _) = _ => assert (r' = q) as -> by congruence end; exact I].
      destruct (s_simulations_ok P same same_refl (fun _ => True) Gtrue k fuel r1 y r' x' v S1 E) as (_ & X2 & _). eapply inj_back; eauto. }
    assert (Q1 : exists m', PomcpSpec.find (r_root t) (r_node t) = Some m' /\ holds (sr_store r) (sr_node r) m').
    { pose proof (holds_find (sr_store r) (r_node t) 0 (r_root t) Hn) as F. destruct (PomcpSpec.find (r_root t) (r_node t)) as [m|] eqn:Em; [|congruence]. exists m. split; [auto|]. eapply find_holds; eauto. }
    destruct Q1 as (m0 & Em0 & Hm0).
    destruct (s_simulate_from_refines fuel None _ _ m0 x st y w (r_node t) I1 S0 R En Hm0 Es) as (_ & _ & _ & R1 & F1).
    destruct (at_refines (simulate_from_node P fuel None) (sr_store r) st (sr_node r) x y w X1 I1 F1) with (hn := r_node t) (n0 := r_root t) (i0 := 0) (h0 := @nil (nat * nat)) as (n' & Ea & Hn'); auto.
    { intros m Hm. destruct (s_simulate_from_refines fuel None _ _ m x st y w (r_node t) I1 S0 R En Hm Es) as (m' & Em' & Hm' & _). eauto. }
    rewrite Ea. cbv zeta in *.
    assert (J1 : J r1 {| r_root := n'; r_history := r_history t; r_node := r_node t; r_last := r_last t |}).
    { split; [auto|]. split; [auto|]. split; [auto|]. split; [auto|]. split; [|auto]. cbn. eapply find_extends; eauto. }
    destruct w as [w|e]; [eapply (IH fuel r1); eauto|]. assert (r' = r1) as -> by congruence. fin E. auto.
  Qed.
  Lemma s_get_action_refines k fuel r t x r' x' v : inj (sr_store r') -> J r t -> s_get_action P same k fuel r x = (r', x', v) ->
    exists t', get_action P k fuel t x = (t', x', v) /\ J r' t'.
  Proof.
    intros I HJ E. unfold s_get_action in E. unfold get_action. destruct (s_simulations P same k fuel r x) as [[r1 y] w] eqn:Es.
    assert (I1 : inj (sr_store r1)).
    { destruct w as [w|e]; [|assert (r' = r1) as -> by congruence; auto]. destruct (nth_error (sr_store r1) (sr_node r1)) as [n|]; [|assert (r' = r1) as -> by congruence; auto].
      destruct (best_action P (as_tree n) 0 false y) as [[a|e] z]; [|assert (r' = r1) as -> by congruence; auto]. match type of E with (?q, _, _) = _ => assert (r' = q) as -> by congruence end. exact I. }
    destruct (s_simulations_refines k fuel r t x r1 y w I1 HJ Es) as (t1 & -> & J1). destruct w as [w|e]; [|exists t1; split; [congruence|assert (r' = r1) as -> by congruence; auto]].
    pose proof J1 as (S1 & R1 & Hn1 & Eh & En & El). pose proof (holds_find (sr_store r1) (r_node t1) 0 (r_root t1) Hn1) as F. destruct (PomcpSpec.find (r_root t1) (r_node t1)) as [m|] eqn:Em; [|congruence].
    destruct F as (j & s & F1 & F2 & V). assert (j = sr_node r1) as -> by congruence. rewrite F2 in E. rewrite (best_view s m V) in E.
    destruct (best_action P m 0 false y) as [ba z] eqn:Eb.
    destruct (at_refines (fun n x => let (a, x) := best_action P n 0 false x in (n, x, a)) (sr_store r1) (sr_store r1) (sr_node r1) y z ba (extends_refl _) I1 (frame_refl _ _)) with (hn := r_node t1) (n0 := r_root t1) (i0 := 0) (h0 := @nil (nat * nat)) as (n' & Ea & Hn'); auto.
    { intros m0 Hm0. exists m0. split; [|auto]. assert (V0 : s_view s = t_view m0) by (destruct Hm0 as [i0 n0 s0 En0 V0 _]; congruence). rewrite <- (best_view s m0 V0), (best_view s m V), Eb. auto. }
    rewrite Ea. destruct ba as [a|e]; [|exists t1; split; [congruence|assert (r' = r1) as -> by congruence; auto]].
    match type of E with (?q, _, _) = _ => assert (r' = q) as -> by congruence end. fin E.
    split; [auto|]. split; [auto|]. split; [auto|]. split; [auto|]. split; auto.
  Qed.

  Definition as_unit (v : res nat) : res unit := match v with Ok _ => Ok tt | Err e => Err e end.
  Lemma s_get_node_refines : forall hist st i n x st' x' v h0, inj st' -> store_ok st -> reach st -> s_find st 0 h0 = Some i -> holds st i n ->
    s_get_node P same st i hist x = (st', x', v) ->
    exists n', get_node P n hist x = (n', x', as_unit v) /\ holds st' i n' /\ reach st' /\ frame st st' i.
  Proof.
    induction hist as [|[a o] hist IH]; intros st i n x st' x' v h0 I S0 R E0 Hn E; cbn [s_get_node get_node] in *.
    - assert (st' = st) as -> by congruence. assert (v = Ok i) as -> by congruence. exists n. split; [cbn; congruence|split; [auto|split; [auto|apply frame_refl]]].
    - destruct Hn as [i n sn En V K]; pose proof (holds_intro st i n sn En V K) as Hn; destruct (view_avg sn n V) as [V1 V2]; rewrite En, V2 in E.
      pose proof (child_view sn n a V) as VC. destruct (sn_child sn a) as [k|e] eqn:Ek, (safe_child n a) as [c|e'] eqn:Ec;
        [destruct VC as [VC1 VC2]|destruct VC|destruct VC|subst e'; assert (st' = st) as -> by congruence; assert (v = Err e) as -> by congruence; exists n; split; [cbn; congruence|split; [auto|split; [auto|apply frame_refl]]]].
      assert (R1 : store_ok (modify st i (sn_safe a)) /\ extends st (modify st i (sn_safe a))).
      { apply modify_ok; auto. intros m _ Hm. apply safe_ok. auto. }
      destruct (safe_child_after st i sn a k En Ek) as (s1 & En1 & Eb1 & Ek1).
      assert (Hn1 : inj st -> holds (modify st i (sn_safe a)) i (set_kid n a c)) by (intros; eapply holds_safe; eauto). cbv zeta in E.
      set (st1 := modify st i (sn_safe a)) in *. destruct R1 as [S1 X1].
      assert (F1 : frame st st1 i) by apply frame_modify.
      assert (R1 : reach st1) by (intros q Hq; unfold st1 in Hq; rewrite modify_length in Hq; apply (reach_extends _ _ X1 R); auto).
      pose proof (find_extends _ _ X1 _ _ _ E0) as E01.
      pose proof (safe_child_lt n a c Ec) as La. assert (Ec1 : nth_error (o_kids (set_kid n a c)) a = Some (Some c)) by (apply kid_set_same; auto).
      destruct (lookup o (k_obs k)) as [j|] eqn:El.
      + destruct (s_get_node_ok P same same_refl (fun _ => True) Gtrue _ _ _ _ _ _ _ S1 E) as (S2 & X2 & _).
        pose proof (Hn1 (inj_back _ _ (extends_trans _ _ _ X1 X2) I)) as HH1.
        destruct (lookup o (a_kids c)) as [m|] eqn:Em; [|apply (keys_lookup o (k_obs k) (a_kids c)) in Em; [congruence|auto]].
        assert (Hm : holds st1 j m) by (eapply holds_child; eauto).
        destruct (IH _ _ _ _ _ _ _ (h0 ++ [(a, o)]) I S1 R1 (linked _ _ _ _ _ _ _ _ E01 En1 Ek1 El) Hm E) as (m' & Es & Hm' & R2 & F2). rewrite Es.
        exists (set_kid n a (put c o m')). split; [auto|]. split; [|split; [auto|]].
        * rewrite <- (set_kid_set_kid n a c). eapply (holds_below st1 st'); eauto.
        * eapply frame_trans; [exact X2|exact F1|]. eapply frame_below; [|exact F2]. eapply find_extends; [exact X2|]. erewrite find_step; eauto. reflexivity.
      + destruct (lookup o (a_kids c)) as [m|] eqn:Em; [apply (keys_lookup o (k_obs k) (a_kids c)) in El; [congruence|auto]|].
        destruct (s_succ P (o_belief n) a o x) as [rb z1] eqn:Es. destruct rb as [b|e].
        * destruct (node_for_belief P same st1 b) as [st3 j] eqn:Ef. assert (Hmf : may_follow P (sn_belief s1) a o b) by (rewrite Eb1, V2; exists x, z1; auto).
          destruct (put_modify_ok P same same_refl (fun _ => True) Gtrue st1 i s1 a k o b st3 j S1 En1 Ek1 El Hmf Ef) as [S3 X3].
          destruct (s_get_node_ok P same same_refl (fun _ => True) Gtrue _ _ _ _ _ _ _ S3 E) as (S4 & X4 & _).
          pose proof (inj_back _ _ X4 I) as I3. pose proof (inj_back _ _ X3 I3) as I1. pose proof (Hn1 (inj_back _ _ X1 I1)) as HH1.
          destruct (put_new st1 st3 h0 i s1 a k o b j S1 R1 E01 En1 Ek1 El Hmf Ef I3) as (E3 & Ej & R3).
          assert (HH3 : holds (modify st3 i (sn_kid a (k_put o j))) i (set_kid (set_kid n a c) a (put c o (o_new P b)))) by (subst st3 j; eapply holds_put; eauto).
          rewrite set_kid_set_kid in HH3.
          assert (En3 : nth_error (modify st3 i (sn_kid a (k_put o j))) i = Some (sn_kid a (k_put o j) s1)).
          { subst st3. rewrite modify_nth, Nat.eqb_refl, nth_error_app1, En1 by (apply nth_error_Some; congruence). reflexivity. }
          assert (Ek3 : nth_error (sn_kids (sn_kid a (k_put o j) s1)) a = Some (Some (k_put o j k))) by (rewrite (kid_nth s1 a _ a k Ek1), Nat.eqb_refl; reflexivity).
          assert (El3 : lookup o (k_obs (k_put o j k)) = Some j) by (cbn [k_put k_obs]; apply lookup_upd_same).
          assert (F3 : frame st1 (modify st3 i (sn_kid a (k_put o j))) i).
          { intros q sq Eq. destruct (frame_modify st3 i (sn_kid a (k_put o j)) q sq) as [F|F]; [|auto|auto]. subst st3. rewrite nth_error_app1; [auto|]. apply nth_error_Some. congruence. }
          pose proof (find_extends _ _ X3 _ _ _ E01) as E03.
          assert (Ec3 : nth_error (o_kids (set_kid n a (put c o (o_new P b)))) a = Some (Some (put c o (o_new P b)))) by (apply kid_set_same; auto).
          assert (Em3 : lookup o (a_kids (put c o (o_new P b))) = Some (o_new P b)) by (cbn [put a_kids]; apply lookup_upd_same).
          assert (Hm : holds (modify st3 i (sn_kid a (k_put o j))) j (o_new P b)) by (eapply holds_child; eauto).
          destruct (IH _ _ _ _ _ _ _ (h0 ++ [(a, o)]) I S3 R3 (linked _ _ _ _ _ _ _ _ E03 En3 Ek3 El3) Hm E) as (m' & -> & Hm' & R4 & F4).
          exists (set_kid n a (put c o m')). split; [auto|]. split; [|split; [auto|]].
          -- rewrite <- (set_kid_set_kid n a (put c o (o_new P b))), <- (put_put c o (o_new P b) m'). eapply (holds_below (modify st3 i (sn_kid a (k_put o j))) st'); eauto.
          -- eapply frame_trans; [exact (extends_trans _ _ _ X3 X4)|exact F1|]. eapply frame_trans; [exact X4|exact F3|]. eapply frame_below; [|exact F4]. eapply find_extends; [exact X4|]. erewrite find_step; eauto. reflexivity.
        * assert (st' = st1) as -> by congruence. assert (v = Err e) as -> by congruence. exists (set_kid n a c). split; [cbn; congruence|]. split; [apply Hn1; eapply inj_back; eauto|]. auto.
  Qed.
  Lemma s_step_refines ob r t x r' x' v : inj (sr_store r') -> J r t -> s_step P same ob r x = (r', x', v) -> exists t', r_step P ob t x = (t', x', v) /\ J r' t'.
  Proof.
    intros I HJ E. pose proof HJ as (S0 & R & Hn & Eh & En & El). unfold s_step in E. unfold r_step. rewrite <- El, <- Eh.
    destruct (sr_last r) as [a|] eqn:Ela; [|exists t; split; [congruence|assert (r' = r) as -> by congruence; auto]].
    destruct (list_index (s_observations P) ob) as [o|e]; [|exists t; split; [congruence|assert (r' = r) as -> by congruence; auto]]. cbv zeta in *.
    destruct (s_get_node P same (sr_store r) 0 (sr_history r ++ [(a, o)]) x) as [[st y] w] eqn:Eg.
    assert (I1 : inj st) by (destruct w; match type of E with (?q, _, _) = _ => assert (r' = q) as -> by congruence end; exact I).
    destruct (s_get_node_ok P same same_refl (fun _ => True) Gtrue _ _ _ _ _ _ _ S0 Eg) as (S1 & X1 & F1).
    destruct (s_get_node_refines _ _ _ (r_root t) _ _ _ _ [] I1 S0 R eq_refl Hn Eg) as (n' & -> & Hn' & R1 & _).
    destruct w as [i|e]; cbn [as_unit]; match type of E with (?q, _, _) = _ => assert (r' = q) as -> by congruence end; fin E.
    - split; [auto|]. split; [auto|]. split; [auto|]. split; [auto|]. split; [apply F1; auto|auto].
    - split; [auto|]. split; [auto|]. split; [auto|]. split; [auto|]. split; [eapply find_extends; eauto|auto].
  Qed.

  Lemma shared_op_ok r o r' out : store_ok (sr_store r) -> shared_op P same r o = (r', out) -> store_ok (sr_store r') /\ extends (sr_store r) (sr_store r').
  Proof.
    intros S0 E. destruct o as [k fuel x|ob x|]; cbn [shared_op] in E.
    - unfold s_get_action in E. destruct (s_simulations P same k fuel r x) as [[r1 y] w] eqn:Es. destruct (s_simulations_ok P same same_refl (fun _ => True) Gtrue _ _ _ _ _ _ _ S0 Es) as (S1 & X1 & _).
      destruct w as [w|e]; [|assert (r' = r1) as -> by congruence; auto]. destruct (nth_error (sr_store r1) (sr_node r1)) as [n|]; [|assert (r' = r1) as -> by congruence; auto].
      destruct (best_action P (as_tree n) 0 false y) as [[a|e] z]; [|assert (r' = r1) as -> by congruence; auto]. match type of E with (?q, _) = _ => assert (r' = q) as -> by congruence end. auto.
    - unfold s_step in E. assert (Q0 : r' = r -> store_ok (sr_store r') /\ extends (sr_store r) (sr_store r')) by (intros ->; split; [auto|apply extends_refl]).
      destruct (sr_last r) as [a|]; [|apply Q0; congruence]. destruct (list_index (s_observations P) ob) as [o|e]; [|apply Q0; congruence]. cbv zeta in E.
      destruct (s_get_node P same (sr_store r) 0 (sr_history r ++ [(a, o)]) x) as [[st y] w] eqn:Eg. destruct (s_get_node_ok P same same_refl (fun _ => True) Gtrue _ _ _ _ _ _ _ S0 Eg) as (S1 & X1 & _).
      destruct w as [i|e]; match type of E with (?q, _) = _ => assert (r' = q) as -> by congruence end; auto.
    - assert (r' = sr_reset (sr_store r)) as -> by congruence. split; [auto|apply extends_refl].
  Qed.
  Lemma run_shared_ok : forall l r, store_ok (sr_store r) -> extends (sr_store r) (sr_store (fst (run (shared_op P same) r l))).
  Proof.
    induction l as [|o l IH]; intros r S0; cbn [run]; [apply extends_refl|]. destruct (shared_op P same r o) as [r1 out] eqn:E. destruct (shared_op_ok _ _ _ _ S0 E) as [S1 X1].
    specialize (IH r1 S1). destruct (run (shared_op P same) r1 l) as [r2 outs]. cbn [fst] in *. eapply extends_trans; eauto.
  Qed.
  Lemma run_refines : forall l r t, J r t -> inj (sr_store (fst (run (shared_op P same) r l))) ->
    snd (run (plain_op P) t l) = snd (run (shared_op P same) r l) /\ J (fst (run (shared_op P same) r l)) (fst (run (plain_op P) t l)).
  Proof.
    induction l as [|o l IH]; intros r t HJ I; cbn [run] in *; [auto|]. destruct (shared_op P same r o) as [r1 out] eqn:E. destruct (shared_op_ok _ _ _ _ (proj1 HJ) E) as [S1 X1].
    pose proof (run_shared_ok l r1 S1) as X2. assert (I1 : inj (sr_store r1)) by (destruct (run (shared_op P same) r1 l); cbn [fst] in *; eapply inj_back; eauto).
    assert (Q : exists t1, plain_op P t o = (t1, out) /\ J r1 t1).
    { destruct o as [k fuel x|ob x|]; cbn [shared_op plain_op] in *.
      - destruct (s_get_action P same k fuel r x) as [[r2 y] w] eqn:Ea. assert (r2 = r1) as -> by congruence. destruct (s_get_action_refines _ _ _ _ _ _ _ _ I1 HJ Ea) as (t1 & -> & J1). exists t1. split; [congruence|auto].
      - destruct (s_step P same ob r x) as [[r2 y] w] eqn:Ea. assert (r2 = r1) as -> by congruence. destruct (s_step_refines _ _ _ _ _ _ _ I1 HJ Ea) as (t1 & -> & J1). exists t1. split; [congruence|auto].
      - assert (r1 = sr_reset (sr_store r)) as -> by congruence. destruct HJ as (S0 & R & Hn & _). exists (r_reset (r_root t)). split; [congruence|]. split; [auto|]. split; [auto|]. split; [auto|]. split; [auto|]. split; auto. }
    destruct Q as (t1 & -> & J1). specialize (IH r1 t1 J1). destruct (run (shared_op P same) r1 l) as [r2 outs], (run (plain_op P) t1 l) as [t2 outs']. cbn [fst snd] in *. destruct (IH I) as [IH1 IH2]. split; [congruence|auto].
  Qed.
  Lemma init_refines x r x' : sr_init P same BArray x = (Ok r, x') -> exists t, r_init P x = (Ok t, x') /\ J r t.
  Proof.
    unfold sr_init, r_init. destruct (s_start P x) as [[b|e] y]; cbn [bind]; [|discriminate]. unfold node_for_belief. cbn [index_of fst app]. intros E.
    assert (r = sr_reset [sn_new P b]) as -> by congruence. exists (r_reset (o_new P b)). split; [congruence|].
    split; [|split; [|split; [|cbn; auto]]]; cbn [sr_reset sr_store r_reset r_root].
    - split; [intros n [<-|[]]; apply new_ok|split; [|auto]]. intros i j c d Hij Ec Ed. cbn in Ec, Ed. destruct j as [|[|j]]; [lia|discriminate|discriminate].
    - intros q Hq. cbn in Hq. exists []. cbn. f_equal. lia.
    - apply holds_new. reflexivity.
  Qed.
  Lemma J_agree r t : J r t -> agree r t.
  Proof. intros (_ & _ & Hn & Eh & En & El). split; [|auto]. intros h. apply (holds_find (sr_store r) h 0 (r_root t) Hn). Qed.
End Refine.
