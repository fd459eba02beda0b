(** Proofs for C57 to C63. *)
From Verif Require Import PyBase PyBaseFacts QBase PomdpModel BeliefModel PolicyModel PomcpModel PomcpSpec PolicySpec PolicyProofs.
From Coq Require Import Lia Lqa Field.
Local Open Scope list_scope.
Local Open Scope nat_scope.

(** *** averages *)
Lemma after_app alpha l v : after alpha (l ++ [v]) = avg_update alpha (after alpha l) v.
Proof. unfold after. rewrite fold_left_app. reflexivity. Qed.
Lemma after_count alpha l : n_simulations (after alpha l) = length l.
Proof. induction l as [|v l IH] using rev_ind; [reflexivity|]. rewrite after_app, app_length. cbn. rewrite IH. lia. Qed.
Lemma nat_Q_pos n : 0 < n -> (0 < inject_Z (Z.of_nat n))%Q.
Proof. intros H. change 0%Q with (inject_Z 0). rewrite <- Zlt_Qlt. lia. Qed.
Lemma after_total_bounds alpha lo hi l : (0 <= alpha <= 1)%Q -> Forall (fun v => lo <= v <= hi)%Q l ->
  (lo * inject_Z (Z.of_nat (length l)) <= total_value (after alpha l) <= hi * inject_Z (Z.of_nat (length l)))%Q.
Proof.
  intros Ha. induction l as [|v l IH] using rev_ind; intros HF; [change (total_value (after alpha [])) with 0%Q; change (inject_Z (Z.of_nat (length (@nil Q)))) with 0%Q; split; ring_simplify; apply Qle_refl|]. apply Forall_app in HF. destruct HF as [HF Hv]. inversion Hv; subst.
  specialize (IH HF). rewrite after_app. cbn [avg_update total_value]. rewrite after_count, app_length. cbn [length].
  assert (Hn : (0 <= inject_Z (Z.of_nat (length l)))%Q) by (change 0%Q with (inject_Z 0); rewrite <- Zle_Qle; lia).
  assert (E : (inject_Z (Z.of_nat (length l + 1)) == inject_Z (Z.of_nat (length l)) + 1)%Q) by (rewrite Nat2Z.inj_add, inject_Z_plus; reflexivity).
  rewrite E. set (t := total_value (after alpha l)) in *. set (n := inject_Z (Z.of_nat (length l))) in *. clearbody t n.
  match goal with V : (lo <= v <= hi)%Q |- _ => destruct V as [V1 V2] end. destruct IH as [I1 I2]. destruct Ha as [A1 A2].
  assert (K1 : (0 <= (1 - alpha) * (t + v - lo * (n + 1)))%Q) by (apply Qmult_le_0_compat; lra).
  assert (K2 : (0 <= (1 - alpha) * (hi * (n + 1) - (t + v)))%Q) by (apply Qmult_le_0_compat; lra).
  assert (K3 : (0 <= alpha * ((n + 1) * (v - lo)))%Q) by (repeat apply Qmult_le_0_compat; lra).
  assert (K4 : (0 <= alpha * ((n + 1) * (hi - v)))%Q) by (repeat apply Qmult_le_0_compat; lra).
  split; lra.
Qed.
Lemma after_value alpha l : l <> [] -> (avg_value (after alpha l) * inject_Z (Z.of_nat (length l)) == total_value (after alpha l))%Q.
Proof.
  intros Hl. unfold avg_value. rewrite after_count. assert (0 < length l) by (destruct l; [congruence|cbn; lia]).
  destruct (Nat.eqb_spec (length l) 0); [lia|]. field. pose proof (nat_Q_pos _ H). lra.
Qed.

Section Proofs.
  Context {X St B H : Type}.
  Variable P : search X St B H.

  (** *** paths *)
  Lemma set_nth_length {A} (l : list A) : forall i v, length (set_nth l i v) = length l.
  Proof. induction l; intros [|i] v; cbn; auto. Qed.
  Lemma set_nth_same {A} (l : list A) : forall i v, i < length l -> nth_error (set_nth l i v) i = Some v.
  Proof. induction l; intros [|i] v Hi; cbn in *; try lia; [reflexivity|]. apply IHl. lia. Qed.
  Lemma set_nth_other {A} (l : list A) : forall i j v, j <> i -> nth_error (set_nth l i v) j = nth_error l j.
  Proof. induction l; intros [|i] [|j] v Hi; cbn; auto; congruence. Qed.
  Lemma set_nth_set {A} (l : list A) : forall i v w, set_nth (set_nth l i v) i w = set_nth l i w.
  Proof. induction l; intros [|i] v w; cbn; auto. rewrite IHl. reflexivity. Qed.
  Lemma set_kid_set_kid (n : onode B) a c d : set_kid (set_kid n a c) a d = set_kid n a d.
  Proof. unfold set_kid. cbn. rewrite set_nth_set. reflexivity. Qed.
  Lemma upd_upd {V} (k : nat) (v w : V) d : upd k w (upd k v d) = upd k w d.
  Proof.
    induction d as [|[k0 v0] d IH]; cbn [upd].
    - destruct (eq_dec k k); [reflexivity|congruence].
    - destruct (eq_dec k k0) as [->|Hne]; cbn [upd]; [destruct (eq_dec k0 k0); [reflexivity|congruence]|]. destruct (eq_dec k k0); [congruence|]. rewrite IH. reflexivity.
  Qed.
  Lemma put_put (c : anode B) o m m' : put (put c o m) o m' = put c o m'.
  Proof. unfold put. cbn. rewrite upd_upd. reflexivity. Qed.
  Lemma safe_child_lt (n : onode B) a c : safe_child n a = Ok c -> a < length (o_kids n).
  Proof. unfold safe_child. destruct (nth_error (o_kids n) a) eqn:E; [|discriminate]. intros _. apply nth_error_Some. congruence. Qed.
  Lemma kid_set_same (n : onode B) a c : a < length (o_kids n) -> nth_error (o_kids (set_kid n a c)) a = Some (Some c).
  Proof. intros Ha. cbn. apply set_nth_same. auto. Qed.
  Lemma kid_set_other (n : onode B) a c a' : a' <> a -> nth_error (o_kids (set_kid n a c)) a' = nth_error (o_kids n) a'.
  Proof. intros Ha. cbn. apply set_nth_other. auto. Qed.

  (** *** elementary changes of a tree *)
  Definition untouched (n : onode B) : Prop := o_count n = 0 /\ forall a, visits n a = 0.
  Inductive grows : onode B -> onode B -> Prop :=
  | g_refl n : grows n n
  | g_trans n m k : grows n m -> grows m k -> grows n k
  | g_first n v : untouched n -> grows n (o_update P n v)
  | g_kid n a c : safe_child n a = Ok c -> grows n (set_kid n a c)
  | g_back n a c v : nth_error (o_kids n) a = Some (Some c) -> grows n (o_update P (set_kid n a (a_update P c v)) v)
  | g_new n a c o b : nth_error (o_kids n) a = Some (Some c) -> lookup o (a_kids c) = None -> may_follow P (o_belief n) a o b ->
      grows n (set_kid n a (put c o (o_new P b)))
  | g_deep n a c o m m' : nth_error (o_kids n) a = Some (Some c) -> lookup o (a_kids c) = Some m -> grows m m' ->
      grows n (set_kid n a (put c o m')).

  Lemma grows_belief n n' : grows n n' -> o_belief n' = o_belief n.
  Proof. induction 1; cbn; auto. congruence. Qed.
  Lemma grows_size n n' : grows n n' -> length (o_kids n') = length (o_kids n).
  Proof. induction 1; cbn; rewrite ?set_nth_length; auto. congruence. Qed.

  Lemma new_untouched b : untouched (o_new P b).
  Proof.
    split; [reflexivity|]. intros a. unfold visits, o_new. cbn [o_kids]. destruct (nth_error (repeat None (n_actions P)) a) as [[c|]|] eqn:E; auto.
    apply nth_error_In, repeat_spec in E. discriminate.
  Qed.
  Lemma rollout_grows fuel m h x m' x' r : rollout_from_node P fuel m h x = (m', x', r) -> m' = m \/ exists v, m' = o_update P m v.
  Proof.
    unfold rollout_from_node. destruct (s_reached P h); [intros E; left; congruence|]. destruct (rollouts _ _ _ _ _ _ _) as [[v|e] y]; [|intros E; left; congruence].
    destruct (Nat.eqb _ 0); [intros E; left; congruence|]. intros E. right. eexists. symmetry. inversion E. reflexivity.
  Qed.

  Lemma deep_grows n a c o m m' : safe_child n a = Ok c -> lookup o (a_kids c) = Some m -> grows m m' -> grows n (set_kid n a (put c o m')).
  Proof.
    intros Hc Hl Hg. pose proof (safe_child_lt _ _ _ Hc) as Ha. rewrite <- (set_kid_set_kid n a c). eapply g_trans; [apply g_kid; eauto|].
    eapply g_deep; [apply kid_set_same; auto|eauto|auto].
  Qed.
  Lemma new_grows n a c o b m' : safe_child n a = Ok c -> lookup o (a_kids c) = None -> may_follow P (o_belief n) a o b -> grows (o_new P b) m' -> grows n (set_kid n a (put c o m')).
  Proof.
    intros Hc Hl Hb Hg. pose proof (safe_child_lt _ _ _ Hc) as Ha. rewrite <- (set_kid_set_kid n a (put c o (o_new P b))).
    eapply g_trans; [|rewrite <- (put_put c o (o_new P b) m'); eapply g_deep; [apply kid_set_same; auto|cbn [put a_kids]; apply lookup_upd_same|exact Hg]].
    rewrite <- (set_kid_set_kid n a c). eapply g_trans; [apply g_kid; eauto|]. apply g_new; [apply kid_set_same; auto|auto|exact Hb].
  Qed.
  Lemma back_grows n a c c' v : safe_child n a = Ok c -> grows n (set_kid n a c') -> grows n (o_update P (set_kid n a (a_update P c' v)) v).
  Proof.
    intros Hc Hg. pose proof (safe_child_lt _ _ _ Hc) as Ha. eapply g_trans; [exact Hg|]. rewrite <- (set_kid_set_kid n a c' (a_update P c' v)). apply g_back. apply kid_set_same. auto.
  Qed.

  Lemma simulate_grows : forall fuel n s h action x n' x' v, simulate P fuel n s h action x = (n', x', v) -> grows n n'.
  Proof.
    induction fuel as [|fuel IH]; intros n s h action x n' x' v E; cbn [simulate] in E; (destruct (s_reached P h); [assert (n' = n) as -> by congruence; constructor|]).
    - assert (n' = n) as -> by congruence. constructor.
    - destruct (match action with Some a => _ | None => _ end) as [a y]. destruct a as [a|e]; cbn [bind] in E; [|assert (n' = n) as -> by congruence; constructor].
      destruct (safe_child n a) as [c|e] eqn:Ec; cbn [bind] in E; [|assert (n' = n) as -> by congruence; constructor].
      destruct (s_transition P a s y) as [[[[s' o] r]|e] y1] eqn:Et; [|assert (n' = set_kid n a c) as -> by congruence; apply g_kid; auto].
      cbn [set_kid o_belief] in E. change (ON (o_avg n) (o_belief n) (set_nth (o_kids n) a (Some c))) with (set_kid n a c) in E.
      match type of E with (match ?q with _ => _ end) = _ => destruct q as [[c' y2] w] eqn:Eq end.
      assert (Hc' : grows n (set_kid n a c')).
      { destruct (lookup o (a_kids c)) as [m|] eqn:El.
        - destruct (simulate P fuel m s' _ None y1) as [[m' y3] w'] eqn:Em. assert (c' = put c o m') as -> by congruence.
          eapply deep_grows; eauto.
        - destruct (s_succ P (o_belief n) a o y1) as [[b|e] y3] eqn:Es.
          + destruct (rollout_from_node P fuel (o_new P b) _ y3) as [[m' y4] w'] eqn:Er. assert (c' = put c o m') as -> by congruence.
            apply (new_grows n a c o b m' Ec El); [exists y1, y3; auto|]. destruct (rollout_grows _ _ _ _ _ _ _ Er) as [->|[u ->]]; [constructor|]. apply g_first. apply new_untouched.
          + assert (c' = c) as -> by (destruct e; congruence). apply g_kid. auto. }
      destruct w as [w|e].
      + assert (n' = o_update P (set_kid n a (a_update P c' (r + s_discount P * w)%Q)) (r + s_discount P * w)%Q) as ->.
        { cbv zeta in E. rewrite set_kid_set_kid in E. congruence. }
        eapply back_grows; eauto.
      + assert (n' = set_kid n a c') as ->; [|auto]. rewrite set_kid_set_kid in E. congruence.
  Qed.
  Lemma simulate_from_grows fuel action n x n' x' v : simulate_from_node P fuel action n x = (n', x', v) -> grows n n'.
  Proof.
    unfold simulate_from_node. destruct (s_sample P (o_belief n) x) as [[s|e] y]; [apply simulate_grows|]. intros E. assert (n' = n) as -> by congruence. constructor.
  Qed.
  Lemma at_node_grows {A} (f : onode B -> X -> onode B * X * res A) : (forall n x n' x' v, f n x = (n', x', v) -> grows n n') ->
    forall h n x n' x' v, at_node f n h x = (n', x', v) -> grows n n'.
  Proof.
    intros Hf. induction h as [|[a o] h IH]; intros n x n' x' v E; cbn [at_node] in E; [eapply Hf; eauto|].
    destruct (nth_error (o_kids n) a) as [[c|]|] eqn:Ec; try (assert (n' = n) as -> by congruence; constructor).
    destruct (lookup o (a_kids c)) as [m|] eqn:El; [|assert (n' = n) as -> by congruence; constructor].
    destruct (at_node f m h x) as [[m' y] w] eqn:Em. assert (n' = set_kid n a (put c o m')) as -> by congruence. eapply g_deep; eauto.
  Qed.
  Lemma get_node_grows : forall h n x n' x' v, get_node P n h x = (n', x', v) -> grows n n'.
  Proof.
    induction h as [|[a o] h IH]; intros n x n' x' v E; cbn [get_node] in E; [assert (n' = n) as -> by congruence; constructor|].
    destruct (safe_child n a) as [c|e] eqn:Ec; [|assert (n' = n) as -> by congruence; constructor].
    destruct (lookup o (a_kids c)) as [m|] eqn:El.
    - destruct (get_node P m h x) as [[m' y] w] eqn:Em. assert (n' = set_kid n a (put c o m')) as -> by congruence. eapply deep_grows; eauto.
    - destruct (s_succ P (o_belief n) a o x) as [[b|e] y] eqn:Es; [|assert (n' = set_kid n a c) as -> by congruence; apply g_kid; auto].
      destruct (get_node P (o_new P b) h y) as [[m' y'] w] eqn:Em. assert (n' = set_kid n a (put c o m')) as -> by congruence. eapply new_grows; eauto. exists x, y. auto.
  Qed.

  (** *** what elementary changes keep *)
  Lemma find_set (n : onode B) a c o m r a' o' : a < length (o_kids n) ->
    find (set_kid n a (put c o m)) ((a', o') :: r) =
      if Nat.eqb a' a then (if Nat.eqb o' o then find m r else match lookup o' (a_kids c) with Some k => find k r | None => None end)
      else find n ((a', o') :: r).
  Proof.
    intros Ha. cbn [find]. destruct (Nat.eqb_spec a' a) as [->|Hne]; [|rewrite kid_set_other by auto; reflexivity].
    rewrite kid_set_same by auto. cbn [put a_kids]. destruct (Nat.eqb_spec o' o) as [->|Ho]; [rewrite lookup_upd_same; reflexivity|]. rewrite lookup_upd_other by auto. reflexivity.
  Qed.
  Lemma find_update (n : onode B) v h : h <> [] -> find (o_update P n v) h = find n h.
  Proof. destruct h as [|[a o] h]; [congruence|reflexivity]. Qed.
  Lemma find_kid (n : onode B) a c r a' o' : safe_child n a = Ok c -> find (set_kid n a c) ((a', o') :: r) = find n ((a', o') :: r).
  Proof.
    intros Hc. pose proof (safe_child_lt _ _ _ Hc) as Ha. cbn [find]. destruct (Nat.eq_dec a' a) as [->|Hne]; [|rewrite kid_set_other by auto; reflexivity].
    rewrite kid_set_same by auto. unfold safe_child in Hc. destruct (nth_error (o_kids n) a) as [[d|]|]; [assert (c = d) as -> by congruence; reflexivity| |discriminate]. assert (c = a_new) as -> by congruence. reflexivity.
  Qed.
  Lemma find_aupdate (n : onode B) a c v r a' o' : nth_error (o_kids n) a = Some (Some c) -> find (set_kid n a (a_update P c v)) ((a', o') :: r) = find n ((a', o') :: r).
  Proof.
    intros Hc. assert (Ha : a < length (o_kids n)) by (apply nth_error_Some; congruence). cbn [find]. destruct (Nat.eq_dec a' a) as [->|Hne]; [|rewrite kid_set_other by auto; reflexivity].
    rewrite kid_set_same by auto. rewrite Hc. reflexivity.
  Qed.

  (** nodes stay, with their beliefs *)
  Lemma grows_find n n' : grows n n' -> forall h m, find n h = Some m -> exists m', find n' h = Some m' /\ o_belief m' = o_belief m.
  Proof.
    induction 1 as [n|n m k G1 IH1 G2 IH2|n v U|n a c Hc|n a c v Hc|n a c o b Hc Hl Hb|n a c o m0 m0' Hc Hl G IH]; intros h y Hy.
    - eauto.
    - destruct (IH1 _ _ Hy) as (y1 & F1 & B1). destruct (IH2 _ _ F1) as (y2 & F2 & B2). exists y2. split; [auto|congruence].
    - destruct h as [|p h]; [cbn in *; eexists; split; [reflexivity|]; assert (y = n) as -> by congruence; reflexivity|]. rewrite find_update by discriminate. eauto.
    - destruct h as [|[a' o'] h]; [cbn in *; eexists; split; [reflexivity|]; assert (y = n) as -> by congruence; reflexivity|]. rewrite find_kid by auto. eauto.
    - destruct h as [|[a' o'] h]; [cbn in *; eexists; split; [reflexivity|]; assert (y = n) as -> by congruence; reflexivity|]. rewrite find_update by discriminate. rewrite find_aupdate by auto. eauto.
    - assert (Ha : a < length (o_kids n)) by (apply nth_error_Some; congruence).
      destruct h as [|[a' o'] h]; [cbn in *; eexists; split; [reflexivity|]; assert (y = n) as -> by congruence; reflexivity|]. rewrite find_set by auto.
      destruct (Nat.eqb_spec a' a) as [->|Hne]; [|eauto]. cbn [find] in Hy. rewrite Hc in Hy. destruct (Nat.eqb_spec o' o) as [->|Ho]; [rewrite Hl in Hy; discriminate|]. eauto.
    - assert (Ha : a < length (o_kids n)) by (apply nth_error_Some; congruence).
      destruct h as [|[a' o'] h]; [cbn in *; eexists; split; [reflexivity|]; assert (y = n) as -> by congruence; reflexivity|]. rewrite find_set by auto.
      destruct (Nat.eqb_spec a' a) as [->|Hne]; [|eauto]. cbn [find] in Hy. rewrite Hc in Hy. destruct (Nat.eqb_spec o' o) as [->|Ho]; [rewrite Hl in Hy; eauto|]. eauto.
  Qed.

  (** a property of nodes that holds of new nodes, and does not depend on the deeper nodes, holds of all nodes *)
  Lemma grows_all (Q : onode B -> Prop) :
    (forall b, Q (o_new P b)) -> (forall n v, untouched n -> Q n -> Q (o_update P n v)) ->
    (forall n a c, safe_child n a = Ok c -> Q n -> Q (set_kid n a c)) ->
    (forall n a c v, nth_error (o_kids n) a = Some (Some c) -> Q n -> Q (o_update P (set_kid n a (a_update P c v)) v)) ->
    (forall n a c o m, nth_error (o_kids n) a = Some (Some c) -> (may_follow P (o_belief n) a o (o_belief m) \/ exists m0, lookup o (a_kids c) = Some m0 /\ o_belief m = o_belief m0) -> Q n -> Q (set_kid n a (put c o m))) ->
    forall n n', grows n n' -> (forall h m, find n h = Some m -> Q m) -> forall h m, find n' h = Some m -> Q m.
  Proof.
    intros QN QF QK QB QP n n' G. induction G as [n|n m k G1 IH1 G2 IH2|n v U|n a c Hc|n a c v Hc|n a c o b Hc Hl Hb|n a c o m0 m0' Hc Hl G IH]; intros HQ h y Hy.
    - eauto.
    - eauto.
    - destruct h as [|p h]; [cbn in Hy; assert (y = o_update P n v) as -> by congruence; apply QF; [auto|apply (HQ []); reflexivity]|]. rewrite find_update in Hy by discriminate. eauto.
    - destruct h as [|[a' o'] h]; [cbn [find] in Hy; assert (y = set_kid n a c) as -> by congruence; apply QK; [auto|apply (HQ []); reflexivity]|]. rewrite find_kid in Hy by auto. eauto.
    - destruct h as [|[a' o'] h]; [cbn [find] in Hy; match type of Hy with Some ?z = _ => assert (y = z) as -> by congruence end; apply QB; [auto|apply (HQ []); reflexivity]|].
      rewrite find_update in Hy by discriminate. rewrite find_aupdate in Hy by auto. eauto.
    - assert (Ha : a < length (o_kids n)) by (apply nth_error_Some; congruence).
      destruct h as [|[a' o'] h]; [cbn [find] in Hy; match type of Hy with Some ?z = _ => assert (y = z) as -> by congruence end; apply QP; [auto|left; auto|apply (HQ []); reflexivity]|].
      rewrite find_set in Hy by auto. destruct (Nat.eqb_spec a' a) as [->|Hne]; [|eauto]. destruct (Nat.eqb_spec o' o) as [->|Ho].
      + destruct h as [|[a2 o2] h]; [cbn in Hy; assert (y = o_new P b) as -> by congruence; apply QN|]. cbn [find] in Hy. unfold o_new in Hy. cbn [o_kids] in Hy.
        destruct (nth_error (repeat None (n_actions P)) a2) as [[d|]|] eqn:E; try discriminate. apply nth_error_In, repeat_spec in E. discriminate.
      + apply (HQ ((a, o') :: h)). cbn [find]. rewrite Hc. auto.
    - assert (Ha : a < length (o_kids n)) by (apply nth_error_Some; congruence).
      destruct h as [|[a' o'] h]; [cbn [find] in Hy; match type of Hy with Some ?z = _ => assert (y = z) as -> by congruence end; apply QP; [auto|right; exists m0; split; [auto|apply grows_belief; auto]|apply (HQ []); reflexivity]|].
      rewrite find_set in Hy by auto. destruct (Nat.eqb_spec a' a) as [->|Hne]; [|eauto]. destruct (Nat.eqb_spec o' o) as [->|Ho].
      + apply (IH (fun h' z Hz => HQ ((a, o) :: h') z ltac:(cbn [find]; rewrite Hc, Hl; exact Hz)) h y Hy).
      + apply (HQ ((a, o') :: h)). cbn [find]. rewrite Hc. auto.
  Qed.

  (** beliefs *)
  Definition edges (n : onode B) : Prop := forall a c o m, nth_error (o_kids n) a = Some (Some c) -> lookup o (a_kids c) = Some m -> may_follow P (o_belief n) a o (o_belief m).
  Definition every (Q : onode B -> Prop) (n : onode B) : Prop := forall h m, find n h = Some m -> Q m.
  Lemma every_new (Q : onode B -> Prop) b : Q (o_new P b) -> every Q (o_new P b).
  Proof.
    intros HQ h y Hy. destruct h as [|[a2 o2] h]; [cbn in Hy; assert (y = o_new P b) as -> by congruence; auto|]. cbn [find] in Hy. unfold o_new in Hy. cbn [o_kids] in Hy.
    destruct (nth_error (repeat None (n_actions P)) a2) as [[d|]|] eqn:E; try discriminate. apply nth_error_In, repeat_spec in E. discriminate.
  Qed.
  Lemma no_kid b a c : nth_error (o_kids (o_new P b)) a <> Some (Some c).
  Proof. intros E. apply nth_error_In, repeat_spec in E. discriminate. Qed.
  Lemma grows_edges n n' : grows n n' -> every edges n -> every edges n'.
  Proof.
    intros G HE. refine (grows_all edges _ _ _ _ _ n n' G HE); clear n n' G HE.
    - intros b a c o m E. destruct (no_kid _ _ _ E).
    - intros k v _ HE. exact HE.
    - intros k a c Hc HE a' c' o m E L. pose proof (safe_child_lt _ _ _ Hc) as Ha. destruct (Nat.eq_dec a' a) as [->|Hne]; [|rewrite kid_set_other in E by auto; eapply HE; eauto].
      rewrite kid_set_same in E by auto. assert (c' = c) as -> by congruence. unfold safe_child in Hc. destruct (nth_error (o_kids k) a) as [[d|]|] eqn:Ek; [|assert (c = a_new) as -> by congruence; discriminate|discriminate].
      cbn [set_kid o_belief]. eapply HE; eauto. congruence.
    - intros k a c v Hc HE a' c' o m E L. assert (Ha : a < length (o_kids k)) by (apply nth_error_Some; congruence). cbn [o_update o_kids o_belief] in *.
      destruct (Nat.eq_dec a' a) as [->|Hne]; [|rewrite kid_set_other in E by auto; eapply HE; eauto]. rewrite kid_set_same in E by auto. assert (c' = a_update P c v) as -> by congruence. cbn [a_update a_kids] in L. eapply HE; eauto.
    - intros k a c o m Hc Hm HE a' c' o' m' E L. assert (Ha : a < length (o_kids k)) by (apply nth_error_Some; congruence).
      destruct (Nat.eq_dec a' a) as [->|Hne]; [|rewrite kid_set_other in E by auto; eapply HE; eauto]. rewrite kid_set_same in E by auto. assert (c' = put c o m) as -> by congruence. cbn [put a_kids set_kid o_belief] in *.
      destruct (Nat.eq_dec o' o) as [->|Ho]; [|rewrite lookup_upd_other in L by auto; eapply HE; eauto]. rewrite lookup_upd_same in L. assert (m' = m) as -> by congruence.
      destruct Hm as [Hm|(m0 & L0 & ->)]; [auto|]. eapply HE; eauto.
  Qed.
  Lemma edges_filters n : every edges n -> forall h m, find n h = Some m -> filters P (o_belief n) h (o_belief m).
  Proof.
    intros HE h. revert n HE. induction h as [|[a o] h IH]; intros n HE m F; cbn [find] in F; [assert (m = n) as -> by congruence; constructor|].
    destruct (nth_error (o_kids n) a) as [[c|]|] eqn:Ek; try discriminate. destruct (lookup o (a_kids c)) as [k|] eqn:El; [|discriminate].
    econstructor; [apply (HE [] n eq_refl a c o k); auto|]. apply IH; [|auto]. intros h' z Hz. apply (HE ((a, o) :: h')). cbn [find]. rewrite Ek, El. auto.
  Qed.

  (** sizes *)
  Lemma grows_sized n n' : grows n n' -> every (fun m => length (o_kids m) = n_actions P) n -> every (fun m => length (o_kids m) = n_actions P) n'.
  Proof.
    intros G HE. refine (grows_all (fun m => length (o_kids m) = n_actions P) _ _ _ _ _ n n' G HE); clear n n' G HE; intros; cbn [o_update set_kid o_kids o_new] in *; rewrite ?set_nth_length, ?repeat_length; auto.
  Qed.

  (** counts *)
  Definition balanced (n : onode B) : Prop := exists d, d <= 1 /\ o_count n = all_visits n + d.
  Lemma list_sum_ext {A} (f g : A -> nat) l : (forall x, In x l -> f x = g x) -> list_sum (map f l) = list_sum (map g l).
  Proof. intros Hf. f_equal. apply map_ext_in. auto. Qed.
  Lemma list_sum_bump (f g : nat -> nat) a l : NoDup l -> In a l -> g a = S (f a) -> (forall x, In x l -> x <> a -> g x = f x) -> list_sum (map g l) = S (list_sum (map f l)).
  Proof.
    induction l as [|y l IH]; intros ND Ha Hg Hx; [destruct Ha|]. inversion ND as [|y' l' Hy HD]; subst. cbn [map]. change (g y + list_sum (map g l) = S (f y + list_sum (map f l))). destruct Ha as [->|Ha].
    - rewrite Hg. rewrite (list_sum_ext g f l); [lia|]. intros x Hi. apply Hx; cbn; auto. intros ->. contradiction.
    - assert (g y = f y) as -> by (apply Hx; [cbn; auto|intros ->; contradiction]). rewrite IH; auto. intros x Hi. apply Hx. cbn. auto.
  Qed.
  Lemma visits_set (n : onode B) a c a' : a < length (o_kids n) -> visits (set_kid n a c) a' = if Nat.eqb a' a then a_count c else visits n a'.
  Proof. intros Ha. unfold visits. destruct (Nat.eqb_spec a' a) as [->|Hne]; [rewrite kid_set_same by auto; auto|rewrite kid_set_other by auto; auto]. Qed.
  Lemma all_visits_same (n n' : onode B) : length (o_kids n') = length (o_kids n) -> (forall a, visits n' a = visits n a) -> all_visits n' = all_visits n.
  Proof. intros E V. unfold all_visits. rewrite E. apply list_sum_ext. auto. Qed.
  Lemma all_visits_bump (n n' : onode B) a : length (o_kids n') = length (o_kids n) -> a < length (o_kids n) -> visits n' a = S (visits n a) -> (forall a', a' <> a -> visits n' a' = visits n a') -> all_visits n' = S (all_visits n).
  Proof. intros E Ha V1 V2. unfold all_visits. rewrite E. apply (list_sum_bump _ _ a); auto; [apply seq_NoDup|apply in_seq; lia]. Qed.
  Lemma visits_kid (n : onode B) a c a' : safe_child n a = Ok c -> visits (set_kid n a c) a' = visits n a'.
  Proof.
    intros Hc. rewrite visits_set by (eapply safe_child_lt; eauto). destruct (Nat.eqb_spec a' a) as [->|]; auto. unfold visits, safe_child in *. destruct (nth_error (o_kids n) a) as [[d|]|]; [congruence| |discriminate]. assert (c = a_new) as -> by congruence. reflexivity.
  Qed.
  Lemma untouched_all n : untouched n -> all_visits n = 0.
  Proof. intros [_ U]. unfold all_visits. rewrite (list_sum_ext _ (fun _ => 0)); [|intros; apply U]. induction (seq 0 (length (o_kids n))); auto. Qed.
  Lemma grows_balanced n n' : grows n n' -> every balanced n -> every balanced n'.
  Proof.
    intros G HE. refine (grows_all balanced _ _ _ _ _ n n' G HE); clear n n' G HE.
    - intros b. exists 0. split; [lia|]. rewrite (untouched_all _ (new_untouched b)). reflexivity.
    - intros k v U (d & D & E). exists 1. split; [lia|]. change (all_visits (o_update P k v)) with (all_visits k). rewrite (untouched_all _ U). destruct U as [U0 _].
      unfold o_count in *. cbn [o_update o_avg avg_update n_simulations]. lia.
    - intros k a c Hc (d & D & E). exists d. split; [auto|]. rewrite (all_visits_same k); [exact E|cbn; apply set_nth_length|]. intros a'. apply visits_kid. auto.
    - intros k a c v Hc (d & D & E). exists d. split; [auto|]. assert (Ha : a < length (o_kids k)) by (apply nth_error_Some; congruence).
      change (all_visits (o_update P (set_kid k a (a_update P c v)) v)) with (all_visits (set_kid k a (a_update P c v))).
      rewrite (all_visits_bump k _ a); [unfold o_count in *; cbn; lia|cbn; apply set_nth_length|auto| |].
      + rewrite visits_set, Nat.eqb_refl by auto. unfold visits. rewrite Hc. reflexivity.
      + intros a' Hne. rewrite visits_set by auto. destruct (Nat.eqb_spec a' a); congruence.
    - intros k a c o m Hc _ (d & D & E). exists d. split; [auto|]. assert (Ha : a < length (o_kids k)) by (apply nth_error_Some; congruence). rewrite (all_visits_same k); [exact E|cbn; apply set_nth_length|].
      intros a'. rewrite visits_set by auto. destruct (Nat.eqb_spec a' a) as [->|]; auto. unfold visits. rewrite Hc. reflexivity.
  Qed.
End Proofs.
