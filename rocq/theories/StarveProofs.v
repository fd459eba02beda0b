(** Proofs for C119. *)
From Verif Require Import PyBase PyBaseFacts QBase PomdpModel BeliefModel PolicyModel PomcpModel PomcpSpec PomcpProofs PomcpProofs2 ValueSpec ValueProofs StarveSpec.
From Coq Require Import Lia Lqa Field.
Local Open Scope list_scope.
Local Open Scope nat_scope.

Section Fair.
  Context {X St B H : Type}.
  Variable P : search X St B H.
  Variables Lo Hi : nat -> Q.
  Variable lev : H -> nat -> Prop.
  Variables lo hi : Q.
  Hypothesis alpha_ok : (0 <= s_alpha P <= 1)%Q.
  Hypothesis gamma_ok : (0 <= s_discount P)%Q.
  Hypothesis rew : rewards_in P lo hi.
  Hypothesis zero_ok : forall k, (Lo k <= 0 <= Hi k)%Q.
  Hypothesis step_ok : forall h k, s_reached P h = false -> lev h k -> (Lo k <= lo + s_discount P * Lo (k - 1) /\ hi + s_discount P * Hi (k - 1) <= Hi k)%Q.
  Hypothesis lev_dec : forall h k a s s' o, s_reached P h = false -> lev h k -> lev (s_decrement P h a s s' o) (k - 1).
  Hypothesis lev_copy : forall h k, lev h k -> lev (s_copy P h) k.
  (** the interval of all values *)
  Variables (K : nat) (L U : Q).
  Hypothesis inside : forall k, k <= K -> (L <= Lo k /\ Hi k <= U)%Q.
  (** the exploration *)
  Hypothesis absolute : s_relative P = false.
  Hypothesis positive : (0 < s_exploration P)%Q.
  Variables (kk many long : nat).
  Hypothesis term : forall N j n, long <= N -> 0 < j -> j <= kk -> many <= n -> (s_bonus P N n + ((U - L) / s_exploration P + 1) <= s_bonus P N j)%Q.
  Definition cap : nat := Nat.max 1 (Nat.max long many).

  Definition fair (m : onode B) : Prop :=
    (forall b, visits m b <= o_count m) /\ ((exists a, a < length (o_kids m) /\ visits m a < kk) -> forall b, visits m b <= cap).

  Lemma augmented_nth (n : onode B) e i : not_init n = [] -> i < length (o_kids n) ->
    nth i (augmented P n e false) 0%Q = (action_value n i + e * s_bonus P (o_count n) (visits n i))%Q.
  Proof.
    intros E Hi'. unfold augmented, action_value, visits. rewrite andb_false_r.
    destruct (nth_error (o_kids n) i) as [c|] eqn:Ec; [|apply nth_error_None in Ec; lia].
    erewrite nth_error_nth; [|rewrite nth_error_map, Ec; reflexivity]. destruct c as [c|]; [reflexivity|]. exfalso.
    assert (I : In i (not_init n)) by (apply not_init_In; split; [auto|]; unfold visits; rewrite Ec; reflexivity). rewrite E in I. destruct I.
  Qed.

  Lemma best_fair (n : onode B) x a y : best_action P n (s_exploration P) (s_relative P) x = (Ok a, y) -> (forall i, (L <= action_value n i <= U)%Q) -> (forall b, visits n b <= o_count n) ->
    (exists i, i < length (o_kids n) /\ visits n i < kk) -> S (visits n a) <= cap.
  Proof.
    intros E V F1 (i & Hi' & Vi). rewrite absolute in E. unfold cap. destruct (not_init n) as [|z t] eqn:En.
    - destruct (best_tried P _ _ _ _ _ _ E En) as (_ & _ & Ha & Hb & _). specialize (Hb i Hi'). rewrite !augmented_nth in Hb by auto.
      destruct (Nat.lt_ge_cases (o_count n) long) as [Hl|Hl]; [specialize (F1 a); lia|].
      destruct (Nat.lt_ge_cases (visits n a) many) as [Hm|Hm]; [lia|]. exfalso.
      assert (Hp : 0 < visits n i). { destruct (visits n i) eqn:Ev; [|lia]. exfalso. assert (I : In i (not_init n)) by (apply not_init_In; auto). rewrite En in I. destruct I. }
      pose proof (term (o_count n) (visits n i) (visits n a) Hl Hp ltac:(lia) Hm) as T.
      pose proof (V i) as Va. pose proof (V a) as Vb. set (e := s_exploration P) in *.
      assert (Q1 : (e * (s_bonus P (o_count n) (visits n a) + ((U - L) / e + 1)) <= e * s_bonus P (o_count n) (visits n i))%Q).
      { apply Qmult_le_l; auto. }
      assert (Q2 : (e * (s_bonus P (o_count n) (visits n a) + ((U - L) / e + 1)) == e * s_bonus P (o_count n) (visits n a) + (U - L) + e)%Q) by (field; lra).
      rewrite Q2 in Q1. lra.
    - assert (I : In a (not_init n)) by (eapply best_untried; eauto; congruence). apply not_init_In in I. destruct I as [_ ->]. lia.
  Qed.

  Lemma fair_new b : fair (o_new P b).
  Proof. destruct (new_untouched P b) as [U1 U2]. split; intros; rewrite U2; lia. Qed.
  Lemma every_fair_new b : every fair (o_new P b).
  Proof. apply every_new, fair_new. Qed.
  Lemma fair_same (n n' : onode B) : length (o_kids n') = length (o_kids n) -> o_count n <= o_count n' -> (forall a, visits n' a = visits n a) -> fair n -> fair n'.
  Proof.
    intros EL EC EV [F1 F2]. split; [intros b; rewrite EV; specialize (F1 b); lia|]. intros (a & Ha & Va) b. rewrite EV. apply F2. exists a. rewrite <- EL, <- EV. auto.
  Qed.
  Lemma every_top (n : onode B) : every fair n -> fair n.
  Proof. intros F. apply (F []). reflexivity. Qed.

  Definition fairc (c : anode B) : Prop := forall o m, lookup o (a_kids c) = Some m -> every fair m.
  Lemma fairc_child n a c : every fair n -> safe_child n a = Ok c -> fairc c.
  Proof.
    intros F. unfold safe_child. destruct (nth_error (o_kids n) a) as [[d|]|] eqn:E; intros Ec; [| |discriminate]; intros o m L0 h z Hz.
    - assert (c = d) as -> by congruence. apply (F ((a, o) :: h)). cbn [find]. rewrite E, L0. exact Hz.
    - assert (c = a_new) as -> by congruence. discriminate.
  Qed.
  Lemma fairc_put c o m : fairc c -> every fair m -> fairc (put c o m).
  Proof.
    intros C O o' m' L0. cbn [put a_kids] in L0. destruct (Nat.eq_dec o' o) as [->|Ho]; [rewrite lookup_upd_same in L0; assert (m' = m) as -> by congruence; exact O|]. rewrite lookup_upd_other in L0 by auto. eauto.
  Qed.
  (** the nodes below *)
  Lemma below_set n a c (n' : onode B) : every fair n -> a < length (o_kids n) -> fairc c -> o_kids n' = o_kids (set_kid n a c) -> fair n' -> every fair n'.
  Proof.
    intros O Ha C Ek F p m Hm. destruct p as [|[a' o'] p]; [cbn [find] in Hm; assert (m = n') as -> by congruence; auto|].
    cbn [find] in Hm. rewrite Ek in Hm. destruct (Nat.eq_dec a' a) as [->|Hne].
    - rewrite kid_set_same in Hm by auto. destruct (lookup o' (a_kids c)) as [z|] eqn:L0; [|discriminate]. eapply C; eauto.
    - rewrite kid_set_other in Hm by auto. apply (O ((a', o') :: p)). exact Hm.
  Qed.
  Lemma every_set n a c c' : every fair n -> safe_child n a = Ok c -> a_avg c' = a_avg c -> fairc c' -> every fair (set_kid n a c').
  Proof.
    intros O Ec Ea C. pose proof (safe_child_lt _ _ _ Ec) as Ha. apply (below_set n a c'); auto. apply (fair_same n); [cbn; apply set_nth_length|apply Nat.le_refl| |apply every_top; auto].
    intros a'. rewrite visits_set by auto. destruct (Nat.eqb_spec a' a) as [->|]; auto. unfold a_count. rewrite Ea. unfold visits. unfold safe_child in Ec.
    destruct (nth_error (o_kids n) a) as [[d|]|]; [assert (c = d) as -> by congruence; reflexivity| |discriminate]. assert (c = a_new) as -> by congruence. reflexivity.
  Qed.
  Lemma every_update n v : every fair n -> every fair (o_update P n v).
  Proof.
    intros O p m F. destruct p as [|q p]; [|rewrite find_update in F by discriminate; apply (O (q :: p)); auto].
    cbn in F. assert (m = o_update P n v) as -> by congruence. apply (fair_same n); [reflexivity|unfold o_count; cbn; lia|reflexivity|apply every_top; auto].
  Qed.
  Lemma every_back n a c c' x y v : every fair n -> (forall i, (L <= action_value n i <= U)%Q) -> best_action P n (s_exploration P) (s_relative P) x = (Ok a, y) ->
    safe_child n a = Ok c -> a_avg c' = a_avg c -> fairc c' -> every fair (o_update P (set_kid n a (a_update P c' v)) v).
  Proof.
    intros O V E Ec Ea C. pose proof (safe_child_lt _ _ _ Ec) as Ha. apply (below_set n a (a_update P c' v)); auto.
    set (n' := o_update P (set_kid n a (a_update P c' v)) v).
    assert (EL : length (o_kids n') = length (o_kids n)) by (cbn; apply set_nth_length).
    assert (EC : o_count n' = S (o_count n)) by reflexivity.
    assert (EV : forall b, visits n' b = if Nat.eqb b a then S (visits n a) else visits n b).
    { intros b. change (visits n' b) with (visits (set_kid n a (a_update P c' v)) b). rewrite visits_set by auto. destruct (Nat.eqb_spec b a) as [->|]; auto.
      unfold a_count. cbn [a_update a_avg avg_update n_simulations]. rewrite Ea. f_equal. unfold visits. unfold safe_child in Ec.
      destruct (nth_error (o_kids n) a) as [[d|]|]; [assert (c = d) as -> by congruence; reflexivity| |discriminate]. assert (c = a_new) as -> by congruence. reflexivity. }
    pose proof (every_top _ O) as Fn. pose proof Fn as [F1 F2]. split.
    - intros b. rewrite EV, EC. destruct (Nat.eqb b a); [specialize (F1 a)|specialize (F1 b)]; lia.
    - intros (i & Hi' & Vi) b. assert (Ex : exists i, i < length (o_kids n) /\ visits n i < kk).
      { exists i. split; [lia|]. rewrite EV in Vi. destruct (Nat.eqb_spec i a) as [->|]; lia. }
      rewrite EV. destruct (Nat.eqb b a); [|auto]. eapply best_fair; eauto.
  Qed.

  Notation okn := (okn Lo Hi).
  Lemma okn_action_values k (n : onode B) : okn k n -> k <= K -> forall i, (L <= action_value n i <= U)%Q.
  Proof.
    intros O Hk i. destruct (okn_valued Lo Hi zero_ok k n [] n O eq_refl) as [_ V]. cbn [length] in V. rewrite Nat.sub_0_r in V. specialize (V i). destruct (inside k Hk). lra.
  Qed.
  Lemma rollout_fair fuel b h x m' x' v : rollout_from_node P fuel (o_new P b) h x = (m', x', v) -> every fair m'.
  Proof. intros E. destruct (rollout_grows P _ _ _ _ _ _ _ E) as [->|[w ->]]; [apply every_fair_new|apply every_update, every_fair_new]. Qed.

  Lemma simulate_fair : forall fuel n s h x n' x' v k, simulate P fuel n s h None x = (n', x', v) -> lev h k -> k <= K -> okn k n -> every fair n -> every fair n'.
  Proof.
    induction fuel as [|fuel IH]; intros n s h x n' x' v k E Hl Hk O F; cbn [simulate] in E; (destruct (s_reached P h) eqn:Hr; [assert (n' = n) as -> by congruence; auto|]).
    - assert (n' = n) as -> by congruence. auto.
    - destruct (best_action P n (s_exploration P) (s_relative P) x) as [a y] eqn:Eb. destruct a as [a|e]; cbn [bind] in E; [|assert (n' = n) as -> by congruence; auto].
      destruct (safe_child n a) as [c|e] eqn:Ec; cbn [bind] in E; [|assert (n' = n) as -> by congruence; auto].
      pose proof (fairc_child _ _ _ F Ec) as Fc. pose proof (okc_child Lo Hi _ _ _ _ O Ec) as Oc.
      destruct (s_transition P a s y) as [[[[s' o] r]|e] y1] eqn:Et; [|assert (n' = set_kid n a c) as -> by congruence; eapply every_set; eauto 2].
      cbv zeta in E. match type of E with (match ?q with _ => _ end) = _ => destruct q as [[c' y2] w] eqn:Eq end.
      assert (Hc' : a_avg c' = a_avg c /\ fairc c').
      { destruct (lookup o (a_kids c)) as [m|] eqn:El.
        - destruct (simulate P fuel m s' _ None y1) as [[m' y3] w'] eqn:Em. assert (c' = put c o m') as -> by congruence. split; [reflexivity|]. apply fairc_put; [auto|].
          eapply (IH _ _ _ _ _ _ _ (k - 1)); [exact Em|apply lev_dec; auto|lia|eapply Oc; eauto|eapply Fc; eauto].
        - destruct (s_succ P _ a o y1) as [[b|e] y3] eqn:Es.
          + destruct (rollout_from_node P fuel (o_new P b) _ y3) as [[m' y4] w'] eqn:Er. assert (c' = put c o m') as -> by congruence. split; [reflexivity|]. apply fairc_put; [auto|]. eapply rollout_fair; eauto.
          + assert (c' = c) as -> by (destruct e; congruence). auto. }
      destruct Hc' as [Ea Fc']. destruct w as [w|e]; rewrite set_kid_set_kid in E.
      + match type of E with (?z, _, _) = _ => assert (n' = z) as -> by congruence end. eapply (every_back n a c); eauto. eapply okn_action_values; eauto.
      + match type of E with (?z, _, _) = _ => assert (n' = z) as -> by congruence end. eapply every_set; eauto 2.
  Qed.
  Lemma simulate_from_fair fuel n x n' x' v k : simulate_from_node P fuel None n x = (n', x', v) -> lev (s_horizon P) k -> k <= K -> okn k n -> every fair n -> every fair n'.
  Proof.
    unfold simulate_from_node. destruct (s_sample P (o_belief n) x) as [[s|e] y]; intros E Hl Hk O F; [|assert (n' = n) as -> by congruence; auto]. eapply simulate_fair; eauto.
  Qed.
  Lemma get_node_fair : forall h n x n' x' v, get_node P n h x = (n', x', v) -> every fair n -> every fair n'.
  Proof.
    induction h as [|[a o] h IH]; intros n x n' x' v E F; cbn [get_node] in E; [assert (n' = n) as -> by congruence; auto|].
    destruct (safe_child n a) as [c|e] eqn:Ec; [|assert (n' = n) as -> by congruence; auto]. pose proof (fairc_child _ _ _ F Ec) as Fc.
    destruct (lookup o (a_kids c)) as [m|] eqn:El.
    - destruct (get_node P m h x) as [[m' y] w] eqn:Em. assert (n' = set_kid n a (put c o m')) as -> by congruence. eapply every_set; eauto 2. apply fairc_put; [auto|]. eapply IH; eauto.
    - destruct (s_succ P (o_belief n) a o x) as [[b|e] y] eqn:Es; [|assert (n' = set_kid n a c) as -> by congruence; eapply every_set; eauto 2].
      destruct (get_node P (o_new P b) h y) as [[m' y'] w] eqn:Em. assert (n' = set_kid n a (put c o m')) as -> by congruence. eapply every_set; eauto 2. apply fairc_put; [auto|]. eapply IH; eauto. apply every_fair_new.
  Qed.
  Lemma at_node_fair {A} (f : onode B -> X -> onode B * X * res A) : forall h n x n' x' v k,
    (forall m y m' y' w, f m y = (m', y', w) -> okn (k - length h) m -> every fair m -> every fair m') ->
    at_node f n h x = (n', x', v) -> okn k n -> every fair n -> every fair n'.
  Proof.
    induction h as [|[a o] h IH]; intros n x n' x' v k Hf E O F; cbn [at_node] in E.
    - cbn [length] in Hf. rewrite Nat.sub_0_r in Hf. eapply Hf; eauto.
    - destruct (nth_error (o_kids n) a) as [[c|]|] eqn:Ek; try (assert (n' = n) as -> by congruence; auto). destruct (lookup o (a_kids c)) as [m|] eqn:El; [|assert (n' = n) as -> by congruence; auto].
      destruct (at_node f m h x) as [[m' y] w] eqn:Em. assert (n' = set_kid n a (put c o m')) as -> by congruence.
      assert (Ec : safe_child n a = Ok c) by (unfold safe_child; rewrite Ek; reflexivity). pose proof (fairc_child _ _ _ F Ec) as Fc. pose proof (okc_child Lo Hi _ _ _ _ O Ec) as Oc.
      eapply every_set; eauto 2. apply fairc_put; [auto|]. eapply (IH _ _ _ _ _ (k - 1)); [|exact Em|eapply Oc; eauto|eapply Fc; eauto].
      cbn [length] in Hf. replace (k - 1 - length h) with (k - S (length h)) by lia. exact Hf.
  Qed.
  Lemma simulations_fair : forall j fuel r x r' x' e k, simulations P j fuel r x = (r', x', e) -> lev (s_horizon P) (k - length (r_node r)) -> k <= K -> okn k (r_root r) -> every fair (r_root r) -> every fair (r_root r').
  Proof.
    induction j as [|j IH]; intros fuel r x r' x' e k E Hl Hk O F; cbn [simulations] in E; [assert (r' = r) as -> by congruence; auto|].
    destruct (at_node _ (r_root r) (r_node r) x) as [[root y] v] eqn:Ea.
    assert (O1 : okn k root) by (eapply (at_node_bound Lo Hi); [|exact Ea|exact O]; intros m z m' z' w Em; eapply (simulate_from_bound P Lo Hi lev lo hi); eauto).
    assert (F1 : every fair root) by (eapply (at_node_fair); [|exact Ea|exact O|exact F]; intros m z m' z' w Em Om; eapply simulate_from_fair; eauto; lia).
    destruct v as [v|e']; [|assert (r' = {| r_root := root; r_history := r_history r; r_node := r_node r; r_last := r_last r |}) as -> by congruence; auto].
    apply IH with (k := k) in E; auto.
  Qed.
  Lemma get_action_fair j fuel r x r' x' v k : get_action P j fuel r x = (r', x', v) -> lev (s_horizon P) (k - length (r_node r)) -> k <= K -> okn k (r_root r) -> every fair (r_root r) -> every fair (r_root r').
  Proof.
    unfold get_action. destruct (simulations P j fuel r x) as [[r1 x1] e1] eqn:Es. intros E Hl Hk O F. pose proof (simulations_fair _ _ _ _ _ _ _ _ Es Hl Hk O F) as F1.
    destruct (simulations_bound P Lo Hi lev lo hi alpha_ok gamma_ok rew zero_ok step_ok lev_dec lev_copy _ _ _ _ _ _ _ _ Es Hl O) as [O1 _].
    destruct e1 as [u|e]; [|assert (r' = r1) as -> by congruence; auto].
    destruct (at_node _ (r_root r1) (r_node r1) x1) as [[root y] a] eqn:Ea.
    assert (F2 : every fair root). { eapply at_node_fair; [|exact Ea|exact O1|exact F1]. intros m z m' z' w Em _ Fm. cbv beta in Em. destruct (best_action P m 0 false z) as [w1 z1]. cbv iota in Em. assert (m' = m) as -> by congruence. auto. }
    destruct a as [a|e]; [|assert (r' = r1) as -> by congruence; auto]. match type of E with (?z, _, _) = _ => assert (r' = z) as -> by congruence end. auto.
  Qed.
  Lemma step_fair ob r x r' x' v : r_step P ob r x = (r', x', v) -> every fair (r_root r) -> every fair (r_root r').
  Proof.
    unfold r_step. destruct (r_last r) as [a|]; [|intros E; assert (r' = r) as -> by congruence; auto]. destruct (list_index _ ob) as [o|e]; [|intros E; assert (r' = r) as -> by congruence; auto].
    destruct (get_node P (r_root r) (r_history r ++ [(a, o)]) x) as [[root y] e] eqn:Eg. intros E F. pose proof (get_node_fair _ _ _ _ _ _ Eg F) as F1.
    destruct e as [u|e]; match type of E with (?z, _, _) = _ => assert (r' = z) as -> by congruence end; auto.
  Qed.

  (** Histories *)
  Lemma trace_fair b l r D : (forall d, d <= D -> lev (s_horizon P) (K - d)) -> trace P b l r -> ~ In EvExplore l -> deepest l <= D -> every fair (r_root r).
  Proof.
    intros Hl. assert (AR : forall (l : list event) ev, ~ In EvExplore (l ++ [ev]) -> ~ In EvExplore l) by (intros l0 ev A Hin; apply A; apply in_or_app; auto).
    pose proof (fun b l r => trace_dive_bound P Lo Hi lev lo hi alpha_ok gamma_ok rew zero_ok step_ok lev_dec lev_copy b l r K D Hl) as TB.
    induction 1 as [x b x' r Hs Hr|b l r j fuel x r' x' nm T I Ea|b l r j fuel x r' x' e T I Ea|b l r ob o x r' x' T I Es Eo|b l r ob x r' x' e T I Es|b l r T I|b l r fuel action path x root x' v T I Ea]; intros A HD.
    1:{ unfold r_init in Hr. rewrite Hs in Hr. cbn [bind] in Hr. assert (r = r_reset (o_new P b)) as -> by congruence. apply every_fair_new. }
    all: match type of HD with deepest (?k0 ++ [?ev]) <= _ => destruct (dive_step k0 ev) as [D1 D2] end; pose proof (I (AR _ _ A) ltac:(lia)) as F; destruct (TB _ _ _ T (AR _ _ A) ltac:(lia)) as (O & N & HN).
    - eapply (get_action_fair _ _ _ _ _ _ _ K); eauto. apply Hl. lia.
    - eapply (get_action_fair _ _ _ _ _ _ _ K); eauto. apply Hl. lia.
    - eapply step_fair; eauto.
    - eapply step_fair; eauto.
    - auto.
    - destruct A. apply in_or_app. right. left. reflexivity.
  Qed.
  Lemma fair_enough (n : onode B) : fair n -> balanced n -> length (o_kids n) * cap + 1 < o_count n -> forall a, a < length (o_kids n) -> kk <= visits n a.
  Proof.
    intros [F1 F2] (d & D & E) HN a Ha. destruct (Nat.lt_ge_cases (visits n a) kk) as [Hv|]; [|auto]. exfalso. specialize (F2 (ex_intro _ a (conj Ha Hv))).
    assert (S : all_visits n <= length (o_kids n) * cap); [|lia].
    unfold all_visits. rewrite <- (seq_length (length (o_kids n)) 0) at 2. induction (seq 0 (length (o_kids n))) as [|i t IH]; [cbn; lia|].
    cbn [map length]. change (visits n i + list_sum (map (visits n) t) <= S (length t) * cap). specialize (F2 i). lia.
  Qed.
End Fair.
