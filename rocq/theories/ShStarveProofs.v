(** Proofs for C125. *)
From Verif Require Import PyBase PyBaseFacts QBase PomdpModel BeliefModel PolicyModel PomcpModel PomcpSpec PomcpProofs PomcpProofs2 ValueSpec ValueProofs
  StarveSpec StarveProofs SharedModel SharedSpec SharedProofs ShValueSpec ShValueProofs ShStarveSpec.
From Coq Require Import Lia Lqa Field.
Local Open Scope list_scope.
Local Open Scope nat_scope.

Section Visits.
  Context {X St B H : Type}.
  Variable P : search X St B H.
  Definition s_count (n : snode B) : nat := n_simulations (sn_avg n).
  Lemma tree_kid (n : snode B) a : nth_error (o_kids (as_tree n)) a = option_map (option_map (fun k => AN (k_avg k) [])) (nth_error (sn_kids n) a).
  Proof. cbn. apply nth_error_map. Qed.
  Lemma tree_visits (n : snode B) a : visits (as_tree n) a = s_visits n a.
  Proof. unfold visits, s_visits. rewrite tree_kid. destruct (nth_error (sn_kids n) a) as [[k|]|]; reflexivity. Qed.
  Lemma tree_length (n : snode B) : length (o_kids (as_tree n)) = length (sn_kids n).
  Proof. cbn. apply map_length. Qed.
  Lemma new_visits b a : s_visits (sn_new P b) a = 0.
  Proof. unfold s_visits. destruct (nth_error (sn_kids (sn_new P b)) a) as [k|] eqn:E; [|auto]. cbn in E. apply nth_error_In, repeat_spec in E. subst k. reflexivity. Qed.
  Lemma safe_visits a (n : snode B) b : s_visits (sn_safe a n) b = s_visits n b.
  Proof.
    unfold s_visits. cbn. destruct (nth_error (sn_kids n) a) as [[k|]|] eqn:E; auto. destruct (Nat.eq_dec b a) as [->|Hne].
    - rewrite set_nth_same, E by (apply nth_error_Some; congruence). reflexivity.
    - rewrite set_nth_other by auto. reflexivity.
  Qed.
  Lemma safe_len a (n : snode B) : length (sn_kids (sn_safe a n)) = length (sn_kids n).
  Proof. cbn. destruct (nth_error (sn_kids n) a) as [[k|]|]; auto. apply set_nth_length. Qed.
  Lemma put_visits a o j (n : snode B) b : s_visits (sn_kid a (k_put o j) n) b = s_visits n b.
  Proof.
    unfold s_visits. cbn. destruct (nth_error (sn_kids n) a) as [[k|]|] eqn:E; auto. destruct (Nat.eq_dec b a) as [->|Hne].
    - rewrite set_nth_same, E by (apply nth_error_Some; congruence). reflexivity.
    - rewrite set_nth_other by auto. reflexivity.
  Qed.
  Lemma back_visits a v (n : snode B) b : s_visits (sn_kid a (k_update P v) n) b = s_visits n b \/ (b = a /\ s_visits (sn_kid a (k_update P v) n) b = S (s_visits n b)).
  Proof.
    unfold s_visits. cbn. destruct (nth_error (sn_kids n) a) as [[k|]|] eqn:E; auto. destruct (Nat.eq_dec b a) as [->|Hne].
    - rewrite set_nth_same, E by (apply nth_error_Some; congruence). right. split; reflexivity.
    - rewrite set_nth_other by auto. auto.
  Qed.
End Visits.

Section Fair.
  Context {X St B H : Type}.
  Variable P : search X St B H.
  Variable same : B -> B -> bool.
  Variables Lo Hi lo hi : Q.
  Hypothesis alpha_ok : (0 <= s_alpha P <= 1)%Q.
  Hypothesis gamma_ok : (0 <= s_discount P)%Q.
  Hypothesis rew : rewards_in P lo hi.
  Hypothesis zero_ok : (Lo <= 0 <= Hi)%Q.
  Hypothesis low_ok : (Lo <= lo + s_discount P * Lo)%Q.
  Hypothesis high_ok : (hi + s_discount P * Hi <= Hi)%Q.
  Hypothesis absolute : s_relative P = false.
  Hypothesis positive : (0 < s_exploration P)%Q.
  Variables (kk many long : nat).
  Hypothesis term : forall N j n, long <= N -> 0 < j -> j <= kk -> many <= n -> (s_bonus P N n + ((Hi - Lo) / s_exploration P + 1) <= s_bonus P N j)%Q.
  Notation cap := (cap many long).
  Notation ins := (ins Lo Hi).

  Definition starved (n : snode B) : Prop := exists a, a < length (sn_kids n) /\ s_visits n a < kk.
  Definition counted (st : store B) : Prop := forall n, In n st -> forall b, s_visits n b <= s_count n.

  Definition there (n : snode B) (a : nat) : Prop := exists k, nth_error (sn_kids n) a = Some (Some k).

  (** What a simulation does to a node, at most d times *)
  Definition grown (d : nat) (n n' : snode B) : Prop :=
    length (sn_kids n') = length (sn_kids n) /\ (s_count n <= s_count n' /\ forall b, there n b -> there n' b) /\
    forall b, s_visits n b <= s_visits n' b /\ s_visits n' b <= s_visits n b + d /\ s_visits n' b + s_count n <= s_visits n b + s_count n' /\
      (s_visits n b < s_visits n' b -> starved n -> S (s_visits n b) <= cap).
  Definition ext (d : nat) (st st' : store B) : Prop :=
    length st <= length st' /\ forall i n', nth_error st' i = Some n' ->
    match nth_error st i with
    | Some n => grown d n n'
    | None => length (sn_kids n') = length (s_actions P) /\ forall b, s_visits n' b = 0
    end.

  Lemma grown_refl d n : grown d n n.
  Proof. split; [auto|split; [split; auto|]]. intros b. repeat split; try lia. Qed.
  Lemma ext_refl d st : ext d st st.
  Proof. split; [auto|]. intros i n' E. rewrite E. apply grown_refl. Qed.
  Lemma ext_more d d' st st' : d <= d' -> ext d st st' -> ext d' st st'.
  Proof.
    intros Hd [E1 E2]. split; [auto|]. intros i n' E. specialize (E2 i n' E). destruct (nth_error st i); [|auto]. destruct E2 as (G1 & G2 & G3). split; [auto|split; [auto|]].
    intros b. destruct (G3 b) as (A1 & A2 & A3 & A4). repeat split; auto; lia.
  Qed.
  Lemma starved_same n n' : grown 0 n n' -> starved n -> starved n'.
  Proof. intros (G1 & _ & G3) (a & Ha & Va). exists a. destruct (G3 a) as (A1 & A2 & _). split; lia. Qed.
  Lemma grown_trans d n1 n2 n3 : grown 0 n1 n2 -> grown d n2 n3 -> grown d n1 n3.
  Proof.
    intros G G'. pose proof (starved_same _ _ G) as S. destruct G as (G1 & G2 & G3), G' as (G1' & G2' & G3'). split; [congruence|split; [split; [lia|]; intros b Hb; apply G2', G2, Hb|]]. intros b.
    destruct (G3 b) as (A1 & A2 & A3 & A4), (G3' b) as (A1' & A2' & A3' & A4'). repeat split; try lia. intros V St0. specialize (A4' ltac:(lia) (S St0)). lia.
  Qed.
  Lemma ext_trans d st1 st2 st3 : ext 0 st1 st2 -> ext d st2 st3 -> length st2 = length st1 \/ d = 0 -> ext d st1 st3.
  Proof.
    intros [E1 E2] [E1' E2'] Hd. split; [lia|]. intros i n' E. specialize (E2' i n' E). specialize (E2 i).
    destruct (nth_error st2 i) as [n2|] eqn:N2.
    - specialize (E2 n2 eq_refl). destruct (nth_error st1 i) as [n1|] eqn:N1; [eapply grown_trans; eauto|].
      destruct Hd as [Hd| ->]; [apply nth_error_None in N1; pose proof (proj1 (nth_error_Some st2 i) ltac:(congruence)); lia|].
      destruct E2 as [Z1 Z2], E2' as (G1 & G2 & G3). split; [congruence|]. intros b. destruct (G3 b) as (A1 & A2 & _). specialize (Z2 b). lia.
    - destruct (nth_error st1 i) eqn:N1; [|auto]. apply nth_error_None in N2. pose proof (proj1 (nth_error_Some st1 i) ltac:(congruence)). lia.
  Qed.
  Lemma ext_modify st i f : (forall n, grown 0 n (f n)) -> ext 0 st (modify st i f).
  Proof.
    intros F. split; [rewrite modify_length; auto|]. intros j n' E. rewrite modify_nth in E. destruct (Nat.eqb j i).
    - destruct (nth_error st j) as [n|]; [|discriminate]. cbn in E. assert (n' = f n) as -> by congruence. auto.
    - rewrite E. apply grown_refl.
  Qed.
  Lemma safe_there a n b : there n b -> there (sn_safe a n) b.
  Proof.
    intros [k Ek]. unfold there. cbn. destruct (nth_error (sn_kids n) a) as [[k'|]|] eqn:E; eauto. destruct (Nat.eq_dec b a) as [->|Hne]; [congruence|]. rewrite set_nth_other by auto. eauto.
  Qed.
  Lemma kid_there a f n b : there n b -> there (sn_kid a f n) b.
  Proof.
    intros [k Ek]. unfold there. cbn. destruct (nth_error (sn_kids n) a) as [[k'|]|] eqn:E; eauto. destruct (Nat.eq_dec b a) as [->|Hne].
    - rewrite set_nth_same by (apply nth_error_Some; congruence). eauto.
    - rewrite set_nth_other by auto. eauto.
  Qed.
  Lemma grown_safe a n : grown 0 n (sn_safe a n).
  Proof. split; [apply safe_len|split; [split; [apply le_n|apply safe_there]|]]. intros b. rewrite safe_visits. change (s_count (sn_safe a n)) with (s_count n). repeat split; lia. Qed.
  Lemma grown_put a o j n : grown 0 n (sn_kid a (k_put o j) n).
  Proof. split; [apply kid_length|split; [split; [apply le_n|apply kid_there]|]]. intros b. rewrite put_visits. change (s_count (sn_kid a (k_put o j) n)) with (s_count n). repeat split; lia. Qed.
  Lemma grown_update v n : grown 0 n (sn_update P v n).
  Proof.
    assert (C : s_count (sn_update P v n) = S (s_count n)) by reflexivity. assert (V : forall b, s_visits (sn_update P v n) b = s_visits n b) by reflexivity.
    split; [reflexivity|split; [split; [lia|auto]|]]. intros b. rewrite V. repeat split; lia.
  Qed.
  Lemma ext_belief st b st' j : node_for_belief P same st b = (st', j) -> ext 0 st st'.
  Proof.
    unfold node_for_belief. destruct (index_of same st b) as [i|]; intros E; [assert (st' = st) as -> by congruence; apply ext_refl|].
    assert (st' = st ++ [sn_new P b]) as -> by congruence. split; [rewrite app_length; lia|]. intros i n' E'. destruct (Nat.lt_ge_cases i (length st)) as [Hi'|Hi'].
    - rewrite nth_error_app1 in E' by auto. rewrite E'. apply grown_refl.
    - rewrite nth_error_app2 in E' by auto. destruct (i - length st) as [|z]; [|destruct z; discriminate]. cbn in E'. assert (n' = sn_new P b) as -> by congruence.
      rewrite (proj2 (nth_error_None st i) Hi'). split; [apply repeat_length|]. apply new_visits.
  Qed.
  Lemma ext_rollout fuel st j h x st' x' v : s_rollout P fuel st j h x = (st', x', v) -> ext 0 st st'.
  Proof.
    unfold s_rollout. destruct (s_reached P h); [intros E; assert (st' = st) as -> by congruence; apply ext_refl|].
    destruct (nth_error st j) as [n|]; [|intros E; assert (st' = st) as -> by congruence; apply ext_refl].
    destruct (rollouts P (s_rollouts P) fuel (sn_belief n) h 0 x) as [[r|e] y]; [|intros E; assert (st' = st) as -> by congruence; apply ext_refl].
    destruct (Nat.eqb (s_rollouts P) 0); [intros E; assert (st' = st) as -> by congruence; apply ext_refl|]. cbv zeta. intros E.
    match type of E with (?z, _, _) = _ => assert (st' = z) as -> by congruence end. apply ext_modify. intros m. apply grown_update.
  Qed.
  (** the two updates of a node after the simulation below *)
  Lemma ext_back d st st2 i a v n : ext d st st2 -> nth_error st i = Some n -> (starved n -> S (s_visits n a) <= cap) ->
    ext (S d) st (modify (modify st2 i (sn_kid a (k_update P v))) i (sn_update P v)).
  Proof.
    intros E Ei Hs. pose proof (ext_more _ (S d) _ _ (Nat.le_succ_diag_r d) E) as [_ E']. destruct E as [E1 E2]. rewrite modify_modify. split; [rewrite modify_length; auto|]. intros j n' En. rewrite modify_nth in En.
    destruct (Nat.eqb_spec j i) as [->|Hj]; [|apply E'; auto].
    destruct (nth_error st2 i) as [m|] eqn:Em; [|discriminate]. specialize (E2 i m Em). rewrite Ei in *. cbn in En.
    assert (n' = sn_update P v (sn_kid a (k_update P v) m)) as -> by congruence. clear En.
    destruct E2 as (G1 & G2 & G3). set (n' := sn_update P v (sn_kid a (k_update P v) m)).
    assert (C : s_count n' = S (s_count m)) by reflexivity. assert (L : length (sn_kids n') = length (sn_kids m)) by (apply (kid_length m a (k_update P v))).
    split; [congruence|split; [split; [lia|]; intros b Hb; apply (kid_there a (k_update P v) m b), G2, Hb|]]. intros b. destruct (G3 b) as (A1 & A2 & A3 & A4).
    destruct (back_visits P a v m b) as [V|[-> V]]; change (s_visits (sn_kid a (k_update P v) m)) with (s_visits n') in V; rewrite V, C; repeat split; try lia; auto.
  Qed.

  Lemma tree_inside (n : snode B) : inn Lo Hi n -> forall i, (Lo <= action_value (as_tree n) i <= Hi)%Q.
  Proof.
    intros [_ I] i. unfold action_value. rewrite tree_kid. destruct (nth_error (sn_kids n) i) as [[k|]|] eqn:E; cbn; auto. apply within_value; eauto.
  Qed.
  Lemma chosen (n : snode B) x a y : inn Lo Hi n -> (forall b, s_visits n b <= s_count n) -> best_action P (as_tree n) (s_exploration P) (s_relative P) x = (Ok a, y) ->
    starved n -> S (s_visits n a) <= cap.
  Proof.
    intros I C E (i & Hi' & Vi). rewrite <- tree_visits. eapply (best_fair P Lo Hi); eauto.
    - apply tree_inside, I.
    - intros b. rewrite tree_visits. apply C.
    - exists i. rewrite tree_length, tree_visits. auto.
  Qed.
  Lemma counted_ext st st' d : counted st -> ext d st st' -> counted st'.
  Proof.
    intros C [_ E] n' Hn b. apply In_nth_error in Hn as [i Ei]. specialize (E i n' Ei). destruct (nth_error st i) as [n|] eqn:En.
    - destruct E as (_ & [G2 _] & G3). destruct (G3 b) as (_ & _ & A & _). specialize (C n (nth_error_In _ _ En) b). lia.
    - destruct E as [_ Z]. rewrite Z. lia.
  Qed.

  Lemma ext_simulate : forall d fuel st i s h x st' x' v, ends_within P d h -> ins st -> counted st -> s_simulate P same fuel st i s h None x = (st', x', v) -> ext d st st'.
  Proof.
    induction d as [|d IH]; intros fuel st i s h x st' x' v W I C E.
    1:{ destruct fuel; cbn [s_simulate ends_within] in *; (destruct (nth_error st i); [rewrite W in E|]); assert (st' = st) as -> by congruence; apply ext_refl. }
    destruct fuel as [|fuel]; cbn [s_simulate] in E; (destruct (nth_error st i) as [n|] eqn:En; [|assert (st' = st) as -> by congruence; apply ext_refl]);
      (destruct (s_reached P h) eqn:Hr; [assert (st' = st) as -> by congruence; apply ext_refl|]); [assert (st' = st) as -> by congruence; apply ext_refl|].
    destruct W as [W|W]; [congruence|].
    pose proof (I n (nth_error_In _ _ En)) as In0. pose proof (C n (nth_error_In _ _ En)) as Cn.
    destruct (best_action P (as_tree n) (s_exploration P) (s_relative P) x) as [a y] eqn:Eb. destruct a as [a|e]; cbn [bind] in E; [|assert (st' = st) as -> by congruence; apply ext_refl].
    destruct (sn_child n a) as [k|e] eqn:Ek; cbn [bind] in E; [|assert (st' = st) as -> by congruence; apply ext_refl].
    pose proof (chosen _ _ _ _ In0 Cn Eb) as Hs. cbv zeta in E.
    assert (I1 : ins (modify st i (sn_safe a))) by (apply ins_modify; auto using inn_safe).
    assert (X1 : ext 0 st (modify st i (sn_safe a))) by (apply ext_modify, grown_safe). pose proof (counted_ext _ _ _ C X1) as C1.
    pose proof (modify_length st i (sn_safe a)) as L1.
    set (st1 := modify st i (sn_safe a)) in *. clearbody st1.
    destruct (s_transition P a s y) as [[[[s' o] r]|e] y1] eqn:Et; [|assert (st' = st1) as -> by congruence; apply (ext_more 0); [lia|auto]].
    match type of E with (match ?q with _ => _ end) = _ => destruct q as [[st2 y2] w] eqn:Eq end.
    assert (X2 : ext d st st2).
    { destruct (lookup o (k_obs k)) as [j|] eqn:El; [eapply ext_trans; [exact X1|eapply IH; [apply W|exact I1|exact C1|exact Eq]|auto]|].
      apply (ext_more 0); [lia|]. destruct (s_succ P (sn_belief n) a o y1) as [[b|e] y3] eqn:Es; [|assert (st2 = st1) as -> by (destruct e; congruence); auto].
      destruct (node_for_belief P same st1 b) as [st3 j] eqn:Ef. pose proof (ext_belief _ _ _ _ Ef) as X3.
      destruct (s_rollout P fuel (modify st3 i (sn_kid a (k_put o j))) j (s_decrement P h a s s' o) y3) as [[st4 y4] w'] eqn:Er. assert (st2 = st4) as -> by congruence.
      pose proof (ext_rollout _ _ _ _ _ _ _ _ Er) as X4. assert (X5 : ext 0 st3 (modify st3 i (sn_kid a (k_put o j)))) by apply ext_modify, grown_put.
      eapply ext_trans; [exact X1| |auto]. eapply ext_trans; [exact X3| |auto]. eapply ext_trans; [exact X5|exact X4|auto]. }
    destruct w as [u|e]; [|assert (st' = st2) as -> by congruence; apply (ext_more d); [lia|auto]].
    match type of E with (?z, _, _) = _ => assert (st' = z) as -> by congruence end. eapply ext_back; eauto.
  Qed.
  (** a simulation that ends before the horizon tries an action of its node *)
  Lemma list_sum_more (f g : nat -> nat) l a : (forall b, f b <= g b) -> In a l -> f a < g a -> list_sum (map f l) < list_sum (map g l).
  Proof.
    intros Hf. induction l as [|b l IH]; [intros []|]. cbn [map]. change (In a (b :: l) -> f a < g a -> f b + list_sum (map f l) < g b + list_sum (map g l)).
    assert (Hl : list_sum (map f l) <= list_sum (map g l)). { clear IH. induction l as [|c l IH]; [auto|]. cbn [map]. change (f c + list_sum (map f l) <= g c + list_sum (map g l)). specialize (Hf c). lia. }
    intros [->|Hin] Ha; [lia|]. specialize (IH Hin Ha). specialize (Hf b). lia.
  Qed.
  Lemma simulate_tries d fuel st i s h x st' x' w n : ends_within P d h -> ins st -> counted st -> s_reached P h = false -> nth_error st i = Some n ->
    s_simulate P same fuel st i s h None x = (st', x', Ok w) -> exists n', nth_error st' i = Some n' /\ s_all_visits n < s_all_visits n'.
  Proof.
    intros W I C Hr En E. destruct fuel as [|fuel]; cbn [s_simulate] in E; rewrite En, Hr in E; [discriminate|].
    destruct d as [|d]; [cbn in W; congruence|]. destruct W as [W|W]; [congruence|].
    destruct (best_action P (as_tree n) (s_exploration P) (s_relative P) x) as [a y] eqn:Eb. destruct a as [a|e]; cbn [bind] in E; [|discriminate].
    destruct (sn_child n a) as [k|e] eqn:Ek; cbn [bind] in E; [|discriminate]. cbv zeta in E.
    assert (I1 : ins (modify st i (sn_safe a))) by (apply ins_modify; auto using inn_safe).
    assert (X1 : ext 0 st (modify st i (sn_safe a))) by (apply ext_modify, grown_safe). pose proof (counted_ext _ _ _ C X1) as C1.
    assert (N1 : nth_error (modify st i (sn_safe a)) i = Some (sn_safe a n)) by (rewrite modify_nth, Nat.eqb_refl, En; reflexivity).
    assert (Ha : a < length (sn_kids n)). { unfold sn_child in Ek. destruct (nth_error (sn_kids n) a) eqn:Ea; [|discriminate]. apply nth_error_Some. congruence. }
    assert (T1 : there (sn_safe a n) a).
    { unfold there. cbn. destruct (nth_error (sn_kids n) a) as [[k'|]|] eqn:Ea; [eauto| |apply nth_error_None in Ea; lia]. rewrite set_nth_same by auto. eauto. }
    set (st1 := modify st i (sn_safe a)) in *. clearbody st1.
    destruct (s_transition P a s y) as [[[[s' o] r]|e] y1] eqn:Et; [|discriminate].
    match type of E with (match ?q with _ => _ end) = _ => destruct q as [[st2 y2] u] eqn:Eq end.
    assert (X2 : ext d st1 st2).
    { destruct (lookup o (k_obs k)) as [j|] eqn:El; [eapply ext_simulate; [apply W|exact I1|exact C1|exact Eq]|].
      apply (ext_more 0); [lia|]. destruct (s_succ P (sn_belief n) a o y1) as [[b|e] y3] eqn:Es; [|assert (st2 = st1) as -> by (destruct e; congruence); apply ext_refl].
      destruct (node_for_belief P same st1 b) as [st3 j] eqn:Ef. pose proof (ext_belief _ _ _ _ Ef) as X3.
      destruct (s_rollout P fuel (modify st3 i (sn_kid a (k_put o j))) j (s_decrement P h a s s' o) y3) as [[st4 y4] w'] eqn:Er. assert (st2 = st4) as -> by congruence.
      pose proof (ext_rollout _ _ _ _ _ _ _ _ Er) as X4. assert (X5 : ext 0 st3 (modify st3 i (sn_kid a (k_put o j)))) by apply ext_modify, grown_put.
      eapply ext_trans; [exact X3| |auto]. eapply ext_trans; [exact X5|exact X4|auto]. }
    destruct u as [u|e]; [|discriminate]. set (full := (r + s_discount P * u)%Q) in *. rewrite modify_modify in E.
    match type of E with (?z, _, _) = _ => assert (st' = z) as -> by congruence end. rewrite modify_nth, Nat.eqb_refl.
    destruct X2 as [L2 X2]. destruct (nth_error st2 i) as [m|] eqn:Em; [|apply nth_error_None in Em; pose proof (proj1 (nth_error_Some st1 i) ltac:(congruence)); lia].
    specialize (X2 i m Em). rewrite N1 in X2. destruct X2 as (G1 & [_ G2] & G3). cbn [option_map]. eexists. split; [reflexivity|].
    set (n' := sn_update P full (sn_kid a (k_update P full) m)).
    assert (Ln : length (sn_kids n') = length (sn_kids n)). { transitivity (length (sn_kids m)); [apply (kid_length m a)|]. rewrite G1. apply safe_len. }
    unfold s_all_visits. rewrite Ln. apply (list_sum_more _ _ _ a); [|apply in_seq; lia|].
    - intros b. destruct (G3 b) as (A1 & _). rewrite safe_visits in A1. destruct (back_visits P a full m b) as [V|[_ V]]; change (s_visits (sn_kid a (k_update P full) m)) with (s_visits n') in V; lia.
    - destruct (G3 a) as (A1 & _). rewrite safe_visits in A1. destruct (G2 a T1) as [k2 K2].
      assert (V : s_visits n' a = S (s_visits m a)); [|lia]. unfold s_visits, n'. cbn. rewrite K2. rewrite set_nth_same by (apply nth_error_Some; congruence). reflexivity.
  Qed.
  Lemma ext_get_node : forall h st i x st' x' v, s_get_node P same st i h x = (st', x', v) -> ext 0 st st'.
  Proof.
    induction h as [|[a o] h IH]; intros st i x st' x' v E; cbn [s_get_node] in E; [assert (st' = st) as -> by congruence; apply ext_refl|].
    destruct (nth_error st i) as [n|] eqn:En; [|assert (st' = st) as -> by congruence; apply ext_refl].
    destruct (sn_child n a) as [k|e] eqn:Ek; [|assert (st' = st) as -> by congruence; apply ext_refl].
    cbv zeta in E. assert (X1 : ext 0 st (modify st i (sn_safe a))) by (apply ext_modify, grown_safe). set (st1 := modify st i (sn_safe a)) in *. clearbody st1.
    destruct (lookup o (k_obs k)) as [j|] eqn:El; [eapply ext_trans; [exact X1|eapply IH, E|auto]|].
    destruct (s_succ P (sn_belief n) a o x) as [[b|e] y]; [|assert (st' = st1) as -> by congruence; auto].
    destruct (node_for_belief P same st1 b) as [st3 j] eqn:Ef. pose proof (ext_belief _ _ _ _ Ef) as X3.
    eapply ext_trans; [exact X1| |auto]. eapply ext_trans; [exact X3| |auto]. eapply ext_trans; [apply ext_modify, (grown_put a o j)|eapply IH, E|auto].
  Qed.

  (** *** Histories *)
  Variable D : nat.
  Hypothesis ends : ends_within P D (s_horizon P).
  Definition fairs (st : store B) : Prop := ins st /\ counted st /\ forall n, In n st -> length (sn_kids n) = length (s_actions P) /\ (starved n -> forall b, s_visits n b <= cap + D).
  Lemma fairs_ext st st' : fairs st -> ins st' -> ext D st st' -> fairs st'.
  Proof.
    intros (I & C & F) I' E. split; [auto|]. split; [eapply counted_ext; eauto|]. intros n' Hn. apply In_nth_error in Hn as [i Ei]. destruct E as [_ E]. specialize (E i n' Ei).
    destruct (nth_error st i) as [n|] eqn:En.
    - destruct (F n (nth_error_In _ _ En)) as [F1 F2]. destruct E as (G1 & G2 & G3). split; [congruence|]. intros (a & Ha & Va) b.
      assert (Hs : starved n) by (exists a; destruct (G3 a) as (A1 & _); split; [congruence|lia]).
      specialize (F2 Hs b). destruct (G3 b) as (A1 & A2 & A3 & A4). destruct (Nat.eq_dec (s_visits n b) (s_visits n' b)); [lia|]. specialize (A4 ltac:(lia) Hs). lia.
    - destruct E as [Z1 Z2]. split; [auto|]. intros _ b. rewrite Z2. lia.
  Qed.
  Lemma fairs_simulate_from fuel st i x st' x' v : fairs st -> s_simulate_from P same fuel None st i x = (st', x', v) -> fairs st'.
  Proof.
    intros F E. apply (fairs_ext st); [auto| |].
    - eapply (ins_simulate_from P same Lo Hi lo hi); eauto. apply F.
    - unfold s_simulate_from in E. destruct (nth_error st i) as [n|]; [|assert (st' = st) as -> by congruence; apply ext_refl].
      destruct (s_sample P (sn_belief n) x) as [[s|e] y]; [|assert (st' = st) as -> by congruence; apply ext_refl]. eapply ext_simulate; [exact ends|apply F|apply F|exact E].
  Qed.
  Lemma fairs_simulations : forall k fuel r x r' x' v, fairs (sr_store r) -> s_simulations P same k fuel r x = (r', x', v) -> fairs (sr_store r').
  Proof.
    induction k as [|k IH]; intros fuel r x r' x' v F E; cbn [s_simulations] in E; [assert (r' = r) as -> by congruence; auto|].
    destruct (s_simulate_from P same fuel None (sr_store r) (sr_node r) x) as [[st y] w] eqn:Es. pose proof (fairs_simulate_from _ _ _ _ _ _ _ F Es) as F1. cbv zeta in E.
    destruct w as [w|e]; [eapply IH; [|exact E]; exact F1|]. match type of E with (?q, _, _) = _ => assert (r' = q) as -> by congruence end. exact F1.
  Qed.
  Lemma fairs_get_action k fuel r x r' x' v : fairs (sr_store r) -> s_get_action P same k fuel r x = (r', x', v) -> fairs (sr_store r').
  Proof.
    intros F E. unfold s_get_action in E. destruct (s_simulations P same k fuel r x) as [[r1 y] w] eqn:Es. pose proof (fairs_simulations _ _ _ _ _ _ _ F Es) as F1.
    destruct w as [w|e]; [|assert (r' = r1) as -> by congruence; auto].
    destruct (nth_error (sr_store r1) (sr_node r1)) as [n|]; [|assert (r' = r1) as -> by congruence; auto].
    destruct (best_action P (as_tree n) 0 false y) as [[a|e] z]; [|assert (r' = r1) as -> by congruence; auto].
    match type of E with (?q, _, _) = _ => assert (r' = q) as -> by congruence end. exact F1.
  Qed.
  Lemma simulations_tries : forall k fuel r x r' x' n, fairs (sr_store r) -> s_reached P (s_horizon P) = false -> nth_error (sr_store r) (sr_node r) = Some n ->
    s_simulations P same k fuel r x = (r', x', Ok tt) -> sr_node r' = sr_node r /\ exists n', nth_error (sr_store r') (sr_node r) = Some n' /\ k + s_all_visits n <= s_all_visits n'.
  Proof.
    induction k as [|k IH]; intros fuel r x r' x' n F Hr En E; cbn [s_simulations] in E; [assert (r' = r) as -> by congruence; split; [auto|]; exists n; auto|].
    destruct (s_simulate_from P same fuel None (sr_store r) (sr_node r) x) as [[st y] w] eqn:Es. pose proof (fairs_simulate_from _ _ _ _ _ _ _ F Es) as F1. cbv zeta in E.
    destruct w as [w|e]; [|discriminate]. unfold s_simulate_from in Es. rewrite En in Es. destruct (s_sample P (sn_belief n) x) as [[s|e] y0]; [|discriminate].
    destruct (simulate_tries _ _ _ _ _ _ _ _ _ _ _ ends (proj1 F) (proj1 (proj2 F)) Hr En Es) as (n1 & E1 & V1).
    set (r1 := {| sr_store := st; sr_history := sr_history r; sr_node := sr_node r; sr_last := sr_last r |}) in *.
    destruct (IH fuel r1 y r' x' n1 F1 Hr E1 E) as (K & n' & En' & V'). split; [exact K|]. exists n'. split; [exact En'|lia].
  Qed.
  Lemma fairs_enough st n : fairs st -> In n st -> length (s_actions P) * (cap + D) < s_all_visits n -> s_tried kk (s_actions P) n.
  Proof.
    intros (_ & _ & F) Hn HN a Ha. destruct (F n Hn) as [F1 F2]. destruct (Nat.lt_ge_cases (s_visits n a) kk) as [Hv|]; [|auto]. exfalso.
    specialize (F2 (ex_intro _ a (conj (eq_ind_r (fun z => a < z) Ha F1) Hv))). rewrite <- F1 in HN.
    assert (Le : s_all_visits n <= length (sn_kids n) * (cap + D)); [|lia].
    unfold s_all_visits. rewrite <- (seq_length (length (sn_kids n)) 0) at 2. induction (seq 0 (length (sn_kids n))) as [|i t IH]; [cbn; lia|].
    cbn [map length]. change (s_visits n i + list_sum (map (s_visits n) t) <= S (length t) * (cap + D)). specialize (F2 i). lia.
  Qed.
  Lemma fairs_step ob r x r' x' v : fairs (sr_store r) -> s_step P same ob r x = (r', x', v) -> fairs (sr_store r').
  Proof.
    intros F E. apply (fairs_ext (sr_store r)); [auto| |].
    - eapply (ins_step P same Lo Hi); eauto. apply F.
    - unfold s_step in E. destruct (sr_last r) as [a|]; [|assert (r' = r) as -> by congruence; apply ext_refl].
      destruct (list_index (s_observations P) ob) as [o|e]; [|assert (r' = r) as -> by congruence; apply ext_refl]. cbv zeta in E.
      destruct (s_get_node P same (sr_store r) 0 _ x) as [[st y] w] eqn:Eg. apply ext_get_node in Eg. apply (ext_more 0); [lia|].
      destruct w as [i|e]; match type of E with (?q, _, _) = _ => assert (r' = q) as -> by congruence end; exact Eg.
  Qed.
  Lemma fairs_trace b l r : strace P same b l r -> ~ In EvExplore l -> fairs (sr_store r).
  Proof.
    assert (AR : forall (l : list event) ev, ~ In EvExplore (l ++ [ev]) -> ~ In EvExplore l) by (intros l0 ev A Hin; apply A; apply in_or_app; auto).
    induction 1 as [x b x' r Es Ei|b l r k fuel x r' x' nm T IH E|b l r k fuel x r' x' e T IH E|b l r ob o x r' x' T IH E Eo|b l r ob x r' x' e T IH E|b l r T IH|b l r fuel action i x st x' v T IH E];
      intros A; try (destruct A; apply in_or_app; right; left; reflexivity); try apply AR in A; eauto using fairs_get_action, fairs_step.
    - unfold sr_init in Ei. rewrite Es in Ei. cbn [bind] in Ei. destruct (node_for_belief P same [] b) as [st j] eqn:Ef. assert (r = sr_reset st) as -> by (cbn in Ei; congruence).
      cbn. apply (fairs_ext []); [|eapply ins_belief; eauto; intros ? []|apply (ext_more 0); [lia|eapply ext_belief; eauto]].
      split; [intros ? []|split; intros ? []].
  Qed.
End Fair.
