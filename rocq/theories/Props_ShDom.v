(** C134: with nodes shared by belief an action that is clearly better is the one returned by the search. *)
From Verif Require Import PyBase PyBaseFacts QBase PomdpModel PomdpSpec PomdpProofs PomdpProofs2 BeliefModel EvalModel PolicyModel PomcpModel PomcpSpec
  PolicySpec PolicyProofs PomcpProofs PomcpProofs2 PomcpProofs3 ValueSpec ValueProofs SharedModel SharedSpec SharedProofs SharedProofs2 ShValueSpec ShValueProofs ShBestProofs DomSpec DomProofs
  ShDomSpec ShDomProofs Props_Pomdp Props_Belief Props_Pomcp Props_Value Props_Shared Props_Dom Props_ShBest.
From Coq Require Import Lia Lqa Field.
Local Open Scope list_scope.
Local Open Scope nat_scope.

(** With a discount below one and rewards from lo <= 0 to hi >= 0: the value of an action tried at a node, whose rewards there are from q1 to q2, is between
    q1 + discount * lo / (1 - discount) and q2 + discount * hi / (1 - discount), after any operations. *)
Theorem C134_action : forall X St B H (P : search X St B H) same lo hi b l r n a q1 q2, (forall c, same c c = true) -> (0 <= s_discount P < 1)%Q -> (0 <= s_alpha P <= 1)%Q ->
  (lo <= 0 <= hi)%Q -> rewards_in P lo hi -> strace P same b l r -> In n (sr_store r) -> 0 < s_visits n a -> pays_at P same b (sn_belief n) a q1 q2 ->
  (q1 + s_discount P * (lo / (1 - s_discount P)) <= s_value n a <= q2 + s_discount P * (hi / (1 - s_discount P)))%Q.
Proof.
  intros X St B H P same lo hi b l r n a q1 q2 R Hg Ha Hz HR T Hn V Hp. set (g := s_discount P) in *.
  assert (Hd : (0 < 1 - g)%Q) by lra.
  assert (E1 : (lo / (1 - g) == lo + g * (lo / (1 - g)))%Q) by (field; lra).
  assert (E2 : (hi / (1 - g) == hi + g * (hi / (1 - g)))%Q) by (field; lra).
  assert (Z1 : (lo / (1 - g) <= 0)%Q) by (apply Qle_shift_div_r; lra).
  assert (Z2 : (0 <= hi / (1 - g))%Q) by (apply Qle_shift_div_l; lra).
  assert (F : fine P same (lo / (1 - g)) (hi / (1 - g)) b (sr_store r)) by (eapply (fine_trace P same R (lo / (1 - g)) (hi / (1 - g)) lo hi)%Q; eauto; fold g; lra).
  destruct F as (_ & _ & D). specialize (D n Hn a). unfold s_visits in V. unfold s_value. destruct (nth_error (sn_kids n) a) as [[k|]|]; [|lia|lia].
  apply within_value_pos; [exact V|]. apply (D k q1 q2 eq_refl Hp).
Qed.
Print Assumptions C134_action.

(** So with at least as many iterations as actions, an action that pays at least m now where all others pay at most M is returned
    when the difference is more than what the future can make up for. *)
Theorem C134_chosen : forall X St B H (P : search X St B H) same lo hi b l r n k fuel x r' x' nm best m M, (forall c, same c c = true) -> (0 <= s_discount P < 1)%Q -> (0 <= s_alpha P <= 1)%Q ->
  (lo <= 0 <= hi)%Q -> rewards_in P lo hi -> strace P same b l r -> s_reached P (s_horizon P) = false -> length (s_actions P) <= k -> s_get_action P same k fuel r x = (r', x', Ok nm) ->
  nth_error (sr_store r) (sr_node r) = Some n -> best < length (s_actions P) -> pays_at P same b (sn_belief n) best m hi ->
  (forall a, a < length (s_actions P) -> a <> best -> pays_at P same b (sn_belief n) a lo M) ->
  (M + s_discount P * (hi / (1 - s_discount P)) < m + s_discount P * (lo / (1 - s_discount P)))%Q ->
  sr_last r' = Some best /\ nth_error (s_actions P) best = Some nm.
Proof.
  intros X St B H P same lo hi b l r n k fuel x r' x' nm best m M R Hg Ha Hz HR T Hh Hk E En Hb PB PO Gap.
  destruct (C133_best _ _ _ _ P same b l r k fuel x r' x' nm R T Hh Hk E) as (n0 & n1 & a & _ & K1 & _ & En1 & La & (Enm & Vis & _) & _).
  pose proof (st_action P same _ _ _ _ _ _ _ _ _ T E) as T'. assert (Hl : a < length (s_actions P)) by (apply nth_error_Some; congruence).
  assert (EB : sn_belief n1 = sn_belief n).
  { destruct (strace_ok P same R (fun _ => True) (all_true P) b l r T I) as (S0 & _). unfold s_get_action in E. destruct (s_simulations P same k fuel r x) as [[r1 y] w] eqn:Es.
    destruct (s_simulations_ok P same R (fun _ => True) (all_true P) _ _ _ _ _ _ _ S0 Es) as (_ & [_ X1] & _ & _ & _). destruct (X1 _ _ En) as (n2 & En2 & B2 & _).
    assert (ES : sr_store r' = sr_store r1). { destruct w as [w|e]; [|congruence]. destruct (nth_error (sr_store r1) (sr_node r1)); [|congruence]. destruct (best_action P (as_tree s) 0 false y) as [[a'|e] z]; [|congruence]. match type of E with (?q, _, _) = _ => assert (r' = q) as -> by congruence end. reflexivity. }
    rewrite ES, K1 in En1. congruence. }
  destruct (Nat.eq_dec a best) as [->|Hne]; [auto|]. exfalso. rewrite <- EB in PB, PO. pose proof (nth_error_In _ _ En1) as In1.
  pose proof (proj1 (C134_action _ _ _ _ P same lo hi b _ _ _ best m hi R Hg Ha Hz HR T' In1 (proj1 (Vis _ Hb)) PB)) as Q1.
  pose proof (proj2 (C134_action _ _ _ _ P same lo hi b _ _ _ a lo M R Hg Ha Hz HR T' In1 (proj1 (Vis _ Hl)) (PO _ Hl Hne))) as Q2.
  pose proof (proj2 (Vis _ Hb)) as Q3. lra.
Qed.
Print Assumptions C134_chosen.

(** *** Over a POMDP *)
Lemma sum_n_part n f : (forall i, i < n -> (0 <= f i)%Q) -> forall i, i < n -> (f i <= sum_n n f)%Q.
Proof.
  induction n as [|n IH]; intros F i Hi; [lia|]. rewrite sum_n_S. assert (F' : forall j, j < n -> (0 <= f j)%Q) by auto. pose proof (sum_n_nonneg n f F') as S0.
  destruct (Nat.eq_dec i n) as [->|Hne]; [lra|]. specialize (IH F' i ltac:(lia)). pose proof (F n ltac:(lia)). lra.
Qed.
Section Exact.
  Variable p : pomdp.
  Variable u : nat -> Q.
  Variable r : nat -> nat.
  Variables (horizon : Z) (exploration : Q) (relative : bool) (bonus : nat -> nat -> Q) (rollout_it : nat) (alpha : Q).
  Let P := exact_search p u r horizon exploration relative bonus rollout_it alpha.
  Hypothesis WS : well_shaped p.
  Hypothesis ST : stochastic p.
  Hypothesis HU : forall i, (0 <= u i < 1)%Q.
  Variable b0 : list Q.
  Hypothesis D0 : distribution p b0.
  Lemma may_be_positive b s : may_be_at P same_array b0 b s -> distribution p b /\ s < nS p /\ (0 < nth s b 0)%Q.
  Proof.
    induction 1 as [h b s x x' F E|b s a x s' o q x' y c y' h d M (Db & Hs & Hp) E Ec F Sd].
    - destruct (filters_possible p u r horizon exploration relative bonus rollout_it alpha ST b0 h b0 b F [] D0) as [Db _]; [intros; apply po_start; auto|]. split; [exact Db|].
      destruct (sample_exact p u HU b x Db) as (s1 & E1 & Hs & Hp). cbn [P exact_search s_sample] in E. assert (s1 = s) as -> by congruence. auto.
    - destruct (filters_possible p u r horizon exploration relative bonus rollout_it alpha ST b0 h b0 d F [] D0) as [Dd _]; [intros; apply po_start; auto|]. split; [exact Dd|].
      apply (transition_drawn p u r horizon exploration relative bonus rollout_it alpha WS ST HU) in E. destruct E as (Ha & _ & Hs' & Ho & K1 & K2 & _). split; [exact Hs'|].
      cbn [P exact_search s_succ] in Ec. rewrite C82_successor in Ec. assert (Em : belief_update p (Z.of_nat a) (Z.of_nat o) b = Ok c) by congruence.
      destruct (C40_bayes p b a o ST Db Ha Ho) as [N Y]. destruct (Qeq_dec (prob_obs p b a o) 0) as [Z|Z]; [rewrite (N Z) in Em; discriminate|].
      destruct (Y Z) as (nb & E' & _ & V). assert (nb = c) as -> by congruence. apply same_array_iff in Sd. destruct Sd as [_ Sd]. rewrite (Sd s'), (V _ Hs').
      pose proof ST as (T0 & _ & O0 & _). pose proof Db as (_ & B0 & _).
      assert (J0 : forall i j, i < nS p -> j < nS p -> (0 <= joint p b a i j o)%Q) by (intros i j Hi Hj; unfold joint; apply Qmult_le_0_compat; [apply Qmult_le_0_compat|]; auto).
      assert (E0 : forall j, j < nS p -> (0 <= prob_end p b a j o)%Q) by (intros j Hj; apply sum_n_nonneg; auto).
      assert (O1 : (0 <= prob_obs p b a o)%Q) by (apply sum_n_nonneg; auto).
      assert (O2 : (0 < prob_obs p b a o)%Q) by (destruct (Qlt_le_dec 0 (prob_obs p b a o)); [auto|destruct Z; lra]).
      assert (J1 : (0 < joint p b a s s' o)%Q) by (unfold joint; apply Qmult_lt_0_compat; [apply Qmult_lt_0_compat|]; auto).
      assert (J2 : (joint p b a s s' o <= prob_end p b a s' o)%Q) by (apply (sum_n_part (nS p) (fun i => joint p b a i s' o)); auto).
      apply Qlt_shift_div_l; [exact O2|]. lra.
  Qed.
End Exact.

(** Searches with exact beliefs only meet states that have a positive probability in the belief of the current node, so rewards there are enough:
    for every POMDP, random draws, and parameters of the search. *)
Theorem C134_pomdp : forall p u rnd horizon exploration relative bonus rollout_it alpha lo hi b l r n k fuel x r' x' nm best m M,
  well_shaped p -> stochastic p -> (forall i, 0 <= u i < 1)%Q -> distribution p b -> (0 <= p_discount p < 1)%Q -> (0 <= alpha <= 1)%Q -> (lo <= 0 <= hi)%Q ->
  (forall a s s' o, a < nA p -> s < nS p -> s' < nS p -> o < nO p -> (lo <= at_ (p_R p) [a; s; s'; o] <= hi)%Q) ->
  let P := exact_search p u rnd horizon exploration relative bonus rollout_it alpha in
  strace P same_array b l r -> (0 < horizon)%Z -> length (p_actions p) <= k -> s_get_action P same_array k fuel r x = (r', x', Ok nm) -> nth_error (sr_store r) (sr_node r) = Some n ->
  let may a s s' o := s < nS p /\ (0 < nth s (sn_belief n) 0)%Q /\ s' < nS p /\ o < nO p /\ (0 < Tr p a s s')%Q /\ (0 < Ob p a s' o)%Q in
  best < length (p_actions p) ->
  (forall s s' o, may best s s' o -> (m <= at_ (p_R p) [best; s; s'; o])%Q) ->
  (forall a s s' o, a < length (p_actions p) -> a <> best -> may a s s' o -> (at_ (p_R p) [a; s; s'; o] <= M)%Q) ->
  (M + p_discount p * (hi / (1 - p_discount p)) < m + p_discount p * (lo / (1 - p_discount p)))%Q ->
  nth_error (p_actions p) best = Some nm.
Proof.
  intros p u rnd horizon exploration relative bonus rollout_it alpha lo hi b l r n k fuel x r' x' nm best m M WS ST HU D Hg Ha Hz HR P T Hh Hk E En may Hb PB PO Gap.
  destruct (C111_pomdp p u rnd horizon exploration relative bonus rollout_it alpha lo hi WS ST HU HR) as (R & _). fold P in R.
  assert (Hr : s_reached P (s_horizon P) = false) by (cbn; unfold nt_reached; cbn; apply Z.leb_gt; exact Hh).
  apply (C134_chosen _ _ _ _ P same_array lo hi b l r n k fuel x r' x' nm best m M same_array_refl Hg Ha Hz R T Hr Hk E En Hb); [| |exact Gap].
  - intros s y s' o q y' Mb Et. pose proof (may_be_positive p u rnd horizon exploration relative bonus rollout_it alpha WS ST HU b D _ _ Mb) as (_ & Ps & Pp).
    split; [|apply (R _ _ _ _ _ _ _ Et)]. apply (transition_drawn p u rnd horizon exploration relative bonus rollout_it alpha WS ST HU) in Et. destruct Et as (_ & _ & K1 & K2 & K3 & K4 & ->). apply PB. unfold may. auto 10.
  - intros a Hla Hne s y s' o q y' Mb Et. pose proof (may_be_positive p u rnd horizon exploration relative bonus rollout_it alpha WS ST HU b D _ _ Mb) as (_ & Ps & Pp).
    split; [apply (R _ _ _ _ _ _ _ Et)|]. apply (transition_drawn p u rnd horizon exploration relative bonus rollout_it alpha WS ST HU) in Et. destruct Et as (_ & _ & K1 & K2 & K3 & K4 & ->). apply PO; auto. unfold may. auto 10.
Qed.
Print Assumptions C134_pomdp.

(** The problem of C131 in which the state is seen after the first action: once 1 is observed, "one" is returned whatever the random draws of the search from there are. *)
Definition guess_s0 : srunner (list Q) := match fst (sr_init guess_search same_array BArray 0) with Ok r => r | Err _ => sr_reset [] end.
Definition guess_s1 := fst (fst (s_get_action guess_search same_array 2 3 guess_s0 0)).
Definition guess_s2 := fst (fst (s_step guess_search same_array (NInt 1) guess_s1 0)).
Example C134_ex : exists l, strace guess_search same_array [1 # 2; 1 # 2]%Q l guess_s2 /\ length l = 2 /\
  (forall k fuel x r' x' nm, 2 <= k -> s_get_action guess_search same_array k fuel guess_s2 x = (r', x', Ok nm) -> nm = NStr "one") /\
  exists r' x', s_get_action guess_search same_array 2 3 guess_s2 0 = (r', x', Ok (NStr "one")).
Proof.
  assert (TL : exists l, strace guess_search same_array [1 # 2; 1 # 2]%Q l guess_s2 /\ length l = 2).
  { pose proof (st_init guess_search same_array 0 [1 # 2; 1 # 2]%Q 0 guess_s0 ltac:(vm_compute; reflexivity) ltac:(vm_compute; reflexivity)) as T0.
    pose proof (fun x' nm => st_action guess_search same_array _ _ _ 2 3 0 guess_s1 x' nm T0) as T1. specialize (T1 _ _ ltac:(vm_compute; reflexivity)).
    pose proof (fun x' => st_step guess_search same_array _ _ _ (NInt 1) 1 0 guess_s2 x' T1) as T2. specialize (T2 _ ltac:(vm_compute; reflexivity) ltac:(vm_compute; reflexivity)). eexists. split; [exact T2|reflexivity]. }
  destruct TL as (l & T & TL). exists l. split; [exact T|]. split; [exact TL|]. split; [|eexists _, _; vm_compute; reflexivity].
  intros k fuel x r' x' nm Hk E.
  assert (EN : exists n, nth_error (sr_store guess_s2) (sr_node guess_s2) = Some n /\ map Qred (sn_belief n) = [0; 1]%Q) by (eexists; split; vm_compute; reflexivity). destruct EN as (n & En & Eb).
  assert (HP : forall s, s < 2 -> (0 < nth s (sn_belief n) 0)%Q -> s = 1).
  { intros [|[|s]] Hs Hp; [|reflexivity|lia]. exfalso. destruct (sn_belief n) as [|q t]; [discriminate|]. cbn in Eb, Hp. assert (Eq : Qred q = 0%Q) by congruence. pose proof (Qred_correct q) as Hq. rewrite Eq in Hq. lra. }
  assert (EE : nth_error (p_actions guess) 1 = Some nm).
  { apply (C134_pomdp guess ex_u ex_r 3 (1 # 2) true (fun n m => 1 / inject_Z (Z.of_nat m))%Q 1 0 0 1 [1 # 2; 1 # 2]%Q l guess_s2 n k fuel x r' x' nm 1 1 0); auto.
    - repeat split.
    - apply guess_stochastic.
    - apply ex_u_ok.
    - split; [reflexivity|]. split; [|vm_compute; reflexivity]. intros [|[|s]] Hs; change (nS guess) with 2 in Hs; try lia; vm_compute; discriminate.
    - split; vm_compute; congruence.
    - split; vm_compute; congruence.
    - split; vm_compute; congruence.
    - change (nA guess) with 2. change (nS guess) with 2. intros [|[|a]] [|[|s]] s' o Ha Hs _ _; try lia; split; vm_compute; discriminate.
    - lia.
    - intros s s' o (Hs & Hp & _). rewrite (HP _ Hs Hp). vm_compute. discriminate.
    - intros [|[|a]] s s' o Ha Hne (Hs & Hp & _); [|lia|change (length (p_actions guess)) with 2 in Ha; lia]. rewrite (HP _ Hs Hp). vm_compute. discriminate.
    - vm_compute. reflexivity. }
  vm_compute in EE. congruence.
Qed.
