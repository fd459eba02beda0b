(** Proofs for C96: trees and stores of the search can be exported. *)
From Verif Require Import PyBase PyBaseFacts QBase PomdpModel PomdpProofs BeliefModel PolicyModel PomcpModel PomcpSpec PolicySpec PolicyProofs PomcpProofs PomcpProofs2
  SharedModel SharedSpec SharedProofs SharedProofs3 ExportModel ExportSpec ExportProofs ExportProofs2 ExportProofs3.
From Coq Require Import Lia.
Local Open Scope list_scope.
Local Open Scope nat_scope.

Lemma exact_range p u r horizon exploration relative bonus rollout_it alpha b a o b' :
  may_follow (exact_search p u r horizon exploration relative bonus rollout_it alpha) b a o b' -> o < length (p_observations p).
Proof.
  intros (x & x' & E). cbn in E. assert (E' : array_successor p (Z.of_nat a) (Z.of_nat o) b = Ok b') by congruence. clear E. unfold array_successor, belief_update in E'.
  destruct (axis (length (p_actions p)) (Z.of_nat a)); cbn [bind] in E'; [|discriminate]. destruct (negb _); cbn [bind] in E'; [discriminate|].
  destruct (axis (length (p_observations p)) (Z.of_nat o)) as [o'|e] eqn:Eo; cbn [bind] in E'; [|discriminate]. clear E'.
  rewrite axis_nat in Eo. destruct (Nat.ltb_spec o (length (p_observations p))); [auto|discriminate].
Qed.

Section Search.
  Context {X St B H : Type}.
  Variable P : search X St B H.
  Hypothesis range : forall b a o b', may_follow P b a o b' -> o < length (s_observations P).

  Definition once (n : onode B) : Prop := forall a c, nth_error (o_kids n) a = Some (Some c) -> NoDup (map fst (a_kids c)).
  Lemma grows_once n n' : grows P n n' -> every once n -> every once n'.
  Proof.
    intros G HE. refine (grows_all P once _ _ _ _ _ n n' G HE); clear n n' G HE.
    - intros b a c E. destruct (no_kid _ _ _ _ E).
    - intros n v _ O a c E. apply (O a c E).
    - intros n a c E O a' c' E'. pose proof (safe_child_lt _ _ _ E) as Ha. destruct (Nat.eq_dec a' a) as [->|Hne].
      + rewrite kid_set_same in E' by auto. assert (c' = c) as -> by congruence. destruct (safe_child_cases _ _ _ E) as [Ek|[_ ->]]; [eapply O; eauto|constructor].
      + rewrite kid_set_other in E' by auto. eapply O; eauto.
    - intros n a c v E O a' c' E'. assert (Ha : a < length (o_kids n)) by (apply nth_error_Some; congruence). cbn [o_update o_kids] in E'. destruct (Nat.eq_dec a' a) as [->|Hne].
      + change (nth_error (o_kids (set_kid n a (a_update P c v))) a = Some (Some c')) in E'. rewrite kid_set_same in E' by auto. assert (c' = a_update P c v) as -> by congruence. apply (O a c E).
      + change (nth_error (o_kids (set_kid n a (a_update P c v))) a' = Some (Some c')) in E'. rewrite kid_set_other in E' by auto. eapply O; eauto.
    - intros n a c o m E _ O a' c' E'. assert (Ha : a < length (o_kids n)) by (apply nth_error_Some; congruence). destruct (Nat.eq_dec a' a) as [->|Hne].
      + rewrite kid_set_same in E' by auto. assert (c' = put c o m) as -> by congruence. cbn [put a_kids]. apply keys_upd_NoDup. eapply O; eauto.
      + rewrite kid_set_other in E' by auto. eapply O; eauto.
  Qed.
  Lemma trace_ready b l r : trace P b l r -> ready P (r_root r).
  Proof.
    intros T. pose proof (trace_balanced P _ _ _ T) as TB. apply trace_inv in T. pose proof (inv_grows P _ _ _ T) as G.
    assert (E : every (edges P) (r_root r)) by (eapply grows_edges; [exact G|]; apply every_new; intros a c o k Ek; destruct (no_kid _ _ _ _ Ek)).
    assert (O : every once (r_root r)) by (eapply grows_once; [exact G|]; apply every_new; intros a c Ek; destruct (no_kid _ _ _ _ Ek)).
    assert (Z : every (sized P) (r_root r)) by (eapply inv_sized; eauto). split.
    - intros h m F. split; [apply (Z h m F)|]. intros a c Ek. split; [apply (O h m F a c Ek)|]. intros o Ho. apply in_map_iff in Ho. destruct Ho as ([o' m'] & <- & Hin). cbn [fst].
      eapply range. apply (E h m F a c o' m' Ek). apply lookup_In_iff; [apply (O h m F a c Ek)|auto].
    - intros h m F. destruct (TB h m F) as (d & Hd & ->). lia.
  Qed.
  (** exports can follow one another *)
  Lemma kept_ready (n n' : onode B) : kept n n' -> ready P n -> ready P n'.
  Proof.
    intros K [T V]. assert (M : forall h m', PomcpSpec.find n' h = Some m' -> exists m, PomcpSpec.find n h = Some m /\ view_kept (t_view m) (t_view m')).
    { intros h m' F. specialize (K h). rewrite F in K. destruct (PomcpSpec.find n h) as [m|]; [eauto|destruct K]. }
    assert (N : forall m m' : onode B, view_kept (t_view m) (t_view m') -> o_count m' = o_count m /\ length (o_kids m') = length (o_kids m) /\
      forall a, match nth_error (o_kids m') a with
                | Some (Some c') => (exists c, nth_error (o_kids m) a = Some (Some c) /\ a_avg c' = a_avg c /\ map fst (a_kids c') = map fst (a_kids c)) \/
                                    nth_error (o_kids m) a = Some None /\ a_avg c' = avg_new /\ map fst (a_kids c') = []
                | Some None => nth_error (o_kids m) a = Some None
                | None => nth_error (o_kids m) a = None
                end).
    { intros m m' [V1 V2]. cbn [t_view fst snd] in V1, V2. pose proof (Forall2_length _ _ _ V2) as L. rewrite !map_length in L. split; [unfold o_count; congruence|]. split; [auto|]. intros a.
      destruct (nth_error (o_kids m') a) as [k'|] eqn:E'; [|apply nth_error_None; rewrite L; apply nth_error_None; auto].
      destruct (Forall2_nth_r _ _ _ V2 a (option_map (fun c => (a_avg c, map fst (a_kids c))) k')) as (k & Ek & R); [rewrite nth_error_map, E'; reflexivity|].
      rewrite nth_error_map in Ek. destruct (nth_error (o_kids m) a) as [k0|]; [|discriminate]. cbn [option_map] in Ek.
      assert (k = option_map (fun c => (a_avg c, map fst (a_kids c))) k0) as -> by congruence. destruct R as [R|[R1 R2]], k' as [c'|], k0 as [c0|]; cbn [option_map] in *; try discriminate; auto.
      - left. exists c0. split; [auto|]. split; congruence.
      - right. split; [auto|]. split; congruence. }
    split.
    - intros h m' F. destruct (M h m' F) as (m & Fm & Vm). destruct (N m m' Vm) as (_ & L & NA). destruct (T h m Fm) as [T1 T2]. split; [lia|]. intros a c' E'. specialize (NA a). rewrite E' in NA.
      destruct NA as [(c & Ec & _ & ->)|(_ & _ & ->)]; [apply (T2 a c Ec)|]. split; [constructor|intros o []].
    - intros h m' F. destruct (M h m' F) as (m & Fm & Vm). destruct (N m m' Vm) as (Cn & L & NA). rewrite Cn. pose proof (V h m Fm) as V0. unfold all_visits in *. rewrite L. rewrite (list_sum_ext _ (visits m)); [auto|].
      intros a _. specialize (NA a). unfold visits. destruct (nth_error (o_kids m') a) as [[c'|]|].
      + destruct NA as [(c & -> & Ea & _)|(-> & Ea & _)]; unfold a_count; rewrite Ea; reflexivity.
      + rewrite NA. auto.
      + rewrite NA. auto.
  Qed.

  Variable same : B -> B -> bool.
  Hypothesis same_refl : forall b, same b b = true.
  Hypothesis same_sym : forall b c, same b c = same c b.
  Lemma store_closed (Gd : B -> Prop) st : store_ok P same Gd st -> closed P same st.
  Proof.
    intros (S1 & S2 & _). split.
    - intros i j n m En Em E. destruct (Nat.lt_trichotomy i j) as [L|[L|L]]; [|auto|]; exfalso.
      + rewrite (S2 i j (sn_belief n) (sn_belief m) L) in E; [discriminate| |]; rewrite nth_error_map; [rewrite En|rewrite Em]; reflexivity.
      + rewrite same_sym, (S2 j i (sn_belief m) (sn_belief n) L) in E; [discriminate| |]; rewrite nth_error_map; [rewrite Em|rewrite En]; reflexivity.
    - intros i n En. pose proof (S1 n (nth_error_In _ _ En)) as NK. split; [apply NK|]. split; [apply NK|]. intros a k Ek. pose proof (obs_NoDup P same _ _ _ _ NK Ek) as ND. split; [auto|].
      intros o j Hin. destruct NK as (_ & _ & A3). assert (El : lookup o (k_obs k) = Some j) by (apply lookup_In_iff; auto). destruct (A3 a k o j Ek El) as (b & m & Em & Hm & _). split; [eapply range; eauto|].
      rewrite <- (map_length sn_belief). apply nth_error_Some. congruence.
  Qed.
  Lemma strace_closed b l r : strace P same b l r -> closed P same (sr_store r) /\ 0 < length (sr_store r).
  Proof.
    intros T. apply (strace_ok P same same_refl (fun _ => True)) in T; auto. destruct T as (S0 & (n & En & _) & _). split; [eapply store_closed; eauto|]. apply nth_error_Some. congruence.
  Qed.
End Search.
