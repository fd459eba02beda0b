(** C95: the search whose nodes are shared by belief, and its policy runner. *)
From Verif Require Import PyBase PyBaseFacts QBase PomdpModel PomdpSpec PomdpProofs BeliefModel EvalModel PolicyModel PolicyProofs PomcpModel PomcpSpec
  PomcpProofs PomcpProofs2 PomcpProofs3 Props_Pomdp Props_Belief Props_Pomcp SharedModel SharedSpec SharedProofs SharedProofs2 SharedProofs3.
From Coq Require Import Lia Lqa Field.
Local Open Scope list_scope.
Local Open Scope nat_scope.

(** The search over the tiger POMDP of Props_Pomcp, with shared nodes. *)
Definition ex_shared : srunner (list Q) := match fst (sr_init ex_search same_array BArray 0) with Ok r => r | Err _ => sr_reset [] end.
Lemma ex_strace : strace ex_search same_array [1 # 2; 1 # 2]%Q [] ex_shared.
Proof. apply (st_init ex_search same_array 0 _ 0); vm_compute; reflexivity. Qed.

(** Only exact beliefs are supported: any other kind raises ValueError when the search is created. *)
Theorem C95_kinds : forall X St B H (P : search X St B H) same kind x,
  (kind <> BArray -> sr_init P same kind x = (Err EValue, x)) /\
  (kind = BArray -> forall b x', s_start P x = (Ok b, x') -> exists r, sr_init P same kind x = (Ok r, x') /\ sr_history r = [] /\ sr_last r = None /\
    s_find (sr_store r) 0 [] = Some (sr_node r) /\ exists n, nth_error (sr_store r) (sr_node r) = Some n /\ sn_belief n = b).
Proof.
  intros X St B H P same kind x. split.
  - intros Hk. destruct kind; [congruence|reflexivity|reflexivity].
  - intros -> b x' Es. unfold sr_init. rewrite Es. cbn [bind]. eexists. split; [reflexivity|]. cbn. split; [auto|]. split; [auto|]. split; [auto|]. eexists. split; reflexivity.
Qed.
Print Assumptions C95_kinds.

Lemma run_of {X St B H} (P : search X St B H) same b l r : (forall c, same c c = true) -> strace P same b l r -> run_ok P same (fun _ => True) b l r.
Proof. intros R T. eapply strace_ok; eauto. Qed.

(** Two histories of equal beliefs lead to one node: nodes are shared exactly by belief. *)
Theorem C95_shared : forall X St B H (P : search X St B H) same b l r h1 h2 i j n m, (forall c, same c c = true) -> (forall c d, same c d = same d c) ->
  strace P same b l r -> s_find (sr_store r) 0 h1 = Some i -> s_find (sr_store r) 0 h2 = Some j -> nth_error (sr_store r) i = Some n -> nth_error (sr_store r) j = Some m ->
  (same (sn_belief n) (sn_belief m) = true <-> i = j).
Proof.
  intros X St B H P same b l r h1 h2 i j n m R Sy T F1 F2 En Em. apply run_of in T; auto. destruct T as (S0 & _). split.
  - intros E. eapply one_node; eauto.
  - intros ->. assert (m = n) as -> by congruence. auto.
Qed.
Print Assumptions C95_shared.

(** Every history that leads somewhere leads to a node, whose belief is obtained by filtering the start belief
    along it, up to sameness. *)
Theorem C95_filtered : forall X St B H (P : search X St B H) same b l r h i, (forall c, same c c = true) -> strace P same b l r -> s_find (sr_store r) 0 h = Some i ->
  exists n, nth_error (sr_store r) i = Some n /\ same_filters P same b h (sn_belief n).
Proof.
  intros X St B H P same b l r h i R T F. apply run_of in T; auto. destruct T as (S0 & (n & En & Eb) & _). rewrite <- Eb. eapply find_filters; eauto.
Qed.
Print Assumptions C95_filtered.

(** A node has an entry for each action and at least as many simulations as its actions have together. *)
Theorem C95_counts : forall X St B H (P : search X St B H) same b l r h i n, (forall c, same c c = true) -> strace P same b l r -> s_find (sr_store r) 0 h = Some i ->
  nth_error (sr_store r) i = Some n -> length (sn_kids n) = length (s_actions P) /\ s_all_visits n <= n_simulations (sn_avg n).
Proof.
  intros X St B H P same b l r h i n R T F En. apply run_of in T; auto. destruct T as ((S1 & _) & _). destruct (S1 n (nth_error_In _ _ En)) as (A & C & _). split; auto.
Qed.
Print Assumptions C95_counts.

(** The history and the last action are those of the operations, as for the search without sharing (C63), and the
    current node is the one the history leads to. *)
Theorem C95_history : forall X St B H (P : search X St B H) same b l r, (forall c, same c c = true) -> strace P same b l r ->
  (sr_last r, sr_history r) = fold_left expect l (None, []) /\ s_find (sr_store r) 0 (sr_history r) = Some (sr_node r) /\ exists n, nth_error (sr_store r) (sr_node r) = Some n.
Proof.
  intros X St B H P same b l r R T. apply run_of in T; auto. destruct T as (S0 & (n & En & _) & E & F). split; [auto|]. split; [auto|].
  destruct (find_filters P same _ _ S0 _ _ _ _ En F) as (m & Em & _). eauto.
Qed.
Print Assumptions C95_history.

(** No operation forgets a node or turns a history to another node; beliefs do not change and counts do not go
    down.  A step without action raises ValueError and changes nothing. *)
Theorem C95_kept : forall X St B H (P : search X St B H) same b l r, (forall c, same c c = true) -> strace P same b l r ->
  let kept (r' : srunner B) := forall h i n, s_find (sr_store r) 0 h = Some i -> nth_error (sr_store r) i = Some n ->
    s_find (sr_store r') 0 h = Some i /\ exists n', nth_error (sr_store r') i = Some n' /\ sn_belief n' = sn_belief n /\ n_simulations (sn_avg n) <= n_simulations (sn_avg n') in
  (forall k fuel x r' x' v, s_get_action P same k fuel r x = (r', x', v) -> kept r') /\
  (forall ob x r' x' v, s_step P same ob r x = (r', x', v) -> kept r' /\ sr_last r' = sr_last r /\ (forall e, v = Err e -> sr_history r' = sr_history r /\ sr_node r' = sr_node r)) /\
  (forall ob x, sr_last r = None -> s_step P same ob r x = (r, x, Err EValue)) /\
  kept (sr_reset (sr_store r)).
Proof.
  intros X St B H P same b l r R T kept. apply run_of in T; auto. destruct T as (S0 & _).
  assert (GF : forall (c : B) (a o : nat) (c1 : B), True -> may_follow P c a o c1 -> True) by auto.
  assert (K : forall r', extends (sr_store r) (sr_store r') -> kept r').
  { intros r' X1 h i n F En. split; [eapply find_extends; eauto|]. destruct (proj2 X1 i n En) as (n' & En' & E1 & E2 & _). exists n'. auto. }
  assert (K0 : kept r) by (apply K, extends_refl). split; [|split; [|split]].
  - intros k fuel x r' x' v E. unfold s_get_action in E. destruct (s_simulations P same k fuel r x) as [[r1 y] w] eqn:Es.
    destruct (s_simulations_ok P same R (fun _ => True) GF _ _ _ _ _ _ _ S0 Es) as (_ & X1 & _). apply K.
    destruct w as [w|e]; [|assert (r' = r1) as -> by congruence; auto]. destruct (nth_error (sr_store r1) (sr_node r1)) as [n|]; [|assert (r' = r1) as -> by congruence; auto].
    destruct (best_action P (as_tree n) 0 false y) as [[a|e] z]; [|assert (r' = r1) as -> by congruence; auto].
    match type of E with (?q, _, _) = _ => assert (r' = q) as -> by congruence end. exact X1.
  - intros ob x r' x' v E. unfold s_step in E. assert (Q0 : r' = r -> kept r' /\ sr_last r' = sr_last r /\ (forall e, v = Err e -> sr_history r' = sr_history r /\ sr_node r' = sr_node r)) by (intros ->; auto).
    destruct (sr_last r) as [a|] eqn:El; [|apply Q0; congruence]. destruct (list_index (s_observations P) ob) as [o|e]; [|apply Q0; congruence]. cbv zeta in E.
    destruct (s_get_node P same (sr_store r) 0 (sr_history r ++ [(a, o)]) x) as [[st y] w] eqn:Eg. destruct (s_get_node_ok P same R (fun _ => True) GF _ _ _ _ _ _ _ S0 Eg) as (_ & X1 & _).
    destruct w as [i|e]; match type of E with (?q, _, _) = _ => assert (r' = q) as -> by congruence end; (split; [apply K; exact X1|]; split; [cbn; congruence|]).
    + intros e Ee. congruence.
    + auto.
  - intros ob x E. unfold s_step. rewrite E. reflexivity.
  - apply K. apply extends_refl.
Qed.
Print Assumptions C95_kept.

(** Exact beliefs: the node at the end of a history holds the posterior of the start distribution given the
    history, as the sums over all paths of states define it; and histories with equal posteriors share their
    node. *)
Theorem C95_exact : forall p u r horizon exploration relative bonus rollout_it alpha b l rn h i n, stochastic p -> distribution p b ->
  strace (exact_search p u r horizon exploration relative bonus rollout_it alpha) same_array b l rn -> s_find (sr_store rn) 0 h = Some i -> nth_error (sr_store rn) i = Some n ->
  ~ (history p b h == 0)%Q /\ length (sn_belief n) = nS p /\ forall s, s < nS p -> (nth s (sn_belief n) 0 == history_end p b h s / history p b h)%Q.
Proof.
  intros p u r horizon exploration relative bonus rollout_it alpha b l rn h i n ST D T F En. destruct (C95_filtered _ _ _ _ _ _ _ _ _ _ _ same_array_refl T F) as (m & Em & FB).
  assert (m = n) as -> by congruence. destruct (same_filters_exact p u r horizon exploration relative bonus rollout_it alpha ST _ _ _ FB D b (same_array_refl b)) as (HF & nb & E & Es).
  destruct (C40_history p b h ST D HF) as [C0 C1]. assert (NZ : ~ (history p b h == 0)%Q) by (intros Z0; rewrite (C0 Z0) in E; discriminate). split; [auto|].
  destruct (C1 NZ) as (nb' & E' & D' & V). assert (nb' = nb) as -> by congruence. apply same_array_iff in Es. destruct Es as [L Es]. split; [rewrite L; apply D'|].
  intros s Hs. rewrite Es, <- (V s Hs). field. auto.
Qed.
Print Assumptions C95_exact.
Theorem C95_exact_shared : forall p u r horizon exploration relative bonus rollout_it alpha b l rn h1 h2 i j, stochastic p -> distribution p b ->
  strace (exact_search p u r horizon exploration relative bonus rollout_it alpha) same_array b l rn -> s_find (sr_store rn) 0 h1 = Some i -> s_find (sr_store rn) 0 h2 = Some j ->
  (i = j <-> forall s, s < nS p -> (history_end p b h1 s / history p b h1 == history_end p b h2 s / history p b h2)%Q).
Proof.
  intros p u r horizon exploration relative bonus rollout_it alpha b l rn h1 h2 i j ST D T F1 F2.
  destruct (C95_filtered _ _ _ _ _ _ _ _ _ _ _ same_array_refl T F1) as (n & En & _). destruct (C95_filtered _ _ _ _ _ _ _ _ _ _ _ same_array_refl T F2) as (m & Em & _).
  destruct (C95_exact _ _ _ _ _ _ _ _ _ _ _ _ _ _ _ ST D T F1 En) as (_ & L1 & V1). destruct (C95_exact _ _ _ _ _ _ _ _ _ _ _ _ _ _ _ ST D T F2 Em) as (_ & L2 & V2).
  rewrite <- (C95_shared _ _ _ _ _ _ _ _ _ _ _ _ _ _ _ same_array_refl same_array_sym T F1 F2 En Em). rewrite same_array_iff. split.
  - intros [_ V] s Hs. rewrite <- V1, <- V2 by auto. apply V.
  - intros V. split; [congruence|]. intros s. destruct (Nat.lt_ge_cases s (nS p)) as [Hs|Hs]; [rewrite V1, V2 by auto; auto|].
    rewrite !nth_overflow by lia. reflexivity.
Qed.
Print Assumptions C95_exact_shared.

(** With exact beliefs and any outcome of the random draws, no exception is raised by simulations from any node,
    nor by get_action, which returns an action of the POMDP, given one rollout or more and fuel for the horizon:
    cycles between shared nodes do no harm. *)
Theorem C95_simulation : forall p u r horizon exploration relative bonus rollout_it alpha b l rn, well_shaped p -> stochastic p -> (forall i, 0 <= u i < 1)%Q ->
  0 < nA p -> 0 < rollout_it -> distribution p b -> let P := exact_search p u r horizon exploration relative bonus rollout_it alpha in strace P same_array b l rn ->
  forall h i action fuel x, s_find (sr_store rn) 0 h = Some i -> (forall a, action = Some a -> a < nA p) -> Z.to_nat horizon <= fuel ->
  exists st' x' v, s_simulate_from P same_array fuel action (sr_store rn) i x = (st', x', Ok v).
Proof.
  intros p u r horizon exploration relative bonus rollout_it alpha b l rn WS ST HU HA HR D P T h i action fuel x F Hact Hf.
  destruct (C95_filtered _ _ _ _ _ _ _ _ _ _ _ same_array_refl T F) as (n & En & _).
  apply (strace_ok P same_array same_array_refl (distribution p)) in T; [|apply follow_distribution; auto|auto]. eapply s_simulate_from_succeeds; eauto. apply T.
Qed.
Print Assumptions C95_simulation.
Theorem C95_get_action : forall p u r horizon exploration relative bonus rollout_it alpha b l rn, well_shaped p -> stochastic p -> (forall i, 0 <= u i < 1)%Q ->
  0 < nA p -> 0 < rollout_it -> distribution p b -> let P := exact_search p u r horizon exploration relative bonus rollout_it alpha in strace P same_array b l rn ->
  forall k fuel x, Z.to_nat horizon <= fuel -> exists rn' x' nm, s_get_action P same_array k fuel rn x = (rn', x', Ok nm) /\ In nm (p_actions p).
Proof.
  intros p u r horizon exploration relative bonus rollout_it alpha b l rn WS ST HU HA HR D P T k fuel x Hf.
  destruct (C95_history _ _ _ _ _ _ _ _ _ same_array_refl T) as (_ & _ & n & En).
  apply (strace_ok P same_array same_array_refl (distribution p)) in T; [|apply follow_distribution; auto|auto]. eapply s_get_action_succeeds; eauto. apply T.
Qed.
Print Assumptions C95_get_action.
(** A step raises Impossible exactly when the observation has probability zero, and succeeds otherwise. *)
Theorem C95_step : forall p u r horizon exploration relative bonus rollout_it alpha b l rn, stochastic p ->
  distribution p b -> let P := exact_search p u r horizon exploration relative bonus rollout_it alpha in strace P same_array b l rn ->
  forall a o ob x n, sr_last rn = Some a -> a < nA p -> list_index (p_observations p) ob = Ok o -> nth_error (sr_store rn) (sr_node rn) = Some n ->
  exists rn', ((prob_obs p (sn_belief n) a o == 0)%Q -> s_step P same_array ob rn x = (rn', x, Err EImpossible)) /\
              (~ (prob_obs p (sn_belief n) a o == 0)%Q -> s_step P same_array ob rn x = (rn', x, Ok tt)).
Proof.
  intros p u r horizon exploration relative bonus rollout_it alpha b l rn ST D P T a o ob x n HL Ha Ho En.
  assert (Ho' : o < nO p) by (apply list_index_ok in Ho; apply nth_error_Some; congruence).
  apply (strace_ok P same_array same_array_refl (distribution p)) in T; [|apply follow_distribution; auto|auto]. destruct T as (S0 & (n0 & E0 & _) & _ & F).
  destruct (s_get_node_succeeds p u r horizon exploration relative bonus rollout_it alpha ST _ _ _ _ _ _ x a o S0 E0 F En Ha Ho') as [I0 I1]. fold P in I0, I1.
  unfold s_step. rewrite HL. change (s_observations P) with (p_observations p). rewrite Ho. cbv zeta.
  destruct (Qeq_dec (prob_obs p (sn_belief n) a o) 0) as [Z0|Z0].
  - destruct (I0 Z0) as [st' ->]. eexists. split; [reflexivity|tauto].
  - destruct (I1 Z0) as (st' & j & ->). eexists. split; [tauto|reflexivity].
Qed.
Print Assumptions C95_step.

(** As long as no two histories lead to one node, the search is the one without sharing: the same operations with
    the same random draws give the same outcomes, and all nodes hold the same. *)
Theorem C95_unshared : forall X St B H (P : search X St B H) same x r x' l, (forall c, same c c = true) -> sr_init P same BArray x = (Ok r, x') ->
  unshared (fst (run (shared_op P same) r l)) ->
  exists t, r_init P x = (Ok t, x') /\ snd (run (plain_op P) t l) = snd (run (shared_op P same) r l) /\ agree (fst (run (shared_op P same) r l)) (fst (run (plain_op P) t l)).
Proof.
  intros X St B H P same x r x' l R E U. destruct (init_refines P same x r x' E) as (t & Et & J0). exists t. split; [auto|].
  destruct (run_refines P same R l r t J0 U) as [E1 J1]. split; [auto|]. apply (J_agree P same). auto.
Qed.
Print Assumptions C95_unshared.
(** Non-vacuity: the tiger meets all hypotheses; hearing the tiger left and then right leads back to the start
    belief and hence to the root, whose simulations then exceed those of its actions. *)
Example C95_ex : let '(rn, _, v) := s_get_action ex_search same_array 8 3 ex_shared 0 in
  (v, sr_node rn, s_find (sr_store rn) 0 [(0, 1)], s_find (sr_store rn) 0 [(0, 1); (0, 0)], length (sr_store rn), option_map s_all_visits (nth_error (sr_store rn) 0),
   option_map (fun n => (n_simulations (sn_avg n), map Qred (sn_belief n))) (nth_error (sr_store rn) 0)) =
  (Ok (NStr "listen"), 0, Some 1, Some 0, 3, Some 10, Some (15, [1 # 2; 1 # 2]%Q)).
Proof. vm_compute. reflexivity. Qed.
Example C95_ex_hypotheses : well_shaped tiger /\ stochastic tiger /\ distribution tiger [1 # 2; 1 # 2]%Q /\ 0 < nA tiger /\ strace ex_search same_array [1 # 2; 1 # 2]%Q [] ex_shared /\
  exists rn x nm, s_get_action ex_search same_array 2 3 ex_shared 0 = (rn, x, Ok nm) /\ In nm (p_actions tiger).
Proof.
  assert (D : distribution tiger [1 # 2; 1 # 2]%Q) by (split; [reflexivity|]; split; [|vm_compute; reflexivity]; intros [|[|s]] H; change (nS tiger) with 2 in H; try lia; vm_compute; discriminate).
  assert (W : well_shaped tiger) by (vm_compute; auto). split; [auto|]. split; [apply tiger_stochastic|]. split; [auto|]. split; [vm_compute; lia|]. split; [apply ex_strace|].
  eapply (C95_get_action tiger ex_u ex_r 3); eauto using tiger_stochastic, ex_u_ok, ex_strace; vm_compute; lia.
Qed.
Example C95_ex_step : let '(r1, x1, v1) := s_get_action ex_search same_array 6 3 ex_shared 0 in let '(r2, x2, v2) := s_step ex_search same_array (NInt 1) r1 x1 in
  (v1, v2, sr_history r2, sr_node r2, sr_last r2, snd (s_step ex_search same_array (NInt 5) r2 x2)) = (Ok (NStr "listen"), Ok tt, [(0, 1)], 1, Some 0, Err EValue).
Proof. vm_compute. reflexivity. Qed.
(** Listening only: no belief comes back, and the histories to the four nodes are unique. *)
Definition ex_ops := [OpAction 0 0 2; OpStep (NInt 1) 5; OpAction 0 0 2; OpStep (NInt 1) 6; OpReset; OpAction 1 3 1].
Fixpoint walk_links (ls : list (list (option (list (nat * nat))))) (i : nat) (h : list (nat * nat)) : option nat :=
  match h with
  | [] => Some i
  | (a, o) :: h => match nth_error ls i with
                   | Some ks => match nth_error ks a with Some (Some k) => match lookup o k with Some j => walk_links ls j h | None => None end | _ => None end
                   | None => None
                   end
  end.
Lemma find_links {B} (st : store B) : forall h i, s_find st i h = walk_links (map (fun n => map (option_map k_obs) (sn_kids n)) st) i h.
Proof.
  induction h as [|[a o] h IH]; intros i; cbn [s_find walk_links]; [auto|]. rewrite nth_error_map. destruct (nth_error st i) as [n|]; cbn [option_map]; [|auto].
  rewrite nth_error_map. destruct (nth_error (sn_kids n) a) as [[k|]|]; cbn [option_map]; auto. destruct (lookup o (k_obs k)); auto.
Qed.
Example C95_ex_unshared : unshared (fst (run (shared_op ex_search same_array) ex_shared ex_ops)) /\
  snd (run (shared_op ex_search same_array) ex_shared ex_ops) =
  [OutAction 3 (Ok (NStr "listen")); OutStep 5 (Ok tt); OutAction 3 (Ok (NStr "listen")); OutStep 6 (Ok tt); OutReset; OutAction 20 (Ok (NStr "left"))].
Proof.
  split; [|vm_compute; reflexivity]. intros h1 h2 i. rewrite !find_links.
  assert (L : map (fun n => map (option_map k_obs) (sn_kids n)) (sr_store (fst (run (shared_op ex_search same_array) ex_shared ex_ops))) =
    [[Some [(1, 1); (0, 3)]; None; None]; [Some [(1, 2)]; None; None]; [None; None; None]; [None; None; None]]) by (vm_compute; reflexivity).
  rewrite L. clear L. set (ls := [_; _; _; _]).
  assert (E : forall h i, walk_links ls 0 h = Some i -> (h, i) = ([], 0) \/ (h, i) = ([(0, 1)], 1) \/ (h, i) = ([(0, 1); (0, 1)], 2) \/ (h, i) = ([(0, 0)], 3)).
  { assert (N : forall j h k, 2 <= j -> walk_links ls j h = Some k -> h = [] /\ k = j).
    { intros j [|[a o] h] k Hj E; cbn [walk_links] in E; [split; congruence|]. destruct j as [|[|[|[|j]]]]; [lia|lia| | |].
      - destruct a as [|[|[|[|a]]]]; discriminate.
      - destruct a as [|[|[|[|a]]]]; discriminate.
      - cbn in E. destruct j; discriminate. }
    intros [|[a o] h] k E; cbn [walk_links] in E; [left; congruence|]. destruct a as [|[|[|[|a]]]]; try discriminate. cbn [ls nth_error lookup] in E. fold ls in E.
    destruct (eq_dec o 1) as [->|]; [|destruct (eq_dec o 0) as [->|]; [apply N in E; [|lia]; destruct E as [-> ->]; auto|discriminate]].
    destruct h as [|[a o] h]; cbn [walk_links] in E; [right; left; congruence|]. destruct a as [|[|[|[|a]]]]; try discriminate. cbn [ls nth_error lookup] in E. fold ls in E.
    destruct (eq_dec o 1) as [->|]; [|discriminate]. apply N in E; [|lia]. destruct E as [-> ->]. auto. }
  intros E1 E2. apply E in E1, E2. destruct E1 as [E1|[E1|[E1|E1]]], E2 as [E2|[E2|[E2|E2]]]; congruence.
Qed.
