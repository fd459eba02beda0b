(** C122: the values in the search with nodes shared by belief: bounded with a discount, not bounded without. *)
From Verif Require Import PyBase PyBaseFacts QBase PomdpModel PomdpSpec PomdpProofs BeliefModel EvalModel PolicyModel PomcpModel PomcpSpec
  PomcpProofs PomcpProofs2 ValueSpec ValueProofs SharedModel SharedSpec SharedProofs ShValueSpec ShValueProofs Props_Pomdp Props_Pomcp Props_Value Props_Shared.
From Coq Require Import Lia Lqa Field Qround.
Local Open Scope list_scope.
Local Open Scope nat_scope.

(** With a discount below one, and rewards from lo <= 0 to hi >= 0, every value held by a node or by an action is
    between lo / (1 - discount) and hi / (1 - discount), whatever the horizon, whichever beliefs are found the same,
    and after any operations. *)
Theorem C122_discounted : forall X St B H (P : search X St B H) same lo hi b l r n, (0 <= s_discount P < 1)%Q -> (0 <= s_alpha P <= 1)%Q ->
  (lo <= 0 <= hi)%Q -> rewards_in P lo hi -> strace P same b l r -> In n (sr_store r) ->
  s_valued (lo / (1 - s_discount P)) (hi / (1 - s_discount P)) n.
Proof.
  intros X St B H P same lo hi b l r n Hg Ha Hz HR T Hn. set (g := s_discount P) in *.
  assert (Hd : (0 < 1 - g)%Q) by lra.
  assert (E1 : (lo / (1 - g) == lo + g * (lo / (1 - g)))%Q) by (field; lra).
  assert (E2 : (hi / (1 - g) == hi + g * (hi / (1 - g)))%Q) by (field; lra).
  assert (Z1 : (lo / (1 - g) <= 0)%Q) by (apply Qle_shift_div_r; lra).
  assert (Z2 : (0 <= hi / (1 - g))%Q) by (apply Qle_shift_div_l; lra).
  apply inn_valued; [auto|]. eapply (ins_trace P same (lo / (1 - g)) (hi / (1 - g)) lo hi)%Q; eauto; fold g; lra.
Qed.
Print Assumptions C122_discounted.

(** *** Without a discount *)
(** The only node, after one simulation: it is its own child. *)
Definition seen (m : nat) (t : Q) : vavg := {| n_simulations := S m; total_value := t |}.
Definition self (av kv : vavg) : snode (list Q) := {| sn_avg := av; sn_belief := [1%Q]; sn_kids := [Some {| k_avg := kv; k_obs := [(0, 0)] |}] |}.
Lemma first x : exists x', s_simulate_from one_search same_array 1 None [sn_new one_search [1%Q]] 0 x = ([self (seen 0 1) (seen 0 1)], x', Ok 1%Q).
Proof. eexists. vm_compute. reflexivity. Qed.
Lemma best m t m' t' e rel x : best_action one_search (as_tree (self (seen m t) (seen m' t'))) e rel x = (Ok 0, x).
Proof. reflexivity. Qed.
Lemma moves x : exists x', s_transition one_search 0 0 x = (Ok (0, 0, 1%Q), x').
Proof. eexists. vm_compute. reflexivity. Qed.
Lemma samples x : exists x', s_sample one_search [1%Q] x = (Ok 0, x').
Proof. eexists. vm_compute. reflexivity. Qed.
Lemma again m t m' t' x : let full := (1 + s_discount one_search * avg_value (seen m t))%Q in
  exists x', s_simulate_from one_search same_array 1 None [self (seen m t) (seen m' t')] 0 x =
    ([self (avg_update 0 (seen m t) full) (avg_update 0 (seen m' t') full)], x', Ok full).
Proof.
  intros full. destruct (samples x) as [x1 E1]. destruct (moves x1) as [x2 E2]. exists x2.
  unfold s_simulate_from. cbn [nth_error]. change (sn_belief (self (seen m t) (seen m' t'))) with [1%Q]. rewrite E1.
  cbn [s_simulate nth_error]. change (s_reached one_search (s_horizon one_search)) with false. cbv iota. rewrite best. cbn [bind].
  change (sn_child (self (seen m t) (seen m' t')) 0) with (@Ok akid {| k_avg := seen m' t'; k_obs := [(0, 0)] |}). cbn [bind]. cbv zeta. rewrite E2.
  cbn [modify k_obs lookup Nat.eqb nth_error]. change (sn_safe 0 (self (seen m t) (seen m' t'))) with (self (seen m t) (seen m' t')).
  change (s_reached one_search (s_decrement one_search (s_horizon one_search) 0 0 0 0)) with true. cbv iota. reflexivity.
Qed.

Definition one_at (st : store (list Q)) : srunner (list Q) := {| sr_store := st; sr_history := []; sr_node := 0; sr_last := None |}.
Definition many (m : nat) : Q := inject_Z (Z.of_nat (S m)).
Lemma many_S m : (many (S m) == many m + 1)%Q.
Proof. unfold many. rewrite (Nat2Z.inj_succ (S m)), <- Z.add_1_r, inject_Z_plus. reflexivity. Qed.
Lemma many_pos m : (0 < many m)%Q.
Proof. apply nat_Q_pos. lia. Qed.
Lemma harmonic_S m : (harmonic (S m) == harmonic m + 1 / many m)%Q.
Proof. reflexivity. Qed.
Lemma runs : forall n m t m' t' x, (t == many m * harmonic (S m))%Q ->
  exists m2 t2 m3 t3 x', s_simulations one_search same_array n 1 (one_at [self (seen m t) (seen m' t')]) x = (one_at [self (seen m2 t2) (seen m3 t3)], x', Ok tt) /\
    m2 = m + n /\ (t2 == many m2 * harmonic (S m2))%Q.
Proof.
  induction n as [|n IH]; intros m t m' t' x Ht; cbn [s_simulations].
  - exists m, t, m', t', x. split; [reflexivity|split; [lia|auto]].
  - cbn [one_at sr_store sr_node sr_history sr_last]. destruct (again m t m' t' x) as [x1 E]. cbv zeta in E. rewrite E.
    set (full := (1 + s_discount one_search * avg_value (seen m t))%Q) in *.
    change (avg_update 0 (seen m t) full) with (seen (S m) ((t + full) * (1 - 0) + 0 * inject_Z (Z.of_nat (S m + 1)) * full)).
    change (avg_update 0 (seen m' t') full) with (seen (S m') ((t' + full) * (1 - 0) + 0 * inject_Z (Z.of_nat (S m' + 1)) * full)).
    edestruct (IH (S m)) as (m2 & t2 & m3 & t3 & x' & E2 & M2 & T2); [|exists m2, t2, m3, t3, x'; split; [exact E2|split; [lia|exact T2]]].
    assert (F : (full == 1 + harmonic (S m))%Q).
    { unfold full. change (s_discount one_search) with 1%Q. change (avg_value (seen m t)) with (t / many m)%Q. rewrite Ht. pose proof (many_pos m). field. lra. }
    rewrite F, Ht, (harmonic_S (S m)). pose proof (many_pos (S m)) as Hp. rewrite many_S in *. set (c := many m) in *. set (hh := harmonic (S m)) in *.
    set (z := inject_Z (Z.of_nat (S m + 1))). field. lra.
Qed.
(** n + 1 simulations from the start *)
Lemma all_runs n : exists r x', strace one_search same_array [1%Q] [EvAction (Some 0)] r /\
  s_get_action one_search same_array (S n) 1 (sr_reset [sn_new one_search [1%Q]]) 0 = (r, x', Ok (NStr "go")) /\
  exists k, sr_store r = [k] /\ n_simulations (sn_avg k) = S n /\ (held (sn_avg k) == harmonic (S n))%Q.
Proof.
  destruct (first 0) as [x1 E1]. destruct (runs n 0 1%Q 0 1%Q x1) as (m2 & t2 & m3 & t3 & x2 & E2 & M2 & T2); [vm_compute; reflexivity|].
  assert (E : s_get_action one_search same_array (S n) 1 (sr_reset [sn_new one_search [1%Q]]) 0 =
    ({| sr_store := [self (seen m2 t2) (seen m3 t3)]; sr_history := []; sr_node := 0; sr_last := Some 0 |}, x2, Ok (NStr "go"))).
  { unfold s_get_action. cbn [s_simulations sr_reset sr_store sr_node sr_history sr_last]. rewrite E1. cbv zeta. change {| sr_store := _; sr_history := []; sr_node := 0; sr_last := None |} with (one_at [self (seen 0 1) (seen 0 1)]).
    rewrite E2. cbn [one_at sr_store sr_node nth_error]. rewrite best. reflexivity. }
  eexists. exists x2. split; [|split; [exact E|]].
  - refine (st_action one_search same_array _ [] _ (S n) 1 0 _ x2 (NStr "go") _ E). apply (st_init one_search same_array 0 _ 0); reflexivity.
  - exists (self (seen m2 t2) (seen m3 t3)). split; [reflexivity|]. cbn [self sn_avg seen n_simulations]. split; [lia|].
    unfold held. cbn [seen n_simulations total_value]. fold (many m2). rewrite T2. replace n with m2 by lia. pose proof (many_pos m2). field. lra.
Qed.
(** The harmonic numbers have no bound. *)
Lemma harmonic_half m : 0 < m -> forall j, j <= m -> (harmonic m + inject_Z (Z.of_nat j) / (2 * inject_Z (Z.of_nat m)) <= harmonic (m + j))%Q.
Proof.
  intros Hm. pose proof (nat_Q_pos m Hm) as Hq. induction j as [|j IH]; intros Hj.
  - rewrite Nat.add_0_r. change (inject_Z (Z.of_nat 0)) with 0%Q. setoid_replace (0 / (2 * inject_Z (Z.of_nat m)))%Q with 0%Q by (field; lra). lra.
  - replace (m + S j) with (S (m + j)) by lia. rewrite harmonic_S. specialize (IH ltac:(lia)). fold (many j). change (inject_Z (Z.of_nat (S j))) with (many j).
    assert (Ej : (many j == inject_Z (Z.of_nat j) + 1)%Q) by (unfold many; rewrite Nat2Z.inj_succ, <- Z.add_1_r, inject_Z_plus; reflexivity). rewrite Ej.
    pose proof (many_pos (m + j)) as Hp.
    assert (Hle : (many (m + j) <= 2 * inject_Z (Z.of_nat m))%Q).
    { unfold many. change 2%Q with (inject_Z 2). rewrite <- inject_Z_mult, <- Zle_Qle. lia. }
    assert (Hi : (1 / (2 * inject_Z (Z.of_nat m)) <= 1 / many (m + j))%Q).
    { apply Qle_shift_div_l; [auto|]. setoid_replace (1 / (2 * inject_Z (Z.of_nat m)) * many (m + j))%Q with (many (m + j) / (2 * inject_Z (Z.of_nat m)))%Q by (field; lra).
      apply Qle_shift_div_r; lra. }
    setoid_replace ((inject_Z (Z.of_nat j) + 1) / (2 * inject_Z (Z.of_nat m)))%Q with (inject_Z (Z.of_nat j) / (2 * inject_Z (Z.of_nat m)) + 1 / (2 * inject_Z (Z.of_nat m)))%Q by (field; lra). lra.
Qed.
Lemma harmonic_pow k : (1 + inject_Z (Z.of_nat k) * (1 # 2) <= harmonic (2 ^ k))%Q.
Proof.
  induction k as [|k IH]; [vm_compute; discriminate|]. assert (Hk : 0 < 2 ^ k) by (apply Nat.neq_0_lt_0, Nat.pow_nonzero; lia).
  pose proof (harmonic_half (2 ^ k) Hk (2 ^ k) (Nat.le_refl _)) as Hh. replace (2 ^ S k) with (2 ^ k + 2 ^ k) by (cbn; lia). pose proof (nat_Q_pos _ Hk) as Hq.
  setoid_replace (inject_Z (Z.of_nat (2 ^ k)) / (2 * inject_Z (Z.of_nat (2 ^ k))))%Q with (1 # 2)%Q in Hh by (field; lra).
  rewrite Nat2Z.inj_succ, <- Z.add_1_r, inject_Z_plus. change (inject_Z 1) with 1%Q. lra.
Qed.
Lemma harmonic_unbounded (q : Q) : exists n, (q < harmonic (S n))%Q.
Proof.
  set (k := Z.to_nat (2 * Qceiling q)). exists (2 ^ k - 1). assert (Hk : 0 < 2 ^ k) by (apply Nat.neq_0_lt_0, Nat.pow_nonzero; lia).
  replace (S (2 ^ k - 1)) with (2 ^ k) by lia. pose proof (harmonic_pow k) as Hh.
  assert (Hq : (q <= inject_Z (Z.of_nat k) * (1 # 2))%Q); [|lra].
  pose proof (Qle_ceiling q) as Hc. assert (Hz : (inject_Z (2 * Qceiling q) <= inject_Z (Z.of_nat k))%Q) by (rewrite <- Zle_Qle; unfold k; lia).
  rewrite inject_Z_mult in Hz. change (inject_Z 2) with 2%Q in Hz. lra.
Qed.

(** With one state, one action and one observation, reward 1, no discount and a horizon of one transition, every
    return is 1, but the root is its own child, and each simulation adds the value of the root: after n + 1
    simulations it is 1 + 1/2 + ... + 1/(n + 1), which passes any bound. *)
Theorem C122_harmonic : mk_pomdp one_T one_T one_R one_start 1 None (Some [NStr "go"]) None "reward" true = Ok one /\
  rewards_in one_search 1 1 /\ (s_discount one_search == 1)%Q /\ Z.to_nat (nt_n (s_horizon one_search)) = 1 /\
  (forall n, exists r k, strace one_search same_array [1%Q] [EvAction (Some 0)] r /\ sr_store r = [k] /\ n_simulations (sn_avg k) = S n /\
    (held (sn_avg k) == harmonic (S n))%Q) /\
  (forall bound : Q, exists r k, strace one_search same_array [1%Q] [EvAction (Some 0)] r /\ nth_error (sr_store r) 0 = Some k /\ (bound < held (sn_avg k))%Q).
Proof.
  destruct C111_horizon_refuted as (_ & _ & M & R & Hh & _). split; [exact M|]. split; [exact R|]. split; [reflexivity|]. split; [exact Hh|].
  assert (A : forall n, exists r k, strace one_search same_array [1%Q] [EvAction (Some 0)] r /\ sr_store r = [k] /\ n_simulations (sn_avg k) = S n /\ (held (sn_avg k) == harmonic (S n))%Q).
  { intros n. destruct (all_runs n) as (r & x & T & _ & k & E & K1 & K2). exists r, k. auto. }
  split; [exact A|]. intros bound. destruct (harmonic_unbounded bound) as [n Hn]. destruct (A n) as (r & k & T & E & _ & V). exists r, k.
  split; [exact T|]. rewrite E. split; [reflexivity|]. rewrite V. exact Hn.
Qed.
Print Assumptions C122_harmonic.

(** The tiger, 4 simulations: two nodes or more, and a value below 0 *)
Definition ex_four := s_get_action ex_search same_array 4 3 ex_shared 0.
Example C122_ex : (0 <= s_discount ex_search < 1)%Q /\ (0 <= s_alpha ex_search <= 1)%Q /\ rewards_in ex_search (-100) 10 /\
  exists l r n, strace ex_search same_array [1 # 2; 1 # 2]%Q l r /\ l <> [] /\ 2 <= length (sr_store r) /\ In n (sr_store r) /\ (held (sn_avg n) < 0)%Q.
Proof.
  destruct C111_ex as (A & C & D & _). split; [exact A|]. split; [exact C|]. split; [exact D|].
  assert (V : match ex_four with (r, _, Ok nm) => match sr_store r with n :: _ :: _ => Qle_bool 0 (held (sn_avg n)) | _ => true end | _ => true end = false) by (vm_compute; reflexivity).
  destruct ex_four as [[r x] [nm|e]] eqn:E; [|discriminate V]. destruct (sr_store r) as [|n [|n' st]] eqn:Es; [discriminate V|discriminate V|].
  exists ([] ++ [EvAction (sr_last r)]), r, n.
  split; [refine (st_action ex_search same_array _ [] ex_shared 4 3 0 r x nm _ E); apply C95_ex_hypotheses|]. clear E. split; [discriminate|]. rewrite Es. cbn [length In]. split; [lia|]. split; [auto|].
  apply Qnot_le_lt. rewrite <- Qle_bool_iff. congruence.
Qed.
