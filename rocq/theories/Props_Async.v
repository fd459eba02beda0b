(** C64 and C84: the asynchronous policy runner. *)
From Verif Require Import PomdpSpec PomdpProofs Props_Pomdp PyBase PyBaseFacts QBase PomdpModel BeliefModel EvalModel PolicyModel PomcpModel AsyncModel PomcpSpec PomcpProofs PomcpProofs2 Props_Pomcp AsyncSpec.
From Coq Require Import Lia.
Local Open Scope list_scope.
Local Open Scope nat_scope.

Section Proofs.
  Context {X St B H : Type}.
  Variable P : search X St B H.
  Variables iterations fuel : nat.
  Notation execution := (execution P iterations fuel).

  (** the target of the explorer while the user is where they are *)
  Definition synced (r : runner B) (t : explorer) (l : list happened) : Prop :=
    t_node t = r_node r /\ (t_action t = None \/ exists a, t_action t = Some a /\ last_choice l = Some (r_node r, a)).
  Definition was_chosen (t : explorer) (l : list happened) : Prop := t_action t = None \/ exists a, t_action t = Some a /\ last_at (t_node t) l = Some a.
  Definition place (r : runner B) (t : explorer) (l : list happened) (us : user) : Prop :=
    match us with
    | UIdle | UJoin | UWait SGet | UIn SGet | UWait SStop | UIn SStop => synced r t l
    | UWait (SNode n) | UIn (SNode n) => n = r_node r
    | UWait (SAction a) | UIn (SAction a) => synced r t l /\ exists c, a = Some c
    end.
  Definition locked (k : option owner) (us : user) (th : thread) : Prop :=
    match us with UIn _ => k = Some OUser | _ => k <> Some OUser end /\ match th with TIn | TOut => k = Some OThread | _ => k <> Some OThread end.
  Definition stopping (t : explorer) (th : thread) (us : user) (l : list happened) : Prop :=
    (t_done t = true <-> In Stopped l) /\ match th with TWait | TIn => after_stop l = 0 | _ => after_stop l <= 1 end /\ (us = UJoin -> t_done t = true).

  Record jinv (b : B) (l : list happened) (st : astate X B) : Prop := {
    j_trace : exists evs, trace P b evs (a_runner st);
    j_place : place (a_runner st) (a_explorer st) l (a_user st);
    j_chosen : was_chosen (a_explorer st) l;
    j_find : exists n, find (r_root (a_runner st)) (t_node (a_explorer st)) = Some n;
    j_lock : locked (a_lock st) (a_user st) (a_thread st);
    j_stop : stopping (a_explorer st) (a_thread st) (a_user st) l }.

  Lemma last_choice_at l n a : last_choice l = Some (n, a) -> last_at n l = Some a.
  Proof. induction l as [|[n' a'|n' a'|] l IH]; cbn; intros E; [discriminate| |auto|auto]. assert (n' = n /\ a' = a) as [-> ->] by (split; congruence). destruct (path_dec n n); congruence. Qed.

  Lemma execution_inv b l st : execution b l st -> jinv b l st.
  Proof.
    induction 1 as [x r x' Hs Hr|l st lb st' E I S|l r x t k us th x' E I].
    - pose proof (tr_init P x b x' r Hs Hr) as T. unfold r_init in Hr. rewrite Hs in Hr. cbn [bind] in Hr. assert (r = r_reset (o_new P b)) as -> by congruence.
      split; cbn; eauto; [split; auto|left; auto|split; discriminate|]. split; [|split; [auto|discriminate]]. split; [discriminate|intros []].
    - destruct I as [[evs T] JP JC [n0 F] JL JS].
      destruct S; cbn [a_runner a_world a_explorer a_lock a_user a_thread] in *.
      + (* step *) destruct (step_keep P _ _ _ _ _ _ H0) as (G & a & o & _ & Ho & _ & _ & Hn & _). destruct (grows_find P _ _ G _ _ F) as (n1 & F1 & _).
        split; cbn [a_runner a_world a_explorer a_lock a_user a_thread]; [eexists; eapply tr_step; eauto|reflexivity|auto|eauto|exact JL|]. destruct JS as (S1 & S2 & S3). split; [auto|split; [auto|discriminate]].
      + destruct (step_keep P _ _ _ _ _ _ H0) as (G & Hh & Hn & Hl). destruct (grows_find P _ _ G _ _ F) as (n1 & F1 & _).
        split; cbn [a_runner a_world a_explorer a_lock a_user a_thread]; [eexists; eapply tr_step_fail; eauto| |auto|eauto|exact JL|exact JS]. cbn [place] in *. unfold synced in *. rewrite Hn. auto.
      + split; cbn [a_runner a_world a_explorer a_lock a_user a_thread]; [eexists; eapply tr_reset; eauto|reflexivity|auto|eauto|exact JL|]. destruct JS as (S1 & S2 & S3). split; [auto|split; [auto|discriminate]].
      + split; cbn [a_runner a_world a_explorer a_lock a_user a_thread]; eauto. destruct JS as (S1 & S2 & S3). split; [auto|split; [auto|discriminate]].
      + split; cbn [a_runner a_world a_explorer a_lock a_user a_thread]; eauto. destruct JS as (S1 & S2 & S3). split; [auto|split; [auto|discriminate]].
      + split; cbn [a_runner a_world a_explorer a_lock a_user a_thread]; eauto; [|destruct JS as (S1 & S2 & S3); split; [auto|split; [auto|discriminate]]].
        destruct JL as [L1 L2]. split; [auto|]. destruct th; congruence.
      + cbn [place] in JP. subst n. pose proof (trace_inv P _ _ _ T) as TI. destruct (inv_find _ _ _ _ TI) as [m Fm].
        split; cbn [a_runner a_world a_explorer a_lock a_user a_thread set_node t_node t_action]; eauto.
        * split; cbn; auto.
        * left; auto.
        * destruct JL as [L1 L2]. split; [discriminate|]. destruct th; congruence.
        * destruct JS as (S1 & S2 & S3). split; [auto|split; [auto|discriminate]].
      + cbn [place] in JP. destruct JP as [[Hn _] (c & ->)].
        split; cbn [a_runner a_world a_explorer a_lock a_user a_thread set_action t_node t_action]; eauto.
        * split; cbn; auto. right. eauto.
        * right. exists c. split; [reflexivity|]. cbn. rewrite Hn. destruct (path_dec (r_node r) (r_node r)); congruence.
        * destruct JL as [L1 L2]. split; [discriminate|]. destruct th; congruence.
        * destruct JS as (S1 & S2 & S3). split; [|split; [exact S2|discriminate]]. rewrite S1. cbn. split; [auto|intros [E0|E0]; [discriminate|auto]].
      + destruct (get_action_keep P _ _ _ _ _ _ _ H0) as (G & _ & Hn & _). destruct (grows_find P _ _ G _ _ F) as (n1 & F1 & _). cbn [place] in JP.
        destruct (proj2 (get_action_pick P _ _ _ _ _ _ _ _ _ (trace_inv P _ _ _ T) H0) _ eq_refl) as (a & _ & _ & _ & _ & _ & _ & _ & L & _).
        split; cbn [a_runner a_world a_explorer a_lock a_user a_thread]; [eexists; eapply tr_action; eauto| |auto|eauto| |].
        * split; [|eauto]. unfold synced in *. rewrite Hn. auto.
        * destruct JL as [L1 L2]. split; [discriminate|]. destruct th; congruence.
        * destruct JS as (S1 & S2 & S3). split; [auto|split; [auto|discriminate]].
      + destruct (get_action_keep P _ _ _ _ _ _ _ H0) as (G & _ & Hn & _). destruct (grows_find P _ _ G _ _ F) as (n1 & F1 & _). cbn [place] in JP.
        split; cbn [a_runner a_world a_explorer a_lock a_user a_thread]; [eexists; eapply tr_action_fail; eauto| |auto|eauto| |].
        * unfold place, synced in *. rewrite Hn. auto.
        * destruct JL as [L1 L2]. split; [discriminate|]. destruct th; congruence.
        * destruct JS as (S1 & S2 & S3). split; [auto|split; [auto|discriminate]].
      + cbn [place] in JP. split; cbn [a_runner a_world a_explorer a_lock a_user a_thread set_done t_node t_action]; eauto.
        * destruct JL as [L1 L2]. split; [discriminate|]. destruct th; congruence.
        * destruct JS as (S1 & S2 & S3). split; [split; cbn; auto|]. split; [exact S2|auto].
      + split; cbn [a_runner a_world a_explorer a_lock a_user a_thread]; eauto. destruct JS as (S1 & S2 & S3). split; [auto|split; [auto|discriminate]].
      + split; cbn [a_runner a_world a_explorer a_lock a_user a_thread]; eauto. destruct JL as [L1 L2]. split; [destruct us; congruence|auto].
      + pose proof (at_node_grows P _ (simulate_from_grows P fuel (t_action t)) _ _ _ _ _ _ H0) as G. destruct (grows_find P _ _ G _ _ F) as (n1 & F1 & _).
        split; cbn [a_runner a_world a_explorer a_lock a_user a_thread]; [eexists; eapply tr_explore; eauto| | |eauto|exact JL|].
        * destruct us as [|[]|[]|]; cbn [place synced r_node last_choice] in *; auto.
        * destruct JC as [JC|(c & JC & Hi)]; [left; auto|right; exists c; split; auto].
        * destruct JS as (S1 & S2 & S3). split; [rewrite S1; cbn; split; [auto|intros [E0|E0]; [discriminate|auto]]|]. split; [|auto]. cbn [after_stop]. destruct (in_dec stop_dec Stopped l); lia.
      + pose proof (at_node_grows P _ (simulate_from_grows P fuel (t_action t)) _ _ _ _ _ _ H0) as G. destruct (grows_find P _ _ G _ _ F) as (n1 & F1 & _).
        split; cbn [a_runner a_world a_explorer a_lock a_user a_thread]; [eexists; eapply tr_explore; eauto| | |eauto| |].
        * destruct us as [|[]|[]|]; cbn [place synced r_node last_choice] in *; auto.
        * destruct JC as [JC|(c & JC & Hi)]; [left; auto|right; exists c; split; auto].
        * destruct JL as [L1 L2]. split; [destruct us; congruence|discriminate].
        * destruct JS as (S1 & S2 & S3). split; [rewrite S1; cbn; split; [auto|intros [E0|E0]; [discriminate|auto]]|]. split; [|auto]. cbn [after_stop]. destruct (in_dec stop_dec Stopped l); lia.
      + split; cbn [a_runner a_world a_explorer a_lock a_user a_thread]; eauto.
        * destruct JL as [L1 L2]. split; [destruct us; congruence|destruct (t_done t); discriminate].
        * destruct JS as (S1 & S2 & S3). split; [auto|]. split; [|auto]. destruct (t_done t) eqn:Ed; [auto|].
          clear - S1 S2. assert (NS : ~ In Stopped l) by (intros Hi; apply S1 in Hi; discriminate). clear S1 S2. induction l as [|[n a|n a|] l IH]; cbn in *; [auto|apply IH; intros Hi; apply NS; auto| |exfalso; apply NS; auto]. destruct (in_dec stop_dec Stopped l); [tauto|]. apply IH. tauto.
    - destruct I as [JT JP JC JF JL JS]. split; auto.
  Qed.
End Proofs.

(** *** C64 *)
(** The action forced in an exploration is the last one that get_action returned at the very node explored. *)
Theorem C64_forced : forall X St B H (P : search X St B H) iterations fuel b l st l1 n a l2, execution P iterations fuel b l st ->
  l = l1 ++ Explored n (Some a) :: l2 -> last_at n l2 = Some a.
Proof.
  intros X St B H P iterations fuel b l st l1 n a l2 E. revert l1. induction E as [x r x' Hs Hr|l st lb st' E IH S|l r x t k us th x' E IH]; intros l1 El; [destruct l1; discriminate| |eauto].
  pose proof (execution_inv P iterations fuel _ _ _ E) as I.
  assert (K : forall ev, ev <> Explored n (Some a) -> ev :: l = l1 ++ Explored n (Some a) :: l2 -> last_at n l2 = Some a).
  { intros ev Hne Ee. destruct l1 as [|ev' l1]; cbn [app] in Ee; [congruence|]. apply (IH l1). congruence. }
  destruct lb as [|[c|]|n' a'| |]; [exact (IH _ El)|refine (K _ _ El); discriminate|exact (IH _ El)| |refine (K _ _ El); discriminate|exact (IH _ El)].
  destruct l1 as [|ev l1]; cbn [app] in El; [|apply (IH l1); congruence]. injection El as -> -> ->.
  destruct (j_chosen _ _ _ _ I) as [C|(c & C & Hi)]; inversion S; subst; cbn [a_explorer] in *; congruence.
Qed.
Print Assumptions C64_forced.
(** Between calls the explorer is at the node of the user, and its forced action if any is the last choice, made
    at this node. *)
Theorem C64_current : forall X St B H (P : search X St B H) iterations fuel b l st, execution P iterations fuel b l st -> a_user st = UIdle ->
  t_node (a_explorer st) = r_node (a_runner st) /\ forall a, t_action (a_explorer st) = Some a -> last_choice l = Some (r_node (a_runner st), a).
Proof.
  intros X St B H P iterations fuel b l st E Hu. pose proof (j_place _ _ _ _ (execution_inv P iterations fuel _ _ _ E)) as I. rewrite Hu in I. destruct I as [I1 [I2|(a & I2 & I3)]]; split; auto; intros c Hc; congruence.
Qed.
Print Assumptions C64_current.
(** The node explored is always in the tree, and the runner is always one of the runners of C58 to C63, whose
    theorems hold of it. *)
Theorem C64_tree : forall X St B H (P : search X St B H) iterations fuel b l st, execution P iterations fuel b l st ->
  (exists n, find (r_root (a_runner st)) (t_node (a_explorer st)) = Some n) /\ exists evs, trace P b evs (a_runner st).
Proof. intros X St B H P iterations fuel b l st E. apply execution_inv in E. split; apply E. Qed.
Print Assumptions C64_tree.
(** Explorations and functions run with [execute] exclude each other. *)
Theorem C64_exclusion : forall X St B H (P : search X St B H) iterations fuel b l st, execution P iterations fuel b l st -> ~ (user_inside st /\ thread_inside st).
Proof.
  intros X St B H P iterations fuel b l st E [[c Hu] Ht]. destruct (j_lock _ _ _ _ (execution_inv P iterations fuel _ _ _ E)) as [L1 L2]. rewrite Hu in L1. destruct Ht as [Ht|Ht]; rewrite Ht in L2; congruence.
Qed.
Print Assumptions C64_exclusion.

(** *** C84 *)
(** After stop at most one more exploration happens, and the explorer is finished when stop returns. *)
Theorem C84_stop : forall X St B H (P : search X St B H) iterations fuel b l st, execution P iterations fuel b l st ->
  after_stop l <= 1 /\ forall lb st', a_user st = UJoin -> a_user st' = UIdle -> astep P iterations fuel st lb st' -> a_thread st' = TDead /\ In Stopped l.
Proof.
  intros X St B H P iterations fuel b l st E. destruct (j_stop _ _ _ _ (execution_inv P iterations fuel _ _ _ E)) as (S1 & S2 & S3). split; [destruct (a_thread st); lia|].
  intros lb st' Hu Hu' S. split; [|apply S1; auto]. inversion S; subst; cbn in *; try discriminate; congruence.
Qed.
Print Assumptions C84_stop.
(** No deadlock: unless the user is between calls, something can happen; and a user inside or a thread inside
    can always go on. *)
Theorem C84_no_deadlock : forall X St B H (P : search X St B H) iterations fuel b l st, execution P iterations fuel b l st -> a_user st <> UIdle ->
  exists lb st', astep P iterations fuel st lb st'.
Proof.
  intros X St B H P iterations fuel b l [r x t k us th] E Hu. pose proof (execution_inv P iterations fuel _ _ _ E) as I. destruct (j_lock _ _ _ _ I) as [L1 L2]. destruct (j_trace _ _ _ _ I) as [evs T]. cbn in *.
  assert (TH : th = TIn \/ th = TOut -> exists lb st', astep P iterations fuel (Build_astate r x t k us th) lb st').
  { intros [-> | ->]; [|do 2 eexists; apply as_t_release]. destruct (at_node (simulate_from_node P fuel (t_action t)) (r_root r) (t_node t) x) as [[root x'] [v|e]] eqn:Ea; do 2 eexists; [eapply as_t_explore; eauto|eapply as_t_explore_fail; eauto]. }
  destruct us as [|c|c|]; [congruence| | |]; cbn in L1.
  - destruct k as [[|]|]; [congruence| |do 2 eexists; apply as_lock]. destruct th; try congruence; apply TH; auto.
  - destruct c as [|n|a|]; [|do 2 eexists; apply as_in_node|do 2 eexists; apply as_in_action|do 2 eexists; apply as_in_stop].
    destruct (get_action P iterations fuel r x) as [[r' x'] [nm|e]] eqn:Eg; [|do 2 eexists; eapply as_in_get_fail; eauto].
    do 2 eexists. eapply as_in_get; eauto.
  - destruct th; [|apply TH; auto|apply TH; auto|do 2 eexists; apply as_join]. destruct k as [[|]|]; try congruence. do 2 eexists. apply as_t_lock.
Qed.
Print Assumptions C84_no_deadlock.
(** stop cannot wait for ever: whatever the schedule it returns after four steps of the system at most, while
    C84_no_deadlock says that there always is a step. *)
Theorem C84_returns : forall X St B H (P : search X St B H) iterations fuel b l st n st', execution P iterations fuel b l st ->
  joining P iterations fuel n st st' -> n <= 3.
Proof.
  intros X St B H P iterations fuel b l st n st' E.
  assert (D : a_user st = UJoin -> t_done (a_explorer st) = true) by apply (j_stop _ _ _ _ (execution_inv P iterations fuel _ _ _ E)).
  assert (G : joining P iterations fuel n st st' -> (a_user st = UJoin -> t_done (a_explorer st) = true) -> n <= match a_thread st with TWait => 3 | TIn => 2 | TOut => 1 | TDead => 0 end).
  { clear. induction 1 as [st Hu|n st lb st1 st2 Hu S J IH]; intros D; [lia|]. specialize (D Hu).
    assert (U1 : a_user st1 = UJoin) by (inversion J; auto). destruct st as [r x t k us th]. cbn in Hu, D. subst us.
    inversion S; subst; cbn in *; try discriminate; specialize (IH (fun _ => D)); cbn in IH; try rewrite D in IH; lia. }
  intros J. specialize (G J D). destruct (a_thread st); lia.
Qed.
Print Assumptions C84_returns.

(** An execution over the tiger: the user chooses, the explorer explores their choice, the user stops. *)
Example C64_ex : exists a st, execution ex_search 3 3 [1 # 2; 1 # 2]%Q [Stopped; Explored [] (Some a); Chose [] a] st /\ a_user st = UJoin.
Proof.
  assert (D : distribution tiger [1 # 2; 1 # 2]%Q) by apply C61_ex. assert (W : well_shaped tiger) by apply C61_ex.
  assert (exists r1 x1 nm, get_action ex_search 3 3 ex_start 0 = (r1, x1, Ok nm) /\ In nm (p_actions tiger)) as (r1 & x1 & nm & Eg & _) by (eapply (C61_get_action tiger ex_u ex_r 3); eauto using tiger_stochastic, ex_u_ok, ex_trace; vm_compute; lia).
  destruct (proj2 (get_action_pick _ _ _ _ _ _ _ _ _ _ (trace_inv _ _ _ _ ex_trace) Eg) _ eq_refl) as (a & _ & _ & _ & _ & _ & _ & _ & L & _).
  assert (N : r_node r1 = []) by (destruct (get_action_keep _ _ _ _ _ _ _ _ Eg) as (_ & _ & -> & _); reflexivity).
  destruct (at_node (simulate_from_node ex_search 3 (Some a)) (r_root r1) [] x1) as [[root x2] v] eqn:Ea. exists a.
  assert (E0 : execution ex_search 3 3 [1 # 2; 1 # 2]%Q [] (a_init ex_start 0)) by (apply (ex_init _ _ _ _ 0); vm_compute; reflexivity).
  pose proof (ex_step _ _ _ _ _ _ _ _ E0 (as_get _ _ _ _ _ _ _ _)) as E1. pose proof (ex_step _ _ _ _ _ _ _ _ E1 (as_lock _ _ _ _ _ _ _ _)) as E2.
  pose proof (ex_step _ _ _ _ _ _ _ _ E2 (as_in_get _ _ _ _ _ _ _ _ _ _ _ Eg)) as E3. pose proof (ex_step _ _ _ _ _ _ _ _ E3 (as_lock _ _ _ _ _ _ _ _)) as E4. rewrite L in E4.
  pose proof (ex_step _ _ _ _ _ _ _ _ E4 (as_in_action _ _ _ _ _ _ _ _ _)) as E5. pose proof (ex_step _ _ _ _ _ _ _ _ E5 (as_t_lock _ _ _ _ _ _ _)) as E6. cbn [a_runner] in E6.
  destruct v as [v|e].
  - pose proof (ex_step _ _ _ _ _ _ _ _ E6 (as_t_explore ex_search 3 3 r1 x1 (set_action (Some a) (Build_explorer [] None false)) _ _ _ _ _ Ea)) as E7. pose proof (ex_step _ _ _ _ _ _ _ _ E7 (as_t_release _ _ _ _ _ _ _ _)) as E8.
    pose proof (ex_step _ _ _ _ _ _ _ _ E8 (as_stop _ _ _ _ _ _ _ _)) as E9. pose proof (ex_step _ _ _ _ _ _ _ _ E9 (as_lock _ _ _ _ _ _ _ _)) as E10.
    pose proof (ex_step _ _ _ _ _ _ _ _ E10 (as_in_stop _ _ _ _ _ _ _ _)) as E11. eexists. split; [cbn [a_runner a_explorer t_node t_action set_action] in E11; rewrite N in E11; exact E11|reflexivity].
  - pose proof (ex_step _ _ _ _ _ _ _ _ E6 (as_t_explore_fail ex_search 3 3 r1 x1 (set_action (Some a) (Build_explorer [] None false)) _ _ _ _ _ Ea)) as E7.
    pose proof (ex_step _ _ _ _ _ _ _ _ E7 (as_stop _ _ _ _ _ _ _ _)) as E9. pose proof (ex_step _ _ _ _ _ _ _ _ E9 (as_lock _ _ _ _ _ _ _ _)) as E10.
    pose proof (ex_step _ _ _ _ _ _ _ _ E10 (as_in_stop _ _ _ _ _ _ _ _)) as E11. eexists. split; [cbn [a_runner a_explorer t_node t_action set_action] in E11; rewrite N in E11; exact E11|reflexivity].
Qed.
