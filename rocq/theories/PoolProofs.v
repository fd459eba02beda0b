(** Proofs for C72. *)
From Coq Require Import Lia Permutation.
From Verif Require Import PoolModel PoolSpec.
Local Open Scope nat_scope.

Lemma set_nth_split {X} (l : list X) i x : nth_error l i = Some x -> exists l1 l2, l = l1 ++ x :: l2 /\ length l1 = i /\ forall y, set_nth l i y = l1 ++ y :: l2.
Proof.
  revert i. induction l as [|z l IH]; intros [|i] H; cbn in H; try discriminate.
  - exists [], l. cbn. repeat split; congruence.
  - destruct (IH i H) as (l1 & l2 & -> & <- & E). exists (z :: l1), l2. cbn. repeat split. intros y. rewrite E. reflexivity.
Qed.
Lemma set_nth_length {X} (l : list X) i x : length (set_nth l i x) = length l.
Proof. revert i. induction l as [|y l IH]; intros [|i]; cbn; auto. Qed.
Lemma set_nth_same {X} (l : list X) i x : i < length l -> nth_error (set_nth l i x) i = Some x.
Proof. revert i. induction l as [|y l IH]; intros [|i] H; cbn in *; try lia; auto. apply IH. lia. Qed.
Lemma set_nth_other {X} (l : list X) i j x : i <> j -> nth_error (set_nth l i x) j = nth_error l j.
Proof. revert i j. induction l as [|y l IH]; intros [|i] [|j] H; cbn; auto; try congruence. Qed.
Lemma nth_lt {X} (l : list X) i x : nth_error l i = Some x -> i < length l.
Proof. intros H. apply nth_error_Some. congruence. Qed.

Definition somes (ws : list (option nat)) : list nat := flat_map (fun w => match w with Some p => [p] | None => [] end) ws.
Lemma somes_In ws p : In p (somes ws) <-> exists i, nth_error ws i = Some (Some p).
Proof.
  unfold somes. rewrite in_flat_map. split.
  - intros (w & Hw & Hp). destruct w as [q|]; [|destruct Hp]. destruct Hp as [->|[]]. apply In_nth_error in Hw. auto.
  - intros [i H]. exists (Some p). split; [eapply nth_error_In; eauto|left; auto].
Qed.
Lemma somes_clear ws i p : nth_error ws i = Some (Some p) -> Permutation (somes ws) (p :: somes (set_nth ws i None)).
Proof. intros H. destruct (set_nth_split _ _ _ H) as (l1 & l2 & -> & _ & E). rewrite E. unfold somes. rewrite !flat_map_app. cbn. apply Permutation_sym, Permutation_middle. Qed.
Lemma somes_put ws i p : nth_error ws i = Some None -> Permutation (somes (set_nth ws i (Some p))) (p :: somes ws).
Proof. intros H. destruct (set_nth_split _ _ _ H) as (l1 & l2 & -> & _ & E). rewrite E. unfold somes. rewrite !flat_map_app. cbn. apply Permutation_sym, Permutation_middle. Qed.
Lemma somes_length ws : length (somes ws) <= length ws.
Proof. unfold somes. induction ws as [|[p|] ws IH]; cbn; lia. Qed.
Lemma somes_none k : somes (repeat None k) = [].
Proof. induction k; cbn; auto. Qed.

Section Pool.
  Context {A : Type}.
  Variable target : nat -> Z -> A.
  Variable draws : nat -> Z.
  Variables n_processes n : nat.
  Variable env : nat -> list event.
  Notation run := (exec target draws n_processes n env).
  Notation st := (st A).

  Definition out (x : status) : bool := match x with Alive b => b | Dead _ b => b end.
  Fixpoint outs (i : nat) (l : list (Z * status)) : list A :=
    match l with [] => [] | (sd, x) :: l => (if out x then [target i sd] else []) ++ outs (S i) l end.
  Lemma outs_app i l l' : outs i (l ++ l') = outs i l ++ outs (i + length l) l'.
  Proof. revert i. induction l as [|[sd x] l IH]; intros i; cbn; [rewrite Nat.add_0_r; auto|]. rewrite IH, <- app_assoc. replace (i + S (length l)) with (S i + length l) by lia. reflexivity. Qed.
  Lemma outs_keep i l p sd x y : nth_error l p = Some (sd, x) -> out x = out y -> outs i (set_nth l p (sd, y)) = outs i l.
  Proof. intros H E. destruct (set_nth_split _ _ _ H) as (l1 & l2 & -> & _ & Es). rewrite Es, !outs_app. cbn. rewrite E. reflexivity. Qed.
  Lemma outs_new l p sd x y : nth_error l p = Some (sd, x) -> out x = false -> out y = true -> Permutation (outs 0 (set_nth l p (sd, y))) (target p sd :: outs 0 l).
  Proof. intros H E E'. destruct (set_nth_split _ _ _ H) as (l1 & l2 & -> & Hl & Es). rewrite Es, !outs_app. cbn. rewrite E, E'. cbn. rewrite Hl. apply Permutation_sym, Permutation_middle. Qed.
  Lemma outs_length i l : length (outs i l) <= length l.
  Proof. revert i. induction l as [|[sd x] l IH]; intros i; cbn; [lia|]. rewrite app_length. specialize (IH (S i)). destruct (out x); cbn; lia. Qed.
  Lemma outs_short i l : length (outs i l) < length l -> exists p sd x, nth_error l p = Some (sd, x) /\ out x = false.
  Proof.
    revert i. induction l as [|[sd x] l IH]; intros i H; cbn in H; [lia|]. destruct (out x) eqn:E.
    - cbn in H. destruct (IH (S i)) as (p & sd' & x' & H1 & H2); [lia|]. exists (S p), sd', x'. auto.
    - exists 0, sd, x. auto.
  Qed.
  Lemma outs_full i l : length (outs i l) = length l -> forall p sd x, nth_error l p = Some (sd, x) -> out x = true.
  Proof.
    revert i. induction l as [|[sd x] l IH]; intros i H [|p] sd' x' H'; cbn in *; try discriminate.
    - pose proof (outs_length (S i) l). assert (x = x') as -> by congruence. destruct (out x'); auto. cbn in H. lia.
    - pose proof (outs_length (S i) l). apply (IH (S i)) with (p := p) (sd := sd'); auto. destruct (out x); cbn in H; lia.
  Qed.
  Lemma outs_map i l : (forall p sd x, nth_error l p = Some (sd, x) -> out x = true /\ sd = draws (i + p)) -> outs i l = map (fun p => target p (draws p)) (seq i (length l)).
  Proof.
    revert i. induction l as [|[sd x] l IH]; intros i H; cbn; auto. destruct (H 0 sd x eq_refl) as [-> ->]. rewrite Nat.add_0_r. cbn. f_equal. apply IH. intros p sd' x' Hp. destruct (H (S p) sd' x' Hp) as [H1 H2]. split; auto. rewrite H2. f_equal. lia.
  Qed.

  (** *** Events *)
  Lemma ev_started (s : world A) e : length (procs (apply_event target s e)) = length (procs s).
  Proof. destruct e as [p|p c]; cbn; destruct (nth_error (procs s) p) as [[sd [[|]|]]|]; cbn; rewrite ?set_nth_length; auto. Qed.
  Lemma ev_nth (s : world A) e p sd x : nth_error (procs s) p = Some (sd, x) -> exists y, nth_error (procs (apply_event target s e)) p = Some (sd, y) /\ (forall c b, x = Dead c b -> y = x) /\ (out x = true -> out y = true).
  Proof.
    intros H. destruct e as [q|q c]; cbn; destruct (nth_error (procs s) q) as [[sd' x']|] eqn:E; try (exists x; split; [exact H|split; auto]).
    - destruct x' as [[|]|]; try (exists x; split; [exact H|split; auto]). cbn. destruct (Nat.eq_dec q p) as [->|N].
      + assert (sd' = sd /\ x = Alive false) as [-> ->] by (split; congruence). exists (Alive true). rewrite set_nth_same by (eapply nth_lt; eauto). split; [auto|]. split; [discriminate|auto].
      + rewrite set_nth_other by auto. exists x. split; [exact H|split; auto].
    - destruct x' as [b|]; try (exists x; split; [exact H|split; auto]). cbn. destruct (Nat.eq_dec q p) as [->|N].
      + assert (sd' = sd /\ x = Alive b) as [-> ->] by (split; congruence). exists (Dead c b). rewrite set_nth_same by (eapply nth_lt; eauto). split; [auto|]. split; [discriminate|auto].
      + rewrite set_nth_other by auto. exists x. split; [exact H|split; auto].
  Qed.
  Lemma ev_out w e l : Permutation (l ++ pipe w) (outs 0 (procs w)) -> Permutation (l ++ pipe (apply_event target w e)) (outs 0 (procs (apply_event target w e))).
  Proof.
    intros H. destruct e as [p|p c]; cbn; destruct (nth_error (procs w) p) as [[sd x]|] eqn:E; auto; destruct x as [b|]; auto.
    - destruct b; auto. cbn. rewrite (outs_new _ _ _ _ (Alive true) E) by reflexivity. rewrite app_assoc. rewrite <- H. apply Permutation_sym, Permutation_cons_append.
    - cbn. rewrite (outs_keep 0 _ _ _ _ (Dead c b) E) by reflexivity. auto.
  Qed.
  Lemma evs_started l w : length (procs (fold_left (apply_event target) l w)) = length (procs w).
  Proof. revert w. induction l as [|e l IH]; intros w; cbn; auto. rewrite IH, ev_started. auto. Qed.
  Lemma evs_nth l w p sd x : nth_error (procs w) p = Some (sd, x) -> exists y, nth_error (procs (fold_left (apply_event target) l w)) p = Some (sd, y) /\ (forall c b, x = Dead c b -> y = x) /\ (out x = true -> out y = true).
  Proof.
    revert w x. induction l as [|e l IH]; intros w x H; cbn; [exists x; auto|]. destruct (ev_nth w e p sd x H) as (y & H1 & H2 & H3). destruct (IH _ _ H1) as (z & H4 & H5 & H6). exists z. split; [auto|]. split; [|auto].
    intros c b ->. specialize (H2 c b eq_refl). subst y. apply (H5 c b). reflexivity.
  Qed.
  Lemma evs_out l w r : Permutation (r ++ pipe w) (outs 0 (procs w)) -> Permutation (r ++ pipe (fold_left (apply_event target) l w)) (outs 0 (procs (fold_left (apply_event target) l w))).
  Proof. revert w. induction l as [|e l IH]; intros w H; cbn; auto. apply IH, ev_out. auto. Qed.

  Lemma happen_dead (s : st) l p c b : is_in s p (Dead c b) -> is_in (happen target s l) p (Dead c b).
  Proof. intros [sd H]. destruct (evs_nth l _ _ _ _ H) as (y & H1 & H2 & _). rewrite (H2 c b eq_refl) in H1. exists sd. exact H1. Qed.
  Lemma advance_is (s : st) p x : is_in s p x -> is_in (advance draws n s) p x.
  Proof.
    intros [sd H]. exists sd. destruct s as [ws tg rs w pl]. unfold advance. cbn [where_]. destruct pl as [|i|i| |[|k]| |f]; cbn in *; auto.
    - destruct (still_working _); exact H.
    - unfold clean. cbn. destruct (nth_error ws i) as [[q|]|]; try exact H. destruct (nth_error (procs w) q) as [[sd' [b|c b]]|]; try exact H. destruct (0 <? c)%Z; exact H.
    - unfold fill. cbn. destruct (nth_error ws i) as [[q|]|]; try exact H. destruct tg; try exact H. cbn. rewrite nth_error_app1; auto. eapply nth_lt; eauto.
    - unfold get. cbn. destruct (pipe w); exact H.
    - unfold get. cbn. destruct (pipe w); exact H.
  Qed.
  Lemma dead_keep k k' p c b : k <= k' -> is_in (run k) p (Dead c b) -> is_in (run k') p (Dead c b).
  Proof. intros Hk H. induction Hk as [|k' Hk IH]; auto. cbn [exec]. apply advance_is, happen_dead. auto. Qed.

  (** *** The invariant *)
  Definition idle (s : st) : Prop := somes (workers s) = [] /\ to_go s = 0.
  Record Inv (s : st) : Prop := {
    iv_seed : forall p sd x, nth_error (procs (wd s)) p = Some (sd, x) -> sd = draws p;
    iv_count : to_go s + started s = n;
    iv_len : length (workers s) = n_processes;
    iv_nd : NoDup (somes (workers s));
    iv_lt : forall p, In p (somes (workers s)) -> p < started s;
    iv_done : forall p, p < started s -> ~ In p (somes (workers s)) -> exists c b, is_in s p (Dead c b) /\ (c <= 0)%Z;
    iv_out : Permutation (results s ++ pipe (wd s)) (outs 0 (procs (wd s)));
    iv_place : match where_ s with
               | PCollect k => idle s /\ k + length (results s) = n
               | PDone => idle s /\ length (results s) = n
               | PFailed QueueEmpty => exists p, lost s p
               | PFailed SubprocessFailed => exists p, crashed s p
               | _ => True
               end }.
  Lemma Inv_start : Inv (start_state n_processes n).
  Proof.
    constructor; cbn; auto; try (intros; exfalso; lia).
    - intros [|p] sd x H; discriminate.
    - apply repeat_length.
    - rewrite somes_none. constructor.
    - rewrite somes_none. intros p [].
  Qed.
  Lemma Inv_happen s l : Inv s -> Inv (happen target s l).
  Proof.
    intros [I1 I2 I3 I4 I5 I6 I7 I8]. assert (St : started (happen target s l) = started s) by apply evs_started. constructor; cbn [happen workers to_go results wd where_]; rewrite ?St; auto.
    - intros p sd x H. assert (Hp : p < length (procs (wd s))) by (rewrite <- (evs_started l); eapply nth_lt; eauto). destruct (nth_error (procs (wd s)) p) as [[sd' x']|] eqn:E; [|apply nth_error_None in E; lia].
      destruct (evs_nth l _ _ _ _ E) as (y & H1 & _). rewrite H in H1. assert (sd = sd') as -> by congruence. eauto.
    - intros p Hp Hn. destruct (I6 p Hp Hn) as (c & b & H & Hc). exists c, b. split; auto. apply happen_dead. auto.
    - apply evs_out. auto.
    - destruct (where_ s) as [| | | | | |[|]]; auto.
      + destruct I8 as (p & c & b & H & Hc). exists p, c, b. split; auto. apply happen_dead. auto.
      + destruct I8 as (p & c & H). exists p, c. apply happen_dead. auto.
  Qed.
  Lemma Inv_goto s p : Inv s -> match p with PLoop | PClean _ | PFill _ | PGet => True | _ => False end -> Inv (goto s p).
  Proof. intros [I1 I2 I3 I4 I5 I6 I7 I8] H. constructor; cbn; auto. destruct p as [| | | | | |[|]]; auto; destruct H. Qed.
  Lemma out_bound (s : st) : Inv s -> length (results s) + length (pipe (wd s)) = length (outs 0 (procs (wd s))) /\ length (outs 0 (procs (wd s))) <= started s.
  Proof. intros I. split; [rewrite <- app_length; apply Permutation_length, I|apply outs_length]. Qed.
  Lemma Inv_advance s : Inv s -> Inv (advance draws n s).
  Proof.
    intros I. unfold advance. destruct (where_ s) as [|i|i| |[|k]| |f] eqn:W; auto.
    - destruct (still_working s) eqn:E; [apply Inv_goto; auto|]. unfold still_working in E. apply orb_false_elim in E. destruct E as [E1 E2]. apply Nat.ltb_ge in E1.
      assert (S0 : somes (workers s) = []). { clear - E2. induction (workers s) as [|[q|] ws IH]; cbn in *; auto; discriminate. }
      pose proof (out_bound s I) as [B1 B2]. pose proof (iv_count s I). destruct I as [I1 I2 I3 I4 I5 I6 I7 I8]. constructor; cbn; auto. split; [split; [auto|cbn; lia]|lia].
    - unfold clean. destruct (nth_error (workers s) i) as [[p|]|] eqn:E; [|apply Inv_goto; auto|apply Inv_goto; auto]. destruct (nth_error (procs (wd s)) p) as [[sd [b|c b]]|] eqn:Ep; try (apply Inv_goto; auto; fail). destruct (0 <? c)%Z eqn:Ec.
      + destruct I as [I1 I2 I3 I4 I5 I6 I7 I8]. constructor; cbn; auto. exists p, c, b. split; [exists sd; exact Ep|]. apply Z.ltb_lt. auto.
      + pose proof (somes_clear _ _ _ E) as P. destruct I as [I1 I2 I3 I4 I5 I6 I7 I8]. assert (N : NoDup (p :: somes (set_nth (workers s) i None))) by (eapply Permutation_NoDup; eauto). constructor; cbn; auto.
        * rewrite set_nth_length. auto.
        * inversion N; auto.
        * intros q Hq. apply I5. apply (Permutation_in q (Permutation_sym P)). right. auto.
        * intros q Hq Hn. destruct (Nat.eq_dec q p) as [->|Nq]; [exists c, b; split; [exists sd; exact Ep|apply Z.ltb_ge; auto]|]. apply I6; auto. intros K. apply (Permutation_in q P) in K. destruct K as [K|K]; auto.
    - unfold fill. destruct (nth_error (workers s) i) as [[p|]|] eqn:E; [apply Inv_goto; auto| |apply Inv_goto; auto]. destruct (0 <? to_go s) eqn:Et; [|apply Inv_goto; auto]. apply Nat.ltb_lt in Et.
      pose proof (somes_put _ _ (length (procs (wd s))) E) as P. destruct I as [I1 I2 I3 I4 I5 I6 I7 I8]. unfold started in *. constructor; cbn; auto.
      + intros p sd x H. destruct (Nat.lt_ge_cases p (length (procs (wd s)))) as [L|L]; [rewrite nth_error_app1 in H by auto; eauto|]. rewrite nth_error_app2 in H by auto. destruct (p - length (procs (wd s))) as [|m] eqn:Em; cbn in H; [|destruct m; discriminate]. assert (p = length (procs (wd s))) as -> by lia. congruence.
      + unfold started. cbn. rewrite app_length. cbn. lia.
      + rewrite set_nth_length. auto.
      + eapply Permutation_NoDup; [apply Permutation_sym, P|]. constructor; auto. intros K. apply I5 in K. lia.
      + intros p Hp. unfold started. cbn. rewrite app_length. cbn. apply (Permutation_in p P) in Hp. destruct Hp as [<-|Hp]; [lia|]. apply I5 in Hp. lia.
      + intros p Hp Hn. unfold started in Hp. cbn in Hp. rewrite app_length in Hp. cbn in Hp. assert (Np : ~ In p (length (procs (wd s)) :: somes (workers s))) by (intros K; apply Hn; apply (Permutation_in p (Permutation_sym P)); auto). cbn in Np.
        destruct (I6 p) as (c & b & [sd H] & Hc); [lia|tauto|]. exists c, b. split; auto. exists sd. cbn. rewrite nth_error_app1; auto. eapply nth_lt; eauto.
      + rewrite outs_app. cbn. rewrite app_nil_r. auto.
    - unfold get. destruct (pipe (wd s)) as [|x q] eqn:E; [apply Inv_goto; auto|]. destruct I as [I1 I2 I3 I4 I5 I6 I7 I8]. constructor; cbn; auto. rewrite E in I7. rewrite <- app_assoc. auto.
    - destruct I as [I1 I2 I3 I4 I5 I6 I7 I8]. rewrite W in I8. constructor; cbn; auto.
    - unfold get. pose proof (out_bound s I) as [B1 B2]. destruct I as [I1 I2 I3 I4 I5 I6 I7 I8]. rewrite W in I8. destruct I8 as [[Z1 Z2] Z3]. destruct (pipe (wd s)) as [|x q] eqn:E.
      + constructor; cbn; auto; [rewrite E; auto|]. cbn in B1. destruct (outs_short 0 (procs (wd s))) as (p & sd & y & H1 & H2); [unfold started in *; lia|]. exists p. destruct (I6 p) as (c & b & [sd' H] & _); [eapply nth_lt; eauto|rewrite Z1; auto|]. assert (y = Dead c b) as -> by congruence. cbn in H2. subst b. exists c, sd'. exact H.
      + constructor; cbn; auto; [rewrite <- app_assoc; auto|]. split; [split; auto|]. rewrite app_length. cbn. lia.
  Qed.
  Lemma Inv_run k : Inv (run k).
  Proof. induction k; cbn [exec]; [apply Inv_start|apply Inv_advance, Inv_happen; auto]. Qed.

  Lemma results_all k : returned (run k) -> started (run k) = n /\ (forall p, p < n -> exists c, is_in (run k) p (Dead c true) /\ (c <= 0)%Z) /\ Permutation (results (run k)) (map (fun p => target p (draws p)) (seq 0 n)).
  Proof.
    intros R. pose proof (Inv_run k) as I. pose proof (out_bound _ I) as [B1 B2]. destruct I as [I1 I2 I3 I4 I5 I6 I7 I8]. unfold returned in R. rewrite R in I8. destruct I8 as [[Z1 Z2] Z3]. assert (Sn : started (run k) = n) by lia. split; [auto|].
    assert (F : length (outs 0 (procs (wd (run k)))) = length (procs (wd (run k)))) by (unfold started in *; lia). split.
    - intros p Hp. destruct (I6 p) as (c & b & [sd H] & Hc); [lia|rewrite Z1; auto|]. pose proof (outs_full 0 _ F p sd _ H) as O. cbn in O. subst b. exists c. split; [exists sd; auto|auto].
    - assert (E : pipe (wd (run k)) = []) by (apply length_zero_iff_nil; unfold started in *; lia). rewrite E, app_nil_r in I7. rewrite I7, (outs_map 0); [unfold started in Sn; rewrite Sn; reflexivity|]. intros p sd x H. split; [eapply outs_full; eauto|eauto].
  Qed.

  (** *** Termination *)
  Definition work_left (s : st) : nat := to_go s + length (somes (workers s)).
  Definition over (s : st) : Prop := where_ s = PDone \/ exists f, where_ s = PFailed f.
  Lemma step_work (s : st) : work_left (advance draws n s) < work_left s \/ (work_left (advance draws n s) = work_left s /\ forall i p, nth_error (workers s) i = Some (Some p) -> nth_error (workers (advance draws n s)) i = Some (Some p)).
  Proof.
    unfold advance. destruct (where_ s) as [|i|i| |[|k]| |f]; auto.
    - right. destruct (still_working s); auto.
    - unfold clean. destruct (nth_error (workers s) i) as [[p|]|] eqn:E; auto. destruct (nth_error (procs (wd s)) p) as [[sd [b|c b]]|]; auto. destruct (0 <? c)%Z; auto. left. unfold work_left. cbn [workers to_go]. pose proof (Permutation_length (somes_clear _ _ _ E)) as P. cbn [length] in P. lia.
    - unfold fill. destruct (nth_error (workers s) i) as [[p|]|] eqn:E; auto. destruct (0 <? to_go s) eqn:Et; auto. apply Nat.ltb_lt in Et. right. unfold work_left. cbn [workers to_go]. pose proof (Permutation_length (somes_put _ _ (length (procs (wd s))) E)) as P. cbn [length] in P. split; [lia|].
      intros j q Hj. rewrite set_nth_other; auto. intros ->. congruence.
    - right. unfold get. destruct (pipe (wd s)); auto.
    - right. unfold get. destruct (pipe (wd s)); auto.
  Qed.
  Lemma run_work k k' : k <= k' -> work_left (run k') < work_left (run k) \/ (work_left (run k') = work_left (run k) /\ forall i p, nth_error (workers (run k)) i = Some (Some p) -> nth_error (workers (run k')) i = Some (Some p)).
  Proof.
    intros H. induction H as [|k' H IH]; auto. cbn [exec]. pose proof (step_work (happen target (run k') (env k'))) as S. change (work_left (happen target (run k') (env k'))) with (work_left (run k')) in S. destruct IH as [IH|[IH1 IH2]].
    - left. destruct S as [S|[S _]]; lia.
    - destruct S as [S|[S1 S2]]; [left; lia|]. right. split; [lia|]. intros i p Hi. apply S2. cbn. auto.
  Qed.
  Lemma collect_over c : forall k, where_ (run k) = PCollect c -> exists k', k <= k' /\ over (run k').
  Proof.
    induction c as [|c IH]; intros k W.
    - exists (S k). split; [lia|]. left. cbn [exec]. unfold advance. cbn [happen where_]. rewrite W. reflexivity.
    - assert (N : where_ (run (S k)) = PCollect c \/ where_ (run (S k)) = PFailed QueueEmpty). { cbn [exec]. unfold advance. cbn [happen where_]. rewrite W. unfold get. destruct (pipe _); cbn; auto. }
      destruct N as [N|N]; [destruct (IH _ N) as (k' & H1 & H2); exists k'; split; [lia|auto]|]. exists (S k). split; [lia|]. right. eauto.
  Qed.
  Definition rank (p : place) : nat := match p with PClean i => (n_processes - i) + n_processes + 3 | PFill i => (n_processes - i) + 2 | PGet => 1 | _ => 0 end.
  Lemma rank_step k : 0 < rank (where_ (run k)) -> over (run (S k)) \/ rank (where_ (run (S k))) < rank (where_ (run k)).
  Proof.
    intros R. pose proof (iv_len _ (Inv_run k)) as L. cbn [exec]. unfold advance. cbn [happen where_]. destruct (where_ (run k)) as [|i|i| | | |] eqn:W; cbn in R; try lia.
    - unfold clean. cbn [happen workers wd]. destruct (nth_error (workers (run k)) i) as [[p|]|] eqn:E; [apply nth_lt in E|apply nth_lt in E|apply nth_error_None in E].
      + destruct (nth_error (procs _) p) as [[sd [b|c b]]|]; try (right; cbn; lia). destruct (0 <? c)%Z; [left; right; eexists; reflexivity|right; cbn; lia].
      + right; cbn; lia.
      + right; cbn; lia.
    - unfold fill. cbn [happen workers to_go wd]. destruct (nth_error (workers (run k)) i) as [[p|]|] eqn:E; [apply nth_lt in E|apply nth_lt in E|apply nth_error_None in E].
      + right; cbn; lia.
      + destruct (0 <? _); right; cbn; lia.
      + right; cbn; lia.
    - right. unfold get. destruct (pipe _); cbn; lia.
  Qed.
  Lemma reach_loop : forall k, exists k', k <= k' /\ (where_ (run k') = PLoop \/ over (run k')).
  Proof.
    assert (G : forall m k, rank (where_ (run k)) <= m -> exists k', k <= k' /\ (where_ (run k') = PLoop \/ over (run k'))).
    { induction m as [|m IH]; intros k H.
      - destruct (where_ (run k)) as [|i|i| |c| |f] eqn:W; cbn in H; try lia; [exists k; auto|destruct (collect_over _ _ W) as (k' & H1 & H2); eauto|exists k; split; [auto|right; left; auto]|exists k; split; [auto|right; right; eauto]].
      - destruct (Nat.eq_dec (rank (where_ (run k))) 0) as [Z|Z]; [apply IH; lia|]. destruct (rank_step k ltac:(lia)) as [O|O]; [exists (S k); auto|]. destruct (IH (S k) ltac:(lia)) as (k' & H1 & H2). exists k'. split; [lia|auto]. }
    intros k. apply (G _ k (le_n _)).
  Qed.
  (** Cleaning reaches the i-th worker. *)
  Lemma cleaning i : forall k, where_ (run k) = PClean 0 -> i < n_processes -> exists k', k <= k' /\ (over (run k') \/ where_ (run k') = PClean i).
  Proof.
    induction i as [|i IH]; intros k W Hi; [exists k; auto|]. destruct (IH k W ltac:(lia)) as (k' & H1 & [H2|H2]); [exists k'; auto|]. exists (S k'). split; [lia|]. pose proof (iv_len _ (Inv_run k')) as L. cbn [exec]. unfold advance. cbn [happen where_]. rewrite H2. unfold clean. cbn [happen workers wd].
    destruct (nth_error (workers (run k')) i) as [[p|]|] eqn:E; [|right; reflexivity|apply nth_error_None in E; lia]. destruct (nth_error (procs _) p) as [[sd [b|c b]]|]; try (right; reflexivity). destruct (0 <? c)%Z; [left; right; eexists; reflexivity|right; reflexivity].
  Qed.
  Lemma fill_reached : forall k, where_ (run k) = PClean 0 -> exists k', k <= k' /\ (over (run k') \/ where_ (run k') = PFill 0).
  Proof.
    assert (G : forall m k i, where_ (run k) = PClean i -> n_processes - i <= m -> exists k', k <= k' /\ (over (run k') \/ where_ (run k') = PFill 0)).
    { induction m as [|m IH]; intros k i W Hm.
      - exists (S k). split; [lia|]. right. pose proof (iv_len _ (Inv_run k)) as L. cbn [exec]. unfold advance. cbn [happen where_]. rewrite W. unfold clean. cbn [happen workers wd]. destruct (nth_error (workers (run k)) i) eqn:E; [apply nth_lt in E; lia|reflexivity].
      - assert (N : over (run (S k)) \/ where_ (run (S k)) = PFill 0 \/ where_ (run (S k)) = PClean (S i)).
        { cbn [exec]. unfold advance. cbn [happen where_]. rewrite W. unfold clean. cbn [happen workers wd]. destruct (nth_error (workers (run k)) i) as [[p|]|] eqn:E; [|right; right; reflexivity|right; left; reflexivity]. destruct (nth_error (procs _) p) as [[sd [b|c b]]|]; try (right; right; reflexivity). destruct (0 <? c)%Z; [left; right; eexists; reflexivity|right; right; reflexivity]. }
        destruct N as [N|[N|N]]; [exists (S k); auto|exists (S k); auto|]. destruct (IH _ _ N ltac:(lia)) as (k' & H1 & H2). exists k'. split; [lia|auto]. }
    intros k W. apply (G _ k 0 W (le_n _)).
  Qed.

  Section Live.
    Hypothesis Hp : 0 < n_processes.
    Hypothesis He : all_end run.
    Lemma worker_ends k i p : nth_error (workers (run k)) i = Some (Some p) -> exists k', k <= k' /\ (over (run k') \/ work_left (run k') < work_left (run k)).
    Proof.
      intros H. assert (Hs : p < started (run k)) by (apply (iv_lt _ (Inv_run k)); apply somes_In; eauto). destruct (He k p Hs) as (kd & c & b & Hd). set (k2 := Nat.max k kd). assert (D2 : is_in (run k2) p (Dead c b)) by (apply (dead_keep kd); [unfold k2; lia|auto]).
      destruct (reach_loop k2) as (k3 & L3 & [W3|O3]); [|exists k3; split; [unfold k2 in L3; lia|auto]]. destruct (run_work k k3 ltac:(unfold k2 in L3; lia)) as [R3|[R3 K3]]; [exists k3; split; [unfold k2 in L3; lia|auto]|].
      pose proof (K3 _ _ H) as H3. assert (W4 : where_ (run (S k3)) = PClean 0). { cbn [exec]. unfold advance. cbn [happen where_]. rewrite W3. replace (still_working (happen target (run k3) (env k3))) with true; [reflexivity|]. symmetry. unfold still_working. cbn [happen workers to_go]. apply orb_true_iff. right. apply existsb_exists. exists (Some p). split; [eapply nth_error_In; eauto|auto]. }
      assert (Hi : i < n_processes) by (rewrite <- (iv_len _ (Inv_run k)); eapply nth_lt; eauto).
      destruct (cleaning i (S k3) W4 Hi) as (k5 & L5 & [O5|W5]); [exists k5; split; [unfold k2 in L3; lia|auto]|]. destruct (run_work k k5 ltac:(unfold k2 in L3; lia)) as [R5|[R5 K5]]; [exists k5; split; [unfold k2 in L3; lia|auto]|].
      exists (S k5). split; [unfold k2 in L3; lia|]. pose proof (K5 _ _ H) as H5. assert (D5 : is_in (happen target (run k5) (env k5)) p (Dead c b)) by (apply happen_dead; apply (dead_keep k2); [lia|auto]). destruct D5 as [sd D5].
      cbn [exec]. unfold advance. cbn [happen where_]. rewrite W5. unfold clean. cbn [happen workers wd] in *. rewrite H5, D5. destruct (0 <? c)%Z; [left; right; eexists; reflexivity|]. right. rewrite <- R5. unfold work_left. cbn [happen workers to_go]. pose proof (Permutation_length (somes_clear _ _ _ H5)) as P. cbn [length] in P. lia.
    Qed.
    Lemma loop_progress k : where_ (run k) = PLoop -> exists k', k <= k' /\ (over (run k') \/ work_left (run k') < work_left (run k)).
    Proof.
      intros W. destruct (still_working (happen target (run k) (env k))) eqn:E.
      - assert (W1 : where_ (run (S k)) = PClean 0) by (cbn [exec]; unfold advance; cbn [happen where_]; rewrite W, E; reflexivity).
        assert (Pos : 0 < work_left (run k)). { unfold still_working in E. cbn [happen workers to_go] in E. unfold work_left. apply orb_true_iff in E. destruct E as [E|E]; [apply Nat.ltb_lt in E; lia|]. apply existsb_exists in E. destruct E as ([q|] & Hq & E); [|discriminate]. apply In_nth_error in Hq. destruct Hq as [i Hq]. assert (In q (somes (workers (run k)))) as K by (apply somes_In; eauto). destruct (somes (workers (run k))); [destruct K|cbn; lia]. }
        destruct (fill_reached _ W1) as (k2 & L2 & [O2|W2]); [exists k2; split; [lia|auto]|]. destruct (run_work k k2 ltac:(lia)) as [R2|[R2 _]]; [exists k2; split; [lia|auto]|].
        assert (G : exists k3 i p, k <= k3 /\ work_left (run k3) <= work_left (run k) /\ nth_error (workers (run k3)) i = Some (Some p)).
        { pose proof (iv_len _ (Inv_run k2)) as L. destruct (nth_error (workers (run k2)) 0) as [[p|]|] eqn:E0; [exists k2, 0, p; split; [lia|split; [lia|auto]]| |apply nth_error_None in E0; lia]. destruct (Nat.eq_dec (to_go (run k2)) 0) as [Z|Z].
          - assert (R2' : work_left (run k2) = length (somes (workers (run k2)))) by (unfold work_left; lia). destruct (somes (workers (run k2))) as [|q l] eqn:Es; [cbn [length] in R2'; lia|]. assert (K : In q (somes (workers (run k2)))) by (rewrite Es; left; auto). apply somes_In in K. destruct K as [i K]. exists k2, i, q. split; [lia|split; [lia|auto]].
          - exists (S k2), 0, (length (procs (wd (happen target (run k2) (env k2))))). split; [lia|]. split; [destruct (run_work k2 (S k2) ltac:(lia)) as [|[? _]]; lia|]. cbn [exec]. unfold advance. cbn [happen where_]. rewrite W2. unfold fill. cbn [happen workers to_go wd]. rewrite E0. destruct (Nat.ltb_spec 0 (to_go (run k2))) as [T|T]; [|lia]. cbn [workers]. apply set_nth_same. lia. }
        destruct G as (k3 & i & p & L3 & R3 & H3). destruct (worker_ends k3 i p H3) as (k4 & L4 & [O4|R4]); exists k4; (split; [lia|]); [auto|right; lia].
      - assert (W1 : where_ (run (S k)) = PCollect (n - length (results (run k)))) by (cbn [exec]; unfold advance; cbn [happen where_]; rewrite W, E; reflexivity). destruct (collect_over _ _ W1) as (k' & H1 & H2). exists k'. split; [lia|auto].
    Qed.
    Lemma ends : exists k, over (run k).
    Proof.
      assert (G : forall m k, work_left (run k) <= m -> exists k', over (run k')).
      { induction m as [|m IH]; intros k H; (destruct (reach_loop k) as (k1 & L1 & [W1|O1]); [|exists k1; exact O1]); (destruct (loop_progress k1 W1) as (k2 & L2 & [O2|R2]); [exists k2; exact O2|]).
        - exfalso. destruct (run_work k k1 L1) as [R|[R _]]; lia.
        - apply (IH k2). destruct (run_work k k1 L1) as [R|[R _]]; lia. }
      apply (G _ 0 (le_n _)).
    Qed.
  End Live.
End Pool.
