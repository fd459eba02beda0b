(** Properties of repeat: C72.  The order and time of what happens to the processes are arbitrary. *)
From Coq Require Import Lia Permutation.
From Verif Require Import PoolModel PoolSpec PoolProofs.
Local Open Scope nat_scope.

(** No more than n processes are started, and no more than n_processes are alive at the same time. *)
Theorem C72_bounded : forall (A : Type) (target : nat -> Z -> A) draws n_processes n env k,
  started (exec target draws n_processes n env k) <= n /\
  forall l, NoDup l -> (forall p, In p l -> alive (exec target draws n_processes n env k) p) -> length l <= n_processes.
Proof.
  intros A target draws np n env k. pose proof (Inv_run target draws np n env k) as I. split; [pose proof (iv_count _ _ _ _ _ I); lia|].
  intros l Nl Hl. rewrite <- (iv_len _ _ _ _ _ I). etransitivity; [|apply somes_length]. apply NoDup_incl_length; auto. intros p Hp. destruct (Hl p Hp) as [b [sd H]].
  destruct (in_dec Nat.eq_dec p (somes (workers (exec target draws np n env k)))) as [K|K]; auto. exfalso. destruct (iv_done _ _ _ _ _ I p) as (c & b' & [sd' H'] & _); auto; [eapply nth_lt; eauto|congruence].
Qed.
Print Assumptions C72_bounded.

(** When repeat returns, n processes have been started, each has given its result, and the results are exactly
    theirs, each with its own seed. *)
Theorem C72_results : forall (A : Type) (target : nat -> Z -> A) draws n_processes n env k,
  returned (exec target draws n_processes n env k) ->
  started (exec target draws n_processes n env k) = n /\
  (forall p, p < n -> exists c, is_in (exec target draws n_processes n env k) p (Dead c true) /\ (c <= 0)%Z) /\
  Permutation (results (exec target draws n_processes n env k)) (map (fun p => target p (draws p)) (seq 0 n)).
Proof. intros A target draws np n env k. apply results_all. Qed.
Print Assumptions C72_results.

(** If a process fails (exits with a positive code, or ends without giving its result), repeat never returns. *)
Theorem C72_failure : forall (A : Type) (target : nat -> Z -> A) draws n_processes n env k p,
  crashed (exec target draws n_processes n env k) p \/ lost (exec target draws n_processes n env k) p ->
  forall k', ~ returned (exec target draws n_processes n env k').
Proof.
  intros A target draws np n env k p H k' R. destruct (results_all target draws np n env k' R) as (E & D & _).
  assert (G : exists c b, is_in (exec target draws np n env k) p (Dead c b) /\ ((0 < c)%Z \/ b = false)) by (destruct H as [(c & b & H1 & H2)|[c H1]]; eauto). destruct G as (c & b & H1 & H2).
  destruct (Nat.le_ge_cases k k') as [L|L].
  - pose proof (dead_keep target draws np n env k k' p c b L H1) as [sd H3]. assert (Hp : p < n) by (rewrite <- E; eapply nth_lt; eauto). destruct (D p Hp) as (c' & [sd' H4] & Hc). assert (c = c' /\ b = true) as [-> ->] by (split; congruence). destruct H2; [lia|discriminate].
  - assert (Hp : p < n). { destruct H1 as [sd H1]. apply nth_lt in H1. pose proof (iv_count _ _ _ _ _ (Inv_run target draws np n env k)) as C. unfold started in C. lia. }
    destruct (D p Hp) as (c' & H4 & Hc). pose proof (dead_keep target draws np n env k' k p c' true L H4) as [sd' H5]. destruct H1 as [sd H1]. assert (c = c' /\ b = true) as [-> ->] by (split; congruence). destruct H2; [lia|discriminate].
Qed.
Print Assumptions C72_failure.

(** It only raises when a process has failed. *)
Theorem C72_cause : forall (A : Type) (target : nat -> Z -> A) draws n_processes n env k,
  (raised (exec target draws n_processes n env k) SubprocessFailed -> exists p, crashed (exec target draws n_processes n env k) p) /\
  (raised (exec target draws n_processes n env k) QueueEmpty -> exists p, lost (exec target draws n_processes n env k) p).
Proof.
  intros A target draws np n env k. pose proof (iv_place _ _ _ _ _ (Inv_run target draws np n env k)) as P. unfold raised. split; intros E; rewrite E in P; exact P.
Qed.
Print Assumptions C72_cause.

(** It does not run forever when all processes end, and returns when none fails. *)
Theorem C72_terminates : forall (A : Type) (target : nat -> Z -> A) draws n_processes n env,
  0 < n_processes -> all_end (exec target draws n_processes n env) ->
  (exists k, returned (exec target draws n_processes n env k) \/ exists f, raised (exec target draws n_processes n env k) f) /\
  (no_fault (exec target draws n_processes n env) -> exists k, returned (exec target draws n_processes n env k)).
Proof.
  intros A target draws np n env Hp He. destruct (ends target draws np n env Hp He) as [k [R|[f R]]].
  - split; [exists k; left; exact R|intros _; exists k; exact R].
  - split; [exists k; right; exists f; exact R|]. intros Hf. exfalso. pose proof (C72_cause A target draws np n env k) as [C1 C2]. destruct f.
    + destruct (C1 R) as (p & c & b & H & Hc). destruct (Hf _ _ _ _ H). lia.
    + destruct (C2 R) as (p & c & H). destruct (Hf _ _ _ _ H). discriminate.
Qed.
Print Assumptions C72_terminates.

(** *** Non-vacuity: three repetitions on two processes; the second process ends first. *)
Definition px_env (k : nat) : list event := match k with 9 => [Push 1; Exit 1 0] | 30 => [Push 2; Push 0] | 31 => [Exit 2 0; Exit 0 (-9)] | _ => [] end.
Definition px_target (p : nat) (seed : Z) : Z := (seed * 10)%Z.
Definition px (k : nat) : st Z := exec px_target (fun p => Z.of_nat p) 2 3 px_env k.
Example C72_ex : returned (px 60) /\ results (px 60) = [10; 20; 0]%Z /\ alive (px 20) 0 /\ alive (px 20) 2 /\ started (px 7) = 2.
Proof. vm_compute. repeat split; eexists; eexists; reflexivity. Qed.
(** A process that is killed by a signal is not reported as failed: the missing result is. *)
Definition px_bad (code : Z) (k : nat) : list event := match k with 9 => [Exit 1 code] | 12 => [Push 0; Exit 0 0] | 20 => [Push 2; Exit 2 0] | _ => [] end.
Example C72_ex_bad : raised (exec px_target (fun p => Z.of_nat p) 2 3 (px_bad 1) 60) SubprocessFailed /\ raised (exec px_target (fun p => Z.of_nat p) 2 3 (px_bad (-9)) 60) QueueEmpty.
Proof. vm_compute. split; reflexivity. Qed.
(** An environment in which every process ends without fault: each one does at every step. *)
Definition px_all (k : nat) : list event := [Push 0; Push 1; Push 2; Exit 0 0; Exit 1 0; Exit 2 0].
Lemma px_all_dead : forall k p c b, is_in (exec px_target (fun p => Z.of_nat p) 2 3 px_all k) p (Dead c b) -> c = 0%Z /\ b = true.
Proof.
  assert (G : forall k, Forall (fun q => match snd q with Dead c b => c = 0%Z /\ b = true | Alive _ => True end) (procs (wd (exec px_target (fun p => Z.of_nat p) 2 3 px_all k)))).
  { intros k. destruct (Nat.le_gt_cases k 40) as [L|L].
    - do 41 (destruct k as [|k]; [vm_compute; repeat constructor|]). lia.
    - assert (E : exec px_target (fun p => Z.of_nat p) 2 3 px_all k = exec px_target (fun p => Z.of_nat p) 2 3 px_all 40); [|rewrite E; vm_compute; repeat constructor]. induction L as [|k L IH]; [vm_compute; reflexivity|]. cbn [exec]. rewrite IH. vm_compute. reflexivity. }
  intros k p c b [sd H]. specialize (G k). rewrite Forall_forall in G. apply (G _ (nth_error_In _ _ H)).
Qed.
Example C72_ex_live : all_end (exec px_target (fun p => Z.of_nat p) 2 3 px_all) /\ no_fault (exec px_target (fun p => Z.of_nat p) 2 3 px_all).
Proof.
  split; [|exact px_all_dead]. intros k p Hp. exists 40. assert (p < 3) by (pose proof (proj1 (C72_bounded Z px_target (fun p => Z.of_nat p) 2 3 px_all k)); lia).
  assert (R : returned (exec px_target (fun p => Z.of_nat p) 2 3 px_all 40)) by (vm_compute; reflexivity). destruct (proj1 (proj2 (C72_results _ _ _ _ _ _ _ R)) p H) as (c & Hc & _). exists c, true. exact Hc.
Qed.
