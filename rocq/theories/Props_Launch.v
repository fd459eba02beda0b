(** C120: the launchers of experiments. *)
From Verif Require Import PyBase EvalModel JobModel JobSpec Props_Job SuppModel RunSpec ExpModel ExpSpec ExpProofs Props_Exp LaunchModel LaunchSpec LaunchProofs.
From Coq Require Import Lia.
Local Open Scope list_scope.
Local Open Scope nat_scope.

(** *** Preparing *)
(** The preparation of a launcher succeeds when all configurations can be opened; each then holds the parameters of its experiment, and
    no other file is changed, even when it fails. *)
Theorem C120_prepare : forall config opens (l : launcher) fs, NoDup (map fst l) -> (forall n m, In n (map fst l) -> In m (map fst l) -> config n = config m -> n = m) ->
  let r := action_prepare config opens l fs in
  (snd r = None <-> forall n, In n (map fst l) -> opens (config n) = true) /\
  (snd r = None -> forall n d, In (n, d) l -> lookup (fst r) (config n) = Some (Some (JDict d))) /\
  forall q, (forall n, In n (map fst l) -> config n <> q) -> lookup (fst r) q = lookup fs q.
Proof.
  intros config opens l fs ND Inj r. split; [|split].
  - subst r. rewrite prepare_ok. split; intros H; [intros n Hn; apply in_map_iff in Hn as ([n' d] & <- & Hd); apply (H n' d Hd)|intros n d Hd; apply H, in_map_iff; exists (n, d); auto].
  - intros O n d Hd. apply prepare_each; auto.
  - intros q H. apply prepare_other. intros n d Hd. apply H, in_map_iff. exists (n, d). auto.
Qed.
Print Assumptions C120_prepare.

(** *** Jobs that run at the same time *)
Section Jobs.
  Context {S : Type}.
  Variables (path : string) (config : string -> string) (own : option (list (string * option json))).
  Variables (l : launcher) (opens : string -> bool) (fs : list (string * file)).
  Notation sts := (steps path config own).
  Hypothesis ND : NoDup (map fst l).
  Hypothesis Sep : separate path config (map fst l).
  Hypothesis Own : json_only own.
  Hypothesis Prep : snd (action_prepare config opens l fs) = None.
  Let fs1 := fst (action_prepare config opens l fs).
  Let s0 : system S := ready fs1.
  Lemma prepared_files n d : In (n, d) l -> lookup fs1 (config n) = Some (Some (JDict d)).
  Proof. apply C120_prepare; auto. apply Sep. Qed.
  Lemma named n d : In (n, d) l -> In n (map fst l).
  Proof. intros H. apply in_map_iff. exists (n, d). auto. Qed.
  Lemma results_inj n m : In n (map fst l) -> In m (map fst l) -> result_path path n = result_path path m -> n = m.
  Proof. intros Hn Hm. destruct Sep as (_ & _ & Q). apply C105_separate; auto. Qed.
  Lemma own_prefix names (a b : list (event S)) : own_jobs names (a ++ b) -> own_jobs names a.
  Proof. intros O n hk op K. apply (O n hk op), in_or_app. auto. Qed.
  Lemma writes_named evs ev n : own_jobs (map fst l) evs -> writes path config own (sts s0 evs) ev n -> In n (map fst l).
  Proof.
    intros O W. destruct (run_invariant path config own l fs1 Sep evs O) as (_ & I2 & _). destruct ev as [n' hk op|i|i w]; cbn in W; [contradiction| |]; [destruct W as (p & E & <- & _)|destruct W as (_ & p & E & <-)]; apply (I2 i p E).
  Qed.
  Lemma process_config evs i p d : own_jobs (map fst l) evs -> nth_error (sy_running (sts s0 evs)) i = Some (Some p) -> In (pr_name p, d) l -> lookup (pr_files p) (config (pr_name p)) = Some (Some (JDict d)).
  Proof. intros O E Hd. destruct (run_invariant path config own l fs1 Sep evs O) as (_ & I2 & _). destruct (I2 i p E) as [I3 I4]. rewrite I4 by exact I3. apply prepared_files, Hd. Qed.
  Lemma holds_files (w w' : world) q f t v : lookup (files w') q = lookup (files w) q -> holds w q f t v -> holds w' q f t v.
  Proof. apply holds_same. Qed.

  (** When a job ends, whatever happened since the preparation: if it makes its evaluations with the parameters of its experiment and can
      open its file, this file holds them and they can be read, and if not no file is changed; no other file is changed. *)
  Theorem C120_job : forall evs i p d, own_jobs (map fst l) evs -> nth_error (sy_running (sts s0 evs)) i = Some (Some p) -> In (pr_name p, d) l ->
    let s := sts s0 evs in let s' := step path config own s (End i) in let out := result_path path (pr_name p) in
    (reads_values (pr_hooks p) -> (finishes path config own s i (pr_name p) <-> (exists t v, made p (job_parameters own d) t v) /\ pr_opens p out = true)) /\
    (finishes path config own s i (pr_name p) ->
     exists t v, made p (job_parameters own d) t v /\ holds (imported (sy_files s')) out (job_parameters own d) t v /\ get_results (imported (sy_files s')) path (pr_name p) = inl (Ok (readings v))) /\
    (~ finishes path config own s i (pr_name p) -> forall q, file_of s' q = file_of s q) /\
    (forall q, q <> out -> file_of s' q = file_of s q).
  Proof.
    intros evs i p d O E Hd s s' out. destruct (process_outcome path config own p d (process_config evs i p d O E Hd) Own) as (P1 & P2 & P3 & P4 & P5).
    assert (Fi : finishes path config own s i (pr_name p) <-> snd (process_run path config own p) = None).
    { split; [intros (p' & E' & _ & Q); subst s; rewrite E in E'; injection E' as <-; exact Q|intros Q; exists p; auto]. }
    split; [|split; [|split]].
    - intros V. rewrite Fi. split; [intros Q; split; [destruct (P3 Q) as (t & v & M & _); eauto|apply P1, Q]|intros [Q1 Q2]; apply P2; auto].
    - intros F. apply Fi in F. destruct (P3 F) as (t & v & M & H). exists t, v. split; [exact M|].
      assert (H' : holds (imported (sy_files s')) out (job_parameters own d) t v); [|split; [exact H'|apply (holds_read _ _ _ _ _ _ H')]].
      apply (holds_same (fst (process_run path config own p))); [|exact H]. subst s' s. cbn [step imported files]. rewrite E, F. cbn [sy_files]. fold out.
      destruct (lookup (files (fst (process_run path config own p))) out) as [f|] eqn:Ef; [rewrite lookup_assign, String.eqb_refl; reflexivity|]. exfalso. destruct H as (H & _). unfold in_file in H. fold out in H. rewrite Ef in H. discriminate.
    - intros N q. apply step_other. intros m (p' & E' & Em & Q). exfalso. apply N. apply Fi. subst s. rewrite E in E'. injection E' as <-. exact Q.
    - intros q N. apply step_other. intros m (p' & E' & <- & Q). subst s. rewrite E in E'. injection E' as <-. exact N.
  Qed.

  (** Whatever happens to the jobs, an event changes at most the results of one experiment, whose job ends or is killed by it; the
      configurations stay. *)
  Theorem C120_isolated : forall evs ev, own_jobs (map fst l) (evs ++ [ev]) -> let s := sts s0 evs in let s' := step path config own s ev in
    (forall n d, In (n, d) l -> file_of s' (config n) = Some (Some (JDict d))) /\
    ((forall q, file_of s' q = file_of s q) \/ exists n, In n (map fst l) /\ (exists i, (ev = End i \/ ev = Kill i true) /\ runs_as s i n) /\ forall q, q <> result_path path n -> file_of s' q = file_of s q).
  Proof.
    intros evs ev O s s'. split.
    - intros n d Hd. destruct (run_invariant path config own l fs1 Sep (evs ++ [ev]) O) as (I1 & _). specialize (I1 n (named n d Hd)). rewrite steps_app in I1. cbn [steps] in I1. refine (eq_trans I1 _). apply prepared_files, Hd.
    - assert (K : (exists n, writes path config own s ev n) \/ forall n, ~ writes path config own s ev n).
      { destruct ev as [n hk op|i|i w]; cbn [writes]; [right; auto| |].
        - unfold finishes. destruct (nth_error (sy_running s) i) as [[p|]|]; [|right; intros n (p & [=] & _)|right; intros n (p & [=] & _)]. destruct (snd (process_run path config own p)) eqn:Q; [right; intros n (p' & [= <-] & _ & K); congruence|left; exists (pr_name p), p; auto].
        - unfold runs_as. destruct w; [|right; intros n [[=] _]]. destruct (nth_error (sy_running s) i) as [[p|]|]; [left; exists (pr_name p); eauto|right; intros n (_ & p & [=] & _)|right; intros n (_ & p & [=] & _)]. }
      destruct K as [[n W]|N]; [right|left; intros q; apply step_other; intros n W; destruct (N n W)]. exists n. split; [apply (writes_named evs ev n (own_prefix _ _ _ O) W)|]. split.
      + destruct ev as [m hk op|i|i w]; cbn in W; [contradiction| |]; exists i; [destruct W as (p & E & En & _); split; [auto|exists p; auto]|destruct W as (-> & R); auto].
      + intros q Nq. apply step_other. intros m W'. assert (m = n) as ->; [|exact Nq]. destruct ev as [m' hk op|i|i w]; cbn in W, W'; [contradiction| |]; [destruct W as (p & E & <- & _), W' as (p' & E' & <- & _)|destruct W as (_ & p & E & <-), W' as (_ & p' & E' & <-)]; congruence.
  Qed.

  Lemma after_last evs1 ev evs2 n : own_jobs (map fst l) (evs1 ++ ev :: evs2) -> In n (map fst l) ->
    (forall evs3 ev' evs4, evs2 = evs3 ++ ev' :: evs4 -> ~ writes path config own (sts s0 (evs1 ++ ev :: evs3)) ev' n) ->
    file_of (sts s0 (evs1 ++ ev :: evs2)) (result_path path n) = file_of (step path config own (sts s0 evs1) ev) (result_path path n).
  Proof.
    intros O Hn H. change (ev :: evs2) with ([ev] ++ evs2) in O |- *. rewrite app_assoc in O |- *. rewrite steps_app. replace (step path config own (sts s0 evs1) ev) with (sts s0 (evs1 ++ [ev])) by (rewrite steps_app; reflexivity).
    apply untouched_steps. intros evs3 ev' evs4 m E W Eq. rewrite <- steps_app, <- app_assoc in W. cbn [app] in W. subst evs2. apply (H _ _ _ eq_refl).
    assert (O' : own_jobs (map fst l) (evs1 ++ ev :: evs3)) by (rewrite <- app_assoc in O; cbn [app] in O; change (ev :: evs3 ++ ev' :: evs4) with ((ev :: evs3) ++ ev' :: evs4) in O; rewrite app_assoc in O; exact (own_prefix _ _ _ O)).
    rewrite (results_inj n m Hn (writes_named _ _ _ O' W) Eq). exact W.
  Qed.
  Lemma latest_holds evs n d p : own_jobs (map fst l) evs -> In (n, d) l -> latest path config own s0 evs n p ->
    exists t v, made p (job_parameters own d) t v /\ holds (imported (sy_files (sts s0 evs))) (result_path path n) (job_parameters own d) t v.
  Proof.
    intros O Hd (evs1 & i & evs2 & -> & E & <- & Q & N). destruct (C120_job evs1 i p d (own_prefix _ _ _ O) E Hd) as (_ & H & _). destruct H as (t & v & M & H & _); [exists p; auto|].
    exists t, v. split; [exact M|]. refine (holds_same _ _ _ _ _ _ _ H). cbn [imported files]. exact (after_last evs1 (End i) evs2 _ O (named _ _ Hd) N).
  Qed.
  Lemma collect_ok fs' ns : (exists rs, collect path fs' ns = inl rs) <-> forall n, In n ns -> exists r, get_results (imported fs') path n = inl (Ok r).
  Proof.
    induction ns as [|n ns IH]; cbn [collect]; [split; [intros _ ? []|eauto]|]. destruct (get_results (imported fs') path n) as [[r|e]|e] eqn:E.
    - split.
      + intros [rs H] m [<-|Hm]; [eauto|]. apply IH; [|exact Hm]. destruct (collect path fs' ns); [eauto|discriminate].
      + intros H. destruct (proj2 IH) as [rs ->]; [intros m Hm; apply H; right; exact Hm|eauto].
    - split; [intros [rs [=]]|]. intros H. destruct (H n (or_introl eq_refl)) as [r K]. congruence.
    - split; [intros [rs [=]]|]. intros H. destruct (H n (or_introl eq_refl)) as [r K]. congruence.
  Qed.
  Lemma collect_in fs' ns rs : collect path fs' ns = inl rs -> map fst rs = ns /\ forall n r, In (n, r) rs -> get_results (imported fs') path n = inl (Ok r).
  Proof.
    revert rs. induction ns as [|n ns IH]; intros rs; cbn [collect]; [intros [= <-]; split; [reflexivity|intros ? ? []]|]. destruct (get_results (imported fs') path n) as [[r|e]|e] eqn:E; try discriminate. destruct (collect path fs' ns) as [rs'|]; [|discriminate]. intros [= <-].
    destruct (IH rs' eq_refl) as [I1 I2]. cbn. split; [rewrite I1; reflexivity|]. intros m r' [[= <- <-]|K]; auto.
  Qed.

  (** In a directory without results, those of all experiments can be collected exactly when the last thing written about each of them is
      by a job that ended well; what is collected, one entry for each experiment, is what these jobs measured with the parameters of the
      experiment. *)
  Theorem C120_collected : forall evs, own_jobs (map fst l) evs -> (forall n, In n (map fst l) -> lookup fs (result_path path n) = None) ->
    let r := collect path (sy_files (sts s0 evs)) (map fst l) in
    ((exists rs, r = inl rs) <-> forall n, In n (map fst l) -> exists p, latest path config own s0 evs n p) /\
    forall rs, r = inl rs -> map fst rs = map fst l /\
      forall n x d, In (n, x) rs -> In (n, d) l -> exists p t v, latest path config own s0 evs n p /\ made p (job_parameters own d) t v /\ x = readings v.
  Proof.
    intros evs O Fresh r.
    assert (Only : forall n d x, In (n, d) l -> get_results (imported (sy_files (sts s0 evs))) path n = inl (Ok x) -> exists p, latest path config own s0 evs n p).
    { intros n d x Hd G. destruct (last_write path config own s0 n evs) as [N|(evs1 & ev & evs2 & -> & W & N)].
      - exfalso. assert (F : file_of (sts s0 evs) (result_path path n) = None).
        { rewrite untouched_steps.
          - unfold file_of, s0. cbn [ready sy_files]. unfold fs1. rewrite prepare_other; [apply Fresh, (named _ _ Hd)|]. intros m e Hm. destruct Sep as (_ & S2 & _). apply S2; [apply (named _ _ Hm)|apply (named _ _ Hd)].
          - intros evs1 ev evs2 m -> W Eq. apply (N evs1 ev evs2 eq_refl). rewrite (results_inj n m (named _ _ Hd) (writes_named _ _ _ (own_prefix _ _ _ O) W) Eq). exact W. }
        unfold get_results, file_of in *. cbn [imported files] in G. rewrite F in G. discriminate.
      - pose proof (after_last evs1 ev evs2 n O (named _ _ Hd) N) as A. destruct ev as [m hk op|i|i w]; cbn in W; [contradiction| |].
        + destruct W as (p & E & En & Q). exists p, evs1, i, evs2. auto 10.
        + exfalso. destruct W as (-> & p & E & En). unfold file_of in A. cbn [step] in A. rewrite E in A. cbn [sy_files] in A. rewrite En, lookup_assign, String.eqb_refl in A.
          unfold get_results in G. cbn [imported files] in G. rewrite A in G. discriminate. }
    split; [split|].
    - intros H n Hn. pose proof Hn as Hn'. apply in_map_iff in Hn as ([n' d] & <- & Hd). cbn [fst] in *. destruct (proj1 (collect_ok _ _) H n' Hn') as [x G]. exact (Only n' d x Hd G).
    - intros H. apply collect_ok. intros n Hn. destruct (H n Hn) as [p L]. apply in_map_iff in Hn as ([n' d] & <- & Hd). cbn [fst] in *. destruct (latest_holds evs n' d p O Hd L) as (t & v & _ & Ho). exists (readings v). apply (holds_read _ _ _ _ _ _ Ho).
    - intros rs E. destruct (collect_in _ _ _ E) as [E1 E2]. split; [exact E1|]. intros n x d Hx Hd. specialize (E2 n x Hx). destruct (Only n d x Hd E2) as [p L]. destruct (latest_holds evs n d p O Hd L) as (t & v & M & Ho). exists p, t, v. split; [exact L|]. split; [exact M|].
      rewrite (holds_read _ _ _ _ _ _ Ho) in E2. congruence.
  Qed.
End Jobs.
Print Assumptions C120_job.
Print Assumptions C120_isolated.
Print Assumptions C120_collected.

(** *** The three launchers *)
Lemma nodup_check (ns : list string) : (fix ok (l : list string) : bool := match l with [] => true | n :: l => negb (existsb (String.eqb n) l) && ok l end) ns = true -> NoDup ns.
Proof.
  induction ns as [|n ns IH]; intros H; constructor; apply andb_prop in H as [H1 H2]; [|auto]. intros K. apply Bool.negb_true_iff in H1. assert (existsb (String.eqb n) ns = true) by (apply existsb_exists; exists n; split; [exact K|apply String.eqb_refl]). congruence.
Qed.
Lemma same_tail a b x y : String.length x = String.length y -> (a ++ x = b ++ y)%string -> a = b /\ x = y.
Proof.
  intros L. assert (La : (a ++ x = b ++ y)%string -> String.length a = String.length b).
  { intros E. apply (f_equal String.length) in E. assert (A : forall u v, String.length (u ++ v) = String.length u + String.length v) by (clear; induction u; intros; cbn; auto). rewrite !A in E. lia. }
  intros E. specialize (La E). revert b E La. induction a as [|c a IH]; intros [|c' b] E La; cbn in *; try discriminate; [auto|]. injection E as -> E. destruct (IH b E) as [-> ->]; auto.
Qed.
Lemma pref_inj show p q pol pol' : In pol preference_policies -> In pol' preference_policies -> preference_name show p pol = preference_name show q pol' -> show p = show q /\ pol = pol'.
Proof.
  intros H H' E. unfold preference_name in E. apply append_inj in E.
  assert (K : forall a b u v x y, String.length x = String.length y -> x <> y -> (a ++ u ++ x)%string = (b ++ v ++ y)%string -> False).
  { intros a b u v x y L N Q. assert (A : forall r s t, (r ++ s ++ t = (r ++ s) ++ t)%string) by (clear; induction r; intros; cbn; congruence). rewrite !A in Q. apply same_tail in Q as [_ Q]; auto. }
  destruct H as [<-|[<-|[<-|[]]]], H' as [<-|[<-|[<-|[]]]]; try (split; [apply append_inj_r in E; exact E|reflexivity]); exfalso.
  - refine (K (show p) (show q) "-neve" "-alway" "r-hold" "s-hold" eq_refl _ E)%string; discriminate.
  - refine (K (show p) (show q) "-never-hol" "-pomc" "d" "p" eq_refl _ E)%string; discriminate.
  - refine (K (show p) (show q) "-alway" "-neve" "s-hold" "r-hold" eq_refl _ E)%string; discriminate.
  - refine (K (show p) (show q) "-always-hol" "-pomc" "d" "p" eq_refl _ E)%string; discriminate.
  - refine (K (show p) (show q) "-pomc" "-never-hol" "p" "d" eq_refl _ E)%string; discriminate.
  - refine (K (show p) (show q) "-pomc" "-always-hol" "p" "d" eq_refl _ E)%string; discriminate.
Qed.
Lemma update_new (l d : launcher) : NoDup (map fst (d ++ l)) -> update d l = d ++ l.
Proof.
  revert d. induction l as [|[n x] l IH]; intros d ND; [rewrite app_nil_r; reflexivity|]. cbn. unfold update in IH. assert (assign d n x = d ++ [(n, x)]) as ->.
  { assert (N : ~ In n (map fst d)) by (rewrite map_app in ND; cbn in ND; apply NoDup_remove_2 in ND; intros K; apply ND, in_or_app; auto). clear - N. induction d as [|[m y] d IHd]; cbn in *; [reflexivity|]. destruct (String.eqb_spec m n) as [->|_]; [destruct N; auto|]. rewrite IHd; auto. }
  rewrite IH; rewrite <- app_assoc; [reflexivity|exact ND].
Qed.
Lemma pref_numbers_nodup : NoDup preference_numbers.
Proof.
  unfold preference_numbers. assert (ND : NoDup (seq 0 21)) by apply seq_NoDup. revert ND. generalize (seq 0 21). induction l as [|i l IH]; intros ND; cbn; constructor; inversion ND; subst; [|auto]. intros K. apply in_map_iff in K as (j & E & Hj). injection E as E. apply Nat2Z.inj in E. congruence.
Qed.
Lemma nodup_product {A B} (f : A -> B -> string) (la : list A) (lb : list B) :
  NoDup la -> NoDup lb -> (forall a a' b b', In a la -> In a' la -> In b lb -> In b' lb -> f a b = f a' b' -> a = a' /\ b = b') -> NoDup (flat_map (fun a => map (f a) lb) la).
Proof.
  intros Na Nb Inj. induction la as [|a la IH]; cbn; [constructor|]. inversion Na as [|? ? N1 N2]; subst.
  assert (Q : forall u v : list string, NoDup u -> NoDup v -> (forall x, In x u -> ~ In x v) -> NoDup (u ++ v)) by (clear; induction u; intros v Nu Nv H; cbn; [exact Nv|]; inversion Nu; subst; constructor; [rewrite in_app_iff; intros [K|K]; [auto|apply (H a); cbn; auto]|apply IHu; auto; intros x Hx; apply H; right; exact Hx]).
  apply Q.
  - assert (R : forall lb0, incl lb0 lb -> NoDup lb0 -> NoDup (map (f a) lb0)); [|apply R; [apply incl_refl|exact Nb]]. induction lb0 as [|b lb0 IHb]; intros Hi ND; cbn; constructor; inversion ND; subst; [|apply IHb; auto; intros z Hz; apply Hi; right; exact Hz].
    intros K. apply in_map_iff in K as (b' & E & Hb). destruct (Inj a a b' b) as [_ ->]; auto; [left; auto|left; auto|apply Hi; right; exact Hb|apply Hi; left; auto].
  - apply IH; [exact N2|]. intros x x' b b' Hx Hx'. apply Inj; right; auto.
  - intros x Hx K. apply in_map_iff in Hx as (b & <- & Hb). apply in_flat_map in K as (a' & Ha' & K). apply in_map_iff in K as (b' & E & Hb'). destruct (Inj a' a b' b) as [-> _]; auto; [right; auto|left; auto].
Qed.
Lemma pref_names show : map fst (preference_exps show) = flat_map (fun p => map (preference_name show p) preference_policies) preference_numbers.
Proof. unfold preference_exps. generalize preference_numbers as l. induction l as [|p l IH]; [reflexivity|]. cbn [flat_map]. rewrite map_app, IH. f_equal. Qed.

(** The experiments of each launcher, for the numbers and names that are asked for. *)
Theorem C120_multitask_exps : forall n d, In (n, d) multitask_exps <-> multitask_experiment n d.
Proof.
  intros n d. unfold multitask_exps. rewrite in_flat_map. split.
  - intros (t & Ht & K). apply in_map_iff in K as (pol & [= <- <-] & Hp). constructor; [exact Ht|exact Hp].
  - intros [t pol Ht Hp]. exists t. split; [exact Ht|]. apply in_map_iff. exists pol. auto.
Qed.
Print Assumptions C120_multitask_exps.
Theorem C120_pomcp_exps : forall n d, In (n, d) pomcp_exps <-> pomcp_experiment n d.
Proof.
  intros n d. unfold pomcp_exps. rewrite in_app_iff, !in_flat_map.
  assert (Z : forall t l, In (t, l) (combine (repeat "transitions"%string (length lengths_transitions) ++ repeat "htm"%string (length lengths_htm)) (lengths_transitions ++ lengths_htm)) <-> (t = "transitions"%string /\ In l [3; 5; 7; 10; 15; 20; 25; 30; 35; 40; 60; 80; 100]) \/ (t = "htm"%string /\ 1 <= l <= 9)).
  { intros t l. cbn. split.
    - intros H. repeat (destruct H as [[= <- <-]|H]; [first [left; split; [reflexivity|tauto]|right; split; [reflexivity|lia]]|]). contradiction.
    - intros [[-> H]|[-> H]]; [repeat (destruct H as [<-|H]; [tauto|]); contradiction|]. assert (l = 1 \/ l = 2 \/ l = 3 \/ l = 4 \/ l = 5 \/ l = 6 \/ l = 7 \/ l = 8 \/ l = 9) as K by lia. repeat (destruct K as [->|K]; [tauto|]). subst. tauto. }
  assert (I : forall i, In i iterations <-> In i [15; 20; 30] \/ exists k, i = 50 * k /\ 1 <= k <= 20).
  { intros i. unfold iterations. rewrite in_app_iff, in_map_iff. split; (intros [H|H]; [left; exact H|right]).
    - destruct H as (k & <- & H). apply in_seq in H. exists (S k). lia.
    - destruct H as (k & -> & H). exists (k - 1). rewrite in_seq. split; [f_equal; lia|lia]. }
  split.
  - intros [([t l] & Ht & K)|(i & Hi & K)]; apply in_map_iff in K as (x & [= <- <-] & Hx).
    + apply Z in Ht as [[-> Hl]|[-> Hl]]; destruct x; [exact (by_transitions l true Hl)|exact (by_transitions l false Hl)|exact (by_htm l true Hl)|exact (by_htm l false Hl)].
    + exact (by_iterations i x (proj1 (I i) Hi) Hx).
  - intros [l s Hl|l s Hl|i r Hi Hr]; [left|left|right].
    + exists ("transitions"%string, l). split; [apply Z; auto|]. apply in_map_iff. exists s. destruct s; (split; [reflexivity|cbn; auto]).
    + exists ("htm"%string, l). split; [apply Z; auto|]. apply in_map_iff. exists s. destruct s; (split; [reflexivity|cbn; auto]).
    + exists i. split; [apply I, Hi|]. apply in_map_iff. exists r. auto.
Qed.
Print Assumptions C120_pomcp_exps.
Theorem C120_preference_exps : forall show n d, In (n, d) (preference_exps show) <-> preference_experiment show n d.
Proof.
  intros show n d. unfold preference_exps. rewrite in_flat_map. split.
  - intros (p & Hp & K). apply in_map_iff in K as (pol & [= <- <-] & Hpol). apply in_map_iff in Hp as (i & <- & Hi). apply in_seq in Hi. constructor; [lia|exact Hpol].
  - intros [i pol Hi Hp]. exists (Z.of_nat i # 20). split; [apply in_map_iff; exists i; split; [reflexivity|apply in_seq; lia]|]. apply in_map_iff. exists pol. auto.
Qed.
Print Assumptions C120_preference_exps.
(** No two experiments of a launcher have the same name, so that none is lost in the dictionary; no name is an absolute path; and the
    names looked up in the results when they are printed or plotted are those of the experiments. *)
Definition incl_check (a b : list string) : bool := forallb (fun x => existsb (String.eqb x) b) a.
Lemma incl_checked a b : incl_check a b = true -> forall x, In x a -> In x b.
Proof. intros H x Hx. apply (proj1 (forallb_forall _ a) H) in Hx. apply existsb_exists in Hx as (y & Hy & E). apply String.eqb_eq in E as ->. exact Hy. Qed.
Definition well_named (l : launcher) (read : list string) : Prop :=
  NoDup (map fst l) /\ as_dict l = l /\ (forall n, In n (map fst l) -> starts_slash n = false) /\ forall n, In n read <-> In n (map fst l).
Theorem C120_names : forall show, (forall i j, i <= 20 -> j <= 20 -> show (Z.of_nat i # 20) = show (Z.of_nat j # 20) -> i = j) ->
  well_named multitask_exps multitask_read /\ length multitask_exps = 9 /\
  well_named pomcp_exps pomcp_read /\ length pomcp_exps = 205 /\
  well_named (preference_exps show) (preference_read show) /\ length (preference_exps show) = 63.
Proof.
  intros show Inj. split; [|split; [reflexivity|split; [|split; [reflexivity|split; [|reflexivity]]]]].
  - assert (N : NoDup (map fst multitask_exps)) by (apply nodup_check; vm_compute; reflexivity). split; [exact N|]. split; [apply (update_new multitask_exps []); exact N|]. split.
    + apply Forall_forall. vm_compute. repeat constructor.
    + intros n. split; apply incl_checked; vm_compute; reflexivity.
  - assert (N : NoDup (map fst pomcp_exps)) by (apply nodup_check; vm_compute; reflexivity). split; [exact N|]. split; [apply (update_new pomcp_exps []); exact N|]. split.
    + intros n Hn. apply in_map_iff in Hn as ([n' d] & <- & H). apply C120_pomcp_exps in H. destruct H; reflexivity.
    + intros n. split; apply incl_checked; vm_compute; reflexivity.
  - assert (N : NoDup (map fst (preference_exps show))).
    { rewrite pref_names. apply nodup_product; [apply pref_numbers_nodup|apply nodup_check; reflexivity|]. intros p q pol pol' Hp Hq Hpol Hpol' E. apply pref_inj in E as [E ->]; auto. split; [|reflexivity].
      apply in_map_iff in Hp as (i & <- & Hi). apply in_map_iff in Hq as (j & <- & Hj). apply in_seq in Hi. apply in_seq in Hj. rewrite (Inj i j); [reflexivity|lia|lia|exact E]. }
    split; [exact N|]. split; [apply (update_new (preference_exps show) []); exact N|]. split.
    + intros n Hn. apply in_map_iff in Hn as ([n' d] & <- & H). apply C120_preference_exps in H. destruct H; reflexivity.
    + intros n. rewrite pref_names. unfold preference_read. rewrite !in_flat_map. split; intros (x & Hx & K); apply in_map_iff in K as (y & <- & Hy); exists y; (split; [exact Hy|]); apply in_map_iff; exists x; auto.
Qed.
Print Assumptions C120_names.

(** *** What their jobs do *)
Section Launched.
  Context {X : Type}.
  Variables (pi : SuppModel.config -> SuppLawModel.probabilities -> spomdp -> pdict -> res X) (pw : X -> pval -> res X) (pol : nat -> epolicy X) (ordn : list nat -> list nat).
  Variables (path : string) (config : string -> string).
  Hypothesis Hord : is_order ordn.
  Lemma process_ok own (p : process (job X)) d : lookup (pr_files p) (config (pr_name p)) = Some (Some (JDict d)) -> json_only own ->
    exists l m, reachable (l : list (op (job X))) m /\ 0 < length (exps m) /\ process_run path config own p = apply (Run 0 false (pr_hooks p) (pr_opens p)) m /\ path_of m 0 = Some (result_path path (pr_name p)) /\
      (forall k, used m 0 false k = job_parameters own d k) /\ writable (used m 0 false).
  Proof.
    intros F J. destruct (process_world path config own p d F) as (l & m & R & He & Ep & Pp & U & _). exists l, m. split; [exact R|]. split; [lia|]. split; [exact Ep|]. split; [exact Pp|]. split; [exact U|]. intros k. rewrite U. apply (job_writable own d J).
  Qed.

  (** A multitask job runs with what its configuration says, and otherwise with the alternative task, the random policy,
      20 subtasks and 100 evaluations. *)
  Theorem C120_defaults : forall (p : process (job X)) d, lookup (pr_files p) (config (pr_name p)) = Some (Some (JDict d)) ->
    exists l m, reachable (l : list (op (job X))) m /\ process_run path config (Some multitask_defaults) p = apply (Run 0 false (pr_hooks p) (pr_opens p)) m /\
      forall k, match last_value d k with
                | Some j => used m 0 false k = Some (VJson j)
                | None => (k = "task"%string -> used m 0 false k = Some (VJson (JText "alternative"))) /\ (k = "policy"%string -> used m 0 false k = Some (VJson (JText "random"))) /\
                          (k = "n_subtasks"%string -> used m 0 false k = Some (VJson (JNum 20))) /\ (k = "n_evaluations"%string -> used m 0 false k = Some (VJson (JNum 100))) /\
                          (~ In k ["task"; "policy"; "n_subtasks"; "n_evaluations"]%string -> used m 0 false k = lookup base_parameters k)
                end.
  Proof.
    intros p d F. assert (J : json_only (Some multitask_defaults)) by (intros o kv [= <-] K; cbn in K; repeat (destruct K as [<-|K]; [discriminate|]); contradiction).
    destruct (process_ok (Some multitask_defaults) p d F J) as (l & m & R & _ & Ep & _ & U & _). exists l, m. split; [exact R|]. split; [exact Ep|].
    intros k. rewrite U. unfold job_parameters. destruct (last_value d k); [reflexivity|].
    split; [intros ->; reflexivity|]. split; [intros ->; reflexivity|]. split; [intros ->; reflexivity|]. split; [intros ->; reflexivity|].
    intros N. unfold written. replace (last_value multitask_defaults k) with (@None (option json)); [reflexivity|].
    cbn in N. unfold multitask_defaults. cbn [last_value].
    repeat (match goal with |- context [String.eqb ?a ?b] => destruct (String.eqb_spec a b) as [E|]; [exfalso; rewrite <- E in N; tauto|] end). reflexivity.
  Qed.

  (** The jobs of the multitask launcher whose policy is a script end well when their processes do, and leave 100 evaluations. *)
  Theorem C120_multitask : forall opens fs evs i p c task policy, let own := Some multitask_defaults in let l := multitask_exps in
    separate path config (map fst l) -> snd (action_prepare config opens l fs) = None -> own_jobs (map fst l) evs ->
    let s := steps path config own (ready (fst (action_prepare config opens l fs)) : system (job X)) evs in
    nth_error (sy_running s) i = Some (Some p) -> pr_hooks p = multitask_job pi pw pol ordn c -> healthy c 100 -> pr_opens p (result_path path (pr_name p)) = true ->
    pr_name p = multitask_name task policy -> In task multitask_tasks -> In policy ["repeat"; "random"]%string ->
    finishes path config own s i (pr_name p) /\
    exists v, length v = 100 /\ get_results (imported (sy_files (step path config own s (End i)))) path (pr_name p) = inl (Ok (readings v)).
  Proof.
    intros opens fs evs i p c task policy own l Sep Prep O s E Hh He Ho En Ht Hp.
    assert (J : json_only own) by (intros o kv [= <-] K; cbn in K; repeat (destruct K as [<-|K]; [discriminate|]); contradiction).
    assert (ND : NoDup (map fst l)) by (apply nodup_check; vm_compute; reflexivity).
    set (d := [("task", JText task); ("policy", JText policy)]%string). assert (Hd : In (pr_name p, d) l).
    { rewrite En. apply C120_multitask_exps. constructor; [exact Ht|]. destruct Hp as [<-|[<-|[]]]; cbn; auto. }
    assert (F := process_config path config own l opens fs ND Sep Prep evs i p d O E Hd).
    destruct (process_ok own p d F J) as (l0 & m & R & He' & Ep & Pp & U & W).
    assert (T : forall k j, job_parameters own d k = Some (VJson j) -> used m 0 false k = Some (VJson j)) by (intros k j <-; apply U).
    assert (Q := C106_multitask X pi pw pol ordn l0 m 0 false c (pr_opens p) task policy 20 100 Hord R He' Ht (T "task"%string (JText task) eq_refl)). cbv zeta in Q.
    destruct Q as [Q1 (t & mo & v & _ & _ & Q2 & Q3 & _)].
    - destruct Hp as [<-|[<-|[]]]; cbn; auto.
    - apply T. reflexivity.
    - intros _. split; [exists 20%Q; split; [apply T; reflexivity|reflexivity]|lia].
    - exists 100%Q. split; [apply T; reflexivity|reflexivity].
    - exact He.
    - intros q Eq. assert (q = result_path path (pr_name p)) as -> by congruence. auto.
    - rewrite Hh in Ep. assert (Fi : finishes path config own s i (pr_name p)) by (exists p; split; [exact E|split; [reflexivity|rewrite Ep; exact Q1]]). split; [exact Fi|]. exists v. split; [exact Q3|].
      destruct (C105_success _ l0 m 0 false _ (pr_opens p) R He' Q1) as (s1 & s2 & t' & v' & _ & _ & _ & Ev & _ & H & _).
      assert (v' = v) as -> by (unfold evaluations_of, run_of in Q2; rewrite Ev in Q2; congruence). specialize (H _ Pp).
      apply (holds_read _ path (pr_name p) (used m 0 false) t' v). refine (holds_same _ _ _ _ _ _ _ H). cbn [imported files step]. rewrite E, Ep. unfold succeeds in Q1. rewrite Q1. cbn [sy_files].
      destruct (lookup (files (fst (apply (Run 0 false (multitask_job pi pw pol ordn c) (pr_opens p)) m))) (result_path path (pr_name p))) as [f|] eqn:Ef; [rewrite lookup_assign, String.eqb_refl; reflexivity|]. destruct H as (H & _). unfold in_file in H. rewrite Ef in H. discriminate.
  Qed.
  (** So do those of the preference launcher whose policy is to hold. *)
  Theorem C120_always_hold : forall show opens fs evs i p c k, let own := None in let l := preference_exps show in
    NoDup (map fst l) -> separate path config (map fst l) -> snd (action_prepare config opens l fs) = None -> own_jobs (map fst l) evs ->
    let s := steps path config own (ready (fst (action_prepare config opens l fs)) : system (job X)) evs in
    nth_error (sy_running s) i = Some (Some p) -> pr_hooks p = preference_job pi pw pol ordn c -> healthy c 100 -> pr_opens p (result_path path (pr_name p)) = true ->
    pr_name p = preference_name show (Z.of_nat k # 20) "always-hold" -> k <= 20 -> finishes path config own s i (pr_name p).
  Proof.
    intros show opens fs evs i p c k own l ND Sep Prep O s E Hh He Ho En Hk.
    assert (J : json_only own) by (intros o kv [=]).
    set (d := [("p_preference", JNum (Z.of_nat k # 20)); ("policy", JText "always-hold"); ("n_evaluations", JNum 100)]%string). assert (Hd : In (pr_name p, d) l).
    { rewrite En. apply C120_preference_exps. constructor; [exact Hk|cbn; auto]. }
    assert (F := process_config path config own l opens fs ND Sep Prep evs i p d O E Hd).
    destruct (process_ok own p d F J) as (l0 & m & R & He' & Ep & Pp & U & W).
    assert (T : forall k j, job_parameters own d k = Some (VJson j) -> used m 0 false k = Some (VJson j)) by (intros k' j <-; apply U).
    destruct (C106_preference X pi pw pol ordn l0 m 0 false c (pr_opens p) (Z.of_nat k # 20) 100 Hord R He') as [Q1 _].
    - apply T. reflexivity.
    - left. rewrite U. reflexivity.
    - apply T. reflexivity.
    - exists 100%Q. split; [apply T; reflexivity|reflexivity].
    - exact He.
    - intros q Eq. assert (q = result_path path (pr_name p)) as -> by congruence. auto.
    - exists p. split; [exact E|]. split; [reflexivity|]. rewrite Ep, Hh. exact Q1.
  Qed.
  (** But the results of the preference launcher can never be plotted: from a directory without results, whatever happens to the jobs,
      those that never hold fail and the results cannot be collected. *)
  Theorem C120_preference_refuted : forall show opens fs evs, let own := None in let l := preference_exps show in
    NoDup (map fst l) -> separate path config (map fst l) -> snd (action_prepare config opens l fs) = None -> own_jobs (map fst l) evs ->
    (forall n, In n (map fst l) -> lookup fs (result_path path n) = None) ->
    (forall n hk op, In (Start n hk op) evs -> exists c, hk = preference_job pi pw pol ordn c) ->
    let s := steps path config own (ready (fst (action_prepare config opens l fs)) : system (job X)) evs in
    forall rs, collect path (sy_files s) (map fst l) <> inl rs.
  Proof.
    intros show opens fs evs own l ND Sep Prep O Fresh Hh s rs C. assert (J : json_only own) by (intros o kv [=]).
    destruct (C120_collected path config own l opens fs ND Sep J Prep evs O Fresh) as [[K _] _].
    set (d := [("p_preference", JNum 0); ("policy", JText "never-hold"); ("n_evaluations", JNum 100)]%string).
    set (n := preference_name show (Z.of_nat 0 # 20) "never-hold").
    assert (Hd : In (n, [("p_preference", JNum (Z.of_nat 0 # 20)); ("policy", JText "never-hold"); ("n_evaluations", JNum 100)]%string) l) by (apply C120_preference_exps; constructor; [lia|cbn; auto]).
    destruct (K (ex_intro _ rs C) n) as [p (evs1 & i & evs2 & -> & E & En & Q & _)]; [apply in_map_iff; eexists; split; [|exact Hd]; reflexivity|].
    rewrite <- En in Hd. assert (O1 := own_prefix _ _ _ O).
    assert (F := process_config path config own l opens fs ND Sep Prep evs1 i p _ O1 E Hd).
    destruct (process_ok own p _ F J) as (l0 & m & R & He' & Ep & Pp & U & W).
    destruct (run_invariant path config own l (fst (action_prepare config opens l fs)) Sep evs1 O1) as (_ & _ & I3). specialize (I3 i p E).
    destruct (Hh (pr_name p) (pr_hooks p) (pr_opens p)) as [c Hc]; [apply in_or_app; left; exact I3|].
    destruct (C106_never_hold X pi pw pol ordn l0 m 0 false c (pr_opens p) (Z.of_nat 0 # 20) Hord R He') as [B _].
    - unfold has_number. rewrite U. reflexivity.
    - left. rewrite U. reflexivity.
    - unfold has_text. rewrite U. reflexivity.
    - rewrite Ep, Hc in Q. unfold raises in B. congruence.
  Qed.
End Launched.
Print Assumptions C120_defaults.
Print Assumptions C120_multitask.
Print Assumptions C120_always_hold.
Print Assumptions C120_preference_refuted.

(** *** Examples *)
(** A directory where job n has the configuration out/n.conf and the results out/n.json: for every launcher above, each job has its own. *)
Definition lx_config (n : string) : string := ("out/" ++ n ++ ".conf")%string.
Lemma lx_separate names : (forall n, In n names -> starts_slash n = false) -> separate "out" lx_config names.
Proof.
  intros H. split; [|split; [|exact H]].
  - intros n m _ _ E. unfold lx_config in E. apply append_inj in E. apply append_inj_r in E. exact E.
  - intros n m _ Hm E. unfold lx_config, result_path, path_join in E. assert (K : starts_slash (m ++ ".json") = false) by (specialize (H m Hm); destruct m; [reflexivity|exact H]). rewrite K in E. cbn [String.eqb ends_slash Ascii.eqb orb] in E.
    change (("out" ++ "/" ++ m ++ ".json")%string) with ("out/" ++ (m ++ ".json"))%string in E. change (String.append "out/" (String.append n ".conf") = String.append "out/" (String.append m ".json")) in E. apply append_inj in E.
    apply (same_tail n m ".conf" ".json" eq_refl) in E as [_ [=]].
Qed.
(** Two experiments; the job of the second one is killed while it writes, and is run again. *)
Definition lx_exps : launcher := [("short", [("n_evaluations", JNum 2)]); ("long", [("n_evaluations", JNum 3); ("policy", JText "wait")])]%string.
Definition lx_open (_ : string) : bool := true.
Definition lx_start (n : string) : event nat := Start n ex_hooks lx_open.
Definition lx_events : list (event nat) := [lx_start "short"; lx_start "long"; Kill 1 true; End 0].
Definition lx_again : list (event nat) := lx_events ++ [lx_start "long"; End 2].
Definition lx_ready : system nat := ready (fst (action_prepare lx_config lx_open lx_exps [])).
Example C120_ex_launch : NoDup (map fst lx_exps) /\ separate "out" lx_config (map fst lx_exps) /\ json_only (Some ex_own) /\ snd (action_prepare lx_config lx_open lx_exps []) = None /\
  own_jobs (map fst lx_exps) lx_again /\
  collect "out" (sy_files (steps "out" lx_config (Some ex_own) lx_ready lx_events)) (map fst lx_exps) = inr (Raises EValue) /\
  exists r2 r3, collect "out" (sy_files (steps "out" lx_config (Some ex_own) lx_ready lx_again)) (map fst lx_exps) = inl [("short"%string, r2); ("long"%string, r3)] /\
    length (fst (fst r2)) = 2 /\ length (fst (fst r3)) = 3.
Proof.
  split; [apply nodup_check; reflexivity|]. split; [apply lx_separate; intros n [<-|[<-|[]]]; reflexivity|]. split; [intros o kv [= <-] [<-|[<-|[]]]; discriminate|]. split; [reflexivity|].
  split; [intros n hk op K; cbn in K; repeat (destruct K as [K|K]; [try discriminate K; injection K as <- _ _; cbn; auto|]); contradiction|]. split; [vm_compute; reflexivity|].
  vm_compute. eexists _, _. split; [reflexivity|]. split; reflexivity.
Qed.
(** The launchers have such directories, and there are runs with 100 evaluations whose processes all return. *)
Definition lx_chance : chance :=
  {| ch_choices := fun p k => p + k; ch_start := ch_start jx_chance; ch_step := ch_step jx_chance; ch_warmup := fun _ => 1; ch_clock := 1 # 3; ch_elapsed := fun p => inject_Z (Z.of_nat p); ch_calls := fun p => p; ch_seeds := fun p => Z.of_nat p;
     ch_processors := 100; ch_events := fun k => if k =? 300 then map PoolModel.Push (seq 0 100) ++ map (fun p => PoolModel.Exit p 0) (seq 0 100) else []; ch_length := 1000 |}.
Example C120_ex_healthy : healthy lx_chance 100.
Proof. vm_compute. reflexivity. Qed.
(** A job of the multitask launcher that starts after the preparation, and ends. *)
Definition lx_job := multitask_job jx_init (fun x _ => Ok x) jx_pomcp jx_order lx_chance.
Definition lx_multitask : system (job unit) := steps "out" lx_config (Some multitask_defaults) (ready (fst (action_prepare lx_config lx_open multitask_exps []))) [Start "uniform-random" lx_job lx_open].
Example C120_ex_multitask : reads_values lx_job /\ finishes "out" lx_config (Some multitask_defaults) lx_multitask 0 "uniform-random" /\
  exists v, length v = 100 /\ get_results (imported (sy_files (step "out" lx_config (Some multitask_defaults) lx_multitask (End 0)))) "out" "uniform-random" = inl (Ok (readings v)).
Proof.
  split; [intros d d' H; unfold lx_job, multitask_job, job_hooks; cbn [h_init]; unfold multitask_init, get_parameter; rewrite !H; reflexivity|].
  refine (C120_multitask jx_init (fun x _ => Ok x) jx_pomcp jx_order "out" lx_config _ lx_open [] [Start "uniform-random" lx_job lx_open] 0 _ lx_chance "uniform" "random" _ _ _ eq_refl eq_refl C120_ex_healthy eq_refl eq_refl _ _).
  - intros l. reflexivity.
  - apply lx_separate. apply Forall_forall. vm_compute. repeat constructor.
  - reflexivity.
  - intros n hk op [K|[]]. injection K as <- _ _. cbn. auto 10.
  - cbn. auto.
  - cbn. auto.
Qed.
(** The preference launcher, with the text of the numerator for a number *)
Definition lx_show (q : Q) : string := HtmModel.str_nat (Z.to_nat (Qnum q)).
Example C120_ex_preference : (forall i j, i <= 20 -> j <= 20 -> lx_show (Z.of_nat i # 20) = lx_show (Z.of_nat j # 20) -> i = j) /\
  separate "out" lx_config (map fst (preference_exps lx_show)) /\ snd (action_prepare lx_config lx_open (preference_exps lx_show) []) = None.
Proof.
  assert (I : forall i j, i <= 20 -> j <= 20 -> lx_show (Z.of_nat i # 20) = lx_show (Z.of_nat j # 20) -> i = j).
  { intros i j Hi Hj E. assert (K : NoDup (map (fun i => lx_show (Z.of_nat i # 20)) (seq 0 21))) by (apply nodup_check; vm_compute; reflexivity).
    assert (Ni : forall i, i <= 20 -> nth_error (map (fun i => lx_show (Z.of_nat i # 20)) (seq 0 21)) i = Some (lx_show (Z.of_nat i # 20))) by (intros k Hk; rewrite nth_error_map, (nth_error_nth' (seq 0 21) 0) by (rewrite seq_length; lia); rewrite seq_nth by lia; reflexivity).
    apply (proj1 (NoDup_nth_error _) K); [rewrite map_length, seq_length; lia|]. rewrite !Ni by assumption. congruence. }
  split; [exact I|]. split; [apply lx_separate; apply (C120_names lx_show I)|reflexivity].
Qed.
