(** Lemmas for C120. *)
From Verif Require Import PyBase EvalModel ExpModel ExpSpec ExpProofs ExpProofs2 Props_Exp LaunchModel LaunchSpec.
From Coq Require Import Lia.
Local Open Scope list_scope.
Local Open Scope nat_scope.

Lemma lookup_in {V} (l : list (string * V)) n d : NoDup (map fst l) -> In (n, d) l -> lookup l n = Some d.
Proof.
  induction l as [|[m e] l IH]; intros ND H; [contradiction|]. cbn in *. inversion ND as [|? ? N1 N2]; subst. destruct H as [[= -> ->]|H]; [rewrite String.eqb_refl; reflexivity|].
  destruct (String.eqb_spec m n) as [->|_]; [|auto]. exfalso. apply N1. apply in_map_iff. exists (n, d). auto.
Qed.
Lemma written_some (d : list (string * json)) k : written (map (fun kv => (fst kv, Some (snd kv))) d) k = option_map VJson (last_value d k).
Proof. unfold written. rewrite (last_map Some). destruct (last_value d k); reflexivity. Qed.

Section Launch.
  Context {S : Type}.
  Variables (path : string) (config : string -> string) (own : option (list (string * option json))).
  Notation res_of := (result_path path).
  Notation prun := (process_run path config own).

  (** The world in which a process runs its experiment. *)
  Lemma process_world (p : process S) d : lookup (pr_files p) (config (pr_name p)) = Some (Some (JDict d)) ->
    exists l m, reachable (l : list (op S)) m /\ length (exps m) = 1 /\ prun p = apply (Run 0 false (pr_hooks p) (pr_opens p)) m /\
      path_of m 0 = Some (res_of (pr_name p)) /\ (forall k, used m 0 false k = job_parameters own d k) /\ files m = pr_files p.
  Proof.
    intros F. set (w0 := imported (pr_files p)). set (w2 := after_all [DefClass 0 own : op S] w0).
    assert (R0 : reachable ([] : list (op S)) w0) by (exists (pr_files p); reflexivity).
    assert (R2 : reachable [DefClass 0 own : op S] w2) by (exists (pr_files p); reflexivity).
    assert (F2 : files w2 = pr_files p) by (unfold w2; cbn; destruct own; reflexivity).
    assert (E2 : exps w2 = []) by (unfold w2; cbn; destruct own; reflexivity).
    assert (C2 : length (classes w2) = 2) by (unfold w2; cbn; destruct own; reflexivity).
    assert (D2 : forall k, default_of w2 1 k = over (match own with Some o => written o | None => fun _ => None end) (lookup base_parameters) k).
    { intros k. pose proof (C104_class S [] w0 0 own k R0 ltac:(cbn; lia)) as Q. exact Q. }
    assert (Fc : lookup (files w2) (config (pr_name p)) = Some (Some (JDict d))) by (rewrite F2; exact F).
    destruct (C104_load S _ w2 1 (config (pr_name p)) d R2 ltac:(lia) Fc) as (L1 & L2 & _ & _ & L5). rewrite E2 in L2, L5. cbn [length] in L2, L5.
    set (m0 := fst (apply (Load 1 (config (pr_name p)) : op S) w2)) in *.
    assert (Em : m0 = after_all ([DefClass 0 own; Load 1 (config (pr_name p))] : list (op S)) w0) by reflexivity.
    assert (Fm : files m0 = pr_files p). { unfold m0. cbn [apply]. destruct (nth_error (classes w2) 1); [|exact F2]. unfold load. rewrite Fc. cbn. exact F2. }
    set (sp := SetPath 0 (Some (res_of (pr_name p))) : op S).
    assert (Ee : exists x, nth_error (exps m0) 0 = Some x) by (destruct (nth_error (exps m0) 0) eqn:Q; [eauto|apply nth_error_None in Q; lia]). destruct Ee as [x Ex].
    set (x' := {| e_class := e_class x; e_params := e_params x; e_results := e_results x; e_path := Some (res_of (pr_name p)) |}).
    assert (Es : fst (apply sp m0) = {| heap := heap m0; classes := classes m0; given := given m0; files := files m0; exps := replace (exps m0) 0 x' |}) by (cbn [apply sp]; rewrite Ex; reflexivity).
    assert (Er : nth_error (exps (fst (apply sp m0))) 0 = Some x') by (rewrite Es; cbn [exps]; rewrite nth_error_replace by lia; reflexivity).
    exists ([DefClass 0 own; Load 1 (config (pr_name p)); sp] : list (op S)), (fst (apply sp m0)). split; [exists (pr_files p); reflexivity|].
    split; [rewrite Es; cbn [exps]; rewrite replace_length; exact L2|]. split.
    - unfold process_run, run_from_arguments. fold w0. change (after_all [DefClass 0 own : op S] w0) with w2. fold m0. rewrite L1, E2. reflexivity.
    - split; [unfold path_of; rewrite Er; reflexivity|]. split; [|rewrite Es; cbn [files]; exact Fm].
      intros k. unfold used. transitivity (parameter m0 0 k); [unfold parameter; rewrite Er, Ex, Es; reflexivity|]. rewrite L5. unfold over, job_parameters. rewrite written_some, D2. unfold over. destruct (last_value d k); cbn; [reflexivity|]. destruct own; reflexivity.
  Qed.
  Lemma job_writable d : json_only own -> writable (job_parameters own d).
  Proof.
    intros J k E. unfold job_parameters in E. destruct (last_value d k); [discriminate|]. destruct own as [o|] eqn:Eo.
    - unfold written in E. destruct (last_value o k) as [v|] eqn:El; cbn in E.
      + assert (In (k, v) o). { clear - El. induction o as [|[a x] o IH]; cbn in *; [discriminate|]. destruct (last_value o k) eqn:Q; [injection El as ->; auto|]. destruct (String.eqb_spec a k) as [->|]; [injection El as ->; auto|discriminate]. }
        destruct v; [discriminate|]. apply (J o (k, None) eq_refl H). reflexivity.
      + assert (forall v, lookup base_parameters k = Some v -> v <> VObject) as Q; [|exact (Q _ E eq_refl)]. clear. intros v. unfold base_parameters. cbn [lookup]. repeat match goal with |- context [if String.eqb ?a ?b then _ else _] => destruct (String.eqb a b); [intros [= <-]; discriminate|] end. discriminate.
    - assert (forall v, lookup base_parameters k = Some v -> v <> VObject) as Q; [|exact (Q _ E eq_refl)]. clear. intros v. unfold base_parameters. cbn [lookup]. repeat match goal with |- context [if String.eqb ?a ?b then _ else _] => destruct (String.eqb a b); [intros [= <-]; discriminate|] end. discriminate.
  Qed.
  Lemma process_outcome (p : process S) d : lookup (pr_files p) (config (pr_name p)) = Some (Some (JDict d)) -> json_only own ->
    (snd (prun p) = None -> pr_opens p (res_of (pr_name p)) = true) /\
    (reads_values (pr_hooks p) -> (exists t v, made p (job_parameters own d) t v) -> pr_opens p (res_of (pr_name p)) = true -> snd (prun p) = None) /\
    (snd (prun p) = None -> exists t v, made p (job_parameters own d) t v /\ holds (fst (prun p)) (res_of (pr_name p)) (job_parameters own d) t v) /\
    (snd (prun p) <> None -> forall q, lookup (files (fst (prun p))) q = lookup (pr_files p) q) /\
    forall q, q <> res_of (pr_name p) -> lookup (files (fst (prun p))) q = lookup (pr_files p) q.
  Proof.
    intros F J. destruct (process_world p d F) as (l & m & R & He & Ep & Pp & U & Fm). rewrite Ep. assert (He' : 0 < length (exps m)) by lia.
    destruct (C105_run S l m 0 false (pr_hooks p) (pr_opens p) R He') as [Q1 Q2].
    assert (W : writable (used m 0 false)) by (intros k; rewrite U; apply (job_writable d J)).
    assert (OK : snd (apply (Run 0 false (pr_hooks p) (pr_opens p)) m) = None -> exists t v, made p (job_parameters own d) t v /\ holds (fst (apply (Run 0 false (pr_hooks p) (pr_opens p)) m)) (res_of (pr_name p)) (job_parameters own d) t v).
    { intros O. destruct (C105_success S l m 0 false (pr_hooks p) (pr_opens p) R He' O) as (s & s1 & t & v & St & Fi & _ & _ & _ & H & _).
      exists t, v. split; [exists s, s1, (params_of (fst (apply (Run 0 false (pr_hooks p) (pr_opens p)) m)) 0); split; [intros k; rewrite Q1; apply U|auto]|].
      destruct (H _ Pp) as (H1 & H2 & d0 & H3 & H4). split; [exact H1|]. split; [exact H2|]. exists d0. split; [exact H3|]. intros k. rewrite H4. apply U. }
    split; [|split; [|split; [exact OK|split]]].
    - intros O. apply Q2 in O as (s & s1 & t & v & _ & _ & H). apply (H _ Pp).
    - intros V (t & v & s & s1 & d0 & E0 & (S1 & (n & S2 & S3) & k & S4 & S5) & Fi) Op. apply Q2. assert (Q : forall k, lookup (params_of (fst (apply (Run 0 false (pr_hooks p) (pr_opens p)) m)) 0) k = lookup d0 k) by (intros k'; rewrite Q1, U, E0; reflexivity).
      exists s, s1, t, v. split; [split; [rewrite (V _ d0 Q); exact S1|split; [exists n; rewrite Q; auto|exists k; rewrite Q; auto]]|]. split; [exact Fi|]. intros q Eq. assert (q = res_of (pr_name p)) as -> by congruence. auto.
    - intros N. rewrite <- Fm. destruct (C105_failure S l m 0 false (pr_hooks p) (pr_opens p) R He' N) as [H|(q & _ & _ & H & _)]; [exact H|contradiction].
    - intros q Nq. rewrite <- Fm. apply apply_files; [apply (reachable_inv l m R)|]. cbn. intros K. apply Nq. congruence.
  Qed.

  (** *** Preparing *)
  Lemma prepare_other opens (l : launcher) fs q : (forall n d, In (n, d) l -> config n <> q) -> lookup (fst (action_prepare config opens l fs)) q = lookup fs q.
  Proof.
    revert fs. induction l as [|[n d] l IH]; intros fs H; cbn [action_prepare]; [reflexivity|]. destruct (opens (config n)); [|reflexivity].
    rewrite IH by (intros n' d' K; apply (H n' d'); right; exact K). rewrite lookup_assign. destruct (String.eqb_spec (config n) q) as [E|_]; [|reflexivity]. exfalso. apply (H n d); [left; reflexivity|exact E].
  Qed.
  Lemma prepare_ok opens (l : launcher) fs : snd (action_prepare config opens l fs) = None <-> forall n d, In (n, d) l -> opens (config n) = true.
  Proof.
    revert fs. induction l as [|[n d] l IH]; intros fs; cbn [action_prepare]; [split; [intros _ ? ? []|reflexivity]|]. destruct (opens (config n)) eqn:E.
    - rewrite IH. split; intros H n' d' K; [destruct K as [[= <- <-]|K]; [exact E|eauto]|apply (H n' d'); right; exact K].
    - split; [discriminate|]. intros H. rewrite (H n d) in E by (left; reflexivity). discriminate.
  Qed.
  Lemma prepare_each opens (l : launcher) fs n d : NoDup (map fst l) -> (forall n m, In n (map fst l) -> In m (map fst l) -> config n = config m -> n = m) ->
    snd (action_prepare config opens l fs) = None -> In (n, d) l -> lookup (fst (action_prepare config opens l fs)) (config n) = Some (Some (JDict d)).
  Proof.
    revert fs. induction l as [|[m e] l IH]; intros fs ND Inj O H; [contradiction|]. cbn [action_prepare] in O |- *. destruct (opens (config m)); [|discriminate]. inversion ND as [|? ? N1 N2]; subst.
    destruct H as [[= -> ->]|H]; [|apply IH; auto; intros; apply Inj; auto; right; auto].
    rewrite prepare_other; [rewrite lookup_assign, String.eqb_refl; reflexivity|]. intros n' d' K E. apply N1. assert (Hn : In n' (map fst l)) by (apply in_map_iff; exists (n', d'); auto).
    rewrite <- (Inj n' n (or_intror Hn) (or_introl eq_refl) E). exact Hn.
  Qed.

  (** *** Events *)
  Notation st := (step path config own).
  Notation sts := (steps path config own).
  Lemma steps_app (s : system S) l1 l2 : sts s (l1 ++ l2) = sts (sts s l1) l2.
  Proof. revert s. induction l1 as [|ev l1 IH]; intros s; cbn; auto. Qed.
  Lemma step_other (s : system S) ev q : (forall n, writes path config own s ev n -> q <> res_of n) -> file_of (st s ev) q = file_of s q.
  Proof.
    intros H. unfold file_of. destruct ev as [n hk opens|i|i w]; cbn [step]; [reflexivity| |]; destruct (nth_error (sy_running s) i) as [[p|]|] eqn:E; try reflexivity; cbn [sy_files].
    - destruct (snd (prun p)) eqn:O; [reflexivity|]. destruct (lookup (files (fst (prun p))) (res_of (pr_name p))); [|reflexivity]. rewrite lookup_assign. destruct (String.eqb_spec (res_of (pr_name p)) q) as [Eq|_]; [|reflexivity].
      exfalso. apply (H (pr_name p)); [|auto]. exists p. auto.
    - destruct w; [|reflexivity]. rewrite lookup_assign. destruct (String.eqb_spec (res_of (pr_name p)) q) as [Eq|_]; [|reflexivity]. exfalso. apply (H (pr_name p)); [|auto]. split; [reflexivity|]. exists p. auto.
  Qed.
  (** Processes have names of the launcher and have seen its configurations. *)
  Lemma nth_replace_some {X} (l : list (option X)) i j p : nth_error (replace l i None) j = Some (Some p) -> nth_error l j = Some (Some p).
  Proof. destruct (Nat.lt_ge_cases i (length l)) as [L|L]; [rewrite nth_error_replace by exact L; destruct (j =? i); [discriminate|auto]|]. assert (replace l i None = l) as ->; [|auto]. revert i L. induction l as [|x l IH]; intros i L; [destruct i; reflexivity|]. destruct i; [cbn in L; lia|]. cbn. rewrite IH by (cbn in L; lia). reflexivity. Qed.
  Lemma step_running (s : system S) ev i p : nth_error (sy_running (st s ev)) i = Some (Some p) ->
    nth_error (sy_running s) i = Some (Some p) \/ exists hk opens, ev = Start (pr_name p) hk opens /\ pr_hooks p = hk /\ pr_opens p = opens /\ pr_files p = sy_files s.
  Proof.
    destruct ev as [n hk opens|j|j w]; cbn [step].
    - cbn [sy_running]. intros H. destruct (Nat.lt_ge_cases i (length (sy_running s))) as [L|L]; [rewrite nth_error_app1 in H by exact L; auto|]. rewrite nth_error_app2 in H by exact L. destruct (i - length (sy_running s)) as [|k]; cbn in H; [|destruct k; discriminate]. injection H as <-. right. exists hk, opens. auto.
    - destruct (nth_error (sy_running s) j) as [[q|]|]; auto. cbn [sy_running]. intros H. left. exact (nth_replace_some _ _ _ _ H).
    - destruct (nth_error (sy_running s) j) as [[q|]|]; auto. cbn [sy_running]. intros H. left. exact (nth_replace_some _ _ _ _ H).
  Qed.

  Section Run.
    Variables (l : launcher) (fs : list (string * file)).
    Hypothesis Sep : separate path config (map fst l).
    Hypothesis Prep : forall n d, In (n, d) l -> lookup fs (config n) = Some (Some (JDict d)).
    Lemma run_invariant evs : own_jobs (map fst l) evs ->
      (forall n, In n (map fst l) -> file_of (sts (ready fs : system S) evs) (config n) = lookup fs (config n)) /\
      (forall i p, nth_error (sy_running (sts (ready fs) evs)) i = Some (Some p) -> In (pr_name p) (map fst l) /\ forall n, In n (map fst l) -> lookup (pr_files p) (config n) = lookup fs (config n)) /\
      (forall i p, nth_error (sy_running (sts (ready fs) evs)) i = Some (Some p) -> In (Start (pr_name p) (pr_hooks p) (pr_opens p)) evs).
    Proof.
      induction evs as [|ev evs IH] using rev_ind; intros O; [cbn; split; [reflexivity|split; intros i p H; destruct i; discriminate]|].
      destruct IH as (I1 & I2 & I3); [intros n hk opens K; apply (O n hk opens), in_or_app; auto|]. rewrite steps_app. cbn [steps]. set (s := sts (ready fs) evs) in *. split; [|split].
      - intros n Hn. rewrite step_other; [apply I1, Hn|]. intros m W. destruct Sep as (_ & S2 & _). apply S2; [exact Hn|].
        destruct ev as [n' hk opens|i|i w]; cbn in W; [contradiction| |]; [destruct W as (p & E & <- & _)|destruct W as (_ & p & E & <-)]; apply (I2 i p E).
      - intros i p H. apply step_running in H as [H|(hk & opens & -> & _ & _ & F)]; [apply (I2 i p H)|]. split; [apply (O (pr_name p) hk opens), in_or_app; right; left; reflexivity|]. intros n Hn. rewrite F. apply I1, Hn.
      - intros i p H. apply in_or_app. apply step_running in H as [H|(hk & opens & -> & Eh & Eo & _)]; [left; apply (I3 i p H)|]. right. left. rewrite Eh, Eo. reflexivity.
    Qed.
    (** The last event that writes the results of n *)
    Lemma last_write (s0 : system S) n evs :
      (forall evs1 ev evs2, evs = evs1 ++ ev :: evs2 -> ~ writes path config own (sts s0 evs1) ev n) \/
      exists evs1 ev evs2, evs = evs1 ++ ev :: evs2 /\ writes path config own (sts s0 evs1) ev n /\
        forall evs3 ev' evs4, evs2 = evs3 ++ ev' :: evs4 -> ~ writes path config own (sts s0 (evs1 ++ ev :: evs3)) ev' n.
    Proof.
      induction evs as [|ev evs IH] using rev_ind; [left; intros [|] ? ? ?; discriminate|].
      assert (D : writes path config own (sts s0 evs) ev n \/ ~ writes path config own (sts s0 evs) ev n).
      { destruct ev as [m hk opens|i|i w]; cbn [writes]; [auto| |].
        - unfold finishes. destruct (nth_error (sy_running (sts s0 evs)) i) as [[p|]|]; [|right; intros (p & [=] & _)|right; intros (p & [=] & _)]. destruct (string_dec (pr_name p) n) as [E|E]; [|right; intros (p' & [= <-] & K & _); auto].
          destruct (snd (prun p)) eqn:Q; [right; intros (p' & [= <-] & _ & K); congruence|left; exists p; auto].
        - unfold runs_as. destruct w; [|right; intros [[=] _]]. destruct (nth_error (sy_running (sts s0 evs)) i) as [[p|]|]; [|right; intros (_ & p & [=] & _)|right; intros (_ & p & [=] & _)]. destruct (string_dec (pr_name p) n) as [E|E]; [left; eauto|right; intros (_ & p' & [= <-] & K); auto]. }
      assert (Cut : forall X (a : list X) x b e y, a ++ [x] = b ++ y :: e -> (e = [] /\ a = b /\ x = y) \/ exists e', e = e' ++ [x] /\ a = b ++ y :: e').
      { clear. intros X a x b e y H. destruct e as [|z e _] using rev_ind; [left; apply app_inj_tail in H as [-> ->]; auto|]. right. exists e. change (b ++ y :: e ++ [z]) with (b ++ ([y] ++ e) ++ [z]) in H. rewrite app_assoc in H. apply app_inj_tail in H as [-> ->]. auto. }
      destruct D as [D|D]; [right; exists evs, ev, []; split; [reflexivity|split; [exact D|intros [|] ? ? ?; discriminate]]|].
      destruct IH as [H|(evs1 & w & evs2 & -> & W & H)]; [left|right].
      - intros evs1 ev' evs2 E. apply Cut in E as [(-> & <- & <-)|(e & -> & ->)]; [exact D|eapply H; reflexivity].
      - exists evs1, w, (evs2 ++ [ev]). split; [rewrite <- app_assoc; reflexivity|]. split; [exact W|]. intros evs3 ev' evs4 E. apply Cut in E as [(-> & <- & <-)|(e & -> & ->)]; [exact D|eapply H; reflexivity].
    Qed.
    Lemma untouched_steps (s0 : system S) n evs : (forall evs1 ev evs2 m, evs = evs1 ++ ev :: evs2 -> writes path config own (sts s0 evs1) ev m -> res_of n <> res_of m) ->
      file_of (sts s0 evs) (res_of n) = file_of s0 (res_of n).
    Proof.
      revert s0. induction evs as [|ev evs IH]; intros s0 H; [reflexivity|]. cbn [steps]. rewrite IH; [apply step_other; intros m W; apply (H [] ev evs m eq_refl W)|].
      intros evs1 ev' evs2 m -> W. apply (H (ev :: evs1) ev' evs2 m eq_refl). exact W.
    Qed.
  End Run.
End Launch.
