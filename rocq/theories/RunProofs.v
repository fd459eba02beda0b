(** Proofs for C101 to C103. *)
From Verif Require Import PyBase PyBaseFacts QBase HtmModel HtmSpec DagModel DagSpec SuppModel SuppSpec SuppProofs SuppProofs2 SuppProofs3 SuppProofs4 EvalModel EvalSpec EvalProofs RunModel RunSpec.
From Verif Require CodecSpec ScriptModel ScriptSpec ScriptProofs Props_Eval Props_Supp.
From Coq Require Import Lia Lqa.
Local Open Scope list_scope.
Local Open Scope nat_scope.

(** *** From the steps of a trace to turns *)
Section Turns.
  Variables names obs : list string.
  Fixpoint turns_from (s : Z) (l : list (step Z)) : list turn :=
    match l with
    | [] => []
    | x :: l => {| t_from := s; t_name := nth (s_action x) names ""%string; t_obs := nth (s_observation x) obs ""%string; t_to := s_state x; t_reward := s_reward x |}
                :: turns_from (s_state x) l
    end.
  Lemma turns_map l : forall s, turns names obs s (map s_state l) (map s_action l) (map s_observation l) (map s_reward l) = turns_from s l.
  Proof. induction l as [|x l IH]; intros s; [reflexivity|]. cbn [map turns turns_from]. rewrite IH. reflexivity. Qed.
  Lemma turns_from_app l1 : forall s l2, turns_from s (l1 ++ l2) = turns_from s l1 ++ turns_from (last (map s_state l1) s) l2.
  Proof.
    induction l1 as [|x l1 IH]; intros s l2; [reflexivity|]. cbn [app turns_from map]. rewrite IH. cbn [app]. f_equal. f_equal. f_equal.
    destruct l1 as [|y l1]; [reflexivity|]. cbn [map]. clear. generalize (s_state x). revert y s. induction l1 as [|z l1 IH]; intros y s q; [reflexivity|]. cbn [map last]. apply (IH z s q).
  Qed.
  Lemma turns_from_length l : forall s, length (turns_from s l) = length l.
  Proof. induction l as [|x l IH]; intros s; [reflexivity|]. cbn. rewrite IH. reflexivity. Qed.
  Lemma turns_not_final (final : Z -> bool) l : forall s, final s = false -> (forall l1 x l2, l = l1 ++ x :: l2 -> l2 <> [] -> final (s_state x) = false) ->
    Forall (fun t => final (t_from t) = false) (turns_from s l).
  Proof.
    induction l as [|x l IH]; intros s Hs H; [constructor|]. cbn [turns_from]. constructor; [exact Hs|]. destruct l as [|y l]; [constructor|]. apply IH.
    - apply (H [] x (y :: l) eq_refl). discriminate.
    - intros l1 z l2 K. apply (H (x :: l1) z l2). cbn. rewrite K. reflexivity.
  Qed.
End Turns.

(** *** Evaluations end when no joint state of the policy and the model makes them fail *)
Section LoopJoint.
  Context {St P : Type}.
  Variables (final : St -> bool) (m : emodel St) (pol : epolicy P) (gamma : Q) (K : P -> St -> Prop).
  Hypothesis ok : forall k p s, K p s -> exists nm p1 a s' o r ob p2, ep_action pol p = Ok (nm, p1) /\ index_of String.eqb nm (em_actions m) = Some a /\
    em_transition m k a s = Ok (s', o, r) /\ nth_error (em_observations m) o = Some ob /\ ep_step pol p1 ob = Ok p2 /\ K p2 s'.
  Lemma loop_joint fuel : forall k h p s hs ha ho hr ret, K p s -> Z.to_nat (fo_n h) <= fuel ->
    exists rec q, eval_loop final m pol gamma fuel k h p s hs ha ho hr ret = Ok (rec, q).
  Proof.
    induction fuel as [|fuel IH]; intros k h p s hs ha ho hr ret Hk Hn; cbn [eval_loop].
    - assert (fo_reached h = true) as -> by (unfold fo_reached; replace (fo_n h <=? 0)%Z with true by (symmetry; apply Z.leb_le; lia); reflexivity). eauto.
    - destruct (fo_reached h) eqn:Er; [eauto|].
      assert (0 < fo_n h)%Z by (unfold fo_reached in Er; apply orb_false_iff in Er; destruct Er as [Er _]; apply Z.leb_gt in Er; auto).
      destruct (ok k p s Hk) as (nm & p1 & a & s' & o & r & ob & p2 & -> & Ei & Et & Eo & Es & Hk2). cbn [bind].
      rewrite Ei. cbn [bind]. rewrite Et. cbn [bind]. rewrite Eo. cbn [bind]. rewrite Es. cbn [bind]. apply IH; [auto|]. cbn. lia.
  Qed.
End LoopJoint.

(** *** Turns of any policy on a supportive model are documented *)
Section AnyPolicy.
  Variables (cf : config) (m : spomdp).
  Variables (nodes : list stree) (succs : list (list nat)) (init : list nat) (ps : list sparams).
  Hypothesis B : built m nodes succs init ps.
  Hypothesis D : dag_ok nodes succs init.
  Hypothesis Hc : 1 <= cf_preferences cf.

  Definition documented_turn (t : turn) : Prop := exists w w1 w' act, reads cf m (t_from t) w /\ disturbed w w1 /\ reads cf m (t_to t) w' /\
    t_name t = robot_name act /\ documented cf ps succs (objects m) true w1 act w' (t_obs t) (t_reward t).

  Lemma trace_documented {P} (pol : epolicy P) disc d0 ds k p s l q : trace (supportive_model cf m disc d0 ds) pol k p s l q ->
    forall w, reads cf m s w -> Forall documented_turn (turns_from (actions m) observations s l).
  Proof.
    induction 1 as [|k p s nm p1 a s' o r ob p2 l q H1 H2 H3 H4 H5 H6 H7 IH]; intros w Hr; [constructor|].
    cbn [supportive_model em_transition em_actions em_observations] in *.
    destruct (step_sound cf m _ _ _ _ B D _ true _ _ _ _ _ w Hc Hr H4) as (act & w1 & w' & ob' & S1 & _ & S3 & S4 & S5 & S6).
    cbn [turns_from s_action s_state s_observation s_reward fst snd]. constructor; [|apply (IH w' S4)].
    exists w, w1, w', act. cbn [t_from t_to t_name t_obs t_reward]. split; [auto|]. split; [auto|]. split; [auto|]. split.
    - destruct S1 as [_ S1]. rewrite Nat2Z.id in S1. apply nth_error_nth. exact S1.
    - erewrite nth_error_nth; eauto.
  Qed.

  (** Leaves are finished by holding or waiting, and the task by waiting. *)
  Lemma busy_iff s w : reads cf m s w -> (busy cf m s <-> exists i, w_stage w = Doing i).
  Proof.
    intros Hr. unfold busy. rewrite (reads_htm cf m _ _ Hr). destruct (w_stage w) as [i| |] eqn:Ew; cbn [stage_index]; unfold htm_clean, htm_final.
    - assert (i < length (htm_nodes m)) by (apply Hr; auto). split; [eauto|lia].
    - split; [lia|intros [i K]; discriminate].
    - split; [lia|intros [i K]; discriminate].
  Qed.
  Lemma cleaning_iff s w : reads cf m s w -> (cleaning cf m s <-> w_stage w = Cleaning).
  Proof.
    intros Hr. unfold cleaning. rewrite (reads_htm cf m _ _ Hr). destruct (w_stage w) as [i| |] eqn:Ew; cbn [stage_index]; unfold htm_clean, htm_final.
    - assert (i < length (htm_nodes m)) by (apply Hr; auto). split; [lia|discriminate].
    - tauto.
    - split; [lia|discriminate].
  Qed.
  Lemma final_iff s w : reads cf m s w -> (model_is_final cf m s = true <-> w_stage w = Finished).
  Proof. intros Hr. apply reads_rep in Hr. unfold model_is_final. rewrite (rep_final _ _ _ _ Hr). destruct (w_stage w); split; congruence. Qed.

  Lemma stage_next i l j : nth_error succs i = Some l -> In j l -> i < j.
  Proof. destruct D as (_ & _ & _ & D4). intros. eapply D4; eauto. Qed.
  Lemma completes_stage i w w' n : w_stage w = Doing i -> SuppSpec.completes ps succs i w w' n -> w_stage w' <> w_stage w.
  Proof.
    intros H1 (_ & [l [H2 H3]] & _). rewrite H1. destruct H3 as [[_ ->]|[j [Hj ->]]]; [discriminate|]. pose proof (stage_next _ _ _ H2 Hj). intros K. injection K as K. lia.
  Qed.
  Lemma stage_htm s w s' w' : reads cf m s w -> reads cf m s' w' -> (htm (int_to_state cf m s') = htm (int_to_state cf m s) <-> w_stage w' = w_stage w).
  Proof.
    intros Hr Hr'. rewrite (reads_htm cf m _ _ Hr), (reads_htm cf m _ _ Hr'). split; [|intros ->; auto].
    assert (X : forall i, w_stage w = Doing i -> i < length (htm_nodes m)) by apply Hr. assert (X' : forall i, w_stage w' = Doing i -> i < length (htm_nodes m)) by apply Hr'.
    destruct (w_stage w) as [i| |], (w_stage w') as [i'| |]; cbn [stage_index]; unfold htm_clean, htm_final; intros K; auto; try (pose proof (X _ eq_refl)); try (pose proof (X' _ eq_refl)); try (f_equal; lia); exfalso; lia.
  Qed.

  Lemma turn_leaf t : documented_turn t -> (finishes_leaf cf m t <-> busy cf m (t_from t) /\ t_obs t = "none"%string /\ (t_name t = "wait"%string \/ holds_something t)).
  Proof.
    intros (w & w1 & w' & act & Hr & Hdis & Hr' & Hn & Hd). unfold finishes_leaf. rewrite (stage_htm _ _ _ _ Hr Hr'). rewrite (busy_iff _ _ Hr).
    destruct Hdis as (S1 & _ & _). rewrite <- S1. clear Hr. unfold holds_something. rewrite Hn. clear Hn Hr' S1 w.
    assert (NB : forall o, robot_name (Bring o) <> "wait"%string /\ robot_name (Bring o) <> "hold H"%string /\ robot_name (Bring o) <> "hold V"%string) by (intros o; repeat split; discriminate).
    assert (NC : forall o, robot_name (Clear o) <> "wait"%string /\ robot_name (Clear o) <> "hold H"%string /\ robot_name (Clear o) <> "hold V"%string) by (intros o; repeat split; discriminate).
    assert (HI : forall a, is_hold a -> robot_name a = "hold H"%string \/ robot_name a = "hold V"%string) by (intros a [-> | ->]; auto).
    inversion Hd; subst; clear Hd; (split; [intros ((i1 & K1) & K2)|intros ((i1 & K1) & K2 & K3)]); try (rewrite K1 in *; discriminate);
      try (exfalso; apply K2; reflexivity); try discriminate;
      try (split; [eauto|split; [reflexivity|try (left; reflexivity); right; auto]]; fail);
      try (split; [eauto|match goal with H : SuppSpec.completes _ _ _ _ _ _ |- _ => eapply completes_stage; [|exact H]; assumption end]; fail);
      try (exfalso; destruct K3 as [K3|[K3|K3]]; try discriminate; try (apply NB in K3; auto); try (apply NC in K3; auto); fail).
    all: try (exfalso; destruct (wants_hold w1); discriminate).
    all: try (split; [eauto|split; [reflexivity|]]; right; apply HI; match goal with H : helps _ _ _ _ |- _ => destruct H as (_ & p & _ & [(_ & ->)|(_ & ->)]); [left|right]; reflexivity end).
  Qed.

  Lemma turn_final t : documented_turn t -> model_is_final cf m (t_from t) = false ->
    (model_is_final cf m (t_to t) = true <-> t_name t = "wait"%string /\ cleaning cf m (t_from t)).
  Proof.
    intros (w & w1 & w' & act & Hr & Hdis & Hr' & Hn & Hd) Hf. rewrite (final_iff _ _ Hr'), (cleaning_iff _ _ Hr), Hn.
    assert (Hs : w_stage w <> Finished) by (intros K; apply (final_iff _ _ Hr) in K; congruence). destruct Hdis as (S1 & _ & _). rewrite <- S1 in *. clear Hr Hr' Hn Hf S1 w.
    assert (NB : forall o, robot_name (Bring o) <> "wait"%string) by (intros o; discriminate).
    assert (NC : forall o, robot_name (Clear o) <> "wait"%string) by (intros o; discriminate).
    assert (HI : forall a, is_hold a -> robot_name a <> "wait"%string) by (intros a [-> | ->]; discriminate).
    assert (HC : forall i w2 w3 n, SuppSpec.completes ps succs i w2 w3 n -> w_stage w3 <> Finished).
    { intros i w2 w3 n (_ & [l [_ H3]] & _) K. destruct H3 as [[_ H3]|[j [_ H3]]]; congruence. }
    inversion Hd; subst; (split; [intros K|intros [K1 K2]]); try congruence; try discriminate; try (exfalso; eapply HI; eauto; fail); try (exfalso; eapply NB; eauto; fail); try (exfalso; eapply NC; eauto; fail);
      try (exfalso; eapply HC; eauto; fail); try (split; [reflexivity|assumption]); try reflexivity.
    all: cbn in K; contradiction.
  Qed.
  Lemma turn_hold t : documented_turn t -> holds_something t -> (t_obs t = "none"%string \/ t_obs t = "fail"%string) /\ (cleaning cf m (t_from t) -> t_obs t = "fail"%string).
  Proof.
    intros (w & w1 & w' & act & Hr & Hdis & Hr' & Hn & Hd) Hh. rewrite (cleaning_iff _ _ Hr). destruct Hdis as (S1 & _ & _). rewrite <- S1 in *. unfold holds_something in Hh. rewrite Hn in Hh.
    assert (Ha : is_hold act) by (destruct Hh as [K|K]; [left|right]; apply robot_name_inj; exact K). destruct Ha as [-> | ->]; inversion Hd; subst; split; auto; congruence.
  Qed.
End AnyPolicy.

(** *** The scripted policy meets the model *)
Section Joint.
  Variables (cf : config) (ordn : list nat -> list nat) (t : stree) (m : spomdp).
  Hypothesis Ho : is_order ordn.
  Hypothesis E : mk_supportive ordn t = Ok m.
  Hypothesis Hc : 1 <= cf_preferences cf.
  Variables (nodes : list stree) (succs : list (list nat)) (init : list nat) (ps : list sparams).
  Hypothesis B : built m nodes succs init ps.
  Hypothesis D : dag_ok nodes succs init.
  Variables (n_tasks : Z) (holds : list string) (s0 : script).
  Hypothesis New : new_script (actions m) observations n_tasks holds = Ok s0.
  Hypothesis Hleg : In "bring leg"%string (actions m).
  Hypothesis Hne : holds <> [].
  Hypothesis Hh : incl holds ["hold H"; "hold V"]%string.
  Variable choices : nat -> nat.
  Let N := Z.to_nat n_tasks.
  Let pol := script_policy choices.

  Definition J (p : script * nat) (pos : nat) : Prop :=
    exists b0 b1 b2 c0 c1 c2 lg w nx, ScriptProofs.Inv (actions m) observations n_tasks holds (fst p) pos b0 b1 b2 c0 c1 c2 lg w nx.

  Lemma J_after ts s c : ScriptSpec.after s0 ts = Some s -> exists p, ep_reset pol (s, c) = Ok p /\ J p 0.
  Proof.
    intros Ea. destruct (ScriptProofs.reaches_total N observations ts) as [pos R].
    destruct (ScriptProofs.after_ok (actions m) observations n_tasks holds Hleg Hne Hh s0 New ts pos R) as (s' & b0 & b1 & b2 & c0 & c1 & c2 & lg & w & nx & Es & I).
    assert (s' = s) as -> by congruence.
    destruct (ScriptProofs.inv_reset (actions m) observations n_tasks holds s pos b0 b1 b2 c0 c1 c2 lg w nx I) as (s'' & Er & I').
    exists (s'', c). cbn [ep_reset pol script_policy fst snd]. rewrite Er. cbn [bind]. split; [reflexivity|]. exists b0, b1, b2, c0, c1, c2, lg, w, nx. exact I'.
  Qed.

  (** What the robot may do at each place of the script. *)
  Definition allowed (pos : nat) (act : robot) : Prop := In (robot_name act) (ScriptSpec.item N holds pos).

  Lemma allowed_cases pos act : allowed pos act ->
    (ScriptSpec.holding N pos /\ is_hold act) \/ (~ ScriptSpec.holding N pos /\ ((exists o, act = Bring o \/ act = Clear o) \/ (act = Wait /\ 2 * N + 6 <= pos))).
  Proof.
    unfold allowed. intros H. destruct (Nat.lt_ge_cases pos 3) as [P|P]; [|destruct (ScriptProofs.stages N pos) as [k P'|k P'|k P'|k P'|k P']; [lia| | | |]].
    - right. split; [intros (k & H1 & H2); lia|]. left. rewrite ScriptProofs.item_first in H by auto. destruct H as [H|[]]. exists (nth pos ScriptModel.tools ""%string). left. apply robot_bring. symmetry. exact H.
    - right. split; [intros (k' & H1 & H2); lia|]. left. rewrite ScriptProofs.item_leg in H by auto. destruct H as [H|[]]. exists "leg"%string. left. apply robot_bring. symmetry. exact H.
    - left. split; [exists k; auto|]. rewrite ScriptProofs.item_hold in H by auto. apply Hh in H. destruct H as [H|[H|[]]]; [left|right]; apply robot_name_inj; symmetry; exact H.
    - right. split; [intros (k' & H1 & H2); lia|]. left. rewrite ScriptProofs.item_last in H by auto. destruct H as [H|[]]. exists (nth k ScriptModel.tools ""%string). right. apply robot_clear. symmetry. exact H.
    - right. split; [intros (k' & H1 & H2); lia|]. right. rewrite ScriptProofs.item_end in H by auto. destruct H as [H|[]]. split; [|auto]. apply robot_name_inj. symmetry. exact H.
  Qed.

  Lemma policy_turn p pos : J p pos -> exists nm p1 act a, ep_action pol p = Ok (nm, p1) /\ nm = robot_name act /\ allowed pos act /\
    index_of String.eqb nm (actions m) = Some a /\
    forall ob, In ob observations -> ob = "fail"%string \/ ScriptSpec.completes N pos ob ->
      exists p2, ep_step pol p1 ob = Ok p2 /\ J p2 (if String.eqb ob "fail" then pos else S pos).
  Proof.
    intros (b0 & b1 & b2 & c0 & c1 & c2 & lg & w & nx & I).
    destruct (ScriptProofs.get_ok (actions m) observations n_tasks holds Hleg Hne Hh s0 New (fst p) pos _ _ _ _ _ _ _ _ _ (choices (snd p)) I) as (x & H1 & H2 & H3).
    pose proof (ScriptProofs.step_ok (actions m) observations n_tasks holds Hleg Hne Hh s0 New (fst p) pos b0 b1 b2 c0 c1 c2 lg w nx (choices (snd p))) as HS.
    destruct (script_get_action (fst p) (choices (snd p))) as [s1 r1] eqn:Eg. cbn [fst snd] in H1, H3, HS. subst r1.
    assert (Hin : In x (actions m)).
    { unfold script_get_action in Eg. destruct (script_action (fst p) (choices (snd p))) as [a0|]; [|discriminate]. injection Eg as _ Eg. rewrite (ScriptProofs.i_actions _ _ _ _ _ _ _ _ _ _ _ _ _ _ _ I) in Eg. destruct (nth_error (actions m) a0) as [y|] eqn:Ey; [|discriminate]. injection Eg as ->. eapply nth_error_In; eauto. }
    destruct (index_of_In _ _ Hin) as [a Ea].
    assert (exists act, x = robot_name act) as [act Hact].
    { destruct (Props_Supp.C32_names ordn t m Ho E) as (_ & _ & _ & HN & _). destruct (In_nth_error _ _ Hin) as [j Ej]. apply (HN _ _ Ej). }
    exists x, (s1, S (snd p)), act, a. unfold pol, script_policy. cbn [ep_action ep_step]. rewrite Eg. split; [reflexivity|]. split; [exact Hact|]. split; [unfold allowed; rewrite <- Hact; exact H2|]. split; [exact Ea|].
    intros ob Hob Hcomp. destruct (HS ob I) as ((A1 & A2 & A3) & S2 & S3). cbn [fst snd].
    destruct (script_step s1 ob) as [s2 r2] eqn:Es. cbn [fst snd] in *. rewrite (A2 Hob Hcomp). exists (s2, S (snd p)). split; [reflexivity|].
    destruct (String.eqb_spec ob "fail") as [->|Hnf].
    - exists b0, b1, b2, c0, c1, c2, lg, w, nx. apply S3. intros [_ [K|[K _]]]; discriminate.
    - exists b0, b1, b2, c0, c1, c2, lg, w, nx. apply S2; [auto|]. destruct Hcomp as [K|K]; [contradiction|exact K].
  Qed.

  (** What is observed of the allowed actions is expected. *)
  Lemma expected rnd w act w' ob r pos : documented cf ps succs (objects m) rnd w act w' ob r -> allowed pos act ->
    In ob observations /\ In ob ["none"; "fail"; "not-found"]%string /\ (ob = "fail"%string \/ ScriptSpec.completes N pos ob).
  Proof.
    intros Hd Ha. unfold ScriptSpec.completes. destruct (allowed_cases _ _ Ha) as [[H1 H2]|[H1 H2]].
    - destruct H2 as [-> | ->]; inversion Hd; subst; cbn; repeat split; auto 8.
    - destruct H2 as [[o [-> | ->]]|[-> _]]; inversion Hd; subst; cbn; repeat split; auto 8.
  Qed.

  Variables (disc : Q) (d0 : draws) (ds : nat -> draws).
  Let sm := supportive_model cf m disc d0 ds.
  Lemma joint_turn k p s pos w : J p pos -> reads cf m s w -> exists nm p1 a s' o r ob p2, ep_action pol p = Ok (nm, p1) /\ index_of String.eqb nm (em_actions sm) = Some a /\
    em_transition sm k a s = Ok (s', o, r) /\ nth_error (em_observations sm) o = Some ob /\ ep_step pol p1 ob = Ok p2 /\
    In nm (ScriptSpec.item N holds pos) /\ In ob ["none"; "fail"; "not-found"]%string /\ J p2 (if String.eqb ob "fail" then pos else S pos) /\ exists w', reads cf m s' w'.
  Proof.
    intros Hj Hr. destruct (policy_turn p pos Hj) as (nm & p1 & act & a & P1 & P2 & P3 & P4 & P5).
    assert (Ha : a < length (actions m)) by (apply index_of_str in P4; destruct P4 as [P4 _]; apply nth_error_Some; congruence).
    destruct (step_total cf m _ _ _ _ B D (ds k) true (Z.of_nat a) s Hc (proj1 Hr)) as (s' & o & r & Et).
    { rewrite (b_nact _ _ _ _ _ B). lia. }
    destruct (step_sound cf m _ _ _ _ B D _ true _ _ _ _ _ w Hc Hr Et) as (act' & w1 & w' & ob & S1 & _ & S3 & S4 & S5 & S6).
    assert (act' = act) as ->.
    { apply robot_name_inj. destruct S1 as [_ S1]. rewrite Nat2Z.id in S1. apply index_of_str in P4. destruct P4 as [P4 _]. congruence. }
    destruct (expected _ _ _ _ _ _ _ S6 P3) as (X1 & X2 & X3). destruct (P5 ob X1 X3) as (p2 & Q1 & Q2).
    exists nm, p1, a, s', o, r, ob, p2. subst nm. refine (conj P1 (conj P4 (conj Et (conj S5 (conj Q1 (conj P3 (conj X2 (conj Q2 _)))))))). eauto.
  Qed.

  Lemma evaluates ts sc c max_horizon discount : ScriptSpec.after s0 ts = Some sc ->
    exists rec q, simulate_one_evaluation (model_is_final cf m) sm pol (sc, c) max_horizon discount = Ok (rec, q).
  Proof.
    intros Ha. destruct (J_after ts sc c Ha) as (p & Ep & Hj). unfold simulate_one_evaluation. rewrite Ep. cbn [bind].
    destruct (start_sound cf m _ _ _ _ B D d0) as (s & i & Es & _ & Hr). cbn [sm supportive_model em_start]. rewrite Es. cbn [bind].
    apply (loop_joint _ _ _ _ (fun p s => exists pos w, J p pos /\ reads cf m s w)).
    - intros k p' s' (pos & w & Hj' & Hr'). destruct (joint_turn k p' s' pos w Hj' Hr') as (nm & p1 & a & s2 & o & r & ob & p2 & H1 & H2 & H3 & H4 & H5 & _ & _ & H8 & w' & H9).
      exists nm, p1, a, s2, o, r, ob, p2. repeat (split; [assumption|]). eauto.
    - eauto.
    - cbn. lia.
  Qed.

  Lemma trace_script k p s l q : trace sm pol k p s l q -> forall pos w, J p pos -> reads cf m s w ->
    (forall l1 t l2, turns_from (actions m) observations s l = l1 ++ t :: l2 -> In (t_name t) (ScriptSpec.item N holds (pos + advanced l1))) /\
    Forall (fun t => In (t_obs t) ["none"; "fail"; "not-found"]%string) (turns_from (actions m) observations s l).
  Proof.
    induction 1 as [|k p s nm p1 a s' o r ob p2 l q H1 H2 H3 H4 H5 H6 H7 IH]; intros pos w Hj Hr.
    - split; [intros l1 t' l2 K; destruct l1; discriminate|constructor].
    - destruct (joint_turn k p s pos w Hj Hr) as (nm' & p1' & a' & s2 & o' & r' & ob' & p2' & G1 & G2 & G3 & G4 & G5 & G6 & G7 & G8 & w' & G9).
      rewrite H1 in G1. injection G1 as <- <-. apply index_of_str in G2. destruct G2 as [G2 _].
      assert (a' = a) as ->.
      { destruct (Props_Supp.C32_names ordn t m Ho E) as (_ & HN & _). change (em_actions sm) with (actions m) in G2, H2. rewrite NoDup_nth_error in HN. apply HN; [apply nth_error_Some; rewrite G2; discriminate|]. rewrite G2, H2. reflexivity. }
      rewrite H4 in G3. injection G3 as <- <- <-. rewrite H5 in G4. injection G4 as <-. rewrite H6 in G5. injection G5 as <-.
      destruct (IH _ _ G8 G9) as [I1 I2]. cbn [turns_from s_action s_state s_observation s_reward fst snd].
      assert (En : nth a (actions m) ""%string = nm) by (apply nth_error_nth; exact H2). assert (Eo : nth o observations ""%string = ob) by (apply nth_error_nth; exact H5).
      rewrite En, Eo. split.
      + intros l1 t' l2 K. destruct l1 as [|t1 l1]; cbn [app] in K; injection K as K1 K2.
        * subst t'. cbn [t_name advanced filter length]. rewrite Nat.add_0_r. exact G6.
        * subst t1. specialize (I1 l1 t' l2 K2). unfold advanced in *. cbn [filter t_obs]. destruct (String.eqb ob "fail"); cbn [negb length]; [exact I1|]. rewrite <- Nat.add_succ_comm. exact I1.
      + constructor; [|exact I2]. exact G7.
  Qed.
End Joint.

(** *** Leaves finished *)
Section Leaves.
  Variables (cf : config) (m : spomdp).
  Lemma finishes_leafb_iff t : finishes_leafb cf m t = true <-> finishes_leaf cf m t.
  Proof. unfold finishes_leafb, finishes_leaf, busy. rewrite andb_true_iff, Z.ltb_lt, negb_true_iff, Z.eqb_neq. reflexivity. Qed.
  Lemma left_leaf_length s s' : length (left_leaf cf m s s') = if Z.ltb (htm (int_to_state cf m s)) (htm_clean m) && negb (Z.eqb (htm (int_to_state cf m s')) (htm (int_to_state cf m s))) then 1 else 0.
  Proof.
    unfold left_leaf. rewrite (Z.eqb_sym (htm (int_to_state cf m s'))). destruct (Z.eqb_spec (htm (int_to_state cf m s)) (htm (int_to_state cf m s'))); cbn [orb negb]; [rewrite andb_false_r; reflexivity|]. rewrite andb_true_r.
    destruct (Z.leb_spec (htm_clean m) (htm (int_to_state cf m s))); destruct (Z.ltb_spec (htm (int_to_state cf m s)) (htm_clean m)); try lia; reflexivity.
  Qed.
  Lemma trace_episode {P} (pol : epolicy P) disc d0 ds k p s l q : trace (supportive_model cf m disc d0 ds) pol k p s l q ->
    forall done, episode cf m done s ->
    exists done', episode cf m done' (last (map s_state l) s) /\ length done' = length done + leaves_finished cf m (turns_from (actions m) observations s l).
  Proof.
    induction 1 as [|k p s nm p1 a s' o r ob p2 l q H1 H2 H3 H4 H5 H6 H7 IH]; intros done He.
    - exists done. cbn. split; [auto|lia].
    - cbn [supportive_model em_transition] in H4. pose proof (episode_step cf m done s _ _ _ _ _ _ He H4) as He'. destruct (IH _ He') as (done' & I1 & I2). exists done'. split.
      + cbn [map s_state fst snd]. destruct l as [|y l]; [exact I1|]. cbn [map] in I1 |- *. clear - I1.
        assert (X : forall l (a b c : Z), last (a :: l) b = last (a :: l) c) by (induction l0 as [|z l0 IHl]; intros; [reflexivity|apply (IHl z b c)]).
        change (last (s' :: s_state y :: map s_state l) s) with (last (s_state y :: map s_state l) s). rewrite (X _ _ s s'). exact I1.
      + rewrite I2, app_length, left_leaf_length. unfold leaves_finished. cbn [turns_from filter]. unfold finishes_leafb at 2. cbn [t_from t_to s_state fst snd].
        destruct (_ && _); cbn [length]; lia.
  Qed.
End Leaves.

(** The holds of the script before a place. *)
Definition holds_before (n pos : nat) : nat := Nat.min (pos - 3) (2 * n) / 2.
Lemma double_half k : 2 * k / 2 = k /\ (2 * k + 1) / 2 = k.
Proof. rewrite Nat.mul_comm. split; [apply Nat.div_mul; lia|]. rewrite Nat.add_comm, Nat.div_add by lia. reflexivity. Qed.
Lemma holds_before_next n pos : holds_before n (S pos) <= holds_before n pos + 1 /\ (~ ScriptSpec.holding n pos -> holds_before n (S pos) = holds_before n pos).
Proof.
  unfold holds_before. split.
  - assert (Nat.min (S pos - 3) (2 * n) <= Nat.min (pos - 3) (2 * n) + 1 * 2) by lia. rewrite <- Nat.div_add by lia. apply Nat.div_le_mono; lia.
  - intros H. destruct (Nat.lt_ge_cases pos 3) as [P|P]; [replace (S pos - 3) with 0 by lia; replace (pos - 3) with 0 by lia; reflexivity|].
    destruct (ScriptProofs.stages n pos) as [k P'|k P'|k P'|k P'|k P']; [lia| | | |].
    + replace (Nat.min (S (2 * k + 3) - 3) (2 * n)) with (2 * k + 1) by lia. replace (Nat.min (2 * k + 3 - 3) (2 * n)) with (2 * k) by lia.
      destruct (double_half k) as (H2 & H4). rewrite H2, H4. reflexivity.
    + exfalso. apply H. exists k. auto.
    + replace (Nat.min (S (2 * n + 3 + k) - 3) (2 * n)) with (2 * n) by lia. replace (Nat.min (2 * n + 3 + k - 3) (2 * n)) with (2 * n) by lia. reflexivity.
    + replace (Nat.min (S k - 3) (2 * n)) with (2 * n) by lia. replace (Nat.min (k - 3) (2 * n)) with (2 * n) by lia. reflexivity.
Qed.
Lemma holds_before_end n pos : 2 * n + 3 <= pos -> holds_before n pos = n.
Proof. intros H. unfold holds_before. replace (Nat.min (pos - 3) (2 * n)) with (2 * n) by lia. apply double_half. Qed.

Section Count.
  Variables (cf : config) (m : spomdp).
  Variables (nodes : list stree) (succs : list (list nat)) (init : list nat) (ps : list sparams).
  Hypothesis B : built m nodes succs init ps.
  Hypothesis D : dag_ok nodes succs init.
  Hypothesis Hc : 1 <= cf_preferences cf.
  Variables (n : nat) (holds : list string).
  Hypothesis Hh : incl holds ["hold H"; "hold V"]%string.

  Lemma count_holds l : Forall (documented_turn cf m succs ps) l -> Forall (fun t => model_is_final cf m (t_from t) = false) l ->
    forall pos, (forall l1 t l2, l = l1 ++ t :: l2 -> In (t_name t) (ScriptSpec.item n holds (pos + advanced l1))) ->
    holds_before n (pos + advanced l) <= holds_before n pos + leaves_finished cf m l.
  Proof.
    induction l as [|t l IH]; intros Hd Hf pos Hs; [cbn; rewrite Nat.add_0_r; lia|]. inversion Hd as [|? ? D1 D2]; subst. inversion Hf as [|? ? F1 F2]; subst.
    assert (H0 := Hs [] t l eq_refl). cbn [advanced filter length] in H0. rewrite Nat.add_0_r in H0.
    unfold advanced, leaves_finished. cbn [filter]. destruct (String.eqb_spec (t_obs t) "fail") as [Ef|Nf]; cbn [negb].
    - assert (IH' : holds_before n (pos + advanced l) <= holds_before n pos + leaves_finished cf m l).
      { apply (IH D2 F2 pos). intros l1 t' l2 ->. specialize (Hs (t :: l1) t' l2 eq_refl). unfold advanced in *. cbn [filter] in Hs. rewrite Ef in Hs. cbn in Hs. exact Hs. }
      destruct (finishes_leafb cf m t); cbn [length]; unfold advanced, leaves_finished in IH'; lia.
    - assert (IH' : holds_before n (S pos + advanced l) <= holds_before n (S pos) + leaves_finished cf m l).
      { apply (IH D2 F2 (S pos)). intros l1 t' l2 ->. specialize (Hs (t :: l1) t' l2 eq_refl). unfold advanced in *. cbn [filter] in Hs. destruct (String.eqb_spec (t_obs t) "fail"); [contradiction|]. cbn [negb length] in Hs. rewrite <- Nat.add_succ_comm in Hs. exact Hs. }
      cbn [length]. rewrite <- Nat.add_succ_comm. unfold advanced, leaves_finished in IH'. destruct (holds_before_next n pos) as [N1 N2].
      destruct (ScriptProofs.holding_dec n pos) as [Hp|Hp].
      + assert (Hl : finishes_leafb cf m t = true).
        { apply finishes_leafb_iff. apply (turn_leaf cf m nodes succs init ps D Hc t D1).
          assert (HH : holds_something t). { destruct Hp as (k & K1 & ->). rewrite ScriptProofs.item_hold in H0 by auto. apply Hh in H0. destruct H0 as [H0|[H0|[]]]; [left|right]; auto. }
          destruct (turn_hold cf m succs ps Hc t D1 HH) as [[T1|T1] T2]; [|contradiction]. split; [|auto].
          destruct D1 as (w & _ & _ & _ & Hr & _). rewrite (busy_iff cf m Hc _ _ Hr). destruct (w_stage w) as [i| |] eqn:Ew; [eauto| |].
          - exfalso. apply Nf, T2. apply (cleaning_iff cf m Hc _ _ Hr). exact Ew.
          - exfalso. apply (final_iff cf m _ _ Hr) in Ew. congruence. }
        rewrite Hl. cbn [length]. lia.
      + rewrite (N2 Hp) in IH'. destruct (finishes_leafb cf m t); cbn [length]; lia.
  Qed.
  Lemma wait_end pos : In "wait"%string (ScriptSpec.item n holds pos) -> 2 * n + 6 <= pos.
  Proof.
    intros H. destruct (Nat.lt_ge_cases pos 3) as [P|P]; [|destruct (ScriptProofs.stages n pos) as [k P'|k P'|k P'|k P'|k P']; [lia| | | |]].
    - rewrite ScriptProofs.item_first in H by auto. destruct H as [H|[]]. discriminate.
    - rewrite ScriptProofs.item_leg in H by auto. destruct H as [H|[]]. discriminate.
    - rewrite ScriptProofs.item_hold in H by auto. apply Hh in H. destruct H as [H|[H|[]]]; discriminate.
    - rewrite ScriptProofs.item_last in H by auto. destruct H as [H|[]]. discriminate.
    - auto.
  Qed.
End Count.

(** *** When nothing goes wrong *)
Section Quiet.
  Variables (cf : config) (ordn : list nat -> list nat) (t : stree) (m : spomdp).
  Hypothesis Ho : is_order ordn.
  Hypothesis E : mk_supportive ordn t = Ok m.
  Hypothesis Hc : 1 <= cf_preferences cf.
  Variables (nodes : list stree) (succs : list (list nat)) (init : list nat) (ps : list sparams).
  Hypothesis B : built m nodes succs init ps.
  Hypothesis D : dag_ok nodes succs init.

  Lemma body_quiet d a x : quiet d -> body cf m d true a x = body cf m d false a x.
  Proof. intros (_ & _ & H1 & H2 & H3). unfold body. rewrite H1, H2, H3. reflexivity. Qed.
  Lemma flip_none l k : forall (d : nat -> bool), (forall i, d i = false) -> length l = k -> CodecSpec.flip (map d (seq 0 k)) l = l.
  Proof.
    unfold CodecSpec.flip. generalize 0. revert k. induction l as [|b l IH]; intros [|k] i d Hd Hl; cbn in *; try discriminate; [reflexivity|]. rewrite Hd. cbn. f_equal; [destruct b; reflexivity|]. apply IH; [auto|lia].
  Qed.
  Lemma quiet_step d a act s w : quiet d -> reads cf m s w -> acts m a act ->
    exists s' o r ob w0 w', sample_transition cf m d true a s = Ok (s', o, r) /\ reads cf m s' w' /\ nth_error observations o = Some ob /\
      w_stage w0 = w_stage w /\ w_prefs w0 = w_prefs w /\ (forall o, w_has w0 o = w_has w o) /\ documented cf ps succs (objects m) false w0 act w' ob r.
  Proof.
    intros Hq Hr Ha. rewrite (sample_body cf m _ _ _ _ B _ _ _ _ _ Hr). assert (Hrep := proj1 (reads_rep cf m s w) Hr).
    pose proof (disturb_rep cf m _ _ _ _ B d true _ _ Hrep) as Hr1. rewrite body_quiet by auto.
    destruct (body_sound cf m _ _ _ _ B D d false a act _ _ Hc Ha Hr1) as (x' & o & r & ob & w' & S1 & S2 & S3 & S4).
    exists (st x'), o, r, ob, (disturb_world cf m d true w), w'. split; [exact S1|]. split; [apply reads_st; auto|]. split; [exact S3|].
    destruct Hq as (Q1 & Q2 & _). split; [reflexivity|]. split; [|split; [|exact S4]].
    - cbn. apply flip_none; [auto|]. apply Hr.
    - intros o'. cbn. unfold flip_has. destruct (index_of String.eqb o' (objects m)); [rewrite Q1; apply xorb_false_l|reflexivity].
  Qed.

  Variables (n : nat) (s0 : script).
  Hypothesis New : new_script (actions m) observations (Z.of_nat n) ["hold H"%string] = Ok s0.
  Hypothesis Hleg : In "bring leg"%string (actions m).
  Hypothesis legs : forall p, In p ps -> sp_conditions p = leg_conditions /\ sp_hold p = Some "h"%string.
  Hypothesis words : forall word, executes (fun a => a) t word -> length word = n.
  Variable choices : nat -> nat.
  Variables (disc : Q) (d0 : draws) (ds : nat -> draws).
  Hypothesis calm : forall k, quiet (ds k).
  Let pol := script_policy choices.
  Let sm := supportive_model cf m disc d0 ds.
  Let Hne : ["hold H"%string] <> []. Proof. discriminate. Qed.
  Let Hh : incl ["hold H"%string] ["hold H"; "hold V"]%string. Proof. intros x [<-|[]]. left. reflexivity. Qed.

  (** Which objects are there at each place of the script. *)
  Definition stock (pos : nat) (has : string -> bool) : Prop :=
    (forall j o, nth_error ScriptModel.tools j = Some o -> (j < pos -> pos <= 2 * n + 3 + j -> has o = true) /\ (2 * n + 3 + j < pos -> has o = false)) /\
    (ScriptSpec.holding n pos -> has "leg"%string = true) /\ (5 <= pos -> ~ ScriptSpec.holding n pos -> has "leg"%string = false).
  Definition K (pos : nat) (s : Z) : Prop := exists w done, reads cf m s w /\ wants_hold w = true /\ stock pos (w_has w) /\
    episode cf m done s /\ length done = holds_before n pos /\ w_stage w <> Finished.

  Lemma stock_ext pos h h' : (forall o, h o = h' o) -> stock pos h -> stock pos h'.
  Proof. intros He (S1 & S2 & S3). unfold stock. repeat split; intros; rewrite <- He; auto; eapply S1; eauto. Qed.

  (** The place in the task. *)
  Lemma K_stage s w done : reads cf m s w -> episode cf m done s -> w_stage w <> Finished ->
    (length done < n /\ exists i p, w_stage w = Doing i /\ nth_error ps i = Some p) \/ (length done = n /\ w_stage w = Cleaning).
  Proof.
    intros Hr He Hf. destruct (Props_Supp.C34_episodes cf ordn t m Ho E Hc done s He) as (word & C1 & C2 & C3 & C4). apply words in C1. rewrite (reads_htm cf m _ _ Hr) in C3, C4.
    destruct (w_stage w) as [i| |] eqn:Ew; [left|right|contradiction].
    - assert (Hi : i < length (htm_nodes m)) by (apply Hr; auto). destruct C4 as (a & C4 & _); [cbn; unfold htm_clean; lia|]. split; [rewrite <- C1; apply nth_error_Some; congruence|].
      rewrite (b_nodes _ _ _ _ _ B) in Hi. assert (Hl := mapM_length _ _ _ (b_params _ _ _ _ _ B)). destruct (nth_error ps i) as [p|] eqn:Ep; [eauto|]. apply nth_error_None in Ep. lia.
    - split; [rewrite <- C1; apply C3; left; reflexivity|reflexivity].
  Qed.
  Lemma n_pos : 1 <= n.
  Proof.
    destruct (start_sound cf m _ _ _ _ B D d0) as (s & i & Es & Hi & Hr). destruct (K_stage s _ [] Hr (episode_start cf m _ _ Es)) as [[H _]|[_ H]]; [discriminate|cbn in H; lia|discriminate].
  Qed.

  Lemma meets_leg h h' k : meets leg_conditions h h' k -> h "joints"%string = true -> h "leg"%string = true -> h "screwdriver"%string = true -> h "screws"%string = true ->
    k = 0 /\ h' "joints"%string = true /\ h' "leg"%string = false /\ h' "screwdriver"%string = true /\ h' "screws"%string = true.
  Proof.
    unfold leg_conditions. intros M Hj Hl Hd Hs.
    inversion M as [|c1 o1 t1 x1 h1 y1 k1 A1 B1 C1 D1 M1]; subst. inversion M1 as [|c2 o2 t2 x2 h2 y2 k2 A2 B2 C2 D2 M2]; subst.
    inversion M2 as [|c3 o3 t3 x3 h3 y3 k3 A3 B3 C3 D3 M3]; subst. inversion M3 as [|c4 o4 t4 x4 h4 y4 k4 A4 B4 C4 D4 M4]; subst.
    inversion M4; subst. clear M M1 M2 M3 M4 D1 D2 D3 D4.
    rewrite (A4 "joints"%string), (A3 "joints"%string), (A2 "joints"%string), (C1 eq_refl) by discriminate.
    rewrite (A4 "leg"%string), (A3 "leg"%string), (B2 eq_refl) by discriminate.
    rewrite (A4 "screwdriver"%string), (C3 eq_refl) by discriminate. rewrite (C4 eq_refl).
    rewrite Hj. rewrite (A1 "leg"%string), Hl by discriminate. rewrite (A2 "screwdriver"%string), (A1 "screwdriver"%string), Hd by discriminate.
    rewrite (A3 "screws"%string), (A2 "screws"%string), (A1 "screws"%string), Hs by discriminate. repeat split.
  Qed.

  Lemma smooth_first (i : nat) : i < 3 -> nth i (smooth_names n) ""%string = bring (nth i ScriptModel.tools ""%string) /\ nth i (smooth_rewards cf n) 0%Q = (- cost_intrinsic cf)%Q.
  Proof. intros H. destruct i as [|[|[|i]]]; [split; reflexivity..|lia]. Qed.
  Lemma smooth_leg i : i < n -> nth (2 * i + 3) (smooth_names n) ""%string = bring "leg" /\ nth (2 * i + 3) (smooth_rewards cf n) 0%Q = (- cost_intrinsic cf)%Q.
  Proof.
    intros H. unfold smooth_names, smooth_rewards. rewrite !(app_nth2 _ _ _ (n := 2 * i + 3)) by (cbn [length]; lia). cbn [length]. replace (2 * i + 3 - 3) with (2 * i) by lia.
    rewrite !app_nth1 by (rewrite ScriptProofs.pairs_length; lia). rewrite !(proj1 (ScriptProofs.pairs_nth _ _ _ n i H)). split; reflexivity.
  Qed.
  Lemma smooth_hold i : i < n -> nth (2 * i + 4) (smooth_names n) ""%string = "hold H"%string /\ nth (2 * i + 4) (smooth_rewards cf n) 0%Q = (r_subtask cf + r_preference cf - cost_hold cf)%Q.
  Proof.
    intros H. unfold smooth_names, smooth_rewards. rewrite !(app_nth2 _ _ _ (n := 2 * i + 4)) by (cbn [length]; lia). cbn [length]. replace (2 * i + 4 - 3) with (2 * i + 1) by lia.
    rewrite !app_nth1 by (rewrite ScriptProofs.pairs_length; lia). rewrite !(proj2 (ScriptProofs.pairs_nth _ _ _ n i H)). split; reflexivity.
  Qed.
  Lemma smooth_last i : i < 3 -> nth (2 * n + 3 + i) (smooth_names n) ""%string = clear (nth i ScriptModel.tools ""%string) /\ nth (2 * n + 3 + i) (smooth_rewards cf n) 0%Q = (- cost_intrinsic cf)%Q.
  Proof.
    intros H. unfold smooth_names, smooth_rewards. rewrite !(app_nth2 _ _ _ (n := 2 * n + 3 + i)) by (cbn [length]; lia). cbn [length].
    rewrite !app_nth2 by (rewrite ScriptProofs.pairs_length; lia). rewrite !ScriptProofs.pairs_length. replace (2 * n + 3 + i - 3 - 2 * n) with i by lia. destruct i as [|[|[|i]]]; [split; reflexivity..|lia].
  Qed.
  Lemma smooth_end : nth (2 * n + 6) (smooth_names n) ""%string = "wait"%string /\ nth (2 * n + 6) (smooth_rewards cf n) 0%Q = r_final cf.
  Proof.
    unfold smooth_names, smooth_rewards. rewrite !(app_nth2 _ _ _ (n := 2 * n + 6)) by (cbn [length]; lia). cbn [length].
    rewrite !app_nth2 by (rewrite ScriptProofs.pairs_length; lia). rewrite !ScriptProofs.pairs_length. replace (2 * n + 6 - 3 - 2 * n) with 3 by lia. split; reflexivity.
  Qed.

  (** One action on the objects. *)
  Lemma stock_object pos (o : string) (b : bool) (h h' : string -> bool) : stock pos h -> h' o = b -> (forall o', o' <> o -> h' o' = h o') ->
    (pos < 3 -> o = nth pos ScriptModel.tools ""%string /\ b = true) ->
    (3 <= pos < 2 * n + 3 -> ~ ScriptSpec.holding n pos /\ o = "leg"%string /\ b = true) ->
    (2 * n + 3 <= pos -> pos < 2 * n + 6 /\ o = nth (pos - (2 * n + 3)) ScriptModel.tools ""%string /\ b = false) ->
    1 <= n -> stock (S pos) h'.
  Proof.
    intros (S1 & S2 & S3) Ho' Hd P1 P2 P3 Hn. unfold stock.
    assert (NL : forall j o, nth_error ScriptModel.tools j = Some o -> o <> "leg"%string) by (intros [|[|[|j]]] o0 K; try (injection K as <-; discriminate); destruct j; discriminate).
    assert (ND : forall i j o, nth_error ScriptModel.tools j = Some o -> nth i ScriptModel.tools ""%string = o -> i = j).
    { intros i j o0 K1 K2. destruct j as [|[|[|j]]]; [| | |destruct j; discriminate]; injection K1 as <-; destruct i as [|[|[|[|i]]]]; try reflexivity; try discriminate. }
    assert (NT : forall i, nth i ScriptModel.tools ""%string <> "leg"%string) by (intros [|[|[|[|i]]]]; discriminate).
    assert (NTn : forall j o, nth_error ScriptModel.tools j = Some o -> j < 3 /\ nth j ScriptModel.tools ""%string = o) by (intros j o0 K; split; [change 3 with (length ScriptModel.tools); apply nth_error_Some; congruence|apply nth_error_nth; auto]).
    split; [|split].
    - intros j x Hx. destruct (S1 j x Hx) as [T1 T2]. destruct (NTn _ _ Hx) as [J1 J2]. destruct (string_dec x o) as [->|Hxo].
      + rewrite Ho'. destruct (Nat.lt_ge_cases pos 3) as [Q1|Q1]; [|destruct (Nat.lt_ge_cases pos (2 * n + 3)) as [Q2|Q2]].
        * destruct (P1 Q1) as [E1 ->]. split; [auto|]. intros K. lia.
        * destruct (P2 ltac:(lia)) as (_ & E1 & _). exfalso. eapply NL; eauto.
        * destruct (P3 Q2) as (Q3 & E1 & ->). assert (pos - (2 * n + 3) = j) by (eapply ND; [exact Hx|auto]). split; [intros; lia|auto].
      + rewrite Hd by auto. split; intros K.
        * intros K'. apply T1; [|lia]. destruct (Nat.eq_dec j pos) as [->|]; [|lia]. exfalso. destruct (P1 J1) as [E1 _]. congruence.
        * apply T2. destruct (Nat.eq_dec pos (2 * n + 3 + j)) as [->|]; [|lia]. exfalso. destruct (P3 ltac:(lia)) as (_ & E1 & _). replace (2 * n + 3 + j - (2 * n + 3)) with j in E1 by lia. congruence.
    - intros (k & K1 & K2). destruct (P2 ltac:(lia)) as (_ & -> & ->). exact Ho'.
    - intros K1 K2. destruct (Nat.lt_ge_cases pos 3) as [Q1|Q1]; [lia|]. destruct (Nat.lt_ge_cases pos (2 * n + 3)) as [Q2|Q2].
      + exfalso. destruct (P2 ltac:(lia)) as (Q3 & _). destruct (ScriptProofs.stages n pos) as [k P'|k P'|k P'|k P'|k P']; try lia; [apply K2; exists k; lia|apply Q3; exists k; auto].
      + destruct (P3 Q2) as (_ & -> & _). rewrite Hd by (apply not_eq_sym, NT). apply S3; [lia|]. intros (k & Q3 & Q4). lia.
  Qed.

  Definition stage_of (pos : nat) (w : world) : Prop :=
    (holds_before n pos < n /\ exists i p, w_stage w = Doing i /\ nth_error ps i = Some p) \/ (holds_before n pos = n /\ w_stage w = Cleaning).
  Lemma hb_hold k : k < n -> holds_before n (2 * k + 4) = k /\ holds_before n (S (2 * k + 4)) = S k.
  Proof.
    intros H. unfold holds_before. replace (Nat.min (2 * k + 4 - 3) (2 * n)) with (2 * k + 1) by lia. replace (Nat.min (S (2 * k + 4) - 3) (2 * n)) with (2 * S k) by lia.
    split; [apply (proj2 (double_half k))|apply (proj1 (double_half (S k)))].
  Qed.

  Lemma core pos w act w' ob r : 1 <= n -> pos <= 2 * n + 6 -> wants_hold w = true -> stock pos (w_has w) -> stage_of pos w ->
    allowed (Z.of_nat n) ["hold H"%string] pos act -> documented cf ps succs (objects m) false w act w' ob r ->
    ob <> "fail"%string /\ robot_name act = nth pos (smooth_names n) ""%string /\ r == nth pos (smooth_rewards cf n) 0%Q /\
    (pos < 2 * n + 6 -> wants_hold w' = true /\ stock (S pos) (w_has w') /\ w_stage w' <> Finished /\ (ScriptSpec.holding n pos -> w_stage w' <> w_stage w) /\ (~ ScriptSpec.holding n pos -> w_stage w' = w_stage w)) /\
    (pos = 2 * n + 6 -> w_stage w' = Finished).
  Proof.
    intros Hn Hp Hw Hs Hg Ha Hd. unfold allowed in Ha. rewrite Nat2Z.id in Ha.
    assert (NF : w_stage w <> Finished) by (destruct Hg as [(_ & i & p & -> & _)|(_ & ->)]; discriminate).
    (* actions on objects *)
    assert (OB : forall o, act = Bring o -> pos < 2 * n + 3 -> ~ ScriptSpec.holding n pos -> o = (if pos <? 3 then nth pos ScriptModel.tools ""%string else "leg"%string) ->
      ob <> "fail"%string /\ r == (- cost_intrinsic cf)%Q /\ wants_hold w' = true /\ stock (S pos) (w_has w') /\ w_stage w' = w_stage w).
    { intros o -> Hlt Hnh Eo.
      assert (SO : forall h', h' o = true -> (forall o', o' <> o -> h' o' = w_has w o') -> stock (S pos) h').
      { intros h' K1 K2. apply (stock_object pos o true (w_has w) h'); auto; try lia.
        - intros K. destruct (Nat.ltb_spec pos 3); [auto|lia].
        - intros K. destruct (Nat.ltb_spec pos 3); [lia|auto]. }
      inversion Hd; subst; try discriminate; try (match goal with H : is_hold _ |- _ => destruct H; discriminate | H : helps _ _ _ _ |- _ => exfalso; destruct H as (_ & ? & _ & [(_ & K)|(_ & K)]); discriminate end); (split; [discriminate|]); (split; [assumption|]); (split; [exact Hw|]); (split; [|reflexivity]); apply SO; auto.
      - cbn [with_object w_has]. rewrite String.eqb_refl. reflexivity.
      - intros o' K. cbn [with_object w_has]. apply String.eqb_neq in K. rewrite K. reflexivity. }
    assert (OC : forall o, act = Clear o -> 2 * n + 3 <= pos < 2 * n + 6 -> o = nth (pos - (2 * n + 3)) ScriptModel.tools ""%string ->
      ob <> "fail"%string /\ r == (- cost_intrinsic cf)%Q /\ wants_hold w' = true /\ stock (S pos) (w_has w') /\ w_stage w' = w_stage w).
    { intros o -> Hlt Eo.
      assert (SO : forall h', h' o = false -> (forall o', o' <> o -> h' o' = w_has w o') -> stock (S pos) h').
      { intros h' K1 K2. apply (stock_object pos o false (w_has w) h'); auto; try lia. intros _. split; [lia|auto]. }
      inversion Hd; subst; try discriminate; try (match goal with H : is_hold _ |- _ => destruct H; discriminate | H : helps _ _ _ _ |- _ => exfalso; destruct H as (_ & ? & _ & [(_ & K)|(_ & K)]); discriminate end); (split; [discriminate|]); (split; [assumption|]); (split; [exact Hw|]); (split; [|reflexivity]); apply SO; auto.
      - cbn [with_object w_has]. rewrite String.eqb_refl. reflexivity.
      - intros o' K. cbn [with_object w_has]. apply String.eqb_neq in K. rewrite K. reflexivity. }
    destruct (Nat.lt_ge_cases pos 3) as [P|P]; [|destruct (ScriptProofs.stages n pos) as [k P'|k P'|k P'|k P'|k P']; [lia| | | |]].
    - rewrite ScriptProofs.item_first in Ha by auto. destruct Ha as [Ha|[]]. symmetry in Ha. destruct (smooth_first pos P) as [M1 M2]. rewrite M1, M2.
      assert (NH : ~ ScriptSpec.holding n pos) by (intros (j & J1 & J2); lia).
      destruct (OB _ (robot_bring _ _ Ha) ltac:(lia) NH) as (O1 & O2 & O3 & O4 & O5). { destruct (Nat.ltb_spec pos 3); [reflexivity|lia]. }
      rewrite O5. repeat (split; [auto|]). { intros _. repeat split; auto; contradiction. } intros; lia.
    - rewrite ScriptProofs.item_leg in Ha by auto. destruct Ha as [Ha|[]]. symmetry in Ha. destruct (smooth_leg k P') as [M1 M2]. rewrite M1, M2.
      assert (NH : ~ ScriptSpec.holding n (2 * k + 3)) by (intros (j & J1 & J2); lia).
      destruct (OB _ (robot_bring _ _ Ha) ltac:(lia) NH) as (O1 & O2 & O3 & O4 & O5). { destruct (Nat.ltb_spec (2 * k + 3) 3); [lia|reflexivity]. }
      rewrite O5. repeat (split; [auto|]). { intros _. repeat split; auto; contradiction. } intros; lia.
    - rewrite ScriptProofs.item_hold in Ha by auto. destruct Ha as [Ha|[]]. assert (act = HoldH) as -> by (apply robot_name_inj; symmetry; exact Ha). destruct (smooth_hold k P') as [M1 M2]. rewrite M1, M2.
      destruct (hb_hold k P') as [B1 B2]. destruct Hg as [(_ & i & p & G1 & G2)|(G1 & _)]; [|lia].
      destruct (legs p (nth_error_In _ _ G2)) as [L1 L2].
      assert (HP : helps ps w HoldH i) by (split; [exact Hw|]; exists p; split; [exact G2|]; left; auto).
      assert (ST := Hs). destruct ST as (S1 & S2 & S3).
      assert (HC : exists j, SuppSpec.completes ps succs j w w' 0 /\ j = i /\ ob = "none"%string /\ r == r_subtask cf - missing_cost cf 0 + r_preference cf - cost_hold cf /\ stock (S (2 * k + 4)) (w_has w')).
      { inversion Hd; subst; try congruence.
        - match goal with H : w_stage w = Doing ?j |- _ => assert (j = i) by congruence; subst j end.
          match goal with H : SuppSpec.completes _ _ _ _ _ ?z |- _ => pose proof H as (Hm & _); assert (ZZ := H) end. destruct Hm as (p' & Hp' & Hm). assert (p' = p) as -> by congruence. rewrite L1 in Hm.
          destruct (meets_leg _ _ _ Hm) as (-> & Z1 & Z2 & Z3 & Z4).
          { apply (S1 2 _ eq_refl); lia. } { apply S2. exists k. auto. } { apply (S1 1 _ eq_refl); lia. } { apply (S1 0 _ eq_refl); lia. }
          exists i. repeat (split; [solve [auto]|]). unfold stock. split; [|split].
          + intros j x Hx. split; intros.
            * destruct j as [|[|[|j]]]; [injection Hx as <-; assumption..|destruct j; discriminate].
            * assert (j < 3) by (change 3 with (length ScriptModel.tools); apply nth_error_Some; congruence). lia.
          + intros (j & J1 & J2). lia.
          + intros _ _. exact Z2.
      }
      destruct HC as (j & C1 & -> & C2 & C3 & C4). subst ob. split; [discriminate|]. split; [reflexivity|]. split.
      { rewrite C3. unfold missing_cost. cbn. ring. }
      split; [|intros; lia]. intros _. split; [destruct C1 as (_ & _ & C1 & _); unfold wants_hold in *; rewrite C1; exact Hw|]. split; [exact C4|]. split.
      { destruct C1 as (_ & [l [_ H3]] & _). intros K. destruct H3 as [[_ H3]|[j [_ H3]]]; congruence. }
      split; [|intros K; exfalso; apply K; exists k; auto]. intros _. eapply completes_stage; [exact D|exact Hc|exact G1|exact C1].
    - rewrite ScriptProofs.item_last in Ha by auto. destruct Ha as [Ha|[]]. symmetry in Ha. destruct (smooth_last k P') as [M1 M2]. rewrite M1, M2.
      assert (NH : ~ ScriptSpec.holding n (2 * n + 3 + k)) by (intros (j & J1 & J2); lia).
      destruct (OC _ (robot_clear _ _ Ha) ltac:(lia)) as (O1 & O2 & O3 & O4 & O5). { f_equal. lia. }
      rewrite O5. repeat (split; [auto|]). { intros _. repeat split; auto; contradiction. } intros; lia.
    - assert (k = 2 * n + 6) as -> by lia. rewrite ScriptProofs.item_end in Ha by auto. destruct Ha as [Ha|[]]. assert (act = Wait) as -> by (apply robot_name_inj; symmetry; exact Ha). destruct smooth_end as [M1 M2]. rewrite M1, M2.
      destruct Hg as [(Hg & _)|(_ & Hg)]; [rewrite holds_before_end in Hg by lia; lia|].
      inversion Hd; subst; try congruence; try (match goal with H : is_hold _ |- _ => destruct H; discriminate end). split; [discriminate|]. split; [reflexivity|]. split; [|split; [intros; lia|reflexivity]].
      assert (Z0 : present_count (objects m) w = 0).
      { unfold present_count. assert (X : forall o, In o (objects m) -> w_has w o = false).
        { intros o Ho'. apply (b_objs _ _ _ _ _ B) in Ho'. destruct Ho' as (p & c & H1 & H2). destruct (legs p H1) as [L1 _]. rewrite L1 in H2. destruct Hs as (S1 & _ & S3).
          assert (NH : ~ ScriptSpec.holding n (2 * n + 6)) by (intros (j & J1 & J2); lia).
          destruct H2 as [H2|[H2|[H2|[H2|[]]]]]; injection H2 as _ <-; [apply (S1 2 _ eq_refl); lia|apply S3; [lia|auto]|apply (S1 1 _ eq_refl); lia|apply (S1 0 _ eq_refl); lia]. }
        clear - X. induction (objects m) as [|o l IH]; [reflexivity|]. cbn. rewrite (X o) by (left; reflexivity). apply IH. intros; apply X; right; auto. }
      match goal with H : r == _ |- _ => rewrite H end. rewrite Z0. unfold missing_cost. cbn. ring.
  Qed.

  Lemma skipn_nth {A} (l : list A) d : forall pos, pos < length l -> skipn pos l = nth pos l d :: skipn (S pos) l.
  Proof. induction l as [|x l IH]; intros [|pos] H; cbn in H; try lia; [reflexivity|]. cbn [skipn nth]. rewrite IH by lia. reflexivity. Qed.
  Lemma smooth_length : length (smooth_names n) = 2 * n + 7 /\ length (smooth_rewards cf n) = 2 * n + 7.
  Proof. unfold smooth_names, smooth_rewards. rewrite !app_length, !ScriptProofs.pairs_length. cbn [length]. split; lia. Qed.

  Lemma quiet_turn k p s pos : 1 <= n -> pos <= 2 * n + 6 -> J m (Z.of_nat n) ["hold H"%string] p pos -> K pos s -> exists nm p1 a s' o r ob p2, ep_action pol p = Ok (nm, p1) /\ index_of String.eqb nm (em_actions sm) = Some a /\
    em_transition sm k a s = Ok (s', o, r) /\ nth_error (em_observations sm) o = Some ob /\ ep_step pol p1 ob = Ok p2 /\
    nm = nth pos (smooth_names n) ""%string /\ r == nth pos (smooth_rewards cf n) 0%Q /\ model_is_final cf m s' = (pos =? 2 * n + 6) /\ (pos < 2 * n + 6 -> J m (Z.of_nat n) ["hold H"%string] p2 (S pos) /\ K (S pos) s').
  Proof.
    intros Hn Hp Hj (w & done & Hr & Hw & Hs & He & Hl & Hf).
    destruct (policy_turn ordn t m Ho E (Z.of_nat n) ["hold H"%string] s0 New Hleg Hne Hh choices p pos Hj) as (nm & p1 & act & a & P1 & P2 & P3 & P4 & P5).
    assert (Ha : acts m (Z.of_nat a) act).
    { unfold acts. split; [lia|]. rewrite Nat2Z.id. apply index_of_str in P4. destruct P4 as [P4 _]. subst nm. exact P4. }
    destruct (quiet_step (ds k) (Z.of_nat a) act s w (calm k) Hr Ha) as (s' & o & r & ob & w0 & w' & Q1 & Q2 & Q3 & Q4 & Q5 & Q6 & Q7).
    assert (Hw0 : wants_hold w0 = true) by (unfold wants_hold in *; rewrite Q5; exact Hw).
    assert (Hs0 : stock pos (w_has w0)) by (apply (stock_ext pos (w_has w)); auto).
    assert (Hg0 : stage_of pos w0).
    { unfold stage_of. rewrite Q4, <- Hl. exact (K_stage s w done Hr He Hf). }
    destruct (core pos w0 act w' ob r Hn Hp Hw0 Hs0 Hg0 P3 Q7) as (C1 & C2 & C3 & C4 & C5).
    destruct (expected cf m Hc succs ps (Z.of_nat n) ["hold H"%string] Hh _ _ _ _ _ _ _ Q7 P3) as (X1 & X2 & X3). destruct (P5 ob X1 X3) as (p2 & Y1 & Y2).
    assert (Ef : String.eqb ob "fail" = false) by (apply String.eqb_neq; exact C1). rewrite Ef in Y2.
    exists nm, p1, a, s', o, r, ob, p2. subst nm. refine (conj P1 (conj P4 (conj Q1 (conj Q3 (conj Y1 (conj C2 (conj C3 (conj _ _)))))))).
    - destruct (Nat.eqb_spec pos (2 * n + 6)) as [Ep|Ep].
      + apply (final_iff cf m _ _ Q2). auto.
      + destruct (model_is_final cf m s') eqn:Ff; [|reflexivity]. apply (final_iff cf m _ _ Q2) in Ff. destruct (C4 ltac:(lia)) as (_ & _ & C6 & _). contradiction.
    - intros Hlt. split; [exact Y2|]. destruct (C4 Hlt) as (C6 & C7 & C8 & C9 & C10). exists w', (done ++ left_leaf cf m s s'). split; [exact Q2|]. split; [exact C6|]. split; [exact C7|].
      split; [eapply episode_step; [exact He|exact Q1]|]. split; [|exact C8]. rewrite app_length, Hl.
      assert (SH := stage_htm cf m Hc s w s' w' Hr Q2). rewrite <- Q4 in SH.
      destruct (ScriptProofs.holding_dec n pos) as [Hh'|Hh'].
      + assert (N1 : htm (int_to_state cf m s') <> htm (int_to_state cf m s)) by (intros K'; apply SH in K'; apply (C9 Hh'); exact K').
        destruct Hh' as (j & J1 & J2). subst pos. destruct (hb_hold j J1) as [B1 B2]. rewrite left_leaf_length.
        assert (BB : busy cf m s). { apply (busy_iff cf m Hc _ _ Hr). rewrite <- Q4. destruct Hg0 as [(_ & i & pp & G1 & _)|(G1 & _)]; [eauto|lia]. }
        unfold busy in BB. apply Z.ltb_lt in BB. rewrite BB. apply Z.eqb_neq in N1. rewrite N1. cbn [negb andb]. rewrite B1, B2. lia.
      + assert (N1 : htm (int_to_state cf m s') = htm (int_to_state cf m s)) by (apply SH; auto). rewrite left_leaf_length, N1, Z.eqb_refl, andb_false_r. rewrite (proj2 (holds_before_next n pos) Hh'). lia.
  Qed.

  Lemma trace_quiet k p s l q : 1 <= n -> trace sm pol k p s l q -> forall pos, pos <= 2 * n + 6 -> J m (Z.of_nat n) ["hold H"%string] p pos -> K pos s ->
    (forall l1 x l2, l = l1 ++ x :: l2 -> l2 <> [] -> model_is_final cf m (s_state x) = false) ->
    map t_name (turns_from (actions m) observations s l) = firstn (length l) (skipn pos (smooth_names n)) /\
    Forall2 Qeq (map s_reward l) (firstn (length l) (skipn pos (smooth_rewards cf n))) /\ length l <= 2 * n + 7 - pos /\
    (forall l1 x, l = l1 ++ [x] -> (model_is_final cf m (s_state x) = true <-> length l = 2 * n + 7 - pos)).
  Proof.
    intros Hn. destruct smooth_length as [SL1 SL2].
    induction 1 as [|k p s nm p1 a s' o r ob p2 l q H1 H2 H3 H4 H5 H6 H7 IH]; intros pos Hp Hj Hk Hnf.
    - cbn. split; [reflexivity|]. split; [constructor|]. split; [lia|]. intros l1 x K'. destruct l1; discriminate.
    - destruct (quiet_turn k p s pos Hn Hp Hj Hk) as (nm' & p1' & a' & s2 & o' & r' & ob' & p2' & G1 & G2 & G3 & G4 & G5 & G6 & G7 & G8 & G9).
      rewrite H1 in G1. injection G1 as <- <-. apply index_of_str in G2. destruct G2 as [G2 _].
      assert (a' = a) as ->.
      { destruct (Props_Supp.C32_names ordn t m Ho E) as (_ & HN & _). change (em_actions sm) with (actions m) in G2, H2. rewrite NoDup_nth_error in HN. apply HN; [apply nth_error_Some; rewrite G2; discriminate|]. rewrite G2, H2. reflexivity. }
      rewrite H4 in G3. injection G3 as <- <- <-. rewrite H5 in G4. injection G4 as <-. rewrite H6 in G5. injection G5 as <-.
      cbn [turns_from map s_action s_state s_observation s_reward fst snd length t_name].
      assert (En : nth a (actions m) ""%string = nm) by (apply nth_error_nth; exact H2). rewrite En.
      rewrite (skipn_nth (smooth_names n) ""%string pos), (skipn_nth (smooth_rewards cf n) 0%Q pos) by lia. cbn [firstn]. rewrite <- G6.
      destruct (Nat.eqb_spec pos (2 * n + 6)) as [Ep|Ep].
      + assert (l = []) as ->. { destruct l as [|y l]; [reflexivity|]. exfalso. assert (X := Hnf [] _ (y :: l) eq_refl ltac:(discriminate)). cbn [s_state fst snd] in X. congruence. }
        cbn. split; [reflexivity|]. split; [constructor; [exact G7|constructor]|]. split; [lia|]. intros l1 x K'. destruct l1 as [|y l1]; [|destruct l1; discriminate]. injection K' as <-. cbn [s_state fst snd]. split; [intros; lia|intros; exact G8].
      + destruct (G9 ltac:(lia)) as [J1 J2]. destruct (IH (S pos) ltac:(lia) J1 J2) as (I1 & I2 & I3 & I4).
        { intros l1 x l2 K'. apply (Hnf ((a, s', o, r) :: l1) x l2). cbn [app]. rewrite K'. reflexivity. }
        split; [f_equal; exact I1|]. split; [constructor; [exact G7|exact I2]|]. split; [lia|]. intros l1 x K'. destruct l1 as [|y l1]; injection K' as K1 K2.
        * subst x. destruct l; [|discriminate]. cbn [s_state fst snd length]. rewrite G8. split; [discriminate|lia].
        * subst l. rewrite (I4 l1 x eq_refl). split; lia.
  Qed.
End Quiet.

Lemma brings m nodes succs init ps (o : string) : built m nodes succs init ps -> In o (objects m) -> In ("bring " ++ o)%string (actions m).
Proof.
  intros B H. unfold actions. apply in_or_app. right. apply in_concat. pose proof (b_clen _ _ _ _ _ B) as HL. apply In_nth_error in H. destruct H as [k Hk].
  assert (Hlt : k < length (clearable m)) by (rewrite HL; apply nth_error_Some; congruence). destruct (nth_error (clearable m) k) as [b|] eqn:Eb; [|apply nth_error_None in Eb; lia].
  exists (("bring " ++ o)%string :: (if b then [("clear " ++ o)%string] else [])). split; [|left; reflexivity]. apply in_map_iff. exists (o, b). split; [reflexivity|].
  clear - Hk Eb. revert k Hk Eb. generalize (clearable m). induction (objects m) as [|x l IH]; intros [|c cl] [|k] H1 H2; cbn in *; try discriminate; [injection H1 as <-; injection H2 as <-; left; reflexivity|right; eapply IH; eauto].
Qed.
Lemma params_in {nodes ps} : mapM action_params nodes = Ok ps -> forall p, In p ps -> exists x, In x nodes /\ action_params x = Ok p.
Proof.
  revert ps. induction nodes as [|x nodes IH]; intros ps H p Hp; cbn in H; [injection H as <-; contradiction|].
  destruct (action_params x) as [y|] eqn:Ey; [|discriminate]. cbn [bind] in H. destruct (mapM action_params nodes) as [ys|] eqn:Em; [|discriminate]. injection H as <-.
  destruct Hp as [<-|Hp]; [exists x; split; [left; reflexivity|exact Ey]|]. destruct (IH ys eq_refl p Hp) as (z & Z1 & Z2). exists z. split; [right; exact Z1|exact Z2].
Qed.
Lemma params_len {nodes ps} : mapM action_params nodes = Ok ps -> length ps = length nodes.
Proof. apply mapM_length. Qed.

(** *** Bounds on the rewards of any policy *)
Section Bounds.
  Variables (cf : config) (m : spomdp).
  Variables (nodes : list stree) (succs : list (list nat)) (init : list nat) (ps : list sparams).
  Hypothesis B : built m nodes succs init ps.
  Hypothesis D : dag_ok nodes succs init.
  Hypothesis Hc : 1 <= cf_preferences cf.
  Hypothesis Hcost : no_negative_cost cf.
  Local Open Scope Q_scope.

  Lemma missing_pos k : 0 <= missing_cost cf k.
  Proof. unfold missing_cost. apply Qmult_le_0_compat; [|apply Hcost]. change 0 with (inject_Z 0). rewrite <- Zle_Qle. lia. Qed.
  Lemma best_ge : r_subtask cf <= best_leaf cf /\ r_subtask cf + (r_preference cf - cost_hold cf) <= best_leaf cf.
  Proof.
    unfold best_leaf. destruct (Qle_bool (cost_hold cf) (r_preference cf)) eqn:Eq.
    - apply Qle_bool_iff in Eq. split; lra.
    - assert (~ cost_hold cf <= r_preference cf) by (intros K; apply Qle_bool_iff in K; congruence). split; lra.
  Qed.
  Lemma comp_le w : r_subtask cf + compensation cf w <= best_leaf cf.
  Proof. destruct best_ge as [H1 H2]. unfold compensation. destruct (_ && _); lra. Qed.

  Lemma turn_bound t : documented_turn cf m succs ps t -> model_is_final cf m (t_from t) = false ->
    t_reward t <= (if finishes_leafb cf m t then best_leaf cf else 0) + (if model_is_final cf m (t_to t) then r_final cf else 0).
  Proof.
    intros Ht Hf. assert (TL := turn_leaf cf m nodes succs init ps D Hc t Ht). rewrite <- finishes_leafb_iff in TL. assert (TF := turn_final cf m succs ps Hc t Ht Hf).
    destruct Ht as (w & w1 & w' & act & Hr & Hdis & Hr' & Hn & Hd). destruct Hdis as (S1 & _ & _).
    assert (HB := busy_iff cf m Hc _ _ Hr). assert (HCl := cleaning_iff cf m Hc _ _ Hr). rewrite <- S1 in HB, HCl.
    destruct Hcost as (C1 & C2 & C3). destruct best_ge as [G1 G2].
    assert (NW : forall a, is_hold a -> robot_name a <> "wait"%string) by (intros a [-> | ->]; discriminate).
    assert (Fin : w_stage w' = Finished <-> model_is_final cf m (t_to t) = true) by (symmetry; apply (final_iff cf m _ _ Hr')).
    assert (NFin : w_stage w1 <> Finished) by (rewrite S1; intros K; apply (final_iff cf m _ _ Hr) in K; congruence).
    assert (CASE : forall b f, finishes_leafb cf m t = b -> model_is_final cf m (t_to t) = f -> t_reward t <= (if b then best_leaf cf else 0) + (if f then r_final cf else 0)); [|apply CASE; reflexivity].
    intros b f Eb Ef. rewrite Eb, Ef in *.
    assert (Zero : t_reward t <= 0 -> w_stage w' = w_stage w1 -> t_reward t <= (if b then best_leaf cf else 0) + (if f then r_final cf else 0)).
    { intros Z1 Z2. assert (f = false) as -> by (destruct f; [exfalso; apply NFin; rewrite <- Z2; apply Fin; reflexivity|reflexivity]).
      assert (b = false) as ->. { destruct b; [|reflexivity]. exfalso. apply finishes_leafb_iff in Eb. destruct Eb as [_ Eb]. apply Eb. apply (stage_htm cf m Hc _ _ _ _ Hr Hr'). congruence. }
      lra. }
    assert (Leaf : forall i n, w_stage w1 = Doing i -> SuppSpec.completes ps succs i w1 w' n -> t_reward t <= best_leaf cf -> t_reward t <= (if b then best_leaf cf else 0) + (if f then r_final cf else 0)).
    { intros i n Z1 Z2 Z3. assert (f = false) as ->. { destruct f; [|reflexivity]. exfalso. destruct Z2 as (_ & [l [_ H3]] & _). assert (K := proj2 Fin eq_refl). destruct H3 as [[_ H3]|[j [_ H3]]]; congruence. }
      assert (b = true) as ->. { rewrite <- Eb. apply finishes_leafb_iff. split; [apply HB; eauto|]. intros K. apply (stage_htm cf m Hc _ _ _ _ Hr Hr') in K. rewrite <- S1 in K. revert K. eapply completes_stage; [exact D|exact Hc|exact Z1|exact Z2]. }
      lra. }
    inversion Hd; subst; try contradiction;
      try (apply Zero; [match goal with H : t_reward t == _ |- _ => rewrite H end; lra|reflexivity]; fail).
    - (* cleaning *) rewrite (proj1 Fin eq_refl).
      assert (Fb : finishes_leafb cf m t = false). { destruct (finishes_leafb cf m t); [|reflexivity]. exfalso. destruct (proj1 TL eq_refl) as (K & _). apply HB in K. destruct K as [i K]. congruence. }
      rewrite Fb. match goal with H : t_reward t == _ |- _ => rewrite H end. pose proof (missing_pos (present_count (objects m) w1)). lra.
    - eapply Leaf; eauto. match goal with H : t_reward t == _ |- _ => rewrite H end. pose proof (missing_pos n). pose proof (comp_le w1). lra.
    - eapply Leaf; eauto. match goal with H : t_reward t == _ |- _ => rewrite H end. pose proof (missing_pos n). lra.
    - eapply Leaf; eauto. match goal with H : t_reward t == _ |- _ => rewrite H end. pose proof (missing_pos n). pose proof (comp_le w1). lra.
  Qed.

  Lemma turns_bound l : Forall (documented_turn cf m succs ps) l -> Forall (fun t => model_is_final cf m (t_from t) = false) l ->
    total (map t_reward l) <= inject_Z (Z.of_nat (leaves_finished cf m l)) * best_leaf cf + inject_Z (Z.of_nat (length (filter (fun t => model_is_final cf m (t_to t)) l))) * r_final cf.
  Proof.
    induction l as [|t l IH]; intros H1 H2; [unfold leaves_finished; cbn [filter length map total]; change (inject_Z (Z.of_nat 0)) with 0; lra|]. inversion H1; subst. inversion H2; subst. specialize (IH ltac:(auto) ltac:(auto)).
    assert (TB := turn_bound t ltac:(auto) ltac:(auto)). unfold leaves_finished in *. cbn [map total filter].
    assert (X : forall k, inject_Z (Z.of_nat (S k)) == inject_Z (Z.of_nat k) + 1) by (intros k; rewrite Nat2Z.inj_succ, <- Z.add_1_r, inject_Z_plus; reflexivity).
    destruct (finishes_leafb cf m t), (model_is_final cf m (t_to t)); cbn [length]; rewrite ?X; lra.
  Qed.
End Bounds.
Lemma turns_rewards names obs l : forall s, map t_reward (turns_from names obs s l) = map s_reward l.
Proof. induction l as [|x l IH]; intros s; [reflexivity|]. cbn [turns_from map t_reward]. rewrite IH. reflexivity. Qed.
Lemma turns_finals names obs f l : forall s, length (filter (fun t => f (t_to t)) (turns_from names obs s l)) = length (filter f (map s_state l)).
Proof. induction l as [|x l IH]; intros s; [reflexivity|]. cbn [turns_from map filter t_to]. destruct (f (s_state x)); cbn [length]; rewrite IH; reflexivity. Qed.
Lemma last_final (f : Z -> bool) (l : list (step Z)) : (forall l1 x l2, l = l1 ++ x :: l2 -> l2 <> [] -> f (s_state x) = false) ->
  length (filter f (map s_state l)) = if existsb f (map s_state l) then 1 else 0.
Proof.
  induction l as [|x l IH]; intros H; [reflexivity|]. cbn [map filter existsb]. destruct l as [|y l].
  - destruct (f (s_state x)); reflexivity.
  - rewrite (H [] x (y :: l) eq_refl) by discriminate. cbn [orb]. apply IH. intros l1 z l2 K. apply (H (x :: l1) z l2). rewrite K. reflexivity.
Qed.
Lemma total_app l l' : (total (l ++ l') == total l + total l')%Q.
Proof. induction l as [|x l IH]; cbn [app total]; [ring|]. rewrite IH. ring. Qed.
Lemma total_smooth cf n : (total (smooth_rewards cf n) == inject_Z (Z.of_nat n) * (r_subtask cf + r_preference cf - cost_hold cf) + r_final cf - inject_Z (Z.of_nat (n + 6)) * cost_intrinsic cf)%Q.
Proof.
  unfold smooth_rewards. rewrite !total_app. cbn [total]. rewrite Nat2Z.inj_add, inject_Z_plus. change (inject_Z (Z.of_nat 6)) with (6#1)%Q.
  assert (X : (total (concat (repeat [- cost_intrinsic cf; r_subtask cf + r_preference cf - cost_hold cf] n)) == inject_Z (Z.of_nat n) * (r_subtask cf + r_preference cf - cost_hold cf - cost_intrinsic cf))%Q).
  { induction n as [|n IH]; [cbn; ring|]. cbn [repeat concat]. rewrite total_app, IH. cbn [total]. rewrite Nat2Z.inj_succ, <- Z.add_1_r, inject_Z_plus. ring. }
  rewrite X. ring.
Qed.
Lemma total_eq l l' : Forall2 Qeq l l' -> (total l == total l')%Q.
Proof. induction 1 as [|x y l l' H1 H2 IH]; cbn [total]; [reflexivity|]. rewrite H1, IH. reflexivity. Qed.
