(** Proofs for C106. *)
From Verif Require Import PyBase PyBaseFacts QBase HtmModel HtmSpec DagModel DagSpec SuppModel SuppSpec SuppProofs SuppProofs2 SuppProofs3 SuppProofs4 EvalModel EvalSpec EvalProofs ExpModel RunModel SuppLawModel RunSpec RunProofs RunProofs2 PoolModel PoolSpec PoolProofs Props_Pool Props_Run JobModel JobSpec.
From Verif Require ScriptModel ScriptSpec ScriptProofs Props_Supp Props_Eval.
From Coq Require Import Lia Lqa Permutation.
Import HtmSpec.
Local Open Scope list_scope.
Local Open Scope nat_scope.

(** *** The pool does not look at the results *)
Section Blind.
  Context {A B : Type}.
  Variables (f : nat -> Z -> A) (g : nat -> Z -> B) (seeds : nat -> Z) (np n : nat) (env : nat -> list event).
  Definition alike (s : PoolModel.st A) (s' : PoolModel.st B) : Prop :=
    workers s = workers s' /\ to_go s = to_go s' /\ length (results s) = length (results s') /\ procs (wd s) = procs (wd s') /\
    length (pipe (wd s)) = length (pipe (wd s')) /\ where_ s = where_ s'.
  Lemma alike_event (w : PoolModel.world A) (w' : PoolModel.world B) e : procs w = procs w' -> length (pipe w) = length (pipe w') ->
    procs (apply_event f w e) = procs (apply_event g w' e) /\ length (pipe (apply_event f w e)) = length (pipe (apply_event g w' e)).
  Proof.
    intros P L. destruct e as [p|p c]; cbn [apply_event]; rewrite P; destruct (nth_error (procs w') p) as [[sd [[]|]]|]; cbn [procs pipe]; rewrite ?app_length; cbn [length]; auto.
  Qed.
  Lemma alike_events l : forall (w : PoolModel.world A) (w' : PoolModel.world B), procs w = procs w' -> length (pipe w) = length (pipe w') ->
    procs (fold_left (apply_event f) l w) = procs (fold_left (apply_event g) l w') /\ length (pipe (fold_left (apply_event f) l w)) = length (pipe (fold_left (apply_event g) l w')).
  Proof. induction l as [|e l IH]; intros w w' P L; cbn [fold_left]; auto. destruct (alike_event w w' e P L). apply IH; auto. Qed.
  Lemma alike_get (s : PoolModel.st A) (s' : PoolModel.st B) (a b : place) : alike s s' -> alike (PoolModel.get s a b) (PoolModel.get s' a b).
  Proof.
    intros (H1 & H2 & H3 & H4 & H5 & H6). unfold PoolModel.get, goto, alike. destruct (pipe (wd s)) as [|x q] eqn:E, (pipe (wd s')) as [|x' q'] eqn:E'; cbn in H5; try discriminate; cbn [workers to_go results wd procs pipe where_]; rewrite ?E, ?E', ?app_length; cbn [length]; repeat split; auto.
  Qed.
  Lemma alike_advance (s : PoolModel.st A) (s' : PoolModel.st B) : alike s s' -> alike (advance seeds n s) (advance seeds n s').
  Proof.
    intros H. pose proof H as (H1 & H2 & H3 & H4 & H5 & H6). assert (G : forall p, alike (goto s p) (goto s' p)) by (intros p; unfold alike, goto; cbn; auto 10).
    unfold advance. rewrite H6. destruct (where_ s').
    - unfold still_working. rewrite H1, H2, H3. destruct (_ || _)%bool; apply G.
    - unfold clean. rewrite H1, H4. destruct (nth_error (workers s') i) as [[p|]|]; try apply G. destruct (nth_error (procs (wd s')) p) as [[sd [|c b]]|]; try apply G. destruct (0 <? c)%Z; [apply G|]. unfold alike. cbn. auto 10.
    - unfold fill. rewrite H1, H2. destruct (nth_error (workers s') i) as [[p|]|]; try apply G. destruct (0 <? to_go s'); [|apply G]. unfold alike. cbn. rewrite H4. auto 10.
    - apply alike_get, H.
    - destruct k; [apply G|apply alike_get, H].
    - exact H.
    - exact H.
  Qed.
  Lemma alike_exec k : alike (exec f seeds np n env k) (exec g seeds np n env k).
  Proof.
    induction k as [|k IH]; cbn [exec]; [unfold alike, start_state; cbn; auto 10|]. apply alike_advance. destruct IH as (H1 & H2 & H3 & H4 & H5 & H6).
    unfold alike, happen. cbn [workers to_go results wd where_]. destruct (alike_events (env k) _ _ H4 H5) as [P L]. auto 10.
  Qed.
End Blind.

(** *** Numbers and outcomes *)
Lemma loop_same final (em em' : emodel Z) (P : Type) (pol : epolicy P) gamma : em_actions em = em_actions em' -> em_observations em = em_observations em' ->
  forall fuel k h p s hs ha ho hr ret, (forall j a x, k <= j -> em_transition em j a x = em_transition em' j a x) ->
  eval_loop final em pol gamma fuel k h p s hs ha ho hr ret = eval_loop final em' pol gamma fuel k h p s hs ha ho hr ret.
Proof.
  intros EA EO. induction fuel as [|fuel IH]; intros k h p s hs ha ho hr ret E; cbn [eval_loop]; destruct (fo_reached h); try reflexivity.
  destruct (ep_action pol p) as [[nm p1]|]; cbn [bind]; [|reflexivity]. rewrite EA, EO. destruct (index_of String.eqb nm (em_actions em')) as [a|]; cbn [bind]; [|reflexivity]. rewrite E by lia.
  destruct (em_transition em' k a s) as [[[s' o] r]|]; cbn [bind]; [|reflexivity]. destruct (nth_error (em_observations em') o) as [ob|]; cbn [bind]; [|reflexivity]. destruct (ep_step pol p1 ob) as [p2|]; cbn [bind]; [|reflexivity].
  apply IH. intros j a' x Hj. apply E. lia.
Qed.
(** Only the draws for the objects and preferences of the model matter. *)
Definition trim (cf : config) (m : spomdp) (d : draws) : draws :=
  {| d_object := fun i => if i <? length (objects m) then d_object d i else false; d_preference := fun i => if i <? cf_preferences cf then d_preference d i else false;
     d_succ := d_succ d; d_hold := d_hold d; d_answer := d_answer d; d_fail := d_fail d; d_consume := d_consume d |}.
Lemma map_trim (f : nat -> bool) n : map (fun i => if i <? n then f i else false) (seq 0 n) = map f (seq 0 n).
Proof. apply map_ext_in. intros i Hi. apply in_seq in Hi. destruct (Nat.ltb_spec i n); [reflexivity|lia]. Qed.
Lemma trim_conditions cf m d cs : forall k x, update_for_conditions cf (trim cf m d) k cs x = update_for_conditions cf d k cs x.
Proof. induction cs as [|[c o] cs IH]; intros k x; cbn [update_for_conditions]; [reflexivity|]. rewrite IH. reflexivity. Qed.
Lemma trim_step cf m d a s : sample_transition cf m (trim cf m d) true a s = sample_transition cf m d true a s.
Proof. unfold sample_transition. cbn [trim d_object d_preference d_hold d_answer d_fail d_succ d_consume]. rewrite !map_trim. unfold update_for_transition. cbn [trim d_succ].
  destruct (_ || _)%bool; [|reflexivity]. destruct (is_final _); [reflexivity|]. destruct (Z.eqb _ (htm_clean m)); [reflexivity|].
  destruct (py_nth (htm_nodes m) _) as [n|]; [|reflexivity]. cbn [bind]. destruct (action_params n) as [p|]; [|reflexivity]. cbn [bind]. destruct (_ && _ && _)%bool; [reflexivity|].
  destruct (py_nth (htm_succs m) _) as [l|]; [|reflexivity]. cbn [bind]. destruct (choose l _) as [h|]; [|reflexivity]. cbn [bind]. destruct (py_nth (htm_conditions m) _) as [cs|]; [|reflexivity]. cbn [bind]. rewrite trim_conditions. reflexivity.
Qed.
Lemma trim_quiet cf m pr x y : cf_preferences cf = 1 -> ordinary m x -> (p_changed_by_human pr <= 1 # 100)%Q -> (p_change_preference pr <= 0)%Q -> (p_fail pr <= 1 # 100)%Q ->
  quiet (trim cf m (step_draws cf m pr x true y)).
Proof.
  intros Hc (O1 & O2 & O3 & O4 & O5 & O6) P1 P2 P3. assert (B : forall p u : Q, (p <= u)%Q -> below p u = false) by (intros p u H; unfold below; apply Qle_bool_iff in H; rewrite H; reflexivity).
  assert (B' : forall p u : Q, (u < p)%Q -> below p u = true). { intros p u H. unfold below. destruct (Qle_bool p u) eqn:E; [|reflexivity]. apply Qle_bool_iff in E. lra. }
  repeat split; cbn [trim step_draws d_object d_preference d_hold d_answer d_fail].
  - intros i. destruct (Nat.ltb_spec i (length (objects m))); [|reflexivity]. apply B. rewrite Forall_forall in O2. apply Qle_trans with (1 # 100); [exact P1|]. apply O2. apply nth_In. lia.
  - intros i. destruct (Nat.ltb_spec i (cf_preferences cf)); [|reflexivity]. apply B. rewrite Forall_forall in O4. apply Qle_trans with 0%Q; [exact P2|]. apply O4. apply nth_In. lia.
  - apply B'. lra.
  - apply B'. destruct (Z.eqb _ 0); lra.
  - apply B. lra.
Qed.
Lemma loop_drawn cf m pr disc x0 d0 xs (P : Type) (pol : epolicy P) gamma final : forall fuel k h p s hs ha ho hr ret,
  exists ds, (forall j, exists y, ds j = trim cf m (step_draws cf m pr (xs j) true y)) /\
  eval_loop final (drawn_model cf m pr disc x0 xs) pol gamma fuel k h p s hs ha ho hr ret = eval_loop final (supportive_model cf m disc d0 ds) pol gamma fuel k h p s hs ha ho hr ret.
Proof.
  induction fuel as [|fuel IH]; intros k h p s hs ha ho hr ret.
  - exists (fun j => trim cf m (step_draws cf m pr (xs j) true s)). split; [eauto|]. reflexivity.
  - cbn [eval_loop]. destruct (fo_reached h); [exists (fun j => trim cf m (step_draws cf m pr (xs j) true s)); split; [eauto|reflexivity]|].
    destruct (ep_action pol p) as [[nm p1]|]; cbn [bind]; [|exists (fun j => trim cf m (step_draws cf m pr (xs j) true s)); split; [eauto|reflexivity]].
    cbn [em_actions drawn_model supportive_model em_observations]. destruct (index_of String.eqb nm (actions m)) as [a|] eqn:Ea; cbn [bind]; [|exists (fun j => trim cf m (step_draws cf m pr (xs j) true s)); split; [eauto|reflexivity]].
    cbn [em_transition drawn_model supportive_model]. unfold drawn_transition.
    destruct (sample_transition cf m (step_draws cf m pr (xs k) true s) true (Z.of_nat a) s) as [[[s' o] r]|] eqn:Et; cbn [bind]; [|exists (fun j => trim cf m (step_draws cf m pr (xs j) true s)); split; [eauto|cbn [em_transition supportive_model]; rewrite trim_step, Et; reflexivity]].
    destruct (nth_error observations o) as [ob|] eqn:Eo; cbn [bind]; [|exists (fun j => trim cf m (step_draws cf m pr (xs j) true s)); split; [eauto|cbn [em_transition supportive_model]; rewrite trim_step, Et; cbn [bind]; rewrite Eo; reflexivity]].
    destruct (ep_step pol p1 ob) as [p2|] eqn:Ep; cbn [bind]; [|exists (fun j => trim cf m (step_draws cf m pr (xs j) true s)); split; [eauto|cbn [em_transition supportive_model]; rewrite trim_step, Et; cbn [bind]; rewrite Eo; cbn [bind]; rewrite Ep; reflexivity]].
    destruct (IH (S k) (fo_decrement final h s s') p2 s' (s :: hs) (a :: ha) (o :: ho) (r :: hr) (r + gamma * ret)%Q) as (ds & D1 & D2).
    exists (fun j => if j =? k then trim cf m (step_draws cf m pr (xs k) true s) else ds j). split.
    + intros j. destruct (j =? k) eqn:K; [apply Nat.eqb_eq in K as ->; eauto|apply D1].
    + cbn [em_transition supportive_model]. rewrite Nat.eqb_refl, trim_step, Et. cbn [bind]. rewrite Eo. cbn [bind]. rewrite Ep. cbn [bind]. rewrite D2. apply loop_same; try reflexivity.
      intros j a' x Hj. cbn [em_transition supportive_model]. destruct (j =? k) eqn:K; [apply Nat.eqb_eq in K; lia|reflexivity].
Qed.
Lemma simulate_drawn cf m pr disc x0 xs (P : Type) (pol : epolicy P) p H b :
  exists ds, (forall j, exists y, ds j = trim cf m (step_draws cf m pr (xs j) true y)) /\
  simulate_one_evaluation (model_is_final cf m) (drawn_model cf m pr disc x0 xs) pol p H b = simulate_one_evaluation (model_is_final cf m) (supportive_model cf m disc (start_draws pr x0) ds) pol p H b.
Proof.
  unfold simulate_one_evaluation. destruct (ep_reset pol p) as [p0|]; cbn [bind]; [|exists (fun j => trim cf m (step_draws cf m pr (xs j) true 0)); split; [eauto|reflexivity]].
  cbn [em_start drawn_model supportive_model]. unfold drawn_start. destruct (sample_start cf m (start_draws pr x0)) as [s0|] eqn:Es; cbn [bind]; [|exists (fun j => trim cf m (step_draws cf m pr (xs j) true 0)); split; [eauto|reflexivity]].
  destruct (loop_drawn cf m pr disc x0 (start_draws pr x0) xs P pol (if b then disc else 1%Q) (model_is_final cf m) (Z.to_nat H) 0 (fo_init H) p0 s0 [] [] [] [] 0%Q) as (ds & D1 & D2).
  exists ds. split; [exact D1|exact D2].
Qed.

Lemma firstn_more {A} (a : list A) x n : firstn n (a ++ repeat x (S n)) = firstn n (a ++ repeat x n).
Proof.
  replace (S n) with (n + 1) by lia. rewrite repeat_app, app_assoc, (firstn_app n (a ++ _)). replace (n - length _) with 0 by (rewrite app_length, !repeat_length; lia). cbn [firstn]. rewrite app_nil_r. reflexivity.
Qed.
(** *** A human who does not want to be helped *)
Section Refused.
  Variables (cf : config) (ordn : list nat -> list nat) (t : stree) (m : spomdp).
  Hypothesis Ho : is_order ordn.
  Hypothesis E : mk_supportive ordn t = Ok m.
  Hypothesis Hc : 1 <= cf_preferences cf.
  Variables (nodes : list stree) (succs : list (list nat)) (init : list nat) (ps : list sparams).
  Hypothesis B : built m nodes succs init ps.
  Hypothesis D : dag_ok nodes succs init.
  Variables (n : nat) (s0 : ScriptModel.script).
  Hypothesis Hn : 1 <= n.
  Hypothesis New : new_script (actions m) observations (Z.of_nat n) ["hold H"%string] = Ok s0.
  Hypothesis Hleg : In "bring leg"%string (actions m).
  Variable choices : nat -> nat.
  Variables (disc : Q) (d0 : draws) (ds : nat -> draws).
  Hypothesis calm : forall k, quiet (ds k).
  Let pol := script_policy choices.
  Let sm := supportive_model cf m disc d0 ds.
  Let Hne : ["hold H"%string] <> []. Proof. discriminate. Qed.
  Let Hh : incl ["hold H"%string] ["hold H"; "hold V"]%string. Proof. intros x [<-|[]]. left. reflexivity. Qed.
  Definition first_names : list string := ["bring screws"; "bring screwdriver"; "bring joints"; "bring leg"]%string.
  Definition U (s : Z) : Prop := exists w i, reads cf m s w /\ wants_hold w = false /\ w_stage w = Doing i.

  Lemma refused_turn k p s pos : pos <= 4 -> J m (Z.of_nat n) ["hold H"%string] p pos -> U s -> exists nm p1 a s' o r ob p2, ep_action pol p = Ok (nm, p1) /\ index_of String.eqb nm (em_actions sm) = Some a /\
    em_transition sm k a s = Ok (s', o, r) /\ nth_error (em_observations sm) o = Some ob /\ ep_step pol p1 ob = Ok p2 /\
    nm = nth pos first_names "hold H"%string /\ (r == (if pos <? 4 then - cost_intrinsic cf else - cost_hold cf))%Q /\ model_is_final cf m s' = false /\
    J m (Z.of_nat n) ["hold H"%string] p2 (if pos <? 4 then S pos else pos) /\ U s'.
  Proof.
    intros Hp Hj (w & i & Hr & Hw & Hs).
    destruct (policy_turn ordn t m Ho E (Z.of_nat n) ["hold H"%string] s0 New Hleg Hne Hh choices p pos Hj) as (nm & p1 & act & a & P1 & P2 & P3 & P4 & P5).
    assert (Ha : acts m (Z.of_nat a) act).
    { unfold acts. split; [lia|]. rewrite Nat2Z.id. apply index_of_str in P4. destruct P4 as [P4 _]. subst nm. exact P4. }
    destruct (quiet_step cf m Hc nodes succs init ps B D (ds k) (Z.of_nat a) act s w (calm k) Hr Ha) as (s' & o & r & ob & w0 & w' & Q1 & Q2 & Q3 & Q4 & Q5 & Q6 & Q7).
    assert (Hw0 : wants_hold w0 = false) by (unfold wants_hold in *; rewrite Q5; exact Hw). rewrite Hs in Q4.
    assert (En : (pos < 4 -> exists o', act = Bring o' /\ robot_name act = nth pos first_names "hold H"%string) /\ (pos = 4 -> act = HoldH)).
    { unfold allowed in P3. rewrite Nat2Z.id in P3. split.
      - intros Hlt. destruct (Nat.eq_dec pos 3) as [->|].
        + change 3 with (2 * 0 + 3) in P3. rewrite (ScriptProofs.item_leg n ["hold H"%string] 0) in P3 by lia. destruct P3 as [P3|[]]. exists "leg"%string. split; [apply robot_bring; symmetry; exact P3|symmetry; exact P3].
        + rewrite ScriptProofs.item_first in P3 by lia. destruct P3 as [P3|[]]. exists (nth pos ScriptModel.tools ""%string). split; [apply robot_bring; symmetry; exact P3|]. rewrite <- P3. destruct pos as [|[|[|]]]; [reflexivity..|lia].
      - intros ->. change 4 with (2 * 0 + 4) in P3. rewrite ScriptProofs.item_hold in P3 by lia. destruct P3 as [P3|[]]. apply robot_name_inj. symmetry. exact P3. }
    destruct En as [EB EH].
    assert (X : ob = (if pos <? 4 then ob else "fail"%string) /\ (pos < 4 -> ob <> "fail"%string) /\ (r == (if pos <? 4 then - cost_intrinsic cf else - cost_hold cf))%Q /\ wants_hold w' = false /\ w_stage w' = Doing i /\ robot_name act = nth pos first_names "hold H"%string).
    { destruct (Nat.ltb_spec pos 4) as [L|L].
      - destruct (EB L) as (o' & -> & En). split; [reflexivity|]. rewrite En. inversion Q7; subst; try discriminate; try (match goal with H : is_hold _ |- _ => destruct H; discriminate | H : helps _ _ _ _ |- _ => exfalso; destruct H as (_ & ? & _ & [(_ & K')|(_ & K')]); discriminate end); repeat split; auto; discriminate.
      - rewrite (EH ltac:(lia)) in *. assert (pos = 4) as -> by lia. inversion Q7; subst; try congruence; try (exfalso; match goal with H : helps _ _ _ _ |- _ => destruct H as (K' & _); congruence end); repeat split; auto; intros; lia. }
    destruct X as (X1 & X2 & X3 & X4 & X5 & X6).
    destruct (expected cf m Hc succs ps (Z.of_nat n) ["hold H"%string] Hh _ _ _ _ _ _ _ Q7 P3) as (Y1 & _ & Y3). destruct (P5 ob Y1 Y3) as (p2 & Y4 & Y5).
    exists nm, p1, a, s', o, r, ob, p2. subst nm. refine (conj P1 (conj P4 (conj Q1 (conj Q3 (conj Y4 (conj X6 (conj X3 (conj _ (conj _ _))))))))).
    - destruct (model_is_final cf m s') eqn:Ff; [|reflexivity]. apply (final_iff cf m _ _ Q2) in Ff. congruence.
    - destruct (Nat.ltb_spec pos 4) as [L|L]; [rewrite (proj2 (String.eqb_neq ob "fail") (X2 L)) in Y5; exact Y5|]. rewrite X1 in Y5. exact Y5.
    - exists w', i. auto.
  Qed.
  Lemma trace_refused k p s l q : trace sm pol k p s l q -> forall pos, pos <= 4 -> J m (Z.of_nat n) ["hold H"%string] p pos -> U s ->
    map t_name (turns_from (actions m) observations s l) = firstn (length l) (skipn pos first_names ++ repeat "hold H"%string (length l)) /\
    Forall2 Qeq (map s_reward l) (firstn (length l) (repeat (- cost_intrinsic cf)%Q (4 - pos) ++ repeat (- cost_hold cf)%Q (length l))) /\
    Forall (fun x => model_is_final cf m (s_state x) = false) l.
  Proof.
    induction 1 as [|k p s nm p1 a s' o r ob p2 l q H1 H2 H3 H4 H5 H6 H7 IH]; intros pos Hp Hj Hu.
    - cbn. repeat split; constructor.
    - destruct (refused_turn k p s pos Hp Hj Hu) as (nm' & p1' & a' & s2 & o' & r' & ob' & p2' & G1 & G2 & G3 & G4 & G5 & G6 & G7 & G8 & G9 & G10).
      rewrite H1 in G1. injection G1 as <- <-. apply index_of_str in G2. destruct G2 as [G2 _].
      assert (a' = a) as ->.
      { destruct (Props_Supp.C32_names ordn t m Ho E) as (_ & HN & _). change (em_actions sm) with (actions m) in G2, H2. rewrite NoDup_nth_error in HN. apply HN; [apply nth_error_Some; rewrite G2; discriminate|]. rewrite G2, H2. reflexivity. }
      rewrite H4 in G3. injection G3 as <- <- <-. rewrite H5 in G4. injection G4 as <-. rewrite H6 in G5. injection G5 as <-.
      cbn [turns_from map s_action s_state s_observation s_reward fst snd length t_name].
      assert (En : nth a (actions m) ""%string = nm) by (apply nth_error_nth; exact H2). rewrite En.
      destruct (Nat.ltb_spec pos 4) as [L|L].
      + destruct (IH (S pos) ltac:(lia) G9 G10) as (I1 & I2 & I3). split; [|split; [|constructor; auto]].
        * replace (skipn pos first_names) with (nth pos first_names ""%string :: skipn (S pos) first_names) by (destruct pos as [|[|[|[|]]]]; [reflexivity..|lia]).
          cbn [app firstn]. f_equal; [rewrite G6; apply nth_indep; cbn; lia|]. rewrite I1. symmetry. apply firstn_more.
        * replace (4 - pos) with (S (4 - S pos)) by lia. cbn [repeat app firstn]. constructor; [exact G7|].
          change (- cost_hold cf :: repeat (- cost_hold cf)%Q (length l)) with (repeat (- cost_hold cf)%Q (S (length l))). rewrite firstn_more. exact I2.
      + assert (pos = 4) as -> by lia. destruct (IH 4 ltac:(lia) G9 G10) as (I1 & I2 & I3). cbn [skipn first_names Nat.sub repeat app firstn] in *. split; [f_equal; [exact G6|exact I1]|]. split; [constructor; [exact G7|exact I2]|constructor; auto].
  Qed.
End Refused.
