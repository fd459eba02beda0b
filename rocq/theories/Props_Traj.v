(** C107, C108: trajectories told in a log, and the names of states. *)
From Coq Require Import Ascii String Qabs Lia Lqa ZArith.
From Verif Require Import PyBase QBase CodecModel CodecSpec CodecProofs Props_Codec HtmModel DagModel SuppModel SuppSpec SuppProofs SuppProofs2 SuppProofs3 SuppProofs4 Props_Supp EvalModel EvalSpec EvalProofs Props_Eval TrajModel TrajSpec TrajProofs.
Local Open Scope list_scope.
Local Open Scope nat_scope.

(** *** C108 *)
(** Each tuple of features has one name, at the place of its number, that shows them all; there are no other names, and no two are equal. *)
Theorem C108_names : forall cf m,
  let n := (n_htm_states m * 2 ^ Z.of_nat (length (objects m) + 1 + cf_preferences cf))%Z in
  Z.of_nat (length (state_names cf m)) = n /\ NoDup (state_names cf m) /\
  forall f, features_of (n_htm_states m) (cf_preferences cf) 1 (length (objects m)) f ->
    exists t, nth_error (state_names cf m) (Z.to_nat (encode f)) = Some t /\ names n f t.
Proof.
  intros cf m n. assert (Pn : (0 <= n)%Z) by (pose proof (n_htm_nonneg m); pose proof (Z.pow_nonneg 2 (Z.of_nat (length (objects m) + 1 + cf_preferences cf))); unfold n; nia).
  assert (En : n_states (int_to_state cf m 0) = n) by apply mk_n_states.
  assert (L : length (state_names cf m) = Z.to_nat n) by (unfold state_names; rewrite map_length, seq_length, En; reflexivity).
  assert (G : forall f, features_of (n_htm_states m) (cf_preferences cf) 1 (length (objects m)) f ->
    nth_error (state_names cf m) (Z.to_nat (encode f)) = Some (state_text (int_to_state cf m (encode f))) /\ names n f (state_text (int_to_state cf m (encode f)))).
  { intros f Hf. pose proof (encode_range _ _ _ _ _ Hf) as R. fold n in R. split; [|apply names_text; auto].
    unfold state_names. rewrite nth_error_map, (nth_error_nth' _ 0) by (rewrite seq_length, En; lia). rewrite seq_nth by (rewrite En; lia). cbn [option_map Nat.add]. rewrite Z2Nat.id by lia. reflexivity. }
  split; [lia|]. split; [|intros f Hf; eexists; apply G; auto].
  apply NoDup_nth_error. intros i j Hi E.
  assert (Hj : j < length (state_names cf m)) by (apply nth_error_Some; rewrite <- E; apply nth_error_Some; auto).
  destruct (encode_exists (n_htm_states m) (cf_preferences cf) 1 (length (objects m)) (Z.of_nat i)) as (f & Hf & Ef); [fold n; lia|].
  destruct (encode_exists (n_htm_states m) (cf_preferences cf) 1 (length (objects m)) (Z.of_nat j)) as (g & Hg & Eg); [fold n; lia|].
  destruct (G f Hf) as [F1 F2]. destruct (G g Hg) as [G1 G2]. rewrite <- Ef, Nat2Z.id in F1. rewrite <- Eg, Nat2Z.id in G1. rewrite E, G1 in F1. assert (F3 : state_text (int_to_state cf m (encode g)) = state_text (int_to_state cf m (encode f))) by congruence.
  assert (encode f = encode g); [|lia]. eapply (names_number n f g); [lia|lia|exact F2|]. rewrite <- F3. exact G2.
Qed.
Print Assumptions C108_names.
Example C108_ex : length (state_names default_config ex_model) = 160 /\
  nth_error (state_names default_config ex_model) 45 = Some "< 45: 1 0 1 101>"%string /\ nth_error (state_names default_config ex_model) 159 = Some "<159: 4 1 1 111>"%string.
Proof. vm_compute. auto. Qed.

(** *** C107: the display of probabilities *)
(** The text is determined by the number. *)
Theorem C107_shown : (forall x, exists t, shown x t) /\ (forall x y t u, (x == y)%Q -> shown x t -> shown y u -> t = u).
Proof. split; [intros x; exists (format_p x); apply format_p_shown|exact shown_unique]. Qed.
Print Assumptions C107_shown.

(** Probabilities are shown in order, in two characters each: a tenth that is closest. *)
Theorem C107_display : forall b, (forall x, In x b -> (0 <= x <= 1)%Q) ->
  exists ds, Forall2 (fun x d => (0 <= d <= 10)%Z /\ closest (10 * x) d) b ds /\ spaced (map tenth_text ds) (format_belief_array b).
Proof.
  intros b H. destruct (format_belief_shown b) as (ts & F & S). revert S. generalize (format_belief_array b). induction F as [|x t b ts Hx F IH]; intros s S.
  - exists []. split; [constructor|exact S].
  - assert (G : exists ds, Forall2 (fun x d => (0 <= d <= 10)%Z /\ closest (10 * x) d) b ds /\ ts = map tenth_text ds).
    { clear - H F. assert (K : forall x, In x b -> (0 <= x <= 1)%Q) by (intros; apply H; right; auto). clear H. induction F as [|y u b ts Hy F IH]; [exists []; auto|]. destruct (IH ltac:(intros; apply K; right; auto)) as (ds & D1 & ->). destruct (shown_probability y u (K y (or_introl eq_refl)) Hy) as (d & R & C & ->). exists (d :: ds). auto. }
    destruct G as (ds & D1 & ->). destruct (shown_probability x t (H x (or_introl eq_refl)) Hx) as (d & R & C & ->). exists (d :: ds). auto.
Qed.
Print Assumptions C107_display.
Theorem C107_two_characters : forall d, (0 <= d <= 10)%Z -> String.length (tenth_text d) = 2.
Proof. intros d H. assert (K : In d [0; 1; 2; 3; 4; 5; 6; 7; 8; 9; 10]%Z) by (cbn; lia). cbn in K. repeat (destruct K as [<-|K]; [reflexivity|]). destruct K. Qed.
Print Assumptions C107_two_characters.
Example C107_ex_display : format_belief_array [0; 1 # 20; 3 # 20; 1 # 3; 19 # 20; 1]%Q = ".0 .0 .2 .3 1. 1."%string /\ format_belief_array [949 # 1000]%Q = ".9"%string.
Proof. vm_compute. auto. Qed.

(** *** C107: the log of a trajectory *)
(** A trajectory that ends is told from the start state to the first final state, turn after turn, with the belief after each; then comes the sum of the rewards. *)
Theorem C107_told : forall (P : Type) cf m em (pol : epolicy P) belief fuel p log q,
  run_trajectory cf m em pol belief fuel p = (log, q, Ok tt) ->
  exists p0 s0 l es z R, ep_reset pol p = Ok p0 /\ em_start em = Ok s0 /\
    written cf m em pol belief 0 p0 s0 l es q z /\ htm (mk_sstate (n_htm_states m) (cf_preferences cf) 1 (length (objects m)) z) = (n_htm_states m - 1)%Z /\
    length l <= fuel /\ log = New :: es ++ [Total R] /\ (R == sumQ (rewards es))%Q.
Proof.
  intros P cf m em pol belief fuel p log q E. unfold run_trajectory in E.
  destruct (ep_reset pol p) as [p0|] eqn:Ep; [|discriminate]. destruct (em_start em) as [s0|] eqn:Es; [|discriminate].
  destruct (traj_loop cf m em pol belief fuel 0 p0 s0 0 [New]) as [[log1 q1] [T|e]] eqn:El; [|discriminate]. injection E as <- <-.
  apply traj_ok in El. destruct El as (l & es & z & W & Z1 & L & -> & ->). exists p0, s0, l, es, z. eexists. split; [auto|]. split; [auto|]. split; [exact W|]. split; [exact Z1|]. split; [auto|]. split; [reflexivity|].
  destruct (written_trace _ _ _ _ _ _ _ _ _ _ _ _ W) as (_ & -> & _). clear. generalize (map s_reward l). intros rs.
  assert (G : forall a, (fold_left Qplus rs a == a + sumQ rs)%Q); [|rewrite G; ring].
  induction rs as [|r rs IH]; intros a; cbn [fold_left]; [change (sumQ []) with 0%Q; ring|]. rewrite IH. change (sumQ (r :: rs)) with (r + sumQ rs)%Q. ring.
Qed.
Print Assumptions C107_told.

(** And so does every trajectory that can be told to its end. *)
Theorem C107_ends : forall (P : Type) cf m em (pol : epolicy P) belief fuel p p0 s0 l es q z,
  ep_reset pol p = Ok p0 -> em_start em = Ok s0 -> written cf m em pol belief 0 p0 s0 l es q z ->
  htm (mk_sstate (n_htm_states m) (cf_preferences cf) 1 (length (objects m)) z) = (n_htm_states m - 1)%Z -> length l <= fuel ->
  exists log, run_trajectory cf m em pol belief fuel p = (log, q, Ok tt).
Proof.
  intros P cf m em pol belief fuel p p0 s0 l es q z Ep Es W Z1 L. unfold run_trajectory. rewrite Ep, Es.
  destruct (traj_total cf m em pol belief fuel 0 p0 s0 l es q z 0%Q [New] W Z1 L) as (log' & T & ->). eauto.
Qed.
Print Assumptions C107_ends.

(** Otherwise the log has what was done before, and no total. *)
Theorem C107_stopped : forall (P : Type) cf m em (pol : epolicy P) belief fuel p log q e,
  run_trajectory cf m em pol belief fuel p = (log, q, Err e) ->
  (ep_reset pol p = Err e /\ log = [New] /\ q = p) \/
  (ep_reset pol p = Ok q /\ em_start em = Err e /\ log = [New]) \/
  exists p0 s0 l es p1 z extra, ep_reset pol p = Ok p0 /\ em_start em = Ok s0 /\
    written cf m em pol belief 0 p0 s0 l es p1 z /\ htm (mk_sstate (n_htm_states m) (cf_preferences cf) 1 (length (objects m)) z) <> (n_htm_states m - 1)%Z /\
    log = New :: es ++ extra /\
    (length l = fuel /\ q = p1 /\ extra = [] /\ e = EFuel \/ length l < fuel /\ stuck cf m em pol belief (length l) p1 z extra q e).
Proof.
  intros P cf m em pol belief fuel p log q e E. unfold run_trajectory in E.
  destruct (ep_reset pol p) as [p0|] eqn:Ep; [|injection E as <- <- <-; auto]. destruct (em_start em) as [s0|] eqn:Es; [|injection E as <- <- <-; auto].
  destruct (traj_loop cf m em pol belief fuel 0 p0 s0 0 [New]) as [[log1 q1] [T|e1]] eqn:El; [discriminate|]. injection E as <- <- <-.
  apply traj_err in El. destruct El as (l & es & p1 & z & extra & W & Z1 & -> & C). right. right. exists p0, s0, l, es, p1, z, extra. auto 10.
Qed.
Print Assumptions C107_stopped.

(** Without preferences no turn is told to its end. *)
Theorem C107_no_preference : forall (P : Type) cf m em (pol : epolicy P) belief fuel p log q s0,
  cf_preferences cf = 0 -> em_start em = Ok s0 -> htm (mk_sstate (n_htm_states m) 0 1 (length (objects m)) s0) <> (n_htm_states m - 1)%Z ->
  run_trajectory cf m em pol belief fuel p <> (log, q, Ok tt).
Proof.
  intros P cf m em pol belief fuel p log q s0 C Es N E. apply C107_told in E. destruct E as (p0 & s0' & l & es & z & R & _ & Es' & W & F & _). rewrite Es in Es'. injection Es' as <-.
  inversion W; subst.
  - rewrite C in F. contradiction.
  - match goal with H : tells _ _ _ _ |- _ => destruct H as (? & ? & ? & ? & _ & _ & K & _) end. contradiction.
Qed.
Print Assumptions C107_no_preference.

(** The trajectory is what simulate_one_evaluation records, with the same total, when the horizon leaves room for it. *)
Theorem C107_evaluation : forall (P : Type) cf m em (pol : epolicy P) belief fuel p log q s0 max_horizon,
  run_trajectory cf m em pol belief fuel p = (log, q, Ok tt) ->
  em_start em = Ok s0 -> htm (mk_sstate (n_htm_states m) (cf_preferences cf) 1 (length (objects m)) s0) <> (n_htm_states m - 1)%Z ->
  (Z.of_nat (length (rewards log)) <= max_horizon)%Z ->
  exists rec R log0, simulate_one_evaluation (model_is_final cf m) em pol p max_horizon false = Ok (rec, q) /\
    r_rewards rec = rewards log /\ log = log0 ++ [Total R] /\ (r_return rec == R)%Q.
Proof.
  intros P cf m em pol belief fuel p log q s0 max_horizon E Es N H. apply C107_told in E. destruct E as (p0 & s0' & l & es & z & R & Ep & Es' & W & F & L & -> & HR). rewrite Es in Es'. injection Es' as <-.
  destruct (written_trace _ _ _ _ _ _ _ _ _ _ _ _ W) as (_ & Rw & Ez).
  assert (Er : rewards (New :: es ++ [Total R]) = map s_reward l) by (unfold rewards in *; cbn; rewrite flat_map_app; cbn; rewrite app_nil_r; exact Rw). rewrite Er, map_length in H.
  assert (Nl : l <> []) by (intros ->; cbn in Ez; subst z; contradiction).
  destruct (eval_same cf m em pol belief max_horizon 0 p0 s0 l es q z (Z.to_nat max_horizon) [] [] [] [] 0%Q W F H ltac:(lia) Nl) as (rec & Ee & R1 & R2).
  assert (Sim : simulate_one_evaluation (model_is_final cf m) em pol p max_horizon false = Ok (rec, q)) by (unfold simulate_one_evaluation; rewrite Ep; cbn [bind]; rewrite Es; cbn [bind]; exact Ee).
  exists rec, R, (New :: es). split; [exact Sim|]. split; [rewrite Er; exact R1|]. split; [reflexivity|].
  destruct (C71_return_partial _ _ _ _ _ _ _ _ _ _ Sim) as [_ K]. rewrite (K eq_refl), R1, HR, Rw. cbn [rev app]. clear.
  induction (map s_reward l) as [|r rs IH]; [reflexivity|]. cbn [discounted]. rewrite IH. change (sumQ (r :: rs)) with (r + sumQ rs)%Q. ring.
Qed.
Print Assumptions C107_evaluation.

(** On a supportive model with preferences, when the policy never raises, names actions of the model and has a belief over its states,
    a trajectory never fails: it is told to its end, or it goes on. *)
Theorem C107_supportive : forall cf ordn t m disc d0 ds (P : Type) (pol : epolicy P) belief (Inv : P -> Prop) p p0 fuel,
  is_order ordn -> mk_supportive ordn t = Ok m -> 1 <= cf_preferences cf ->
  (forall p, Inv p -> exists nm p1, ep_action pol p = Ok (nm, p1) /\ In nm (actions m) /\
    forall ob, In ob observations -> exists p2 array, ep_step pol p1 ob = Ok p2 /\ Inv p2 /\ belief p2 = Ok array /\ Z.of_nat (length array) = model_n_states cf m) ->
  ep_reset pol p = Ok p0 -> Inv p0 ->
  (exists log q, run_trajectory cf m (supportive_model cf m disc d0 ds) pol belief fuel p = (log, q, Ok tt)) \/
  (exists log q, run_trajectory cf m (supportive_model cf m disc d0 ds) pol belief fuel p = (log, q, Err EFuel) /\ length (rewards log) = fuel).
Proof.
  intros cf ordn t m disc d0 ds P pol belief Inv p p0 fuel Ho E Hc Hpol Ep Ip.
  destruct (mk_facts _ _ _ Ho E) as [nodes [succs [init [ps (Ed & B & D)]]]].
  destruct (C38_start cf ordn t m _ _ _ Ho E Ed) as [HS _]. destruct (HS d0) as [s0 [w0 [i (S1 & S2 & _)]]].
  destruct (C33_total cf ordn t m Ho E Hc) as [HT _]. destruct (C32_names ordn t m Ho E) as (HN & _).
  assert (Hn : n_states (mk_sstate (n_htm_states m) (cf_preferences cf) 1 (length (objects m)) 0) = model_n_states cf m) by (rewrite mk_n_states; unfold model_n_states; do 2 f_equal; lia).
  set (em := supportive_model cf m disc d0 ds) in *.
  assert (HT' : forall k i s nm, (0 <= s < model_n_states cf m)%Z -> nth_error (em_actions em) i = Some nm ->
    exists s' o r ob, em_transition em k i s = Ok (s', o, r) /\ nth_error (em_observations em) o = Some ob /\ In ob observations /\ (0 <= s' < model_n_states cf m)%Z).
  { intros k j s nm Hs Hj. assert (Lj : j < length (actions m)) by (apply nth_error_Some; change (em_actions em) with (actions m) in Hj; congruence).
    destruct (HT (ds k) true (Z.of_nat j) s Hs ltac:(lia)) as [s' [o [r (X1 & X2 & X3)]]]. destruct (nth_error observations o) as [ob|] eqn:Eo; [|apply nth_error_None in Eo; lia].
    exists s', o, r, ob. split; [exact X1|]. split; [exact Eo|]. split; [eapply nth_error_In; eauto|auto]. }
  assert (G : forall k p s l es q z, written cf m em pol belief k p s l es q z -> Inv p -> (0 <= s < model_n_states cf m)%Z -> Inv q /\ (0 <= z < model_n_states cf m)%Z).
  { induction 1 as [|k p' s a j s' o ob r p2 array t1 t2 b l es q z F (p1 & T1 & T2 & T3 & T4 & T5 & T6) N1 N2 B1 B2 W IH]; intros I R; [auto|].
    destruct (Hpol p' I) as (nm & p1' & A1 & A2 & A3). assert (p1' = p1) as -> by congruence.
    destruct (HT' k j s a R T2) as (s1 & o1 & r1 & ob1 & X1 & X2 & X3 & X4). rewrite T4 in X1. injection X1 as <- <- <-.
    assert (ob1 = ob) as -> by congruence. destruct (A3 ob X3) as (p2' & ar & Y1 & Y2 & _). assert (p2' = p2) as -> by congruence. apply IH; auto. }
  destruct (run_trajectory cf m em pol belief fuel p) as [[log q] [[]|e]] eqn:Er; [left; eauto|right].
  apply C107_stopped in Er. destruct Er as [(K & _)|[(_ & K & _)|(p0' & s0' & l & es & p1 & z & extra & K1 & K2 & W & F & -> & C)]]; [congruence|cbn in K; congruence|].
  assert (p0' = p0) as -> by congruence. assert (s0' = s0) as -> by (cbn in K2; congruence). destruct (written_trace _ _ _ _ _ _ _ _ _ _ _ _ W) as (_ & Rw & _). apply G in W; [|auto|apply S2]. destruct W as [Iq Rz].
  exists (New :: es ++ extra), q. destruct C as [(C1 & C2 & -> & ->)|[_ C]].
  { split; [auto|]. unfold rewards in *. cbn. rewrite app_nil_r, Rw, map_length. auto. }
  exfalso. destruct (Hpol p1 Iq) as (nm & p1' & A1 & A2 & A3).
  destruct C as [e A|a q1 A A'|a j q1 e A A' A''|a j q1 s' o r A A' A'' A'''|a j q1 s' o ob r e A A' T' O' P'|a j s' o ob r p2 t1 t2 e (q1 & T1 & T2 & T3 & T4 & T5 & T6) _ _ Cb].
  - congruence.
  - assert (a = nm) as -> by congruence. contradiction.
  - destruct (HT' (length l) j z a Rz A') as (? & ? & ? & ? & X & _). congruence.
  - destruct (HT' (length l) j z a Rz A') as (? & ? & ? & ? & X & X' & _). rewrite A'' in X. injection X as <- <- <-. apply nth_error_None in A'''. congruence.
  - destruct (HT' (length l) j z a Rz A') as (? & ? & ? & ob' & X & X' & X'' & _). rewrite T' in X. injection X as <- <- <-. assert (ob' = ob) as -> by congruence. assert (q1 = p1') as -> by congruence. destruct (A3 ob X'') as (? & ? & Y & _). congruence.
  - destruct (HT' (length l) j z a Rz T2) as (? & ? & ? & ob' & X & X' & X'' & _). rewrite T4 in X. injection X as <- <- <-. assert (ob' = ob) as -> by congruence. assert (q1 = p1') as -> by congruence. destruct (A3 ob X'') as (p2' & ar & Y1 & Y2 & Y3 & Y4). assert (p2' = p2) as -> by congruence.
    destruct Cb as [Cb|(ar' & Cb & [[Cb' _]|(_ & Cb' & _)])]; [congruence| |lia]. assert (ar' = ar) as -> by congruence. rewrite Hn in Cb'. contradiction.
Qed.
Print Assumptions C107_supportive.

(** The policy of Props_Eval, with a belief that hesitates between two states *)
Definition ex_belief (p : list string) : res (list Q) := Ok (map (fun s => if Nat.eqb s 18 then 3 # 4 else if Nat.eqb s 81 then 1 # 4 else 0)%Q (seq 0 160)).
Example C107_ex : exists log q,
  run_trajectory default_config ex_model (supportive_model default_config ex_model (9 # 10) ex_draws (fun _ => ex_draws)) ex_policy ex_belief 5 [] = (log, q, Ok tt) /\
  map (fun e => match e with Turn s a s' o r => Turn s a s' o (Qred r) | Belief t v => Belief t (Qred v) | Total r => Total (Qred r) | e => e end) log =
  [New;
   Turn "< 18: 0 1 0 010>" "hold H" "< 65: 2 0 0 100>" "none" (-22); Belief ".8 .0 .2 .0 .0" 1;
   Turn "< 65: 2 0 0 100>" "wait" "<115: 3 1 0 110>" "none" 10; Belief ".8 .0 .2 .0 .0" 1;
   Turn "<115: 3 1 0 110>" "wait" "<129: 4 0 0 100>" "none" 85; Belief ".8 .0 .2 .0 .0" 1; Total 73]%string%Q.
Proof. eexists; eexists. split; [vm_compute; reflexivity|]. vm_compute. reflexivity. Qed.
(** Two turns are not enough. *)
Example C107_ex_goes_on : exists log q,
  run_trajectory default_config ex_model (supportive_model default_config ex_model (9 # 10) ex_draws (fun _ => ex_draws)) ex_policy ex_belief 2 [] = (log, q, Err EFuel) /\ length log = 5.
Proof. eexists; eexists. split; [vm_compute; reflexivity|]. reflexivity. Qed.
(** A belief over too few states *)
Example C107_ex_stopped : exists log q,
  run_trajectory default_config ex_model (supportive_model default_config ex_model (9 # 10) ex_draws (fun _ => ex_draws)) ex_policy (fun _ => Ok [1%Q]) 5 [] = (log, q, Err EAssert) /\ length log = 2.
Proof. eexists; eexists. split; [vm_compute; reflexivity|]. reflexivity. Qed.
(** No preferences: the first turn is told, not the belief. *)
Definition ex_plain : config := {| r_subtask := 10; r_final := 100; r_preference := 10; reward_independent_preference := false; cost_get := 15; cost_intrinsic := 1; cost_hold := 2; cf_preferences := 0 |}.
Definition ex_bring : epolicy unit := {| ep_reset := fun _ => Ok tt; ep_action := fun _ => Ok ("bring leg"%string, tt); ep_step := fun _ _ => Ok tt |}.
Example C107_ex_no_preference : exists log q s0,
  run_trajectory ex_plain ex_model (supportive_model ex_plain ex_model (9 # 10) ex_draws (fun _ => ex_draws)) ex_bring (fun _ => Ok (repeat 0%Q 80)) 5 tt = (log, q, Err EIndex) /\ length log = 2 /\
  em_start (supportive_model ex_plain ex_model (9 # 10) ex_draws (fun _ => ex_draws)) = Ok s0 /\ htm (mk_sstate (n_htm_states ex_model) 0 1 (length (objects ex_model)) s0) <> (n_htm_states ex_model - 1)%Z.
Proof. eexists; eexists; eexists. split; [vm_compute; reflexivity|]. split; [reflexivity|]. split; [vm_compute; reflexivity|]. vm_compute. discriminate. Qed.
