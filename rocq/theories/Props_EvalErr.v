(** C70: when an evaluation raises. *)
From Verif Require Import QBase PyBase PyBaseFacts CodecModel SuppModel SuppProofs EvalModel EvalSpec EvalProofs EvalErrSpec.
From Coq Require Import Lia.
Local Open Scope list_scope.
Local Open Scope nat_scope.

Lemma last_cons {A} (x : A) l d : last (x :: l) d = last l x.
Proof. revert x d. induction l as [|y l IH]; intros x d; [reflexivity|]. change (last (y :: l) d = last (y :: l) x). rewrite !IH. reflexivity. Qed.

Section Loop.
  Variables (St P : Type) (final : St -> bool) (m : emodel St) (pol : epolicy P) (gamma : Q).
  Lemma loop_raises fuel : forall k h p s hs ha ho hr ret e, fo_final h = false -> Z.to_nat (fo_n h) = fuel ->
    eval_loop final m pol gamma fuel k h p s hs ha ho hr ret = Err e ->
    exists l q, trace m pol k p s l q /\ length l < fuel /\ (forall x, In x l -> final (s_state x) = false) /\ breaks m pol (k + length l) q (last (map s_state l) s) e.
  Proof.
    induction fuel as [|fuel IH]; intros k h p s hs ha ho hr ret e Hf Hn E; cbn [eval_loop] in E; unfold fo_reached in E; rewrite Hf, orb_false_r in E.
    - destruct (Z.leb_spec (fo_n h) 0); [discriminate|lia].
    - destruct (Z.leb_spec (fo_n h) 0); [lia|].
      assert (Stop : breaks m pol k p s e -> exists l q, trace m pol k p s l q /\ length l < S fuel /\ (forall x, In x l -> final (s_state x) = false) /\ breaks m pol (k + length l) q (last (map s_state l) s) e).
      { intros Hb. exists [], p. split; [constructor|]. split; [cbn; lia|]. split; [intros x []|]. cbn. rewrite Nat.add_0_r. exact Hb. }
      destruct (ep_action pol p) as [[nm p1]|e1] eqn:Ea; cbn [bind] in E; [|apply Stop, breaks_action; congruence].
      destruct (index_of String.eqb nm (em_actions m)) as [a|] eqn:Ei; cbn [bind] in E.
      2:{ apply Stop. apply (breaks_unknown _ _ _ _ _ _ nm p1); [auto| |congruence]. intros I. apply index_of_In in I as [a Ia]. congruence. }
      apply index_of_str in Ei. destruct Ei as [Ei1 Ei2].
      destruct (em_transition m k a s) as [[[s' o] r]|e1] eqn:Et; cbn [bind] in E; [|apply Stop; eapply breaks_transition; eauto; congruence].
      destruct (nth_error (em_observations m) o) as [ob|] eqn:Eo; cbn [bind] in E.
      2:{ apply Stop. eapply breaks_observation; eauto; [apply nth_error_None; auto|congruence]. }
      destruct (ep_step pol p1 ob) as [p2|e1] eqn:Ep; cbn [bind] in E; [|apply Stop; eapply breaks_step; eauto; congruence].
      destruct (final s') eqn:Ef.
      { exfalso. destruct fuel; cbn [eval_loop] in E; unfold fo_reached, fo_decrement in E; cbn [fo_final] in E; rewrite Ef, orb_true_r in E; discriminate. }
      apply IH in E; [|exact Ef|cbn; lia]. destruct E as (l & q & T & Hl & F & Hb). exists ((a, s', o, r) :: l), q.
      split; [econstructor; eauto|]. split; [cbn; lia|]. split; [intros x [<-|I]; auto|].
      assert (EL : last (map s_state ((a, s', o, r) :: l)) s = last (map s_state l) s').
      { cbn [map]. rewrite last_cons. reflexivity. }
      rewrite EL. cbn [List.length]. rewrite Nat.add_succ_r. exact Hb.
  Qed.
  Lemma loop_breaks : forall l fuel k h p s hs ha ho hr ret e q, fo_final h = false -> Z.to_nat (fo_n h) = fuel ->
    trace m pol k p s l q -> length l < fuel -> (forall x, In x l -> final (s_state x) = false) -> breaks m pol (k + length l) q (last (map s_state l) s) e ->
    eval_loop final m pol gamma fuel k h p s hs ha ho hr ret = Err e.
  Proof.
    induction l as [|x l IH]; intros fuel k h p s hs ha ho hr ret e q Hf Hn T Hl F Hb; (destruct fuel as [|fuel]; [cbn in Hl; lia|]); cbn [eval_loop]; unfold fo_reached; rewrite Hf, orb_false_r;
      (destruct (Z.leb_spec (fo_n h) 0); [lia|]).
    - inversion T; subst. cbn in Hb. rewrite Nat.add_0_r in Hb.
      destruct Hb as [Ea|nm p1 Ea Ni ->|nm p1 a Ea E1 E2 Et|nm p1 a s' o r Ea E1 E2 Et Ho ->|nm p1 a s' o r ob Ea E1 E2 Et Eo Ep]; rewrite Ea; cbn [bind]; [reflexivity| | | |].
      + destruct (index_of String.eqb nm (em_actions m)) as [a|] eqn:Ei; [|reflexivity]. exfalso. apply index_of_str in Ei. apply Ni. eapply nth_error_In, Ei.
      + rewrite (proj2 (index_of_str nm (em_actions m) a)) by auto. cbn [bind]. rewrite Et. reflexivity.
      + rewrite (proj2 (index_of_str nm (em_actions m) a)) by auto. cbn [bind]. rewrite Et. cbn [bind]. rewrite (proj2 (nth_error_None _ _) Ho). reflexivity.
      + rewrite (proj2 (index_of_str nm (em_actions m) a)) by auto. cbn [bind]. rewrite Et. cbn [bind]. rewrite Eo. cbn [bind]. rewrite Ep. reflexivity.
    - inversion T as [|k0 p0 s0 nm p1 a s' o r ob p2 l0 q0 Ea E1 E2 Et Eo Ep T']; subst. rewrite Ea. cbn [bind]. rewrite (proj2 (index_of_str nm (em_actions m) a)) by auto. cbn [bind].
      rewrite Et. cbn [bind]. rewrite Eo. cbn [bind]. rewrite Ep. cbn [bind]. eapply (IH fuel); [|cbn; lia|exact T'|cbn in Hl; lia|intros x I; apply F; right; exact I|].
      + apply (F (a, s', o, r)). left. reflexivity.
      + assert (EL : last (map s_state ((a, s', o, r) :: l)) s = last (map s_state l) s').
        { cbn [map]. rewrite last_cons. reflexivity. }
        cbn [map] in Hb, EL. rewrite EL in Hb. cbn [List.length] in Hb. rewrite Nat.add_succ_r in Hb. exact Hb.
  Qed.
End Loop.

(** An evaluation raises exactly when the policy does at its reset, the model does for the start, or some step raises
    before max_horizon transitions are made and before a final state is reached, and the exception is that one. *)
Theorem C70_raises : forall (St P : Type) (final : St -> bool) (m : emodel St) (pol : epolicy P) p max_horizon discount e,
  simulate_one_evaluation final m pol p max_horizon discount = Err e <->
  (ep_reset pol p = Err e \/ (exists p0, ep_reset pol p = Ok p0 /\ em_start m = Err e) \/
   exists p0 s0 l q, ep_reset pol p = Ok p0 /\ em_start m = Ok s0 /\ trace m pol 0 p0 s0 l q /\ length l < Z.to_nat max_horizon /\
     (forall x, In x l -> final (s_state x) = false) /\ breaks m pol (length l) q (last (map s_state l) s0) e).
Proof.
  intros St P final m pol p max_horizon discount e. unfold simulate_one_evaluation. split.
  - destruct (ep_reset pol p) as [p0|e1] eqn:Er; cbn [bind]; [|intros E; left; congruence]. destruct (em_start m) as [s0|e1] eqn:Es; cbn [bind]; [|intros E; right; left; exists p0; split; congruence].
    intros E. right. right. apply loop_raises in E; [|reflexivity|reflexivity]. destruct E as (l & q & T & Hl & F & Hb). exists p0, s0, l, q. auto 8.
  - intros [Er|[(p0 & Er & Es)|(p0 & s0 & l & q & Er & Es & T & Hl & F & Hb)]]; rewrite Er; cbn [bind]; [reflexivity|rewrite Es; reflexivity|]. rewrite Es. cbn [bind].
    eapply (loop_breaks St P final m pol _ l); eauto.
Qed.
Print Assumptions C70_raises.

(** A model whose second transition raises KeyError, and a policy that names an unknown action the third time. *)
Definition err_model : emodel nat := {| em_actions := ["go"%string]; em_observations := ["none"%string]; em_discount := 1; em_start := Ok 0; em_transition := fun k _ s => if Nat.eqb k 1 then Err EKey else Ok (S s, 0, 0%Q) |}.
Definition fine_model : emodel nat := {| em_actions := ["go"%string]; em_observations := ["none"%string]; em_discount := 1; em_start := Ok 0; em_transition := fun _ _ s => Ok (S s, 0, 0%Q) |}.
Definition err_policy : epolicy nat := {| ep_reset := fun _ => Ok 0; ep_action := fun p => Ok (if Nat.leb 2 p then "stop"%string else "go"%string, S p); ep_step := fun p _ => Ok p |}.
Example C70_ex_raises :
  simulate_one_evaluation (fun _ => false) err_model err_policy 0 5 true = Err EKey /\ simulate_one_evaluation (fun _ => false) fine_model err_policy 0 5 true = Err EValue /\
  trace fine_model err_policy 0 0 0 [(0, 1, 0, 0%Q); (0, 2, 0, 0%Q)] 2 /\ breaks fine_model err_policy 2 2 2 EValue.
Proof.
  split; [reflexivity|]. split; [reflexivity|]. split.
  - apply (trace_cons _ _ 0 0 0 "go"%string 1 0 1 0 0 "none"%string 1); try reflexivity; [intros j Hj; lia|]. apply (trace_cons _ _ 1 1 1 "go"%string 2 0 2 0 0 "none"%string 2); try reflexivity; [intros j Hj; lia|]. constructor.
  - apply (breaks_unknown _ _ _ _ _ _ "stop"%string 3); try reflexivity. intros [I|[]]. discriminate I.
Qed.
