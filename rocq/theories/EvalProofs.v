(** Proofs about evaluation. *)
From Verif Require Import QBase PyBase PyBaseFacts SuppModel SuppProofs EvalModel EvalSpec.
From Coq Require Import Lia Lqa Qpower.
Local Open Scope nat_scope.

Lemma index_of_str nm l a : index_of String.eqb nm l = Some a <-> nth_error l a = Some nm /\ forall j, j < a -> nth_error l j <> Some nm.
Proof.
  revert a. induction l as [|x l IH]; intros a; cbn [index_of].
  - split; [discriminate|]. intros [H _]. destruct a; discriminate.
  - destruct (String.eqb_spec nm x) as [->|Hne].
    + split.
      * intros E. inversion E; subst. split; [reflexivity|]. intros j Hj; lia.
      * intros [H1 H2]. destruct a; [reflexivity|]. exfalso. apply (H2 0); [lia|reflexivity].
    + destruct (index_of String.eqb nm l) as [i|] eqn:E; cbn [option_map].
      * destruct (proj1 (IH i) eq_refl) as [I1 I2]. split.
        -- intros E'. inversion E'; subst. split; [exact I1|]. intros [|j] Hj; [cbn; congruence|]. cbn. apply I2. lia.
        -- intros [H1 H2]. destruct a; [cbn in H1; congruence|]. cbn in H1. f_equal. f_equal.
           destruct (Nat.lt_trichotomy i a) as [Hl|[He|Hl]]; [|auto|].
           ++ exfalso. apply (H2 (S i)); [lia|exact I1].
           ++ exfalso. apply (I2 a); auto.
      * split; [discriminate|]. intros [H1 H2]. destruct a; [cbn in H1; congruence|]. exfalso.
        assert (None = Some a); [|discriminate]. apply IH. split; [exact H1|]. intros j Hj. apply (H2 (S j)). lia.
Qed.
Lemma index_of_In nm l : In nm l -> exists a, index_of String.eqb nm l = Some a.
Proof.
  induction l as [|x l IH]; intros H; [destruct H|]. cbn. destruct (String.eqb_spec nm x); [eauto|].
  destruct H as [->|H]; [congruence|]. destruct (IH H) as [a ->]. cbn. eauto.
Qed.

Section Loop.
  Variables (St P : Type) (final : St -> bool) (m : emodel St) (pol : epolicy P) (gamma : Q).
  Definition stops_at (n : Z) (l : list (step St)) : Prop :=
    (Z.of_nat (length l) <= Z.max 0 n)%Z /\
    (forall l1 x l2, l = l1 ++ x :: l2 -> l2 <> [] -> final (s_state x) = false) /\
    (length l = Z.to_nat n \/ exists l1 x, l = l1 ++ [x] /\ final (s_state x) = true).

  Lemma loop_spec fuel : forall k h p s hs ha ho hr ret rec q, fo_final h = false ->
    eval_loop final m pol gamma fuel k h p s hs ha ho hr ret = Ok (rec, q) ->
    exists l, trace m pol k p s l q /\
      r_states rec = rev hs ++ s :: map s_state l /\ r_actions rec = rev ha ++ map s_action l /\
      r_observations rec = rev ho ++ map s_observation l /\ r_rewards rec = rev hr ++ map s_reward l /\
      r_return rec = fold_left (fun acc r => r + gamma * acc)%Q (map s_reward l) ret /\ stops_at (fo_n h) l.
  Proof.
    induction fuel as [|fuel IH]; intros k h p s hs ha ho hr ret rec q Hf E; cbn [eval_loop] in E.
    - unfold fo_reached in E. destruct ((fo_n h <=? 0)%Z) eqn:En; rewrite Hf in E; cbn in E; [|discriminate].
      apply Z.leb_le in En. inversion E; subst. exists []. cbn. rewrite !app_nil_r.
      repeat (split; [solve [constructor|reflexivity]|]). split; [cbn; lia|]. split; [intros [|] ? ? ?; discriminate|left; cbn; lia].
    - unfold fo_reached in E. rewrite Hf, orb_false_r in E. destruct ((fo_n h <=? 0)%Z) eqn:En.
      { apply Z.leb_le in En. inversion E; subst. exists []. cbn. rewrite !app_nil_r.
        repeat (split; [solve [constructor|reflexivity]|]). split; [cbn; lia|]. split; [intros [|] ? ? ?; discriminate|left; cbn; lia]. }
      apply Z.leb_gt in En.
      destruct (ep_action pol p) as [[nm p1]|] eqn:Ea; [|discriminate]. cbn [bind] in E.
      destruct (index_of String.eqb nm (em_actions m)) as [a|] eqn:Ei; [|discriminate]. cbn [bind] in E.
      destruct (em_transition m k a s) as [[[s' o] r]|] eqn:Et; [|discriminate]. cbn [bind] in E.
      destruct (nth_error (em_observations m) o) as [ob|] eqn:Eo; [|discriminate]. cbn [bind] in E.
      destruct (ep_step pol p1 ob) as [p2|] eqn:Ep; [|discriminate]. cbn [bind] in E.
      apply index_of_str in Ei. destruct Ei as [Ei1 Ei2].
      destruct (final s') eqn:Ef.
      + (* the next test stops *)
        assert (E' : (rec, q) = ({| r_return := (r + gamma * ret)%Q; r_states := rev (s' :: s :: hs); r_actions := rev (a :: ha);
                        r_observations := rev (o :: ho); r_rewards := rev (r :: hr) |}, p2)).
        { destruct fuel; cbn [eval_loop] in E; unfold fo_reached, fo_decrement in E; cbn [fo_final] in E; rewrite Ef, orb_true_r in E; congruence. }
        inversion E'; subst. exists [(a, s', o, r)]. cbn. rewrite <- app_assoc.
        split; [econstructor; eauto; constructor|]. repeat (split; [reflexivity|]).
        split; [cbn; lia|]. split.
        * intros [|y l1] x l2 El Hne; cbn in El; injection El; intros El2 El3; [exfalso; apply Hne; auto|destruct l1; discriminate].
        * right. exists [], (a, s', o, r). auto.
      + destruct (IH (S k) (fo_decrement final h s s') p2 s' (s :: hs) (a :: ha) (o :: ho) (r :: hr) _ rec q ltac:(cbn; auto) E) as
          [l (T & H1 & H2 & H3 & H4 & H5 & H6 & H7 & H8)].
        exists ((a, s', o, r) :: l). cbn. cbn in H1, H2, H3, H4. rewrite <- app_assoc in H1, H2, H3, H4.
        split; [econstructor; eauto|]. repeat (split; [assumption|]). cbn [fo_decrement fo_n] in *.
        split; [cbn; lia|]. split.
        * intros [|y l1] x l2 El Hne; cbn in El; inversion El; subst; [auto|]. eapply H7; eauto.
        * destruct H8 as [H8|[l1 [x [El Hx]]]]; [left; cbn; lia|]. right. exists ((a, s', o, r) :: l1), x. subst l. auto.
  Qed.

  (** The loop ends when nothing raises. *)
  Variable Inv : P -> Prop.
  Variable Good : St -> Prop.
  Hypothesis act_ok : forall p, Inv p -> exists nm p1, ep_action pol p = Ok (nm, p1) /\ In nm (em_actions m) /\
    forall ob, In ob (em_observations m) -> exists p2, ep_step pol p1 ob = Ok p2 /\ Inv p2.
  Hypothesis tr_ok : forall k a s, Good s -> a < length (em_actions m) ->
    exists s' o r, em_transition m k a s = Ok (s', o, r) /\ o < length (em_observations m) /\ Good s'.
  Lemma loop_total fuel : forall k h p s hs ha ho hr ret, Inv p -> Good s -> Z.to_nat (fo_n h) <= fuel ->
    exists rec q, eval_loop final m pol gamma fuel k h p s hs ha ho hr ret = Ok (rec, q).
  Proof.
    induction fuel as [|fuel IH]; intros k h p s hs ha ho hr ret Hp Hs Hn; cbn [eval_loop].
    - assert (fo_reached h = true) as -> by (unfold fo_reached; replace (fo_n h <=? 0)%Z with true by (symmetry; apply Z.leb_le; lia); reflexivity).
      eauto.
    - destruct (fo_reached h) eqn:Er; [eauto|].
      assert (0 < fo_n h)%Z by (unfold fo_reached in Er; apply orb_false_iff in Er; destruct Er as [Er _]; apply Z.leb_gt in Er; auto).
      destruct (act_ok p Hp) as [nm [p1 (-> & Hin & Hst)]]. cbn [bind].
      destruct (index_of_In _ _ Hin) as [a Ei]. rewrite Ei. cbn [bind]. apply index_of_str in Ei. destruct Ei as [Ei _].
      destruct (tr_ok k a s Hs ltac:(apply nth_error_Some; congruence)) as [s' [o [r (-> & Ho & Hs')]]]. cbn [bind].
      destruct (nth_error (em_observations m) o) as [ob|] eqn:Eo; [|apply nth_error_None in Eo; lia]. cbn [bind].
      destruct (Hst ob (nth_error_In _ _ Eo)) as [p2 [-> Hp2]]. cbn [bind]. apply IH; auto. cbn. lia.
  Qed.
End Loop.

Lemma Qpow_S (g : Q) n : (g ^ Z.of_nat (S n) == g * g ^ Z.of_nat n)%Q.
Proof. rewrite Nat2Z.inj_succ. unfold Z.succ. rewrite Qpower_plus' by lia. change (g ^ 1)%Q with g. ring. Qed.
Lemma discounted_app gamma l x : (discounted gamma (l ++ [x]) == discounted gamma l + gamma ^ (Z.of_nat (length l)) * x)%Q.
Proof. induction l as [|y l IHl]; cbn [app discounted length]; [cbn; ring|]. rewrite IHl, Qpow_S. ring. Qed.
Lemma fold_return gamma rs : forall acc, (fold_left (fun a r => r + gamma * a) rs acc == discounted gamma (rev rs) + gamma ^ (Z.of_nat (length rs)) * acc)%Q.
Proof.
  induction rs as [|r rs IH]; intros acc; cbn [fold_left rev length]; [cbn; ring|].
  rewrite IH, discounted_app, rev_length, Qpow_S. ring.
Qed.
