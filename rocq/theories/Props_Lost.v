(** C52: the runner of a policy when exceptions are caught. *)
From Verif Require Import PyBase PyBaseFacts QBase PomdpModel PomdpSpec PolicyModel PolicySpec PolicyProofs PolicyProofs2 Props_Policy LostModel.
From Coq Require Import Lia.
Local Open Scope list_scope.
Local Open Scope nat_scope.

(** A node of the table, and the node reached when unknown observations are passed over: *)
Inductive wanders (g : graph_policy) : nat -> list name -> nat -> Prop :=
| wa_nil n : wanders g n [] n
| wa_step n o m rest k : entry_at g n o (Some (Z.of_nat m)) -> wanders g m rest k -> wanders g n (o :: rest) k
| wa_unknown n o rest k : ~ In o (g_observations g) -> wanders g n rest k -> wanders g n (o :: rest) k.
(** The observations that have the number of a node. *)
Definition low (g : graph_policy) (o : name) : Prop := exists j, j < length (g_actions g) /\ nth_error (g_observations g) j = Some o.

Lemma next_spec' g n o : shaped g -> NoDup (g_observations g) -> n < length (g_actions g) ->
  (~ In o (g_observations g) /\ runner_step g o (At (Z.of_nat n)) = (At (Z.of_nat n), Err EValue)) \/
  (exists t, entry_at g n o t /\ runner_step g o (At (Z.of_nat n)) = match t with Some z => (At z, Ok tt) | None => (Lost, Err EImpossible) end).
Proof.
  intros Sh ND Hn. destruct (next_spec g n o Sh ND Hn) as [[H1 H2]|(t & H1 & H2)]; cbn [gr_step runner_step] in *; (destruct (gp_next g (Z.of_nat n) o) as [[z|]|e]; [| |]); try discriminate.
  - left. split; [exact H1|]. congruence.
  - right. exists t. split; [exact H1|]. destruct t; congruence.
  - right. exists t. split; [exact H1|]. destruct t; congruence.
  - right. exists t. split; [exact H1|]. destruct t; congruence.
Qed.

(** Whatever the observations, each step from a node ends in one of three ways until an impossible observation: the runner
    is at the node that the table gives for the known observations, unknown ones being refused without effect. *)
Theorem C52_wanders : forall g obs n c es, shaped g -> NoDup (g_observations g) -> closed g -> n < length (g_actions g) ->
  runner_steps g obs (At (Z.of_nat n)) = (c, es) ->
  (exists k, c = At (Z.of_nat k) /\ k < length (g_actions g) /\ wanders g n obs k /\
     (exists a, runner_action g c = Ok a /\ nth_error (g_actions g) k = Some a) /\
     forall i o, nth_error obs i = Some o -> (In o (g_observations g) -> nth_error es i = Some (Ok tt)) /\ (~ In o (g_observations g) -> nth_error es i = Some (Err EValue))) \/
  (exists pre o rest k, obs = pre ++ o :: rest /\ wanders g n pre k /\ entry_at g k o None /\ nth_error es (length pre) = Some (Err EImpossible) /\
     c = fst (runner_steps g rest Lost) /\ skipn (S (length pre)) es = snd (runner_steps g rest Lost)).
Proof.
  intros g obs n c es Sh ND Cl. revert n c es. induction obs as [|o obs IH]; intros n c es Hn E.
  - cbn [runner_steps] in E. assert (c = At (Z.of_nat n)) as -> by congruence. left. exists n. split; [reflexivity|]. split; [exact Hn|]. split; [constructor|]. split; [|intros [|i] ? ?; discriminate].
    exact (action_in_range g n Hn).
  - cbn [runner_steps] in E. destruct (next_spec' g n o Sh ND Hn) as [[H1 H2]|(t & H1 & H2)].
    + rewrite H2 in E. destruct (runner_steps g obs (At (Z.of_nat n))) as [c' es'] eqn:E'. assert (c = c') as -> by congruence. assert (es = Err EValue :: es') as -> by congruence.
      destruct (IH n c' es' Hn E') as [(k & K1 & K2 & K3 & K4 & K5)|(pre & o' & rest & k & K1 & K2 & K3 & K4 & K5)].
      * left. exists k. split; [exact K1|]. split; [exact K2|]. split; [apply wa_unknown; assumption|]. split; [exact K4|]. intros [|i] x Hx; [|exact (K5 i x Hx)]. cbn in Hx. assert (x = o) as -> by congruence. split; [contradiction|reflexivity].
      * right. exists (o :: pre), o', rest, k. subst obs. split; [reflexivity|]. split; [apply wa_unknown; assumption|]. split; [exact K3|]. split; [exact K4|exact K5].
    + rewrite H2 in E. destruct t as [z|].
      * destruct (entry_closed g n o z Cl H1) as (m & -> & Hm). destruct (runner_steps g obs (At (Z.of_nat m))) as [c' es'] eqn:E'. assert (c = c') as -> by congruence. assert (es = Ok tt :: es') as -> by congruence.
        destruct (IH m c' es' Hm E') as [(k & K1 & K2 & K3 & K4 & K5)|(pre & o' & rest & k & K1 & K2 & K3 & K4 & K5)].
        -- left. exists k. split; [exact K1|]. split; [exact K2|]. split; [apply (wa_step g n o m); assumption|]. split; [exact K4|]. intros [|i] x Hx; [|exact (K5 i x Hx)]. cbn in Hx. assert (x = o) as -> by congruence. split; [reflexivity|]. intros I. destruct I. destruct H1 as (j & row & J & _). exact (nth_error_In _ _ J).
        -- right. exists (o :: pre), o', rest, k. subst obs. split; [reflexivity|]. split; [apply (wa_step g n o m); assumption|]. split; [exact K3|]. split; [exact K4|exact K5].
      * right. exists [], o, obs, n. split; [reflexivity|]. split; [constructor|]. split; [exact H1|]. destruct (runner_steps g obs Lost) as [c' es'] eqn:E'. cbn [fst snd]. assert (es = Err EImpossible :: es') as -> by congruence. split; [reflexivity|]. split; [congruence|reflexivity].
Qed.
Print Assumptions C52_wanders.

(** After an impossible observation the runner is lost for good: there is no action any more (TypeError), and no node.  Yet
    the first observation that has the number of a node is accepted in silence; the other known observations are refused
    with an IndexError, and the unknown ones with a ValueError. *)
Lemma stray_steps g row obs : forall c es, runner_steps g obs (Stray row) = (c, es) -> c = Stray row /\
  forall i o, nth_error obs i = Some o -> (In o (g_observations g) -> nth_error es i = Some (Err EIndex)) /\ (~ In o (g_observations g) -> nth_error es i = Some (Err EValue)).
Proof.
  induction obs as [|o obs IH]; intros c es E; cbn [runner_steps] in E.
  - split; [congruence|]. intros [|i] ? ?; discriminate.
  - assert (X : exists e, runner_step g o (Stray row) = (Stray row, Err e) /\ (In o (g_observations g) -> e = EIndex) /\ (~ In o (g_observations g) -> e = EValue)).
    { cbn [runner_step]. destruct (list_index (g_observations g) o) as [j|e] eqn:L; eexists; (split; [reflexivity|]).
      - split; [reflexivity|]. intros N. destruct N. exact (nth_error_In _ _ (list_index_ok _ _ _ L)).
      - destruct (list_index_err _ _ _ L) as [-> N]. split; [contradiction|reflexivity]. }
    destruct X as (e & X1 & X2 & X3). rewrite X1 in E. destruct (runner_steps g obs (Stray row)) as [c' es'] eqn:E'. destruct (IH c' es' eq_refl) as [I1 I2]. assert (es = Err e :: es') as -> by congruence. split; [congruence|].
    intros [|i] x Hx; [|exact (I2 i x Hx)]. cbn in Hx. assert (x = o) as -> by congruence. split; intros K; cbn; [rewrite (X2 K)|rewrite (X3 K)]; reflexivity.
Qed.
Theorem C52_lost_refuted : forall g obs c es, shaped g -> NoDup (g_observations g) -> runner_steps g obs Lost = (c, es) ->
  runner_action g c = Err EType /\ (forall z, c <> At z) /\
  forall pre o rest, obs = pre ++ o :: rest ->
    (low g o -> (forall o', In o' pre -> ~ low g o') -> nth_error es (length pre) = Some (Ok tt)) /\
    (low g o -> (exists o', In o' pre /\ low g o') -> nth_error es (length pre) = Some (Err EIndex)) /\
    (In o (g_observations g) -> ~ low g o -> nth_error es (length pre) = Some (Err EIndex)) /\
    (~ In o (g_observations g) -> nth_error es (length pre) = Some (Err EValue)).
Proof.
  intros g obs c es [Sh _] ND. revert c es. induction obs as [|o obs IH]; intros c es E.
  - cbn [runner_steps] in E. assert (c = Lost) as -> by congruence. split; [reflexivity|]. split; [discriminate|]. intros [|] ? ? ?; discriminate.
  - cbn [runner_steps runner_step] in E. destruct (list_index (g_observations g) o) as [j|e] eqn:L.
    + pose proof (list_index_ok _ _ _ L) as Lj. destruct (nth_error (g_trans g) j) as [row|] eqn:R.
      * assert (LW : low g o). { exists j. split; [|exact Lj]. rewrite <- Sh. apply nth_error_Some. congruence. }
        destruct (runner_steps g obs (Stray row)) as [c' es'] eqn:E'. destruct (stray_steps g row obs c' es' E') as [C S]. assert (c = Stray row) as -> by congruence. assert (es = Ok tt :: es') as -> by congruence.
        split; [reflexivity|]. split; [discriminate|]. intros [|x pre] o' rest Q.
        -- cbn [app] in Q. assert (o' = o) as -> by congruence. cbn [length nth_error]. split; [reflexivity|]. split; [intros _ (? & [] & _)|]. split; [intros _ N; contradiction|]. intros N. destruct N. exact (nth_error_In _ _ Lj).
        -- cbn [app] in Q. assert (x = o) as -> by congruence. assert (Q' : obs = pre ++ o' :: rest) by congruence.
           assert (N : nth_error obs (length pre) = Some o') by (rewrite Q', nth_error_app2, Nat.sub_diag by lia; reflexivity). destruct (S _ _ N) as [S1 S2]. cbn [length nth_error].
           split; [intros _ F; destruct (F o (or_introl eq_refl) LW)|]. split; [intros (j' & _ & K) _; apply S1; exact (nth_error_In _ _ K)|]. split; [intros I _; exact (S1 I)|exact S2].
      * assert (NL : ~ low g o). { intros (j' & H1 & H2). assert (j' = j). { apply (NoDup_nth_error (g_observations g)); [exact ND|apply nth_error_Some; congruence|congruence]. } subst j'. rewrite <- Sh in H1. apply nth_error_Some in H1. contradiction. }
        destruct (runner_steps g obs Lost) as [c' es'] eqn:E'. destruct (IH c' es' eq_refl) as (I1 & I2 & I3). assert (c = c') as -> by congruence. assert (es = Err EIndex :: es') as -> by congruence.
        split; [exact I1|]. split; [exact I2|]. intros [|x pre] o' rest Q.
        -- cbn [app] in Q. assert (o' = o) as -> by congruence. cbn [length nth_error]. split; [contradiction|]. split; [contradiction|]. split; [reflexivity|]. intros N. destruct N. exact (nth_error_In _ _ Lj).
        -- cbn [app] in Q. assert (x = o) as -> by congruence. assert (Q' : obs = pre ++ o' :: rest) by congruence. destruct (I3 pre o' rest Q') as (J1 & J2 & J3 & J4). cbn [length nth_error].
           split; [intros H F; apply J1; [exact H|]; intros y Hy; apply F; right; exact Hy|]. split; [intros H (y & [<-|Hy] & Ly); [contradiction|]; apply J2; [exact H|]; exists y; auto|]. split; assumption.
    + destruct (list_index_err _ _ _ L) as [-> NI]. assert (NL : ~ low g o) by (intros (j' & _ & H2); apply NI; exact (nth_error_In _ _ H2)).
      destruct (runner_steps g obs Lost) as [c' es'] eqn:E'. destruct (IH c' es' eq_refl) as (I1 & I2 & I3). assert (c = c') as -> by congruence. assert (es = Err EValue :: es') as -> by congruence.
      split; [exact I1|]. split; [exact I2|]. intros [|x pre] o' rest Q.
      * cbn [app] in Q. assert (o' = o) as -> by congruence. cbn [length nth_error]. split; [contradiction|]. split; [contradiction|]. split; [contradiction|]. reflexivity.
      * cbn [app] in Q. assert (x = o) as -> by congruence. assert (Q' : obs = pre ++ o' :: rest) by congruence. destruct (I3 pre o' rest Q') as (J1 & J2 & J3 & J4). cbn [length nth_error].
        split; [intros H F; apply J1; [exact H|]; intros y Hy; apply F; right; exact Hy|]. split; [intros H (y & [<-|Hy] & Ly); [contradiction|]; apply J2; [exact H|]; exists y; auto|]. split; assumption.
Qed.
Print Assumptions C52_lost_refuted.
(** A reset puts it back in the table. *)
Theorem C52_back : forall g c b n, match b with None => g_init g = Z.of_nat n | Some b => Forall (fun r => length r = length b) (g_values g) /\ best (g_values g) b n end ->
  runner_reset g b c = (At (Z.of_nat n), Ok tt).
Proof.
  intros g c [b|] n H; cbn [runner_reset]; [|rewrite H; reflexivity]. apply node_spec in H. rewrite H. reflexivity.
Qed.
Print Assumptions C52_back.

Example C52_lost_ex : shaped ex_policy /\ NoDup (g_observations ex_policy) /\ snd (runner_steps ex_policy [NInt 0; NInt 1; NInt 7; NInt 1; NInt 0] (At 0%Z)) = [Ok tt; Err EImpossible; Err EValue; Ok tt; Err EIndex].
Proof.
  split; [split; [reflexivity|]; cbn; intros row H; repeat (destruct H as [<-|H]; [reflexivity|]); destruct H|]. split; [repeat constructor; cbn; intuition discriminate|]. vm_compute. reflexivity.
Qed.
