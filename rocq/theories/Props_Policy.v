(** C50 to C56 and C83: policies over the tables of a POMDP and their runners. *)
From Verif Require Import PyBase PyBaseFacts QBase PomdpModel PomdpSpec PomdpProofs PomdpProofs2 SuppModel PolicyModel PolicySpec Props_Pomdp PolicyProofs PolicyProofs2 PolicyProofs3.
From Coq Require Import Lia Lqa.
Local Open Scope list_scope.
Local Open Scope nat_scope.

(** A policy for the tiger problem: listen first, then open a door once confident. *)
Definition ex_vf : list Z * list (list Q) := ([0; 1; 2]%Z, [[5; 5]; [-50; 10]; [10; -50]]%Q).
Definition ex_pg : list Z * list (list (option Z)) := ([0; 1; 2]%Z, [[Some 2; Some 1]; [Some 0; Some 0]; [Some 0; None]]%Z).
Definition ex_policy : graph_policy :=
  {| g_actions := [NStr "listen"; NStr "left"; NStr "right"]; g_observations := [NInt 0; NInt 1]; g_trans := snd ex_pg; g_values := snd ex_vf; g_init := 0 |}.
Example ex_load : load_policy tiger ex_vf ex_pg = Ok ex_policy.
Proof. vm_compute. reflexivity. Qed.
Example ex_policy_for : policy_for ex_policy tiger.
Proof. split; [reflexivity|repeat constructor|cbn; lia|]. change (p_actions tiger) with (g_actions ex_policy). apply incl_refl. Qed.
Example tiger_names : NoDup (p_actions tiger) /\ NoDup (p_observations tiger).
Proof. split; apply no_dup_iff; vm_compute; reflexivity. Qed.
Example tiger_starts : distribution tiger (start_list tiger).
Proof. split; [reflexivity|]. split; [|vm_compute; reflexivity]. intros [|[|s]] H; change (nS tiger) with 2 in H; try lia; vm_compute; discriminate. Qed.
Definition ex_runner : brunner := {| b_belief := start_list tiger; b_node := Some 0%Z |}.
Example ex_init : br_init ex_policy tiger = Ok ex_runner.
Proof. vm_compute. reflexivity. Qed.

(** *** C51: the node selected for a belief *)
Theorem C51_best : forall values b n,
  node_from_belief values b = Ok n <-> Forall (fun r => length r = length b) values /\ best values b n.
Proof. exact node_spec. Qed.
Print Assumptions C51_best.
Theorem C51_error : forall values b,
  (values <> [] -> Forall (fun r => length r = length b) values -> exists n, node_from_belief values b = Ok n) /\
  (forall e, node_from_belief values b = Err e -> e = EValue /\ (values = [] \/ exists r, In r values /\ length r <> length b)).
Proof.
  intros values b. split; [|intros e E; apply node_err in E; auto].
  intros Hne HF. destruct (node_from_belief values b) as [n|e] eqn:E; [eauto|]. apply node_err in E. destruct E as [_ [E|(r & R1 & R2)]]; [congruence|].
  rewrite Forall_forall in HF. specialize (HF r R1). congruence.
Qed.
Print Assumptions C51_error.
Example C51_ex : node_from_belief (g_values ex_policy) [9 # 10; 1 # 10]%Q = Ok 0 /\ node_from_belief (g_values ex_policy) [1 # 20; 19 # 20]%Q = Ok 1.
Proof. vm_compute. auto. Qed.

(** *** C50: loading *)

(** Exactly which outputs of the solver are accepted, and what is made of them. *)
Theorem C50_accepts : forall p vf pg,
  ((exists g, load_policy p vf pg = Ok g) <-> loadable p vf pg) /\
  forall g, load_policy p vf pg = Ok g ->
    g_trans g = snd pg /\ g_values g = snd vf /\ g_observations g = p_observations p /\ Forall2 (action_name p) (fst vf) (g_actions g) /\
    exists n, g_init g = Z.of_nat n /\ best (snd vf) (start_list p) n.
Proof.
  intros p [acts vals] [acts2 tr]. split.
  - split; [intros [g E]; apply load_fields in E; apply E|apply load_ok].
  - intros g E. apply load_fields in E. apply E.
Qed.
Print Assumptions C50_accepts.

(** How the others are refused. *)
Theorem C50_refused : forall p vf pg,
  (fst vf <> fst pg -> load_policy p vf pg = Err EAssert) /\
  (fst vf = fst pg -> (exists a, In a (fst vf) /\ (Z.of_nat (length (p_actions p)) <= a)%Z) -> load_policy p vf pg = Err EAssert) /\
  (fst vf = fst pg -> fst vf <> [] -> (forall a, In a (fst vf) -> (a < Z.of_nat (length (p_actions p)))%Z) ->
     (exists row z, In row (snd pg) /\ In (Some z) row /\ (Z.of_nat (length (snd pg)) < z)%Z) -> load_policy p vf pg = Err EAssert) /\
  (fst vf = [] -> fst pg = [] -> load_policy p vf pg = Err EValue) /\
  forall e, load_policy p vf pg = Err e -> e = EAssert \/ e = EValue \/ e = EIndex.
Proof.
  intros p [acts vals] [acts2 tr]. cbn [fst snd].
  assert (ZM : forall l m, zmax l = Ok m -> In m l /\ forall x, In x l -> (x <= m)%Z).
  { intros [|x l] m E; [discriminate|]. cbn [zmax] in E. assert (fold_left Z.max l x = m) by congruence. clear E. subst m. revert x. induction l as [|y l IH]; intros x; cbn [fold_left]; [split; [left; auto|intros z [->|[]]; lia]|].
    destruct (IH (Z.max x y)) as [I1 I2]. pose proof (I2 (Z.max x y) (or_introl eq_refl)). split; [destruct I1 as [I1|I1]; [destruct (Z.max_spec x y) as [[_ M]|[_ M]]; rewrite M in I1 at 1; [right; left|left]; auto|right; right; auto]|]. intros z [->|[->|Hz]]; [lia|lia|apply I2; right; auto]. }
  assert (ZE : forall l e, zmax l = Err e -> l = [] /\ e = EValue) by (intros [|x l] e E; [cbn in E; split; congruence|discriminate]).
  assert (SM : forall z, In z (somes tr) <-> exists row, In row tr /\ In (Some z) row).
  { intros z. unfold somes. rewrite in_flat_map. split; intros (r & R1 & R2); exists r; (split; [auto|]). - apply in_flat_map in R2. destruct R2 as ([w|] & W1 & W2); [destruct W2 as [->|[]]; auto|destruct W2]. - apply in_flat_map. exists (Some z). split; [auto|left; auto]. }
  unfold load_policy. destruct (list_eq_dec Z.eq_dec acts acts2) as [<-|N]; cbn [negb]; [|split; [auto|split; [intros; congruence|split; [intros; congruence|split; [intros; congruence|intros e E; left; congruence]]]]].
  split; [intros; congruence|]. destruct (zmax acts) as [ma|e0] eqn:EM; cbn [bind].
  2:{ apply ZE in EM. destruct EM as [-> ->]. split; [intros _ (a & [] & _)|]. split; [intros; congruence|]. split; [auto|]. intros e E. right. left. congruence. }
  apply ZM in EM. destruct EM as [EM1 EM2]. destruct (Z.ltb_spec ma (Z.of_nat (length (p_actions p)))) as [L|L]; cbn [negb].
  2:{ split; [auto|]. split; [auto|]. split; [intros ->; destruct EM1|]. intros e E. left. congruence. }
  split; [intros _ (a & A1 & A2); specialize (EM2 a A1); lia|]. split.
  - intros _ _ _ (r & z & R1 & R2 & R3). destruct (zmax (somes tr)) as [mt|e0] eqn:ET; cbn [bind].
    + apply ZM in ET. destruct ET as [_ ET]. assert (z <= mt)%Z by (apply ET; apply SM; eauto). destruct (Z.leb_spec mt (Z.of_nat (length tr))); [lia|reflexivity].
    + apply ZE in ET. destruct ET as [ET _]. assert (K : In z (somes tr)) by (apply SM; eauto). rewrite ET in K. destruct K.
  - split; [intros ->; destruct EM1|]. intros e E. destruct (zmax (somes tr)) as [mt|e0] eqn:ET; cbn [bind] in E; [|apply ZE in ET; right; left; destruct ET; congruence].
    destruct (negb (mt <=? Z.of_nat (length tr))%Z); [left; congruence|].
    assert (ME : forall l e, mapM (fun a => do i <- axis (length (p_actions p)) a; match nth_error (p_actions p) i with Some x => Ok x | None => Err EIndex end) l = Err e -> e = EIndex).
    { induction l as [|a l IH]; intros e' E'; cbn [mapM] in E'; [discriminate|]. destruct (axis (length (p_actions p)) a) as [i|ei] eqn:EA; cbn [bind] in E'.
      - destruct (nth_error (p_actions p) i); cbn [bind] in E'; [|congruence]. destruct (mapM _ l) eqn:EE; cbn [bind] in E'; [discriminate|]. specialize (IH _ eq_refl). congruence.
      - unfold axis in EA. destruct (_ || _) in EA; congruence. }
    destruct (mapM _ acts) as [names|e1] eqn:EN; cbn [bind] in E; [|right; right; rewrite <- (ME _ _ EN); congruence].
    unfold mk_policy in E. destruct (negb _) in E; [left; congruence|]. destruct (node_from_belief vals (start_list p)) as [n|e2] eqn:NB; cbn [bind] in E; [discriminate|]. apply node_err in NB. right. left. destruct NB. congruence.
Qed.
Print Assumptions C50_refused.
Example C50_ex_refused : load_policy tiger ex_vf ([0; 2; 1]%Z, snd ex_pg) = Err EAssert /\
  load_policy tiger ([0; 1; 3]%Z, snd ex_vf) ([0; 1; 3]%Z, snd ex_pg) = Err EAssert /\
  load_policy tiger ex_vf (fst ex_pg, [[Some 2; Some 1]; [Some 0; Some 4]; [Some 0; None]]%Z) = Err EAssert /\
  load_policy tiger ([0; 1; -4]%Z, snd ex_vf) ([0; 1; -4]%Z, snd ex_pg) = Err EIndex.
Proof. vm_compute. auto. Qed.

(** The full statement is false: whatever is accepted, with any transition replaced by a transition to the
    node after the last one, is accepted too, and following this transition leads to an index error. *)
Theorem C50_out_of_range_refuted : forall p vf pg i j o, loadable p vf pg -> NoDup (p_observations p) ->
  i < length (snd pg) -> nth_error (p_observations p) j = Some o ->
  let n := length (snd pg) in
  exists g, load_policy p vf (fst pg, set_entry (snd pg) i j (Z.of_nat n)) = Ok g /\ length (g_actions g) = n /\
    gr_step g o (Some (Z.of_nat i)) = (Some (Z.of_nat n), Ok tt) /\ gr_action g (Some (Z.of_nat n)) = Err EIndex.
Proof.
  intros p [acts vals] [acts2 tr] i j o L ND Hi Ho n. cbn [fst snd] in *. assert (Hj : j < nO p) by (apply nth_error_Some; congruence).
  pose proof L as (L1 & L2 & L3 & L4 & L5 & L6 & L7 & L8 & L9). cbn [fst snd] in *. subst acts2.
  assert (HR : exists row, nth_error tr i = Some row) by (destruct (nth_error tr i) eqn:E; [eauto|apply nth_error_None in E; lia]). destruct HR as [row Er].
  assert (Hrow : length row = nO p) by (apply L7; eapply nth_error_In; eauto).
  assert (Ent : nth_error (set_entry tr i j (Z.of_nat n)) i = Some (set_row row j (Z.of_nat n))) by (rewrite set_entry_nth, Er; cbn; rewrite Nat.eqb_refl; reflexivity).
  assert (Ent2 : nth_error (set_row row j (Z.of_nat n)) j = Some (Some (Z.of_nat n))).
  { rewrite set_row_nth. destruct (nth_error row j) eqn:E; [cbn; rewrite Nat.eqb_refl; reflexivity|]. apply nth_error_None in E. lia. }
  destruct (load_ok p (acts, vals) (acts, set_entry tr i j (Z.of_nat n))) as [g E].
  { unfold loadable. cbn [fst snd]. do 3 (split; [auto|]). split; [exists (set_row row j (Z.of_nat n)), (Z.of_nat n); split; eapply nth_error_In; eauto|].
    split.
    - rewrite set_entry_length. intros row' t H1 H2. apply set_entry_In in H1. destruct H1 as (r0 & R0 & [->| ->]); [eapply L5; eauto|].
      apply set_row_In in H2. destruct H2 as [H2|H2]; [eapply L5; eauto|]. assert (t = Z.of_nat n) as -> by congruence. unfold n. lia.
    - rewrite set_entry_length. split; [auto|]. split; [|auto]. intros row' H1. apply set_entry_In in H1. destruct H1 as (r0 & R0 & [->| ->]); [auto|]. rewrite set_row_length. auto. }
  exists g. split; [auto|]. pose proof E as E'. apply load_fields in E'. destruct E' as (_ & F1 & F2 & F3 & F4 & _).
  assert (HN : length (g_actions g) = n) by (rewrite <- (Forall2_len _ _ _ F4); auto). split; [auto|]. split.
  - destruct (next_spec g i o) as [[H1 H2]|(t & H1 & H2)].
    + split; [rewrite F1, set_entry_length; auto|]. intros row' H1. rewrite F1 in H1. rewrite F3. apply set_entry_In in H1. destruct H1 as (r0 & R0 & [->| ->]); rewrite ?set_row_length; apply L7; auto.
    + rewrite F3. auto.
    + rewrite HN. auto.
    + exfalso. apply H1. rewrite F3. eapply nth_error_In; eauto.
    + assert (t = Some (Z.of_nat n)) as ->; [|exact H2]. apply (entry_unique g i o); [rewrite F3; auto|auto|]. exists j, (set_row row j (Z.of_nat n)). rewrite F1, F3. auto.
  - cbn [gr_action]. unfold gp_action. rewrite axis_nat, HN. rewrite Nat.ltb_irrefl. reflexivity.
Qed.
Print Assumptions C50_out_of_range_refuted.
Example C50_ex : loadable tiger ex_vf ex_pg /\ gr_action ex_policy (Some 3%Z) = Err EIndex.
Proof. split; [|reflexivity]. apply (proj1 (C50_accepts tiger ex_vf ex_pg)). eexists. exact ex_load. Qed.

(** With transitions to existing nodes, and as many value vectors as nodes (which is what the parser of
    value functions returns, C48_only), no run of the loaded policy meets an index error: every observation
    leads to a node with an action, or is refused. *)
Theorem C50_well_formed_partial : forall p vf pg g obs c e, load_policy p vf pg = Ok g -> NoDup (p_observations p) ->
  length (snd vf) = length (fst vf) ->
  (forall row z, In row (snd pg) -> In (Some z) row -> (0 <= z < Z.of_nat (length (snd pg)))%Z) ->
  run (gr_step g) obs (Some (g_init g)) = (c, e) ->
  (e = Ok tt /\ exists a, gr_action g c = Ok a /\ In a (p_actions p)) \/
  (exists o, In o obs /\ ((e = Err EValue /\ ~ In o (p_observations p)) \/ e = Err EImpossible)).
Proof.
  intros p [acts vals] [acts2 tr] g obs c e E ND HL HC R. cbn [fst snd] in *. apply load_fields in E. destruct E as (L & F1 & F2 & F3 & F4 & n & F5 & F6).
  destruct L as (L1 & L2 & L3 & L4 & L5 & L6 & L7 & L8 & L9). cbn [fst snd] in *.
  pose proof (Forall2_len _ _ _ F4) as HA. destruct F6 as [F6 _].
  assert (Sh : shaped g) by (split; [rewrite F1; lia|intros row Hr; rewrite F1 in Hr; rewrite F3; apply L7; auto]).
  assert (Cl : closed g) by (intros row z H1 H2; rewrite F1 in H1; specialize (HC row z H1 H2); lia).
  assert (ND' : NoDup (g_observations g)) by (rewrite F3; auto). rewrite F5 in R. assert (Hn : n < length (g_actions g)) by lia.
  pose proof (run_spec g Sh ND' Cl obs n c e Hn R) as H. destruct e as [[]|e].
  - left. split; [auto|]. destruct H as (k & -> & Hk & _). destruct (action_in_range g k Hk) as (a & A1 & A2). exists a. split; [auto|].
    assert (HI : In a (g_actions g)) by (eapply nth_error_In; eauto). clear - F4 HI. induction F4 as [|x y l l' Hxy F IH]; [destruct HI|]. destruct HI as [->|HI]; [eapply nth_error_In; exact Hxy|auto].
  - right. destruct H as (pre & o & rest & k & -> & _ & _ & H). exists o. split; [apply in_or_app; simpl; auto|]. rewrite <- F3. destruct H as [(-> & H & _)|(-> & _)]; auto.
Qed.
Print Assumptions C50_well_formed_partial.
Example C50_run : run (gr_step ex_policy) [NInt 0; NInt 0; NInt 1] (Some 0%Z) = (Some 1%Z, Ok tt) /\
  run (gr_step ex_policy) [NInt 0; NInt 1] (Some 0%Z) = (None, Err EImpossible).
Proof. vm_compute. auto. Qed.

(** *** C52: the graph runner *)
Theorem C52_follows_partial : forall g obs n, shaped g -> NoDup (g_observations g) -> closed g -> n < length (g_actions g) ->
  (forall k, follows g n obs k -> run (gr_step g) obs (Some (Z.of_nat n)) = (Some (Z.of_nat k), Ok tt) /\
     exists a, gr_action g (Some (Z.of_nat k)) = Ok a /\ nth_error (g_actions g) k = Some a) /\
  (forall c e, run (gr_step g) obs (Some (Z.of_nat n)) = (c, e) ->
     match e with
     | Ok _ => exists k, c = Some (Z.of_nat k) /\ follows g n obs k
     | Err e => exists pre o rest k, obs = pre ++ o :: rest /\ follows g n pre k /\
         ((* unknown observation: the runner stays where it was *)
          (e = EValue /\ ~ In o (g_observations g) /\ c = Some (Z.of_nat k)) \/
          (* no transition: see C52_impossible_refuted *)
          (e = EImpossible /\ entry_at g k o None /\ c = None))
     end).
Proof.
  intros g obs n Sh ND Cl Hn. split.
  - intros k F. pose proof (run_follows g Sh ND obs n k Hn Cl F) as R. split; [auto|].
    pose proof (run_spec g Sh ND Cl _ _ _ _ Hn R) as (k' & K1 & K2 & K3). assert (Z.of_nat k = Z.of_nat k') by congruence. apply action_in_range. lia.
  - intros c e R. pose proof (run_spec g Sh ND Cl _ _ _ _ Hn R) as H. destruct e as [u|e].
    + destruct H as (k & K1 & K2 & K3). eauto.
    + destruct H as (pre & o & rest & k & H1 & H2 & H3 & H4). exists pre, o, rest, k. auto.
Qed.
Print Assumptions C52_follows_partial.

(** From a reset on, runs start in the initial node, or in the best node for the given belief. *)
Theorem C52_reset : forall g obs n c b, shaped g -> NoDup (g_observations g) -> closed g -> n < length (g_actions g) ->
  match b with None => g_init g = Z.of_nat n | Some b => Forall (fun r => length r = length b) (g_values g) /\ best (g_values g) b n end ->
  snd (gr_reset g b c) = Ok tt /\
  forall k, run (gr_step g) obs (fst (gr_reset g b c)) = (Some (Z.of_nat k), Ok tt) <-> follows g n obs k.
Proof.
  intros g obs n c b Sh ND Cl Hn Hb. assert (gr_reset g b c = (Some (Z.of_nat n), Ok tt)) as ->.
  { unfold gr_reset. destruct b as [b|]; [|rewrite Hb; reflexivity]. apply node_spec in Hb. rewrite Hb. reflexivity. }
  cbn [fst snd]. split; [auto|]. intros k. destruct (C52_follows_partial g obs n Sh ND Cl Hn) as [F1 F2]. split; [|intros F; apply F1; auto].
  intros R. destruct (F2 _ _ R) as (k' & K1 & K2). assert (Z.of_nat k = Z.of_nat k') as K by congruence. apply Nat2Z.inj in K. subst. auto.
Qed.
Print Assumptions C52_reset.

(** A step on an observation without transition raises, and loses the node: the runner has no action left. *)
Theorem C52_impossible_refuted : forall g n o, shaped g -> NoDup (g_observations g) -> n < length (g_actions g) -> entry_at g n o None ->
  gr_step g o (Some (Z.of_nat n)) = (None, Err EImpossible) /\ gr_action g (fst (gr_step g o (Some (Z.of_nat n)))) = Err EType /\
  exists a, gr_action g (Some (Z.of_nat n)) = Ok a.
Proof.
  intros g n o Sh ND Hn HE. destruct (action_in_range g n Hn) as (a & Ea & _). destruct (next_spec g n o Sh ND Hn) as [[H1 H2]|(t & H1 & H2)].
  - exfalso. apply H1. destruct HE as (j & row & A1 & _). eapply nth_error_In; eauto.
  - rewrite (entry_unique _ _ _ _ _ ND H1 HE) in H2. rewrite H2. cbn [fst gr_action]. eauto.
Qed.
Print Assumptions C52_impossible_refuted.
Example C52_ex : shaped ex_policy /\ NoDup (g_observations ex_policy) /\ closed ex_policy /\ entry_at ex_policy 2 (NInt 1) None /\
  follows ex_policy 0 [NInt 0; NInt 0; NInt 1] 1.
Proof.
  split; [split; [reflexivity|]; cbn; intros row H; repeat (destruct H as [<-|H]; [reflexivity|]); destruct H|].
  split; [apply no_dup_iff; vm_compute; reflexivity|].
  split.
  { intros row z H H'. change (Z.of_nat (length (g_actions ex_policy))) with 3%Z. cbn in H. destruct H as [<-|[<-|[<-|[]]]]; cbn in H';
    repeat match goal with X : _ \/ _ |- _ => destruct X as [X|X] | X : Some _ = Some _ |- _ => injection X as <- end; try contradiction; try discriminate; lia. }
  split; [exists 1; eexists; cbn; auto|].
  apply (fw_cons _ 0 _ 2); [exists 0; eexists; cbn; auto|]. apply (fw_cons _ 2 _ 0); [exists 0; eexists; cbn; auto|]. apply (fw_cons _ 0 _ 1); [exists 1; eexists; cbn; auto|]. apply fw_nil.
Qed.

(** *** C53: the belief runner *)
Theorem C53_start : forall g p, policy_for g p -> distribution p (start_list p) ->
  exists r, br_init g p = Ok r /\ at_belief g (start_list p) r.
Proof.
  intros g p PF Ds. unfold br_init. destruct (reset_ok g p PF (start_list p) {| b_belief := []; b_node := None |}) as (n & B & E); [apply Ds|].
  rewrite E. cbn [bind]. eexists. split; [reflexivity|]. split; [reflexivity|]. exists n. auto.
Qed.
Print Assumptions C53_start.

(** From a belief b, any sequence of observations: the runner gets to the belief given by Bayes rule and to
    the best node for it, or raises at the first observation that is unknown or has probability 0, and is
    left as it was before that observation. *)
Theorem C53_tracks : forall g p obs b r r' e, policy_for g p -> stochastic p -> NoDup (p_actions p) -> NoDup (p_observations p) ->
  distribution p b -> at_belief g b r -> run (br_step g p) obs r = (r', e) ->
  match e with
  | Ok _ => exists b', filtered g p b obs b' /\ distribution p b' /\ at_belief g b' r'
  | Err e => exists pre o rest b', obs = pre ++ o :: rest /\ filtered g p b pre b' /\ distribution p b' /\ at_belief g b' r' /\
      run (br_step g p) pre r = (r', Ok tt) /\
      ((e = EValue /\ ~ In o (p_observations p)) \/
       (e = EImpossible /\ exists a io, action_for g p b' a /\ nth_error (p_observations p) io = Some o /\ (prob_obs p b' a io == 0)%Q))
  end.
Proof.
  intros g p obs b r r' e PF St NA NO. revert b r r' e. induction obs as [|o rest IH]; intros b r r' e Db AB R; cbn [run] in R.
  - assert (r' = r /\ e = Ok tt) as [-> ->] by (split; congruence). exists b. split; [constructor|]. auto.
  - destruct (step_spec g p PF St b r o Db AB) as (a & Aa & Ha & H). destruct (list_index (p_observations p) o) as [io|x] eqn:Eo.
    + pose proof (list_index_ok _ _ _ Eo) as Eo'. destruct H as [[Ez Es]|(Ez & nb & r1 & Pn & Dn & Es & A1)]; rewrite Es in R.
      * assert (r' = r /\ e = Err EImpossible) as [-> ->] by (split; congruence). exists [], o, rest, b. split; [reflexivity|]. split; [constructor|].
        split; [auto|]. split; [auto|]. split; [reflexivity|]. right. eauto 8.
      * specialize (IH nb r1 r' e Dn A1 R). destruct e as [u|e].
        -- destruct IH as (b' & F & D & A'). exists b'. split; [econstructor; eauto|auto].
        -- destruct IH as (pre & o' & rest' & b' & -> & F & D & A' & R' & X). exists (o :: pre), o', rest', b'. split; [reflexivity|].
           split; [econstructor; eauto|]. split; [auto|]. split; [auto|]. split; [cbn [run]; rewrite Es; auto|auto].
    + rewrite H in R. destruct (list_index_err _ _ _ Eo) as [_ Hx]. assert (r' = r /\ e = Err EValue) as [-> ->] by (split; congruence).
      exists [], o, rest, b. split; [reflexivity|]. split; [constructor|]. split; [auto|]. split; [auto|]. split; [reflexivity|]. auto.
Qed.
Print Assumptions C53_tracks.
Example C53_ex : exists r b, run (br_step ex_policy tiger) [NInt 0; NInt 0] ex_runner = (r, Ok tt) /\ b_belief r = b /\ map Qred b = [289 # 298; 9 # 298]%Q /\ b_node r = Some 2%Z /\
  snd (run (br_step ex_policy tiger) [NInt 0; NInt 0; NInt 7] ex_runner) = Err EValue.
Proof. eexists _, _. split; [vm_compute; reflexivity|]. split; [reflexivity|]. vm_compute. auto. Qed.

(** *** C54: trajectory trees *)
Theorem C54_tree : forall g p b r h, policy_for g p -> stochastic p -> NoDup (p_actions p) -> NoDup (p_observations p) ->
  distribution p b -> at_belief g b r ->
  exists t, trajectory_tree g p h r = (r, Ok t) /\ is_tree g p (Z.to_nat h) b t.
Proof. intros g p b r h PF St NA NO Db AB. unfold trajectory_tree. apply trajectory_spec; auto. Qed.
Print Assumptions C54_tree.

(** In particular after any run that succeeds. *)
Theorem C54_after_run : forall g p obs r0 r h, policy_for g p -> stochastic p -> NoDup (p_actions p) -> NoDup (p_observations p) ->
  distribution p (start_list p) -> br_init g p = Ok r0 -> run (br_step g p) obs r0 = (r, Ok tt) ->
  exists b t, filtered g p (start_list p) obs b /\ trajectory_tree g p h r = (r, Ok t) /\ is_tree g p (Z.to_nat h) b t.
Proof.
  intros g p obs r0 r h PF St NA NO Ds E0 R. destruct (C53_start g p PF Ds) as (r1 & E1 & A1). assert (r1 = r0) as -> by congruence.
  destruct (C53_tracks g p obs _ r0 r _ PF St NA NO Ds A1 R) as (b & F & D & A). destruct (C54_tree g p b r h PF St NA NO D A) as (t & T1 & T2). eauto.
Qed.
Print Assumptions C54_after_run.
Example C54_ex : exists b1 b2, snd (trajectory_tree ex_policy tiger 1 ex_runner) =
  Ok (TNode (start_list tiger) (NStr "listen") 0 [NInt 0; NInt 1] [TNode b1 (NStr "listen") 0 [] []; TNode b2 (NStr "listen") 0 [] []]).
Proof. eexists _, _. vm_compute. reflexivity. Qed.

(** *** C55: trees from the start states *)

(** False as soon as two start states are possible: there is a single tree, and its root is no
    distribution, it has 1 for every possible start state. *)
Theorem C55_several_starts_refuted : forall g p h r r' ts s1 s2, possible_start p s1 -> possible_start p s2 -> s1 <> s2 ->
  trajectory_trees_from_starts g p h r = (r', Ok ts) ->
  exists t, ts = [t] /\ nth s1 (root t) 0%Q = 1%Q /\ nth s2 (root t) 0%Q = 1%Q /\ forall n s, root t <> certain n s.
Proof.
  intros g p h r r' ts s1 s2 [H1 H1'] [H2 H2'] Hne E. unfold trajectory_trees_from_starts in E.
  set (sup := filter (fun s => negb (Qeq_bool (nth s (start_list p) 0%Q) 0)) (seq 0 (length (start_list p)))) in E. cbn [fst snd] in E.
  set (b := map (fun i => if existsb (Nat.eqb i) sup then 1%Q else 0%Q) (seq 0 (length (start_list p)))) in E.
  destruct (reset_belief g b r) as [B1 _]. destruct (br_reset g b r) as [r1 e1]. cbn [fst] in B1. destruct e1 as [u|e]; [|discriminate].
  unfold trajectory_tree in E. destruct (trajectory g p (Z.to_nat h) r1) as [r2 out] eqn:E2. destruct out as [t|e]; [|discriminate].
  assert (ts = [t]) as -> by congruence. exists t. split; [auto|]. destruct (trajectory_root _ _ _ _ _ _ E2) as [_ H]. destruct (H t eq_refl) as [_ Hr]. rewrite Hr, B1.
  assert (HS : forall s, s < length (start_list p) -> ~ (nth s (start_list p) 0 == 0)%Q -> nth s b 0%Q = 1%Q).
  { intros s Hs Hz. unfold b. rewrite nth_map_seq by auto. assert (existsb (Nat.eqb s) sup = true) as ->; [|reflexivity]. apply existsb_exists. exists s. split; [|apply Nat.eqb_refl].
    apply filter_In. split; [apply in_seq; lia|]. apply negb_true_iff, not_true_is_false. rewrite Qeq_bool_iff. auto. }
  split; [apply HS; auto|]. split; [apply HS; auto|]. intros n s E3.
  assert (X : forall s0, s0 < length (start_list p) -> ~ (nth s0 (start_list p) 0 == 0)%Q -> s0 = s).
  { intros s0 Hs Hz. pose proof (HS s0 Hs Hz) as Y. rewrite E3 in Y. unfold certain in Y. destruct (le_lt_dec n s0) as [Hl|Hl].
    - rewrite nth_overflow in Y by (rewrite map_length, seq_length; auto). discriminate.
    - rewrite nth_map_seq in Y by auto. destruct (Nat.eqb_spec s0 s); [auto|discriminate]. }
  apply Hne. rewrite (X s1), (X s2); auto.
Qed.
Print Assumptions C55_several_starts_refuted.
Example C55_ex : exists t, snd (trajectory_trees_from_starts ex_policy tiger 1 ex_runner) = Ok [t] /\ root t = [1; 1]%Q.
Proof. eexists. split; vm_compute; reflexivity. Qed.

(** With a single possible start state the tree is the expected one. *)
Theorem C55_single_start_partial : forall g p h r s, policy_for g p -> stochastic p -> NoDup (p_actions p) -> NoDup (p_observations p) ->
  length (start_list p) = nS p -> (forall s', possible_start p s' <-> s' = s) ->
  exists r' t, trajectory_trees_from_starts g p h r = (r', Ok [t]) /\ is_tree g p (Z.to_nat h) (certain (nS p) s) t.
Proof.
  intros g p h r s PF St NA NO HL HS. unfold trajectory_trees_from_starts.
  set (sup := filter (fun s => negb (Qeq_bool (nth s (start_list p) 0%Q) 0)) (seq 0 (length (start_list p)))).
  assert (HI : forall i, existsb (Nat.eqb i) sup = Nat.eqb i s).
  { intros i. apply eq_true_iff_eq. rewrite existsb_exists, Nat.eqb_eq. rewrite <- HS. unfold possible_start. split.
    - intros (x & X1 & X2). apply Nat.eqb_eq in X2. subst x. apply filter_In in X1. destruct X1 as [X1 X2]. apply in_seq in X1. split; [lia|].
      apply negb_true_iff in X2. intros Y. apply Qeq_bool_iff in Y. congruence.
    - intros [X1 X2]. exists i. split; [|apply Nat.eqb_refl]. apply filter_In. split; [apply in_seq; lia|]. apply negb_true_iff, not_true_is_false. rewrite Qeq_bool_iff. auto. }
  assert (HB : map (fun i => if existsb (Nat.eqb i) sup then 1%Q else 0%Q) (seq 0 (length (start_list p))) = certain (nS p) s).
  { unfold certain. rewrite HL. apply map_ext. intros i. rewrite HI. reflexivity. }
  rewrite HB. assert (Hs : s < nS p) by (destruct (proj2 (HS s) eq_refl) as [H _]; lia).
  assert (Dc : distribution p (certain (nS p) s)).
  { unfold certain. split; [rewrite map_length, seq_length; reflexivity|]. split.
    - intros i Hi. rewrite nth_map_seq by auto. destruct (Nat.eqb i s); lra.
    - unfold sum_n. rewrite (sum_ext _ _ (fun i => if Nat.eqb i s then 1%Q else 0%Q)).
      + rewrite (sum_single (seq 0 (nS p)) _ s); [rewrite Nat.eqb_refl; reflexivity|apply seq_NoDup|apply in_seq; lia|].
        intros y _ Hy. destruct (Nat.eqb_spec y s); [congruence|reflexivity].
      + intros i Hi. apply in_seq in Hi. rewrite nth_map_seq by lia. reflexivity. }
  destruct (reset_ok g p PF (certain (nS p) s) r) as (n & B & E); [apply Dc|]. rewrite E.
  destruct (C54_tree g p (certain (nS p) s) {| b_belief := certain (nS p) s; b_node := Some (Z.of_nat n) |} h PF St NA NO Dc) as (t & T1 & T2).
  { split; [reflexivity|]. exists n. auto. }
  rewrite T1. eexists _, t. split; [reflexivity|auto].
Qed.
Print Assumptions C55_single_start_partial.
Definition tiger1 : pomdp := {| p_T := p_T tiger; p_O := p_O tiger; p_R := p_R tiger; p_start := ex_arr (l1 [1; 0]%Q); p_discount := p_discount tiger; p_s := p_s tiger; p_a := p_a tiger; p_o := p_o tiger |}.
Example C55_single_ex : (forall s', possible_start tiger1 s' <-> s' = 0) /\ policy_for ex_policy tiger1 /\ stochastic tiger1.
Proof.
  split; [|split; [split; [reflexivity|repeat constructor|cbn; lia|apply (pf_actions _ _ ex_policy_for)]|exact tiger_stochastic]]. intros s. unfold possible_start. change (length (start_list tiger1)) with 2. split.
  - intros [H1 H2]. destruct s as [|[|s]]; [reflexivity|exfalso; apply H2; reflexivity|lia].
  - intros ->. split; [lia|]. vm_compute. discriminate.
Qed.

(** *** C56: the graph over beliefs *)
Theorem C56_visit : forall g p m r, policy_for g p -> stochastic p -> NoDup (p_actions p) -> NoDup (p_observations p) ->
  distribution p (start_list p) ->
  exists r' g' expanded, visit g p m r = (r', Ok g') /\
    let n := length (g_actions g') in
    let node i := nth i (g_values g') [] in
    (* sizes *)
    g_observations g' = p_observations p /\ length (g_values g') = n /\ length (g_trans g') = n /\
    (forall row, In row (g_trans g') -> length row = nO p) /\
    (* at least one node, at most max(1, m + number of observations) *)
    0 < n /\ (Z.of_nat n <= Z.max 1 (m + Z.of_nat (nO p)))%Z /\
    (* it starts in the node of the start belief *)
    g_init g' = 0%Z /\ node 0 = start_list p /\
    (* nodes are distributions, at a distance of at least one hundredth *)
    (forall i, i < n -> distribution p (node i)) /\
    (forall i j, i < j < n -> ((1 # 100) * (1 # 100) <= distance2 (node i) (node j))%Q) /\
    (* the action of a node is the one of the original policy, *)
    (forall i, i < n -> exists a, action_for g p (node i) a /\ nth_error (g_actions g') i = nth_error (p_actions p) a) /\
    (* a transition leads to a node within one hundredth of the belief given by Bayes rule, *)
    (forall i io o z, i < n -> nth_error (p_observations p) io = Some o -> entry_at g' i o (Some z) ->
       exists a j nb, action_for g p (node i) a /\ z = Z.of_nat j /\ j < n /\ ~ (prob_obs p (node i) a io == 0)%Q /\
         posterior p (node i) a io nb /\ (distance2 (node j) nb < (1 # 100) * (1 # 100))%Q) /\
    (* and the observations without transition are impossible in every expanded node; *)
    (forall i io o, i < expanded -> nth_error (p_observations p) io = Some o -> entry_at g' i o None ->
       exists a, action_for g p (node i) a /\ (prob_obs p (node i) a io == 0)%Q) /\
    (* all nodes are expanded unless the bound is exceeded *)
    expanded <= n /\ (expanded = n \/ (m < Z.of_nat n)%Z).
Proof.
  intros g p m r PF St NA NO Ds. destruct (visit_spec g p PF St NO m r Ds) as (x & q & E & (I & Hq & _) & Hp & Hc & Hb).
  destruct I as [J1 J2 J3 J4 J5 J6 J7 J8 J9].
  rewrite (mk_policy_init (x_actions x) (p_observations p) (x_trans x) (x_nodes x) None 0%Z) in E; [|lia|lia|auto|lia].
  eexists _, _, q. split; [exact E|]. cbn [g_actions g_observations g_trans g_values g_init]. cbv zeta. rewrite J2.
  assert (HX : forall i io o t, nth_error (p_observations p) io = Some o ->
    entry_at {| g_actions := x_actions x; g_observations := p_observations p; g_trans := x_trans x; g_values := x_nodes x; g_init := 0 |} i o t -> io < nO p /\ entry (x_trans x) i io = t).
  { intros i io o t Ho (j & row & A1 & A2 & A3). cbn [g_observations g_trans] in *. assert (Hio : io < nO p) by (apply nth_error_Some; congruence).
    assert (j = io) as ->. { symmetry. apply (proj1 (NoDup_nth_error _) NO); [exact Hio|congruence]. }
    split; [auto|]. unfold entry. rewrite (nth_error_nth _ _ [] A2), (nth_error_nth _ _ None A3). reflexivity. }
  do 4 (split; [auto|]). split; [auto|]. split; [lia|]. split; [reflexivity|]. split; [destruct J9 as [J9|J9]; [lia|exact J9]|].
  split; [intros i Hi; apply J4; apply nth_In; auto|]. split; [exact J8|]. split.
  - intros i Hi. destruct (J5 i Hi) as (n & nm & K1 & K2 & K3). destruct (list_index_In (p_actions p) nm) as [a Ea]; [apply (pf_actions _ _ PF); eapply nth_error_In; eauto|].
    apply list_index_ok in Ea. exists a. split; [exists n, nm; auto|congruence].
  - split; [|split; [|split; [auto|lia]]].
    + intros i io o z Hi Ho He. destruct (HX _ _ _ _ Ho He) as [Hio He']. destruct (J6 i io z Hi Hio He') as (a & j & nb & K1 & K2 & K3 & K4 & K5 & K6). exists a, j, nb. do 5 (split; [auto|]). auto.
    + intros i io o Hi Ho He. destruct (HX _ _ _ _ Ho He) as [Hio He']. apply J7; auto. lia.
Qed.
Print Assumptions C56_visit.

(** The result is again a policy for the POMDP, to which C50 to C55 apply, and running it never fails with an
    index error. *)
Theorem C56_closed : forall g p m r r' g', policy_for g p -> stochastic p -> NoDup (p_actions p) -> NoDup (p_observations p) ->
  distribution p (start_list p) -> visit g p m r = (r', Ok g') ->
  policy_for g' p /\ shaped g' /\ closed g' /\
  forall obs c e, run (gr_step g') obs (Some (g_init g')) = (c, e) ->
    (e = Ok tt /\ exists a, gr_action g' c = Ok a /\ In a (p_actions p)) \/ e = Err EValue \/ e = Err EImpossible.
Proof.
  intros g p m r r' g' PF St NA NO Ds E. destruct (C56_visit g p m r PF St NA NO Ds) as (r1 & g1 & q & E1 & V1 & V2 & V3 & V4 & V5 & V6 & V7 & V8 & V9 & V10 & V11 & V12 & _).
  assert (g1 = g') as -> by congruence. cbv zeta in *.
  assert (PF' : policy_for g' p).
  { constructor; [auto| |auto|].
    - apply Forall_forall. intros b Hb. apply In_nth with (d := []) in Hb. destruct Hb as (i & Hi & <-). apply V9. lia.
    - intros a Ha. apply In_nth_error in Ha. destruct Ha as [i Hi]. assert (Hi' : i < length (g_actions g')) by (apply nth_error_Some; congruence).
      destruct (V11 i Hi') as (b & _ & Eb). rewrite Hi in Eb. symmetry in Eb. eapply nth_error_In; eauto. }
  assert (Sh : shaped g') by (split; [auto|rewrite V1; exact V4]).
  assert (Cl : closed g').
  { intros row z H1 H2. apply In_nth_error in H1, H2. destruct H1 as [i Hi], H2 as [io Hio]. assert (Hi' : i < length (g_trans g')) by (apply nth_error_Some; congruence).
    assert (Hl : io < length row) by (apply nth_error_Some; congruence). rewrite (V4 row (nth_error_In _ _ Hi)) in Hl.
    destruct (nth_error (p_observations p) io) as [o|] eqn:Eo; [|apply nth_error_None in Eo; unfold nO in Hl; lia].
    destruct (V12 i io o z) as (a & j & nb & _ & -> & Hj & _); [lia|auto|exists io, row; rewrite V1; auto|]. lia. }
  do 3 (split; [auto|]). intros obs c e R. rewrite V7 in R. assert (ND' : NoDup (g_observations g')) by (rewrite V1; auto).
  pose proof (run_spec g' Sh ND' Cl obs 0 c e V5 R) as H. destruct e as [[]|e].
  - left. split; [auto|]. destruct H as (k & -> & Hk & _). destruct (action_in_range g' k Hk) as (a & A1 & A2). exists a. split; [auto|].
    apply (pf_actions _ _ PF'). eapply nth_error_In; eauto.
  - right. destruct H as (pre & o & rest & k & _ & _ & _ & [(-> & _)|(-> & _)]); auto.
Qed.
Print Assumptions C56_closed.
Example C56_ex : exists r g', visit ex_policy tiger 10 ex_runner = (r, Ok g') /\
  g_trans g' = [[Some 1; Some 2]; [Some 3; Some 0]; [Some 0; Some 4]; [Some 0; Some 0]; [Some 0; Some 0]]%Z /\
  g_actions g' = [NStr "listen"; NStr "listen"; NStr "listen"; NStr "right"; NStr "left"].
Proof. eexists _, _. split; [vm_compute; reflexivity|]. split; reflexivity. Qed.

(** *** C83: policies and dictionaries *)
Theorem C83_round_trip : forall show parse_int g, (forall z, parse_int (show z) = Ok z) -> shaped g -> 0 < length (g_actions g) ->
  (g_init g < Z.of_nat (length (g_actions g)))%Z -> policy_from_dict parse_int (policy_to_dict show g) = Ok g.
Proof.
  intros show pi g Hs [S1 S2] Hp Hi. unfold policy_from_dict, policy_to_dict. cbn [pd_initial pd_actions pd_observations pd_trans pd_values]. rewrite Hs. cbn [bind].
  rewrite mk_policy_init; [destruct g; reflexivity|lia|auto|auto|auto].
Qed.
Print Assumptions C83_round_trip.

(** Whatever the constructor built with an initial node; with a start belief, as many value vectors as nodes
    are needed. *)
Theorem C83_constructed_partial : forall show parse_int acts obs tr vals start init g, (forall z, parse_int (show z) = Ok z) ->
  mk_policy acts obs tr vals start init = Ok g -> (init = None -> length vals <= length acts) ->
  policy_from_dict parse_int (policy_to_dict show g) = Ok g.
Proof.
  intros show pi acts obs tr vals start init g Hs E Hv. apply mk_policy_ok in E. destruct E as (M1 & M2 & M3 & M4 & M5 & M6 & M7 & M8).
  apply C83_round_trip; [auto|split; [rewrite M6, M4; auto|rewrite M6, M5; auto]|rewrite M4; lia|]. rewrite M4. destruct init as [z|]; [destruct M8 as [-> M8]; auto|].
  destruct start as [b|]; [|contradiction]. destruct M8 as (n & -> & M8). apply node_spec in M8. destruct M8 as [_ [M8 _]]. specialize (Hv eq_refl). lia.
Qed.
Print Assumptions C83_constructed_partial.

(** Without that, a policy can be built and written but not read back. *)
Theorem C83_extra_values_refuted : forall show parse_int acts obs tr vals b g n, (forall z, parse_int (show z) = Ok z) ->
  mk_policy acts obs tr vals (Some b) None = Ok g -> best vals b n -> length acts <= n ->
  policy_from_dict parse_int (policy_to_dict show g) = Err EAssert.
Proof.
  intros show pi acts obs tr vals b g n Hs E B Hn. apply mk_policy_ok in E. destruct E as (M1 & M2 & M3 & M4 & M5 & M6 & M7 & k & M8 & M9).
  apply node_spec in M9. destruct M9 as [_ M9]. rewrite (best_unique _ _ _ _ M9 B) in M8.
  unfold policy_from_dict, policy_to_dict, mk_policy. cbn [pd_initial pd_actions pd_observations pd_trans pd_values]. rewrite Hs. cbn [bind].
  destruct (negb _); [reflexivity|]. destruct (Z.ltb_spec (g_init g) (Z.of_nat (length (g_actions g)))); [rewrite M4 in *; lia|reflexivity].
Qed.
Print Assumptions C83_extra_values_refuted.
(** Exactly the policies that are read back. *)
Theorem C83_exact_partial : forall show parse_int acts obs tr vals start init g, (forall z, parse_int (show z) = Ok z) ->
  mk_policy acts obs tr vals start init = Ok g ->
  (policy_from_dict parse_int (policy_to_dict show g) = Ok g <-> (g_init g < Z.of_nat (length acts))%Z).
Proof.
  intros show pi acts obs tr vals start init g Hs E. pose proof (mk_policy_ok _ _ _ _ _ _ _ E) as (M1 & M2 & M3 & M4 & M5 & M6 & M7 & M8). split.
  - intros R. unfold policy_from_dict, policy_to_dict, mk_policy in R. cbn [pd_initial pd_actions pd_observations pd_trans pd_values] in R. rewrite Hs in R. cbn [bind] in R.
    destruct (negb _) in R; [discriminate|]. destruct (Z.ltb_spec (g_init g) (Z.of_nat (length (g_actions g)))); [rewrite M4 in *; lia|discriminate].
  - intros L. apply C83_round_trip; [auto|split; [rewrite M6, M4; auto|rewrite M6, M5; auto]|rewrite M4; lia|]. rewrite M4. auto.
Qed.
Print Assumptions C83_exact_partial.
(** How the constructor refuses: the shapes are looked at first, then an initial node or a belief is needed. *)
Theorem C83_refused : forall acts obs tr vals start init,
  let rectangular := tr <> [] /\ length tr = length acts /\ forall row, In row tr -> length row = length obs in
  (~ rectangular -> mk_policy acts obs tr vals start init = Err EAssert) /\
  (rectangular -> mk_policy acts obs tr vals None None = Err EValue) /\
  (forall i, rectangular -> (Z.of_nat (length acts) <= i)%Z -> mk_policy acts obs tr vals start (Some i) = Err EAssert).
Proof.
  intros acts obs tr vals start init rect. set (b := negb (Nat.eqb (length tr) 0) && Nat.eqb (length tr) (length acts) && forallb (fun r => Nat.eqb (length r) (length obs)) tr).
  assert (HB : b = true <-> rect).
  { subst b rect. rewrite !andb_true_iff, negb_true_iff, Nat.eqb_neq, Nat.eqb_eq, forallb_forall. split.
    - intros [[H1 H2] H3]. split; [intros ->; apply H1; reflexivity|]. split; [auto|]. intros r Hr. apply Nat.eqb_eq. auto.
    - intros (H1 & H2 & H3). split; [split; [destruct tr; [congruence|discriminate]|auto]|]. intros r Hr. apply Nat.eqb_eq. auto. }
  unfold mk_policy. fold b. split; [|split].
  - intros N. destruct b; [destruct N; tauto|reflexivity].
  - intros R. destruct b; [reflexivity|]. apply HB in R. discriminate.
  - intros i R L. destruct b; [|apply HB in R; discriminate]. cbn [negb]. destruct (Z.ltb_spec i (Z.of_nat (length acts))); [lia|reflexivity].
Qed.
Print Assumptions C83_refused.
Example C83_ex_refused : mk_policy [NStr "a"] [NInt 0] [[Some 0%Z]] [[0]]%Q None None = Err EValue /\ mk_policy [NStr "a"] [NInt 0] [[Some 0%Z]; [Some 0%Z]] [[0]]%Q None (Some 0%Z) = Err EAssert.
Proof. vm_compute. auto. Qed.
Example C83_ex : shaped ex_policy /\ exists g, mk_policy [NStr "a"] [NInt 0] [[Some 0%Z]] [[0]; [1]]%Q (Some [1]%Q) None = Ok g /\ g_init g = 1%Z /\ gr_action g (Some (g_init g)) = Err EIndex.
Proof. split; [apply C52_ex|]. eexists. split; [vm_compute; reflexivity|]. split; reflexivity. Qed.
