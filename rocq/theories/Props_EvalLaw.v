(** C112: an evaluation of a policy on a supportive task follows the law of the task. *)
From Verif Require Import QBase PyBase HtmModel HtmSpec DagModel DagSpec PomdpModel CodecModel CodecSpec SuppModel SuppSpec SuppProofs SuppProofs3 SuppProofs4 Props_Supp EvalModel EvalSpec EvalProofs Props_Eval LawSpec LawProofs
  SuppLawModel SuppLawSpec SuppLawProofs Props_SuppLaw RunProofs JobModel JobProofs EvalLawSpec EvalLawProofs.
From Coq Require Import Lia Lqa.
Import HtmSpec.
Local Open Scope list_scope.
Local Open Scope nat_scope.

Lemma numbers_is_space sp si no np nc : is_space sp -> is_space si -> is_space (numbers_space sp si no np nc).
Proof.
  intros Hs Hi. assert (K : is_space (pairs (tapes sp no) (pairs (tapes sp np) (pairs sp (pairs si (tapes sp nc)))))) by (repeat apply pairs_space; auto; apply tapes_space; auto).
  destruct K as [K1 K2]. split.
  - intros q w I. apply in_map_iff in I. destruct I as ([q' w'] & E & I'). cbn [fst snd] in E. assert (q' = q) as <- by congruence. eauto.
  - unfold numbers_space. rewrite sum_map. cbn [fst]. exact K2.
Qed.

Section C112.
  Variables (cf : config) (pr : probabilities) (ordn : list nat -> list nat) (t : stree) (m : spomdp) (nodes : list stree) (succs : list (list nat)) (init : list nat) (ps : list sparams)
    (sp : space Q) (si : space nat) (K nc : nat) (P : Type) (pol : epolicy P) (Inv : P -> Prop) (act : P -> robot) (nxt : P -> string -> P) (p p0 : P) (disc : Q) (H : Z) (b : bool) (N : nat) (dflt : numbers).
  (** A task, random numbers that are uniform and independent, and a policy *)
  Hypothesis Ho : is_order ordn.
  Hypothesis E : mk_supportive ordn t = Ok m.
  Hypothesis Ed : htm_to_dag ordn t = Ok (nodes, succs, init).
  Hypothesis Ep : mapM action_params nodes = Ok ps.
  Hypothesis Hc : 1 <= cf_preferences cf.
  Hypothesis Hpf : length (p_preferences pr) = cf_preferences cf.
  Hypothesis Hs : is_space sp.
  Hypothesis Hi : is_space si.
  Hypothesis Hu : uniform sp (fun x => x) (supp_marks pr).
  Hypothesis Hf : fair si (fun x => x) K.
  Hypothesis HK : forall l, In l succs -> length l <= K.
  Hypothesis HKi : length init <= K.
  Hypothesis Hn : forall q, In q ps -> length (sp_conditions q) <= nc.
  Hypothesis Hpol : behaves m pol Inv act nxt.
  Hypothesis Hreset : ep_reset pol p = Ok p0.
  Hypothesis Hp0 : Inv p0.
  Hypothesis HN : Z.to_nat H <= N.

  (** All the numbers drawn in an evaluation, and the evaluation made with them *)
  Local Notation numbers := (numbers_space sp si (length (objects m)) (cf_preferences cf) nc).
  Local Notation evaluation y :=
    (simulate_one_evaluation (model_is_final cf m) (drawn_model cf m pr disc (fst y) (fun k => nth k (snd y) dflt)) pol p H b).
  Local Notation gamma := (if b then disc else 1%Q).
  Local Notation first := (start_law pr init (objects m)).

  Lemma laws_ok : (forall c, In c (supp_marks pr) -> (0 <= c <= 1)%Q) /\ length succs = length ps /\ (forall i l j, nth_error succs i = Some l -> In j l -> j < length ps) /\ (init <> [] /\ forall i, In i init -> i < length ps).
  Proof using Ho E Ed Ep Hs Hu.
    destruct (mk_facts _ _ _ Ho E) as (nodes' & succs' & init' & ps' & Ed' & B & D). rewrite Ed in Ed'. assert (nodes' = nodes /\ succs' = succs /\ init' = init) as (-> & -> & ->) by (repeat split; congruence).
    destruct D as (D1 & D2 & D3 & D4). assert (L : length ps = length nodes) by (clear -Ep; revert ps Ep; induction nodes as [|x l IH]; intros ps Ep; cbn [mapM] in Ep; [assert (ps = []) as -> by congruence; reflexivity|]; destruct (action_params x) as [y|]; cbn [bind] in Ep; [|discriminate]; destruct (mapM action_params l) as [ys|]; cbn [bind] in Ep; [|discriminate]; assert (ps = y :: ys) as -> by congruence; cbn [length]; rewrite (IH ys eq_refl); reflexivity). rewrite L.
    split; [|split; [exact D1|split; [intros i l j H1 H2; apply (D4 i l j H1 H2)|split; assumption]]].
    intros c Ic. destruct Hu as [_ U]. rewrite <- (U c Ic). apply prob_bounds. exact Hs.
  Qed.

  (** The law of the episodes is one: probabilities are at least 0 and their sum is 1. *)
  Theorem C112_space : is_space (from_start cf pr ps succs init (objects m) P act nxt (Z.to_nat H) p0).
  Proof using Ho E Ed Ep Hs Hu.
    destruct laws_ok as (L1 & L2 & L3 & L4). unfold from_start. apply (proj1 (sound_next _ _ _ (fun _ => True) (sound_start pr ps init (objects m) L1 L4)
      (fun w Hw => sound_next _ _ _ (fun _ => True) (sound_episodes cf pr ps succs (objects m) L1 L2 L3 act nxt _ p0 w (proj1 Hw)) (fun l _ => sound_certain (w, l) (fun _ => True) I)))).
  Qed.

  (** The evaluation never raises. *)
  Theorem C112_total : forall y, exists rec q, evaluation y = Ok (rec, q).
  Proof using Ho E Hc Hpol Hreset Hp0.
    intros [x0 xs]. cbn [fst snd]. destruct (simulate_drawn cf m pr disc x0 (fun k => nth k xs dflt) P pol p H b) as (ds & _ & ->).
    destruct (C70_supportive cf ordn t m disc (start_draws pr x0) ds P pol Inv p p0 H b Ho E Hc) as (rec & q & R & _); eauto.
    intros p1 I1. destruct (Hpol p1 I1) as (p2 & A1 & A2 & A3). exists (robot_name (act p1)), p2. split; [exact A1|]. split; [exact A2|]. intros ob Io. destruct (A3 ob Io). eauto.
  Qed.

  (** Whatever is computed from the record of the evaluation has the expectation of what it tells. *)
  Theorem C112_law : forall G F, (forall rec w l, tells cf m gamma rec w l -> (G rec == F w l)%Q) ->
    (mean (pairs numbers (tapes numbers N)) (fun y => match evaluation y with Ok (rec, _) => G rec | Err _ => 0 end) ==
     mean (from_start cf pr ps succs init (objects m) P act nxt (Z.to_nat H) p0) (fun e => F (fst e) (snd e)))%Q.
  Proof using Ho E Ed Ep Hc Hpf Hs Hi Hu Hf HK HKi Hn Hpol Hreset Hp0 HN.
    intros G F HG. rewrite mean_pairs. unfold from_start. rewrite mean_next.
    assert (Hd : is_space numbers) by (apply numbers_is_space; auto).
    set (f := fun s => mean (tapes numbers N) (fun tp => out G (eval_loop (model_is_final cf m) (drawn_model cf m pr disc dflt (fun i => nth (i - 0) tp dflt)) pol gamma (Z.to_nat H) 0 (fo_init H) p0 s [] [] [] [] 0%Q))).
    transitivity (mean numbers (fun x => match drawn_start cf m pr x with Ok s => f s | Err _ => 0%Q end)).
    { apply mean_ext. intros q x _. destruct (drawn_start cf m pr x) as [s|e] eqn:Es.
      - unfold f. apply mean_ext. intros q' tp _. cbn [fst snd]. unfold simulate_one_evaluation. rewrite Hreset. cbn [bind em_start em_discount drawn_model]. rewrite Es. cbn [bind]. unfold out.
        rewrite (loop_same (model_is_final cf m) (drawn_model cf m pr disc x (fun k => nth k tp dflt)) (drawn_model cf m pr disc dflt (fun i => nth (i - 0) tp dflt))); [reflexivity|reflexivity|reflexivity|].
        intros j a' y _. cbn [em_transition drawn_model]. rewrite Nat.sub_0_r. reflexivity.
      - rewrite <- (mean_const (tapes numbers N) 0%Q (tapes_space _ _ Hd)). apply mean_ext. intros q' tp _. cbn [fst snd]. unfold simulate_one_evaluation. rewrite Hreset. cbn [bind em_start em_discount drawn_model]. rewrite Es. reflexivity. }
    apply (C100_start cf pr ordn t m nodes succs init sp si K nc f _ Ho E Ed Hpf Hs Hi Hu Hf HKi).
    intros s w Hr. rewrite mean_next. transitivity (mean (episodes cf pr ps succs (objects m) P act nxt (Z.to_nat H) p0 w) (F w)); [|apply mean_ext; intros q l _; symmetry; exact (mean_certain (w, l) (fun e => F (fst e) (snd e)))].
    unfold f. apply (loop_law cf pr ordn t m nodes succs init ps sp si K nc Ho E Ed Ep Hc Hs Hi Hu Hf HK Hn pol Inv act nxt Hpol disc gamma dflt dflt Hd); auto; try (destruct H; reflexivity).
    intros steps l q HF Hq. apply HG. exists s, steps. cbn [r_states r_actions r_observations r_rewards r_return rev app]. do 4 (split; [reflexivity|]). split; [exact Hr|]. split; [exact HF|]. rewrite Hq. apply horner_discounted.
  Qed.

  (** The expected value that an evaluation returns, when it does not discount *)
  Theorem C112_return : (gamma == 1)%Q ->
    (mean (pairs numbers (tapes numbers N)) (fun y => match evaluation y with Ok (rec, _) => r_return rec | Err _ => 0 end) ==
     mean first (expected_sum cf pr ps succs (objects m) P act nxt (Z.to_nat H) p0))%Q.
  Proof using Ho E Ed Ep Hc Hpf Hs Hi Hu Hf HK HKi Hn Hpol Hreset Hp0 HN.
    intros G1. destruct laws_ok as (L1 & L2 & L3 & L4). rewrite (C112_law r_return (fun _ l => sumQ (map m_reward l))).
    - unfold from_start. rewrite mean_next. apply mean_ext. intros q w I. rewrite mean_next.
      destruct (proj2 (sound_start pr ps init (objects m) L1 L4) q w I) as [Hw _].
      transitivity (mean (episodes cf pr ps succs (objects m) P act nxt (Z.to_nat H) p0 w) (fun l => 0 + sumQ (map m_reward l))%Q).
      { apply mean_ext. intros q' l _. rewrite mean_certain. cbn [snd]. ring. }
      rewrite (sum_episodes cf pr ps succs (objects m) L1 L2 L3 act nxt _ _ _ _ Hw). ring.
    - intros rec w l (s0 & steps & _ & _ & _ & _ & _ & _ & R). rewrite R.
      assert (D1 : forall rs, (discounted gamma rs == sumQ rs)%Q).
      { induction rs as [|r rs IH]; [reflexivity|]. cbn [discounted]. rewrite IH, G1. change (sumQ (r :: rs)) with (r + sumQ rs)%Q. ring. }
      rewrite D1. assert (forall rs, (sumQ (rev rs) == sumQ rs)%Q) as ->; [|reflexivity].
      induction rs as [|r rs IH]; [reflexivity|]. cbn [rev]. unfold sumQ in *. rewrite sum_app, IH, !sum_cons. change (sum_over (@nil Q) (fun x => x)) with 0%Q. ring.
  Qed.

  (** The chance that an evaluation finishes the task *)
  Theorem C112_finish :
    (mean (pairs numbers (tapes numbers N)) (fun y => match evaluation y with Ok (rec, _) => if existsb (model_is_final cf m) (r_states rec) then 1 else 0 | Err _ => 0 end) ==
     mean first (finish_chance cf pr ps succs (objects m) P act nxt (Z.to_nat H) p0))%Q.
  Proof using Ho E Ed Ep Hc Hpf Hs Hi Hu Hf HK HKi Hn Hpol Hreset Hp0 HN.
    destruct laws_ok as (L1 & L2 & L3 & L4).
    rewrite (C112_law (fun rec => if existsb (model_is_final cf m) (r_states rec) then 1%Q else 0%Q) (fun w l => if match w_stage w with Finished => true | _ => false end || ends l then 1%Q else 0%Q)).
    - unfold from_start. rewrite mean_next. apply mean_ext. intros q w I. rewrite mean_next.
      destruct (proj2 (sound_start pr ps init (objects m) L1 L4) q w I) as [Hw Nf].
      rewrite <- (finish_episodes cf pr ps succs (objects m) L1 L2 L3 act nxt _ _ _ Hw). apply mean_ext. intros q' l _. rewrite mean_certain. cbn [fst snd]. destruct (w_stage w); [reflexivity|reflexivity|congruence].
    - intros rec w l (s0 & steps & R1 & _ & _ & _ & R2 & R3 & _). rewrite R1. cbn [existsb].
      assert (Fi : forall s w', reads cf m s w' -> model_is_final cf m s = match w_stage w' with Finished => true | _ => false end).
      { intros s w' Hr. pose proof (final_iff cf m s w' Hr) as Q1. destruct (model_is_final cf m s); destruct (w_stage w'); auto; try (destruct Q1 as [Q1 _]; specialize (Q1 eq_refl); discriminate). destruct Q1 as [_ Q1]. specialize (Q1 eq_refl). discriminate. }
      rewrite (Fi _ _ R2). assert (existsb (model_is_final cf m) (map s_state steps) = ends l) as ->; [|reflexivity].
      clear -R3 Fi. induction R3 as [|x y xs l Hxy _ IH]; [reflexivity|]. cbn [map existsb]. unfold ends in *. cbn [existsb]. rewrite IH. destruct Hxy as (_ & _ & _ & Hr). rewrite (Fi _ _ Hr). reflexivity.
  Qed.
End C112.
Print Assumptions C112_space.
Print Assumptions C112_total.
Print Assumptions C112_law.
Print Assumptions C112_return.
Print Assumptions C112_finish.

(** A policy that holds first and then waits, on the task of Props_Supp, with draws that are uniform: the hypotheses hold. *)
Definition ex_holder : epolicy bool :=
  {| ep_reset := fun _ => Ok true; ep_action := fun p => Ok (robot_name (if p then HoldH else Wait), p); ep_step := fun _ _ => Ok false |}.
Definition ex_init : list nat := match htm_to_dag (fun l => l) ex_task with Ok (_, _, i) => i | Err _ => [] end.
Example C112_ex : exists nodes, is_order (fun l : list nat => l) /\ mk_supportive (fun l => l) ex_task = Ok ex_model /\ htm_to_dag (fun l => l) ex_task = Ok (nodes, [[1; 2]; []; []], ex_init) /\
  mapM action_params nodes = Ok ex_leaves /\ 1 <= cf_preferences default_config /\ length (p_preferences class_probabilities) = cf_preferences default_config /\
  is_space (grid 100) /\ is_space (dice 2) /\ uniform (grid 100) (fun x => x) (supp_marks class_probabilities) /\ fair (dice 2) (fun x => x) 2 /\
  (forall l, In l [[1; 2]; []; []] -> length l <= 2) /\ length ex_init <= 2 /\ (forall q, In q ex_leaves -> length (sp_conditions q) <= 2) /\
  behaves ex_model ex_holder (fun _ => True) (fun p => if p then HoldH else Wait) (fun _ _ => false) /\ ep_reset ex_holder false = Ok true.
Proof.
  destruct C100_ex_draws as (X1 & X2 & X3 & X4). eexists. split; [intros l; reflexivity|]. split; [exact ex_model_built|]. split; [vm_compute; reflexivity|]. split; [vm_compute; reflexivity|].
  split; [vm_compute; lia|]. split; [reflexivity|]. split; [exact X1|]. split; [exact X2|]. split; [exact X3|]. split; [exact X4|]. split; [intros l [<-|[<-|[<-|[]]]]; cbn; lia|].
  split; [vm_compute; lia|]. split; [intros p [<-|[<-|[<-|[]]]]; cbn; lia|]. split; [|reflexivity].
  intros p _. exists p. split; [reflexivity|]. split; [destruct p; vm_compute; auto|]. intros ob _. split; [reflexivity|exact I].
Qed.
(** The reward that is expected of its first moment, from a given world *)
Example C112_ex_value : (expected_sum default_config class_probabilities ex_leaves [[1; 2]; []; []]%nat (objects ex_model) bool (fun p => if p then HoldH else Wait) (fun _ _ => false) 1%nat true ex_world == 2949 # 1000)%Q.
Proof. apply Qeq_bool_iff. vm_compute. reflexivity. Qed.
