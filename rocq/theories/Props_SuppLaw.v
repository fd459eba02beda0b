(** C100: the probabilities of the supportive simulator. *)
From Verif Require Import QBase PyBase PyBaseFacts HtmModel HtmSpec HtmProofs DagModel DagSpec DagProofs CodecModel CodecSpec CodecProofs SuppModel SuppSpec SuppProofs SuppProofs2 SuppProofs3 SuppProofs4 Props_Supp PomdpModel LawSpec LawProofs SuppLawModel SuppLawSpec SuppLawProofs.
From Coq Require Import Lia Lqa Field Factorial.
Import HtmSpec.
Local Open Scope list_scope.
Local Open Scope nat_scope.

(** Draws that are uniform for the simulator exist, whatever its probabilities. *)
Theorem C100_draws : forall pr K, (forall c, In c ([p_fail pr; p_consume_all pr; p_changed_by_human pr; p_change_preference pr] ++ p_preferences pr) -> 0 <= c <= 1)%Q ->
  exists sp si, is_space sp /\ is_space si /\ uniform sp (fun x => x) (supp_marks pr) /\ fair si (fun x => x) K.
Proof.
  intros pr K Hp. destruct (grid_uniform (supp_marks pr)) as (n & Hn & U).
  - intros c Hc. unfold supp_marks in Hc. apply in_app_or in Hc. destruct Hc as [Hc|Hc]; [|apply Hp, in_or_app; auto].
    cbn [In] in Hc. destruct Hc as [<-|[<-|[<-|[<-|[<-|[<-|[<-|[]]]]]]]]; first [solve [apply Hp; cbn; auto 10] | split; lra].
  - exists (grid (1 * n)), (dice (fact K)). split; [apply grid_space; lia|]. split; [apply dice_space, lt_O_fact|]. split; [apply U; lia|apply dice_fair].
Qed.
Print Assumptions C100_draws.

(** A step, for independent uniform draws: the expected value of anything that can be computed from the new
    state, the observation and the reward is what the law of the documentation gives. *)
Theorem C100_step : forall cf pr ordn t m nodes succs init ps sp si K nc random a act s w f g,
  is_order ordn -> mk_supportive ordn t = Ok m -> htm_to_dag ordn t = Ok (nodes, succs, init) -> mapM action_params nodes = Ok ps ->
  1 <= cf_preferences cf ->
  is_space sp -> is_space si -> uniform sp (fun x => x) (supp_marks pr) -> fair si (fun x => x) K ->
  (forall l, In l succs -> length l <= K) -> (forall p, In p ps -> length (sp_conditions p) <= nc) ->
  (0 <= a)%Z -> nth_error (actions m) (Z.to_nat a) = Some (robot_name act) -> reads cf m s w -> agree cf m f g ->
  (mean (numbers_space sp si (length (objects m)) (cf_preferences cf) nc)
     (fun x => match drawn_transition cf m pr x random a s with Ok (s', o, r) => f s' o r | Err _ => 0 end) ==
   mean (step_law cf pr ps succs (objects m) random w act) (fun e => g (fst (fst e)) (snd (fst e)) (snd e)))%Q.
Proof.
  intros cf pr ordn t m nodes succs init ps sp si K nc random a act s w f g Ho E Ed Ep Hc Hs Hi Hu Hf HK Hn Ha Hact Hr HA.
  destruct (mk_facts _ _ _ Ho E) as [nodes' [succs' [init' [ps' (Ed' & B & D)]]]]. rewrite Ed in Ed'. inversion Ed'; subst nodes' succs' init'.
  assert (ps' = ps) as -> by (pose proof (b_params _ _ _ _ _ B); congruence).
  exact (transition_law cf m _ _ _ _ B D pr sp si K Hs Hi Hu Hf nc f g Hc Hn HK HA a act random s w (conj Ha Hact) Hr).
Qed.
Print Assumptions C100_step.

(** A start *)
Theorem C100_start : forall cf pr ordn t m nodes succs init sp si K nc f g,
  is_order ordn -> mk_supportive ordn t = Ok m -> htm_to_dag ordn t = Ok (nodes, succs, init) ->
  length (p_preferences pr) = cf_preferences cf ->
  is_space sp -> is_space si -> uniform sp (fun x => x) (supp_marks pr) -> fair si (fun x => x) K -> length init <= K ->
  (forall s w, reads cf m s w -> (f s == g w)%Q) ->
  (mean (numbers_space sp si (length (objects m)) (cf_preferences cf) nc)
     (fun x => match drawn_start cf m pr x with Ok s => f s | Err _ => 0 end) ==
   mean (start_law pr init (objects m)) g)%Q.
Proof.
  intros cf pr ordn t m nodes succs init sp si K nc f g Ho E Ed Hc Hs Hi Hu Hf HK HA.
  destruct (mk_facts _ _ _ Ho E) as [nodes' [succs' [init' [ps' (Ed' & B & D)]]]]. rewrite Ed in Ed'. inversion Ed'; subst nodes' succs' init'.
  exact (start_law_ok cf m _ _ _ _ B D pr sp si K Hs Hi Hu Hf nc f g HK Hc HA).
Qed.
Print Assumptions C100_start.

(** Every function of the new state, the observation and the reward is one that the theorems speak about. *)
Theorem C100_tests : forall cf m (f : Z -> nat -> Q -> Q), (forall s o r r', (r == r')%Q -> (f s o r == f s o r')%Q) ->
  exists g, agree cf m f g.
Proof.
  intros cf m f Hf.
  exists (fun w ob r => f (encode (feat m w)) (match index_of String.eqb ob observations with Some o => o | None => 0 end) r).
  intros s w o ob r r' Hr Ho E. apply reads_rep in Hr. destruct Hr as (_ & _ & Hst). change (st (int_to_state cf m s)) with s in Hst. rewrite <- Hst.
  assert (index_of String.eqb ob observations = Some o) as ->.
  { do 5 (destruct o as [|o]; [cbn in Ho; inversion Ho; reflexivity|]). destruct o; discriminate Ho. }
  apply Hf. exact E.
Qed.
Print Assumptions C100_tests.

(** *** Readings of the law *)
Lemma coin_total p : (mean (coin p) (fun _ => 1) == 1)%Q.
Proof. rewrite mean_coin. ring. Qed.
Lemma coin_map p (F : bool -> Q) b : (mean (coin p) (fun c => F (if c then negb b else b)) == p * F (negb b) + (1 - p) * F b)%Q.
Proof. rewrite mean_coin. reflexivity. Qed.
Lemma moved_const p objs : forall h c, (mean (moved p objs h) (fun _ => c) == c)%Q.
Proof.
  induction objs as [|o t IH]; intros h c; cbn [moved]; [apply mean_certain|]. rewrite mean_next. rewrite mean_coin, !IH. ring.
Qed.
Lemma moved_other p objs o (F : bool -> Q) : forall h, ~ In o objs -> (mean (moved p objs h) (fun h' => F (h' o)) == F (h o))%Q.
Proof.
  induction objs as [|o' t IH]; intros h Hn; cbn [moved]; [apply (mean_certain h (fun h' => F (h' o)))|]. rewrite mean_next, mean_coin.
  rewrite !IH by (intros H; apply Hn; right; exact H). unfold put. destruct (String.eqb_spec o o') as [->|]; [exfalso; apply Hn; left; reflexivity|]. ring.
Qed.
Lemma moved_marginal p objs o (F : bool -> Q) : NoDup objs -> In o objs -> forall h,
  (mean (moved p objs h) (fun h' => F (h' o)) == p * F (negb (h o)) + (1 - p) * F (h o))%Q.
Proof.
  induction objs as [|o' t IH]; intros Hn Hin h; [destruct Hin|]. inversion Hn; subst. cbn [moved]. rewrite mean_next, mean_coin.
  destruct (String.eqb_spec o o') as [->|Hne].
  - rewrite !moved_other by assumption. unfold put. rewrite String.eqb_refl. reflexivity.
  - destruct Hin as [->|Hin]; [contradiction|]. rewrite !IH by assumption. unfold put. rewrite (proj2 (String.eqb_neq o o') Hne). ring.
Qed.
Lemma changed_const p l : forall c, (mean (changed p l) (fun _ => c) == c)%Q.
Proof.
  induction l as [|b t IH]; intros c; cbn [changed]; [apply mean_certain|]. rewrite mean_next, mean_coin, !mean_next.
  assert (H : forall b', (mean (changed p t) (fun a => mean (certain (b' :: a)) (fun _ => c)) == c)%Q).
  { intros b'. etransitivity; [|apply (IH c)]. apply mean_ext. intros; apply mean_certain. }
  rewrite !H. ring.
Qed.
Lemma changed_marginal p : forall l i b (F : bool -> Q), nth_error l i = Some b ->
  (mean (changed p l) (fun l' => F (nth i l' false)) == p * F (negb b) + (1 - p) * F b)%Q.
Proof.
  induction l as [|b0 t IH]; intros i b F Hi; [destruct i; discriminate|]. cbn [changed]. rewrite mean_next, mean_coin, !mean_next. destruct i as [|i].
  - cbn in Hi. inversion Hi; subst b0.
    assert (H : forall b', (mean (changed p t) (fun a => mean (certain (b' :: a)) (fun l' => F (nth 0 l' false))) == F b')%Q).
    { intros b'. etransitivity; [|apply (changed_const p t (F b'))]. apply mean_ext. intros q a _. apply (mean_certain (b' :: a) (fun l' => F (nth 0 l' false))). }
    rewrite !H. reflexivity.
  - assert (H : forall b', (mean (changed p t) (fun a => mean (certain (b' :: a)) (fun l' => F (nth (S i) l' false))) == p * F (negb b) + (1 - p) * F b)%Q).
    { intros b'. etransitivity; [|apply (IH i b F Hi)]. apply mean_ext. intros q a _. apply (mean_certain (b' :: a) (fun l' => F (nth (S i) l' false))). }
    rewrite !H. ring.
Qed.

(** The law of a question *)
Lemma ask_law cf pr ps succs objs w (G : world -> string -> Q) :
  (mean (step_law cf pr ps succs objs true w Ask) (fun e => G (fst (fst e)) (snd (fst e))) ==
   mean (moved (p_changed_by_human pr) objs (w_has w)) (fun h => mean (changed (p_change_preference pr) (w_prefs w)) (fun l =>
     let w1 := {| w_stage := w_stage w; w_prefs := l; w_holding := w_holding w; w_has := h |} in
     if wants_hold w1 then (9 # 10) * G w1 "yes"%string + (1 - (9 # 10)) * G w1 "none"%string
     else (95 # 100) * G w1 "no"%string + (1 - (95 # 100)) * G w1 "none"%string)))%Q.
Proof.
  unfold step_law, spontaneous. rewrite !mean_next. apply mean_ext. intros q h _. rewrite mean_next. apply mean_ext. intros q1 l _. rewrite mean_certain.
  cbv zeta. set (w1 := {| w_stage := w_stage w; w_prefs := l; w_holding := w_holding w; w_has := h |}). cbn [action_law]. rewrite mean_next, mean_coin, !mean_certain. cbn [fst snd].
  destruct (wants_hold w1); reflexivity.
Qed.

Section Ask.
  Context (cf : config) (pr : probabilities) (ordn : list nat -> list nat) (t : stree) (m : spomdp) (nodes : list stree) (succs : list (list nat))
    (init : list nat) (ps : list sparams) (sp : space Q) (si : space nat) (K nc : nat) (s : Z) (w : world).
  Context (Ho : is_order ordn) (E : mk_supportive ordn t = Ok m) (Ed : htm_to_dag ordn t = Ok (nodes, succs, init)) (Ep : mapM action_params nodes = Ok ps)
    (Hc : 1 <= cf_preferences cf) (Hs : is_space sp) (Hi : is_space si) (Hu : uniform sp (fun x => x) (supp_marks pr)) (Hf : fair si (fun x => x) K)
    (HK : forall l, In l succs -> length l <= K) (Hn : forall p, In p ps -> length (sp_conditions p) <= nc) (Hr : reads cf m s w).

  Lemma ask_event (P : Z -> nat -> bool) (R : world -> string -> bool) :
    (forall s' w' o ob, reads cf m s' w' -> nth_error observations o = Some ob -> P s' o = R w' ob) ->
    (prob (numbers_space sp si (length (objects m)) (cf_preferences cf) nc)
       (fun x => match drawn_transition cf m pr x true 3 s with Ok (s', o, _) => P s' o | Err _ => false end) ==
     mean (step_law cf pr ps succs (objects m) true w Ask) (fun e => if R (fst (fst e)) (snd (fst e)) then 1 else 0))%Q.
  Proof.
    intros HP. rewrite <- (C100_step cf pr ordn t m nodes succs init ps sp si K nc true 3 Ask s w (fun s' o _ => if P s' o then 1 else 0)%Q
                             (fun w' ob _ => if R w' ob then 1 else 0)%Q Ho E Ed Ep Hc Hs Hi Hu Hf HK Hn ltac:(lia) eq_refl Hr).
    - unfold prob. apply mean_ext. intros q x _. destruct (drawn_transition cf m pr x true 3 s) as [[[s' o] r]|]; reflexivity.
    - intros s' w' o ob r r' H1 H2 _. rewrite (HP s' w' o ob H1 H2). reflexivity.
  Qed.
End Ask.

(** A question is answered in 9 cases out of 10 by a human who wants help and in 95 out of 100 by one who does
    not, given that they have not just changed their mind. *)
Theorem C100_ask : forall cf pr ordn t m nodes succs init ps sp si K nc s w,
  is_order ordn -> mk_supportive ordn t = Ok m -> htm_to_dag ordn t = Ok (nodes, succs, init) -> mapM action_params nodes = Ok ps ->
  1 <= cf_preferences cf ->
  is_space sp -> is_space si -> uniform sp (fun x => x) (supp_marks pr) -> fair si (fun x => x) K ->
  (forall l, In l succs -> length l <= K) -> (forall p, In p ps -> length (sp_conditions p) <= nc) -> reads cf m s w ->
  let answers ob := prob (numbers_space sp si (length (objects m)) (cf_preferences cf) nc)
    (fun x => match drawn_transition cf m pr x true 3 s with Ok (_, o, _) => String.eqb (nth o observations ""%string) ob | Err _ => false end) in
  let wish := (if wants_hold w then 1 - p_change_preference pr else p_change_preference pr)%Q in
  (answers "yes"%string == wish * (9 # 10) /\ answers "no"%string == (1 - wish) * (95 # 100))%Q.
Proof.
  intros cf pr ordn t m nodes succs init ps sp si K nc s w Ho E Ed Ep Hc Hs Hi Hu Hf HK Hn Hr answers wish.
  assert (HP : nth_error (w_prefs w) 0 = Some (wants_hold w)).
  { destruct Hr as (_ & _ & _ & HL & _). unfold wants_hold. destruct (w_prefs w) as [|b l]; [cbn in HL; lia|reflexivity]. }
  assert (HA : forall ob, (answers ob == mean (changed (p_change_preference pr) (w_prefs w)) (fun l =>
      (fun b : bool => if b then (9 # 10) * (if String.eqb "yes" ob then 1 else 0) + (1 - (9 # 10)) * (if String.eqb "none" ob then 1 else 0)
       else (95 # 100) * (if String.eqb "no" ob then 1 else 0) + (1 - (95 # 100)) * (if String.eqb "none" ob then 1 else 0)) (nth 0 l false)))%Q).
  { intros ob. unfold answers.
    rewrite (ask_event cf pr ordn t m nodes succs init ps sp si K nc s w Ho E Ed Ep Hc Hs Hi Hu Hf HK Hn Hr (fun _ o => String.eqb (nth o observations ""%string) ob) (fun _ ob' => String.eqb ob' ob)).
    - rewrite (ask_law cf pr ps succs (objects m) w (fun _ ob' => if String.eqb ob' ob then 1 else 0)%Q).
      etransitivity; [|apply (moved_const (p_changed_by_human pr) (objects m) (w_has w))]. apply mean_ext. intros q h _. reflexivity.
    - intros s' w' o ob' _ Hob. rewrite (nth_error_nth _ _ _ Hob). reflexivity. }
  split; rewrite HA; cbv beta; cbn [String.eqb Ascii.eqb Bool.eqb];
    match goal with |- (mean _ (fun l => @?F l) == _)%Q => idtac end.
  - rewrite (changed_marginal (p_change_preference pr) (w_prefs w) 0 (wants_hold w) (fun b : bool => if b then (9 # 10) * 1 + (1 - (9 # 10)) * 0 else (95 # 100) * 0 + (1 - (95 # 100)) * 0)%Q HP).
    unfold wish. destruct (wants_hold w); cbn [negb]; ring.
  - rewrite (changed_marginal (p_change_preference pr) (w_prefs w) 0 (wants_hold w) (fun b : bool => if b then (9 # 10) * 0 + (1 - (9 # 10)) * 0 else (95 # 100) * 1 + (1 - (95 # 100)) * 0)%Q HP).
    unfold wish. destruct (wants_hold w); cbn [negb]; ring.
Qed.
Print Assumptions C100_ask.

(** Each object and each preference changes on its own with its probability: what a question, that changes
    nothing, leaves. *)
Theorem C100_drift : forall cf pr ordn t m nodes succs init ps sp si K nc s w,
  is_order ordn -> mk_supportive ordn t = Ok m -> htm_to_dag ordn t = Ok (nodes, succs, init) -> mapM action_params nodes = Ok ps ->
  1 <= cf_preferences cf ->
  is_space sp -> is_space si -> uniform sp (fun x => x) (supp_marks pr) -> fair si (fun x => x) K ->
  (forall l, In l succs -> length l <= K) -> (forall p, In p ps -> length (sp_conditions p) <= nc) -> reads cf m s w ->
  let chance_of (event : sstate -> bool) := prob (numbers_space sp si (length (objects m)) (cf_preferences cf) nc)
    (fun x => match drawn_transition cf m pr x true 3 s with Ok (s', _, _) => event (int_to_state cf m s') | Err _ => false end) in
  (forall i, i < length (objects m) -> (chance_of (fun y => negb (Z.eqb (has_object y i) (has_object (int_to_state cf m s) i))) == p_changed_by_human pr)%Q) /\
  (forall i, i < cf_preferences cf -> (chance_of (fun y => negb (Z.eqb (has_preference y i) (has_preference (int_to_state cf m s) i))) == p_change_preference pr)%Q).
Proof.
  intros cf pr ordn t m nodes succs init ps sp si K nc s w Ho E Ed Ep Hc Hs Hi Hu Hf HK Hn Hr chance_of.
  assert (HQ : forall (F : world -> Q) (b : bool) w1, ((if b then (9 # 10) * F w1 + (1 - (9 # 10)) * F w1 else (95 # 100) * F w1 + (1 - (95 # 100)) * F w1) == F w1)%Q) by (intros; destruct b; ring).
  pose proof Hr as (R1 & R2 & R3 & R4 & R5 & R6 & R7).
  assert (Hb : forall b b', Z.eqb (Z.b2z b) (Z.b2z b') = Bool.eqb b b') by (intros [] []; reflexivity).
  split.
  - intros i Hlt. destruct (nth_error (objects m) i) as [o|] eqn:Eo; [|apply nth_error_None in Eo; lia]. unfold chance_of.
    rewrite (ask_event cf pr ordn t m nodes succs init ps sp si K nc s w Ho E Ed Ep Hc Hs Hi Hu Hf HK Hn Hr
              (fun s' _ => negb (Z.eqb (has_object (int_to_state cf m s') i) (has_object (int_to_state cf m s) i))) (fun w' _ => negb (Bool.eqb (w_has w' o) (w_has w o)))).
    + rewrite (ask_law cf pr ps succs (objects m) w (fun w' _ => if negb (Bool.eqb (w_has w' o) (w_has w o)) then 1 else 0)%Q).
      transitivity (mean (moved (p_changed_by_human pr) (objects m) (w_has w)) (fun h => (fun b => if negb (Bool.eqb b (w_has w o)) then 1 else 0)%Q (h o))).
      * apply mean_ext. intros q h _. etransitivity; [|apply (changed_const (p_change_preference pr) (w_prefs w))]. apply mean_ext. intros q1 l _. cbv zeta.
        rewrite (HQ (fun w' => if negb (Bool.eqb (w_has w' o) (w_has w o)) then 1 else 0)%Q). reflexivity.
      * rewrite (moved_marginal (p_changed_by_human pr) (objects m) o (fun b => if negb (Bool.eqb b (w_has w o)) then 1 else 0)%Q).
        -- destruct (w_has w o); cbn; ring.
        -- destruct (C32_names _ _ _ Ho E) as (_ & _ & H & _). exact H.
        -- eapply nth_error_In; eauto.
    + intros s' w' o' ob (_ & _ & _ & _ & _ & _ & H7) _. rewrite (H7 i o Eo), (R7 i o Eo), Hb. reflexivity.
  - intros i Hlt. destruct (nth_error (w_prefs w) i) as [b|] eqn:Eb; [|apply nth_error_None in Eb; lia]. unfold chance_of.
    rewrite (ask_event cf pr ordn t m nodes succs init ps sp si K nc s w Ho E Ed Ep Hc Hs Hi Hu Hf HK Hn Hr
              (fun s' _ => negb (Z.eqb (has_preference (int_to_state cf m s') i) (has_preference (int_to_state cf m s) i))) (fun w' _ => negb (Bool.eqb (nth i (w_prefs w') false) b))).
    + rewrite (ask_law cf pr ps succs (objects m) w (fun w' _ => if negb (Bool.eqb (nth i (w_prefs w') false) b) then 1 else 0)%Q).
      etransitivity; [|apply (moved_const (p_changed_by_human pr) (objects m) (w_has w))]. apply mean_ext. intros q h _.
      transitivity (mean (changed (p_change_preference pr) (w_prefs w)) (fun l => (fun b' => if negb (Bool.eqb b' b) then 1 else 0)%Q (nth i l false))).
      * apply mean_ext. intros q1 l _. cbv zeta. rewrite (HQ (fun w' => if negb (Bool.eqb (nth i (w_prefs w') false) b) then 1 else 0)%Q). reflexivity.
      * rewrite (changed_marginal (p_change_preference pr) (w_prefs w) i b (fun b' => if negb (Bool.eqb b' b) then 1 else 0)%Q Eb). destruct b; cbn; ring.
    + intros s' w' o' ob (_ & _ & _ & H4 & H5 & _) _.
      destruct (nth_error (w_prefs w') i) as [b'|] eqn:Eb'; [|apply nth_error_None in Eb'; lia].
      rewrite (H5 i b' Eb'), (R5 i b Eb), Hb, (nth_error_nth _ _ _ Eb'). reflexivity.
Qed.
Print Assumptions C100_drift.

(** *** A concrete case: the model of Props_Supp with the class attributes; 100 points and 2 indices are
    enough. *)
Example C100_ex_draws : is_space (grid 100) /\ is_space (dice 2) /\ uniform (grid 100) (fun x => x) (supp_marks class_probabilities) /\ fair (dice 2) (fun x => x) 2.
Proof.
  split; [apply grid_space; lia|]. split; [apply dice_space; lia|]. split; [|apply (dice_fair 2)]. split.
  - intros q w H. apply in_map_iff in H. destruct H as (k & E & Hk). apply in_seq in Hk. assert (w = (inject_Z (Z.of_nat k) / inject_Z (Z.of_nat 100))%Q) as -> by congruence.
    split; [apply Qle_shift_div_l; [reflexivity|]; rewrite Qmult_0_l; change 0%Q with (inject_Z 0); rewrite <- Zle_Qle; lia|].
    apply Qlt_shift_div_r; [reflexivity|]. rewrite Qmult_1_l, <- Zlt_Qlt. lia.
  - assert (F : forallb (fun c => Qeq_bool (prob (grid 100) (fun w => negb (Qle_bool c w))) c) (supp_marks class_probabilities) = true) by (vm_compute; reflexivity).
    intros c I. rewrite forallb_forall in F. apply Qeq_bool_iff, F. auto.
Qed.
Definition ex_leaves : list sparams := match htm_to_dag (fun l => l) ex_task with Ok (nodes, _, _) => match mapM action_params nodes with Ok ps => ps | Err _ => [] end | Err _ => [] end.
(** From the first leaf, waiting: the glue and the screw are as likely, and the human then has joints. *)
Example C100_ex_wait :
  let at_leaf i (e : world * string * Q) := match w_stage (fst (fst e)) with Doing j => if Nat.eqb i j then 1%Q else 0%Q | _ => 0%Q end in
  let law := step_law default_config class_probabilities ex_leaves [[1; 2]; []; []] (objects ex_model) true ex_world Wait in
  (mean law (at_leaf 1%nat) == 1 # 2)%Q /\ (mean law (at_leaf 2%nat) == 1 # 2)%Q /\ (mean law (fun e => if w_has (fst (fst e)) "joints"%string then 1%Q else 0%Q) == 1)%Q /\
  (mean law (fun e => snd e) == 10 - 15 * (99 # 100) - 15 * (1 # 100))%Q.
Proof. cbv zeta. repeat split; apply Qeq_bool_iff; vm_compute; reflexivity. Qed.
(** Partly consumed objects *)
Example C100_ex_glue : (mean (step_law default_config class_probabilities ex_leaves [[1; 2]; []; []]%nat (objects ex_model) false
    {| w_stage := Doing 1%nat; w_prefs := [true]; w_holding := false; w_has := fun _ => true |} Wait) (fun e => if w_has (fst (fst e)) "glue"%string then 1%Q else 0%Q) == 1 # 2)%Q.
Proof. apply Qeq_bool_iff. vm_compute. reflexivity. Qed.
Example C100_ex_hyps : mapM action_params (htm_nodes ex_model) = Ok ex_leaves /\ (exists nodes init, htm_to_dag (fun l => l) ex_task = Ok (nodes, [[1; 2]; []; []], init)) /\
  (forall l, In l [[1; 2]; []; []] -> length l <= 2) /\ (forall p, In p ex_leaves -> length (sp_conditions p) <= 2) /\
  reads default_config ex_model 18 ex_world /\ length (p_preferences class_probabilities) = cf_preferences default_config.
Proof.
  split; [vm_compute; reflexivity|]. split; [vm_compute; eauto|]. split; [intros l [<-|[<-|[<-|[]]]]; cbn; lia|].
  split; [intros p [<-|[<-|[<-|[]]]]; cbn; lia|]. split; [exact C36_ex_reads|reflexivity].
Qed.
