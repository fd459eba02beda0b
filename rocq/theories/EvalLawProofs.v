(** Proofs for C112. *)
From Verif Require Import QBase PyBase PyBaseFacts HtmModel HtmSpec DagModel DagSpec PomdpModel CodecModel CodecSpec SuppModel SuppSpec SuppProofs Props_Supp EvalModel EvalSpec EvalProofs LawSpec LawProofs
  SuppLawModel SuppLawSpec SuppLawProofs Props_SuppLaw RunProofs JobModel JobProofs EvalLawSpec.
From Coq Require Import Lia Lqa.
Import HtmSpec.
Local Open Scope list_scope.
Local Open Scope nat_scope.

Definition out {P} (G : record Z -> Q) (r : res (record Z * P)) : Q := match r with Ok (rec, _) => G rec | Err _ => 0%Q end.
Definition horner (gamma : Q) (rs : list Q) (ret : Q) : Q := fold_left (fun acc r => r + gamma * acc)%Q rs ret.
Lemma horner_discounted gamma rs : (horner gamma rs 0 == discounted gamma (rev rs))%Q.
Proof.
  unfold horner. rewrite <- fold_left_rev_right. induction (rev rs) as [|r l IH]; [reflexivity|]. cbn [fold_right discounted]. rewrite IH. reflexivity.
Qed.
Lemma horner_ext gamma : forall rs a b, (a == b)%Q -> (horner gamma rs a == horner gamma rs b)%Q.
Proof. unfold horner. induction rs as [|r rs IH]; intros a b E; cbn; [auto|]. apply IH. rewrite E. reflexivity. Qed.

Section EvalLaw.
  Context (cf : config) (pr : probabilities) (ordn : list nat -> list nat) (t : stree) (m : spomdp) (nodes : list stree) (succs : list (list nat))
    (init : list nat) (ps : list sparams) (sp : space Q) (si : space nat) (K nc : nat).
  Context (Ho : is_order ordn) (E : mk_supportive ordn t = Ok m) (Ed : htm_to_dag ordn t = Ok (nodes, succs, init)) (Ep : mapM action_params nodes = Ok ps)
    (Hc : 1 <= cf_preferences cf) (Hs : is_space sp) (Hi : is_space si) (Hu : uniform sp (fun x => x) (supp_marks pr)) (Hf : fair si (fun x => x) K)
    (HK : forall l, In l succs -> length l <= K) (Hn : forall p, In p ps -> length (sp_conditions p) <= nc).
  Context {P : Type} (pol : epolicy P) (Inv : P -> Prop) (act : P -> robot) (nxt : P -> string -> P) (Hpol : behaves m pol Inv act nxt).
  Context (disc gamma : Q) (x0 d : numbers).
  Local Notation draws := (numbers_space sp si (length (objects m)) (cf_preferences cf) nc).
  Local Notation law := (episodes cf pr ps succs (objects m) P act nxt).
  Hypothesis Hd : is_space draws.

  Lemma loop_law : forall n N k h p s w hs ha ho hr ret G F,
    n = Z.to_nat (fo_n h) -> fo_final h = false -> n <= N -> Inv p -> reads cf m s w ->
    (forall steps l q, Forall2 (same_moment cf m) steps l -> (q == horner gamma (map m_reward l) ret)%Q ->
       (G {| r_return := q; r_states := rev (s :: hs) ++ map s_state steps; r_actions := rev ha ++ map s_action steps; r_observations := rev ho ++ map s_observation steps; r_rewards := rev hr ++ map s_reward steps |} == F l)%Q) ->
    (mean (tapes draws N) (fun tp => out G (eval_loop (model_is_final cf m) (drawn_model cf m pr disc x0 (fun i => nth (i - k) tp d)) pol gamma n k h p s hs ha ho hr ret)) == mean (law n p w) F)%Q.
  Proof.
    induction n as [|n IH]; intros N k h p s w hs ha ho hr ret G F En Ef HN Ip Hr HG.
    - cbn [episodes]. rewrite mean_certain. rewrite <- (mean_const (tapes draws N) (F []) (tapes_space _ _ Hd)). apply mean_ext. intros q tp _.
      cbn [eval_loop]. unfold fo_reached. assert ((fo_n h <=? 0)%Z = true) as -> by (apply Z.leb_le; lia). cbn [orb out].
      specialize (HG [] [] ret (Forall2_nil _) (Qeq_refl _)). cbn [map] in HG. rewrite !app_nil_r in HG. exact HG.
    - destruct N as [|N]; [lia|]. rewrite mean_tapes. destruct (Hpol p Ip) as (p1 & Ea & Hin & Hst).
      destruct (index_of_In _ _ Hin) as [a Ei]. pose proof (proj1 (index_of_str _ _ _) Ei) as [Ei' _].
      assert (Nr : fo_reached h = false) by (unfold fo_reached; rewrite Ef; assert ((fo_n h <=? 0)%Z = false) as -> by (apply Z.leb_gt; lia); reflexivity).
      set (f := fun (s' : Z) (o : nat) (r : Q) => match nth_error observations o with
             | Some ob => mean (tapes draws N) (fun tp => out G (eval_loop (model_is_final cf m) (drawn_model cf m pr disc x0 (fun i => nth (i - S k) tp d)) pol gamma n (S k)
                            (fo_decrement (model_is_final cf m) h s s') (nxt p ob) s' (s :: hs) (a :: ha) (o :: ho) (r :: hr) (r + gamma * ret)%Q))
             | None => 0%Q end).
      set (g := fun (w' : SuppSpec.world) (ob : string) (r : Q) => mean (match w_stage w' with Finished => certain [] | _ => law n (nxt p ob) w' end) (fun l => F ((act p, ob, r, w') :: l))).
      transitivity (mean draws (fun x => match drawn_transition cf m pr x true (Z.of_nat a) s with Ok (s', o, r) => f s' o r | Err _ => 0%Q end)).
      { apply mean_ext. intros q x _. destruct (drawn_transition cf m pr x true (Z.of_nat a) s) as [[[s' o] r]|e] eqn:Et.
        - unfold f. destruct (nth_error observations o) as [ob|] eqn:Eo.
          + apply mean_ext. intros q' tp _. cbn [eval_loop]. rewrite Nr, Ea. cbn [bind]. cbn [em_actions em_observations drawn_model]. rewrite Ei. cbn [bind].
            cbn [em_transition drawn_model]. rewrite Nat.sub_diag. cbn [nth]. rewrite Et. cbn [bind]. rewrite Eo. cbn [bind]. destruct (Hst ob) as [Hst1 _]; [eapply nth_error_In; eauto|]. rewrite Hst1. cbn [bind].
            rewrite (loop_same (model_is_final cf m) (drawn_model cf m pr disc x0 (fun i => nth (i - k) (x :: tp) d)) (drawn_model cf m pr disc x0 (fun i => nth (i - S k) tp d))); [reflexivity|reflexivity|reflexivity|].
            intros j a' y Hj. cbn [em_transition drawn_model]. replace (j - k) with (S (j - S k)) by lia. reflexivity.
          + rewrite <- (mean_const (tapes draws N) 0%Q (tapes_space _ _ Hd)). apply mean_ext. intros q' tp _. cbn [eval_loop]. rewrite Nr, Ea. cbn [bind]. cbn [em_actions em_observations drawn_model]. rewrite Ei. cbn [bind].
            cbn [em_transition drawn_model]. rewrite Nat.sub_diag. cbn [nth]. rewrite Et. cbn [bind]. rewrite Eo. reflexivity.
        - rewrite <- (mean_const (tapes draws N) 0%Q (tapes_space _ _ Hd)). apply mean_ext. intros q' tp _. cbn [eval_loop]. rewrite Nr, Ea. cbn [bind]. cbn [em_actions em_observations drawn_model]. rewrite Ei. cbn [bind].
          cbn [em_transition drawn_model]. rewrite Nat.sub_diag. cbn [nth]. rewrite Et. reflexivity. }
      rewrite (C100_step cf pr ordn t m nodes succs init ps sp si K nc true (Z.of_nat a) (act p) s w f g Ho E Ed Ep Hc Hs Hi Hu Hf HK Hn ltac:(lia) ltac:(rewrite Nat2Z.id; exact Ei') Hr).
      + cbn [episodes]. rewrite mean_next. apply mean_ext. intros q [[w' ob] r] _. cbn [fst snd]. rewrite mean_next. unfold g. apply mean_ext. intros q' l _. symmetry. apply (mean_certain ((act p, ob, r, w') :: l) F).
      + intros s' w' o ob r r' Hr' Eo Err. unfold f, g. rewrite Eo. destruct (Hst ob) as [_ Hinv]; [eapply nth_error_In; eauto|].
        assert (HG' : forall steps l q, Forall2 (same_moment cf m) steps l -> (q == horner gamma (map m_reward l) (r + gamma * ret))%Q ->
          (G {| r_return := q; r_states := rev (s' :: s :: hs) ++ map s_state steps; r_actions := rev (a :: ha) ++ map s_action steps; r_observations := rev (o :: ho) ++ map s_observation steps; r_rewards := rev (r :: hr) ++ map s_reward steps |} == F ((act p, ob, r', w') :: l))%Q).
        { intros steps l q HF Hq. specialize (HG ((a, s', o, r) :: steps) ((act p, ob, r', w') :: l) q).
          cbn [map rev] in HG |- *.
          change (s_state (a, s', o, r)) with s' in HG; change (s_action (a, s', o, r)) with a in HG; change (s_observation (a, s', o, r)) with o in HG; change (s_reward (a, s', o, r)) with r in HG.
          rewrite <- !app_assoc in HG.
          rewrite <- !app_assoc.
          cbn [app] in HG |- *. apply HG.
          - constructor; [|exact HF]. split; [exact Ei'|]. split; [exact Eo|]. split; [exact Err|exact Hr'].
          - rewrite Hq. change (horner gamma (m_reward (act p, ob, r', w') :: map m_reward l) ret) with (horner gamma (map m_reward l) (r' + gamma * ret)). apply horner_ext. rewrite Err. reflexivity. }
        destruct (w_stage w') eqn:Ew.
        1,2: apply IH; auto; [unfold fo_decrement; cbn [fo_n]; lia|unfold fo_decrement; cbn [fo_final]; destruct (model_is_final cf m s') eqn:Fx; [apply (final_iff cf m _ _ Hr') in Fx; congruence|reflexivity]|lia].
        rewrite mean_certain. rewrite <- (mean_const (tapes draws N) (F [(act p, ob, r', w')]) (tapes_space _ _ Hd)). apply mean_ext. intros q tp _.
        assert (Fx : model_is_final cf m s' = true) by (apply (final_iff cf m _ _ Hr'); auto).
        specialize (HG' [] [] (r + gamma * ret)%Q (Forall2_nil _) (Qeq_refl _)). cbn [map] in HG'. rewrite !app_nil_r in HG'.
        assert (Rr : fo_reached (fo_decrement (model_is_final cf m) h s s') = true) by (unfold fo_reached, fo_decrement; cbn [fo_n fo_final]; rewrite Fx; apply Bool.orb_true_r).
        destruct n; cbn [eval_loop]; rewrite Rr; exact HG'.
  Qed.
End EvalLaw.

(** ** The laws are probability spaces, on worlds whose leaf exists *)
Definition sound {A} (d : space A) (good : A -> Prop) : Prop := is_space d /\ forall q a, In (q, a) d -> good a.
Lemma sound_certain {A} (a : A) (good : A -> Prop) : good a -> sound (certain a) good.
Proof.
  intros H. split.
  - split; [intros q w [E|[]]; assert (q = 1%Q) as -> by congruence; lra|]. unfold certain, sum_over. cbn. ring.
  - intros q x [E|[]]. assert (x = a) as -> by congruence. exact H.
Qed.
Lemma mass_mean {A} (d : space A) : (sum_over d fst == mean d (fun _ => 1%Q))%Q.
Proof. unfold mean. apply sum_ext. intros; ring. Qed.
Lemma sound_next {A B} (d : space A) (f : A -> space B) (good : A -> Prop) (good' : B -> Prop) : sound d good -> (forall a, good a -> sound (f a) good') -> sound (next d f) good'.
Proof.
  intros [[S1 S2] G] H.
  assert (I : forall q b, In (q, b) (next d f) -> exists q1 a q2, In (q1, a) d /\ In (q2, b) (f a) /\ q = (q1 * q2)%Q).
  { intros q b I. unfold next in I. apply in_flat_map in I. destruct I as ([q1 a] & I1 & I2). apply in_map_iff in I2. destruct I2 as ([q2 b'] & E & I2). cbn [fst snd] in *.
    exists q1, a, q2. assert (b' = b) as -> by congruence. repeat split; auto; congruence. }
  split; [split|].
  - intros q b Hi. destruct (I _ _ Hi) as (q1 & a & q2 & I1 & I2 & ->). destruct (H a (G _ _ I1)) as [[K _] _]. apply Qmult_le_0_compat; eauto.
  - rewrite mass_mean, mean_next. transitivity (mean d (fun _ => 1%Q)); [|rewrite <- mass_mean; exact S2]. apply mean_ext. intros q a Ia. destruct (H a (G _ _ Ia)) as [K _]. apply mean_const. exact K.
  - intros q b Hi. destruct (I _ _ Hi) as (q1 & a & q2 & I1 & I2 & _). destruct (H a (G _ _ I1)) as [_ K]. eauto.
Qed.
Lemma sound_coin p : (0 <= p <= 1)%Q -> sound (coin p) (fun _ => True).
Proof.
  intros H. split; [split|auto].
  - intros q w [E|[E|[]]]; assert (q = p \/ q = (1 - p)%Q) as [->| ->] by (left + right; congruence); lra.
  - unfold coin, sum_over. cbn. ring.
Qed.
Lemma sound_among {A} (l : list A) (good : A -> Prop) : l <> [] -> (forall a, In a l -> good a) -> sound (among l) good.
Proof.
  intros Hl H. assert (Hc : (0 < inject_Z (Z.of_nat (length l)))%Q) by (change 0%Q with (inject_Z 0); rewrite <- Zlt_Qlt; destruct l; [congruence|cbn [length]; lia]).
  split; [split|].
  - intros q w I. apply in_map_iff in I. destruct I as (x & E & _). assert (q = (1 / inject_Z (Z.of_nat (length l)))%Q) as -> by congruence. apply Qle_shift_div_l; [exact Hc|]. lra.
  - rewrite mass_mean, mean_among, sum_const. field. lra.
  - intros q a I. apply in_map_iff in I. destruct I as (x & E & Hx). assert (x = a) as <- by congruence. auto.
Qed.
Lemma sound_any {A} (d : space A) (good : A -> Prop) : sound d good -> sound d (fun _ => True).
Proof. intros [H _]. split; auto. Qed.

Section Sound.
  Variables (cf : config) (pr : probabilities) (ps : list sparams) (succs : list (list nat)) (init : list nat) (objs : list string).
  Hypothesis Hp : forall c, In c (supp_marks pr) -> (0 <= c <= 1)%Q.
  Hypothesis Hl : length succs = length ps.
  Hypothesis Hsu : forall i l j, nth_error succs i = Some l -> In j l -> j < length ps.
  Hypothesis Hin : init <> [] /\ forall i, In i init -> i < length ps.
  Definition stage_ok (g : stage) : Prop := match g with Doing i => i < length ps | _ => True end.
  Definition there (w : SuppSpec.world) : Prop := stage_ok (w_stage w).

  Lemma p_ok : (0 <= p_fail pr <= 1)%Q /\ (0 <= p_consume_all pr <= 1)%Q /\ (0 <= p_changed_by_human pr <= 1)%Q /\ (0 <= p_change_preference pr <= 1)%Q /\ forall c, In c (p_preferences pr) -> (0 <= c <= 1)%Q.
  Proof. split; [|split; [|split; [|split]]]; [apply Hp; unfold supp_marks; cbn; auto 6..|]. intros c H. apply Hp. unfold supp_marks. apply in_or_app; auto. Qed.

  Lemma sound_moved p l : (0 <= p <= 1)%Q -> forall h, sound (moved p l h) (fun _ => True).
  Proof. intros H. induction l as [|o l IH]; intros h; cbn [moved]; [apply sound_certain; auto|]. eapply sound_next; [apply sound_coin; auto|]. auto. Qed.
  Lemma sound_changed p l : (0 <= p <= 1)%Q -> sound (changed p l) (fun _ => True).
  Proof. intros H. induction l as [|b l IH]; cbn [changed]; [apply sound_certain; auto|]. eapply sound_next; [apply sound_coin; auto|]. intros c _. eapply sound_next; [exact IH|]. intros; apply sound_certain; auto. Qed.
  Lemma sound_wanted l : (forall c, In c l -> (0 <= c <= 1)%Q) -> sound (wanted l) (fun _ => True).
  Proof. intros H. induction l as [|b l IH]; cbn [wanted]; [apply sound_certain; auto|]. eapply sound_next; [apply sound_coin; apply H; left; auto|]. intros c _. eapply sound_next; [apply IH; intros; apply H; right; auto|]. intros; apply sound_certain; auto. Qed.
  Lemma sound_met cs : forall h, sound (met pr cs h) (fun _ => True).
  Proof.
    induction cs as [|[c o] cs IH]; intros h; cbn [met]; [apply sound_certain; auto|]. apply (sound_next _ _ (fun _ => True)).
    - destruct c; try (apply sound_certain; auto). eapply sound_next; [exact (sound_coin _ (proj1 (proj2 p_ok)))|]. intros; apply sound_certain; auto.
    - intros b _. eapply sound_next; [apply IH|]. intros; apply sound_certain; auto.
  Qed.
  Local Notation fine := (fun e : SuppSpec.world * string * Q => there (fst (fst e)) /\ In (snd (fst e)) observations).
  Ltac sc := apply sound_certain; unfold there; cbn [fst snd w_stage with_stage with_object stage_ok]; split; [assumption || exact I || idtac|cbn; auto 8].
  Lemma sound_finishing i w b : i < length ps -> sound (finishing cf pr ps succs i w b) fine.
  Proof.
    intros Hi. unfold finishing. destruct (nth_error ps i) as [p|] eqn:Ep; [|apply nth_error_None in Ep; lia]. destruct (nth_error succs i) as [l|] eqn:El; [|apply nth_error_None in El; lia].
    apply (sound_next _ _ stage_ok).
    - destruct l as [|j0 l']; [apply sound_certain; exact I|]. set (l := j0 :: l') in *. apply (sound_next _ _ (fun j => j < length ps)); [apply sound_among; [discriminate|]; intros j Hj; eapply Hsu; eauto|].
      intros j Hj. apply sound_certain. exact Hj.
    - intros g Hg. eapply sound_next; [apply sound_met|]. intros hn _. sc.
  Qed.
  Lemma sound_action w a : there w -> sound (action_law cf pr ps succs objs true w a) fine.
  Proof.
    intros Hw. unfold there in Hw. destruct p_ok as (P1 & P2 & P3 & P4 & P5).
    assert (HH : forall hv, sound (hold_law cf pr ps succs true w hv) fine).
    { intros hv. unfold hold_law. destruct (w_stage w) as [i| |] eqn:Ew; try (sc; rewrite Ew; auto).
      destruct (is_help ps w hv i); [apply sound_finishing; exact Hw|]. eapply sound_next; [apply sound_coin; lra|]. intros [|] _; [sc; rewrite Ew; exact Hw|apply sound_finishing; exact Hw]. }
    destruct a; cbn [action_law]; auto.
    - destruct (w_stage w) as [i| |] eqn:Ew; [apply sound_finishing; exact Hw|sc|sc]. rewrite Ew. exact I.
    - eapply sound_next; [apply sound_coin; destruct (wants_hold w); lra|]. intros ans _. sc. destruct ans; [destruct (wants_hold w)|]; cbn; auto 8.
    - destruct (w_has w o); [sc|]. eapply sound_next; [apply sound_coin; exact P1|]. intros [|] _; sc.
    - destruct (w_has w o); [|sc]. eapply sound_next; [apply sound_coin; exact P1|]. intros [|] _; sc.
  Qed.
  Lemma sound_step w a : there w -> sound (step_law cf pr ps succs objs true w a) fine.
  Proof.
    intros Hw. unfold step_law, spontaneous. destruct p_ok as (P1 & P2 & P3 & P4 & P5). apply (sound_next _ _ there).
    - eapply sound_next; [apply sound_moved; exact P3|]. intros h _. eapply sound_next; [apply sound_changed; exact P4|]. intros l _. apply sound_certain. exact Hw.
    - intros w1 H1. apply sound_action. exact H1.
  Qed.
  Lemma sound_start : sound (start_law pr init objs) (fun w => there w /\ w_stage w <> Finished).
  Proof.
    unfold start_law. destruct p_ok as (P1 & P2 & P3 & P4 & P5). eapply sound_next; [apply sound_moved; exact P3|]. intros h _. eapply sound_next; [apply sound_wanted; exact P5|]. intros l _.
    apply (sound_next _ _ (fun i => i < length ps)); [apply sound_among; apply Hin|]. intros i Hi. apply sound_certain. split; [exact Hi|discriminate].
  Qed.

  Context {P : Type} (act : P -> robot) (nxt : P -> string -> P).
  Local Notation law := (episodes cf pr ps succs objs P act nxt).
  Lemma sound_episodes n : forall p w, there w -> sound (law n p w) (fun _ => True).
  Proof.
    induction n as [|n IH]; intros p w Hw; cbn [episodes]; [apply sound_certain; auto|]. apply (sound_next _ _ _ _ (sound_step w (act p) Hw)). intros [[w' ob] r] [H1 _]. cbn [fst snd] in H1.
    apply (sound_next _ _ (fun _ => True)); [destruct (w_stage w'); auto; apply sound_certain; auto|]. intros l _. apply sound_certain; auto.
  Qed.
  Lemma sum_episodes n : forall p w c, there w -> (mean (law n p w) (fun l => c + sumQ (map m_reward l)) == c + expected_sum cf pr ps succs objs P act nxt n p w)%Q.
  Proof.
    induction n as [|n IH]; intros p w c Hw; cbn [episodes expected_sum]; [rewrite mean_certain; cbn [map]; unfold sumQ; cbn; ring|]. rewrite mean_next.
    destruct (sound_step w (act p) Hw) as [Sp G]. transitivity (mean (step_law cf pr ps succs objs true w (act p)) (fun _ => c) + mean (step_law cf pr ps succs objs true w (act p)) (fun e => let '(w', ob, r) := e in (r + match w_stage w' with Finished => 0 | _ => expected_sum cf pr ps succs objs P act nxt n (nxt p ob) w' end)%Q))%Q; [|rewrite (mean_const _ c Sp); reflexivity].
    rewrite <- mean_plus. apply mean_ext. intros q [[w' ob] r] I. destruct (G _ _ I) as [Hw' _]. cbn [fst snd] in Hw'. rewrite mean_next.
    transitivity (mean (match w_stage w' with Finished => certain [] | _ => law n (nxt p ob) w' end) (fun l => (c + r) + sumQ (map m_reward l))%Q).
    { apply mean_ext. intros q' l _. rewrite (mean_certain ((act p, ob, r, w') :: l)). cbn [map]. change (sumQ (m_reward (act p, ob, r, w') :: map m_reward l)) with (r + sumQ (map m_reward l))%Q. ring. }
    destruct (w_stage w'); [rewrite IH by exact Hw'; ring..|]. rewrite mean_certain. unfold sumQ; cbn. ring.
  Qed.
  Definition ends (l : list moment) : bool := existsb (fun x => match w_stage (m_world x) with Finished => true | _ => false end) l.
  Lemma finish_episodes n : forall p w, there w -> (mean (law n p w) (fun l => if ends l then 1 else 0) == finish_chance cf pr ps succs objs P act nxt n p w)%Q.
  Proof.
    induction n as [|n IH]; intros p w Hw; cbn [episodes finish_chance]; [rewrite mean_certain; reflexivity|]. rewrite mean_next.
    destruct (sound_step w (act p) Hw) as [Sp G]. apply mean_ext. intros q [[w' ob] r] I. destruct (G _ _ I) as [Hw' _]. cbn [fst snd] in Hw'. rewrite mean_next.
    destruct (w_stage w') eqn:Ew.
    1,2: rewrite <- IH by exact Hw'; apply mean_ext; intros q' l _; rewrite mean_certain; unfold ends; cbn [existsb m_world snd]; unfold m_world at 1; cbn [snd]; rewrite Ew; reflexivity.
    rewrite mean_certain, mean_certain. unfold ends. cbn [existsb]. unfold m_world at 1. cbn [snd]. rewrite Ew. reflexivity.
  Qed.
End Sound.
