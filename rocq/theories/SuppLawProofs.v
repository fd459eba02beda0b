(** Proofs for C100: the law of the supportive simulator. *)
From Verif Require Import QBase PyBase PyBaseFacts HtmModel HtmSpec HtmProofs DagModel DagSpec DagProofs CodecModel CodecSpec CodecProofs SuppModel SuppSpec SuppProofs SuppProofs2 SuppProofs3 SuppProofs4 PomdpModel LawSpec LawProofs SuppLawModel SuppLawSpec.
From Coq Require Import Lia Lqa Field.
Import HtmSpec.
Local Open Scope list_scope.
Local Open Scope nat_scope.

Lemma mean_next {A B} (d : space A) (f : A -> space B) g : (mean (next d f) g == mean d (fun a => mean (f a) g))%Q.
Proof.
  unfold mean, next. induction d as [|[q a] t IH]; cbn [flat_map fst snd]; [reflexivity|].
  rewrite sum_app, IH, sum_cons. cbn [fst snd]. apply Qplus_comp; [|reflexivity]. rewrite sum_map, <- sum_scale. apply sum_ext. intros [r b] _. cbn. ring.
Qed.
Lemma mean_certain {A} (a : A) g : (mean (certain a) g == g a)%Q.
Proof. unfold mean, certain, sum_over. cbn. ring. Qed.
Lemma mean_coin p g : (mean (coin p) g == p * g true + (1 - p) * g false)%Q.
Proof. unfold mean, coin, sum_over. cbn. ring. Qed.
Lemma mean_among {A} (l : list A) g : (mean (among l) g == sum_over l g / inject_Z (Z.of_nat (length l)))%Q.
Proof.
  unfold mean, among. rewrite sum_map. cbn [fst snd]. set (c := inject_Z (Z.of_nat (length l))).
  transitivity (/ c * sum_over l g)%Q; [|unfold Qdiv; ring]. rewrite <- sum_scale. apply sum_ext. intros; unfold Qdiv; ring.
Qed.

(** *** Draws *)
Section Draws.
  Variable sp : space Q.
  Variable marks : list Q.
  Hypothesis Hs : is_space sp.
  Hypothesis Hu : uniform sp (fun x => x) marks.

  Lemma coin_law p (F : bool -> Q) : In p marks -> (mean sp (fun u => F (below p u)) == mean (coin p) F)%Q.
  Proof.
    intros Hp. rewrite mean_coin. destruct Hu as [_ H2].
    transitivity (mean sp (fun u => F false + (if below p u then 1 else 0) * (F true - F false)))%Q.
    - apply mean_ext. intros q u _. destruct (below p u); ring.
    - rewrite mean_plus, mean_scale_r. rewrite (mean_const sp (F false) Hs).
      pose proof (H2 p Hp) as H. unfold prob in H. change (fun u => if below p u then 1%Q else 0%Q) with (fun w => if negb (Qle_bool p w) then 1%Q else 0%Q).
      rewrite H. ring.
  Qed.

  (** Objects *)
  Lemma moved_law p objs : In p marks -> NoDup objs -> forall (F : (string -> bool) -> Q) h,
    (forall h1 h2, (forall o, h1 o = h2 o) -> (F h1 == F h2)%Q) ->
    (mean (tapes sp (length objs)) (fun t => F (fun o => match index_of String.eqb o objs with Some i => xorb (below p (nth i t 0%Q)) (h o) | None => h o end))
     == mean (moved p objs h) F)%Q.
  Proof.
    intros Hp. induction objs as [|o t IH]; intros Hn F h HF.
    - cbn [length index_of moved]. rewrite mean_tapes_0, mean_certain. reflexivity.
    - inversion Hn as [|? ? Hin Hn']; subst. cbn [length moved]. rewrite mean_tapes, mean_next.
      rewrite <- (coin_law p (fun c => mean (moved p t (if c then put h o (negb (h o)) else h)) F) Hp).
      apply mean_ext. intros q u _. rewrite <- (IH Hn' F _ HF). apply mean_ext. intros q' t' _. apply HF. intros o'. cbn [index_of].
      destruct (String.eqb o' o) eqn:E.
      + apply String.eqb_eq in E. subst o'. cbn [nth].
        assert (index_of String.eqb o t = None) as ->.
        { destruct (index_of String.eqb o t) as [i|] eqn:Ei; [|reflexivity]. exfalso. apply Hin.
          apply (index_of_eqb_Some _ seqb_iff) in Ei. eapply nth_error_In; eauto. }
        destruct (below p u); unfold put; rewrite ?String.eqb_refl; destruct (h o); reflexivity.
      + assert (Hput : (if below p u then put h o (negb (h o)) else h) o' = h o') by (destruct (below p u); unfold put; rewrite ?E; reflexivity).
        rewrite Hput. destruct (index_of String.eqb o' t) as [i|]; reflexivity.
  Qed.

  (** Preferences *)
  Lemma seq_map_nth (d : nat -> bool) n : map d (seq 0 (S n)) = d 0 :: map (fun i => d (S i)) (seq 0 n).
  Proof. cbn [seq map]. rewrite <- seq_shift, map_map. reflexivity. Qed.
  Lemma changed_law p l : In p marks -> forall F : list bool -> Q,
    (mean (tapes sp (length l)) (fun t => F (flip (map (fun i => below p (nth i t 0%Q)) (seq 0 (length l))) l)) == mean (changed p l) F)%Q.
  Proof.
    intros Hp. induction l as [|b t IH]; intros F.
    - cbn [length changed]. rewrite mean_tapes_0, mean_certain. reflexivity.
    - cbn [length changed]. rewrite mean_tapes, mean_next.
      rewrite <- (coin_law p (fun c => mean (next (changed p t) (fun t' => certain ((if c then negb b else b) :: t'))) F) Hp).
      apply mean_ext. intros q u _. rewrite mean_next.
      transitivity (mean (changed p t) (fun t' => F ((if below p u then negb b else b) :: t'))).
      + rewrite <- (IH (fun t' => F ((if below p u then negb b else b) :: t'))). apply mean_ext. intros q' t' _.
        rewrite seq_map_nth. unfold flip. cbn [combine map nth fst snd]. destruct (below p u), b; reflexivity.
      + apply mean_ext. intros q' t' _. rewrite mean_certain. reflexivity.
  Qed.
  Lemma wanted_law l : (forall p, In p l -> In p marks) -> forall F : list bool -> Q,
    (mean (tapes sp (length l)) (fun t => F (map (fun i => below (nth i l 0%Q) (nth i t 0%Q)) (seq 0 (length l)))) == mean (wanted l) F)%Q.
  Proof.
    induction l as [|p t IH]; intros Hp F.
    - cbn [length wanted]. rewrite mean_tapes_0, mean_certain. reflexivity.
    - cbn [length wanted]. rewrite mean_tapes, mean_next.
      rewrite <- (coin_law p (fun c => mean (next (wanted t) (fun t' => certain (c :: t'))) F)) by (apply Hp; left; reflexivity).
      apply mean_ext. intros q u _. rewrite mean_next.
      transitivity (mean (wanted t) (fun t' => F (below p u :: t'))).
      + rewrite <- (IH (fun p' H => Hp p' (or_intror H)) (fun t' => F (below p u :: t'))). apply mean_ext. intros q' t' _.
        rewrite seq_map_nth. reflexivity.
      + apply mean_ext. intros q' t' _. rewrite mean_certain. reflexivity.
  Qed.
End Draws.

Section Law.
  Variable cf : config.
  Variable m : spomdp.
  Variables (nodes : list stree) (succs : list (list nat)) (init : list nat) (ps : list sparams).
  Hypothesis B : built m nodes succs init ps.
  Hypothesis D : dag_ok nodes succs init.
  Variable pr : probabilities.
  Variable sp : space Q.
  Variable si : space nat.
  Variable K : nat.
  Hypothesis Hs : is_space sp.
  Hypothesis Hi : is_space si.
  Hypothesis Hu : uniform sp (fun x => x) (supp_marks pr).
  Hypothesis Hf : fair si (fun x => x) K.

  Local Open Scope Q_scope.

  (** Conditions *)
  Lemma met_law cs : forall pcs k nc x w (DD : list Q -> draws) (F : sstate -> Q -> Q) (g : (string -> bool) -> nat -> Q),
    Forall2 (linked (objects m)) cs pcs -> Rep cf m x w -> (length cs <= nc)%nat ->
    (forall t j, d_consume (DD t) (k + j) = below (p_consume_all pr) (nth j t 0)) ->
    (forall x' h n r, Rep cf m x' (with_has w h) -> r == - missing_cost cf n -> F x' r == g h n) ->
    mean (tapes sp nc) (fun t => F (fst (update_for_conditions cf (DD t) k cs x)) (snd (update_for_conditions cf (DD t) k cs x)))
    == mean (met pr pcs (w_has w)) (fun hn => g (fst hn) (snd hn)).
  Proof.
    induction cs as [|[c i] t IH]; intros pcs k nc x w DD F g HF Hr Hnc HD HG; inversion HF; subst.
    - cbn [update_for_conditions met fst snd]. rewrite mean_certain. cbn [fst snd].
      rewrite (mean_const _ (F x 0) (tapes_space sp nc Hs)). apply HG; [destruct w; exact Hr|]. unfold missing_cost. ring.
    - match goal with H : linked _ _ ?y |- _ => destruct y as [c' o]; destruct H as [E1 E2]; cbn in E1, E2; subst c' end.
      destruct nc as [|nc]; [cbn in Hnc; lia|]. cbn [length] in Hnc.
      match goal with H : Forall2 _ t ?l |- _ => rename l into pt; rename H into HFt end.
      assert (HM : forall n r, r == - missing_cost cf n -> (if Z.eqb (has_object x i) 0 then - cost_get cf else 0) + r == - missing_cost cf ((if w_has w o then 0 else 1) + n)%nat).
      { intros n r Hr'. rewrite Hr', missing_S, (has0 cf m _ _ _ _ Hr E2). destruct (w_has w o); cbn [negb]; ring. }
      assert (HI : forall u b x1, Rep cf m x1 (with_object w o b) ->
        mean (tapes sp nc) (fun t' => F (fst (update_for_conditions cf (DD (u :: t')) (S k) t x1)) ((if Z.eqb (has_object x i) 0 then - cost_get cf else 0) + snd (update_for_conditions cf (DD (u :: t')) (S k) t x1)))
        == mean (next (met pr pt (put (w_has w) o b)) (fun hn => certain (fst hn, ((if w_has w o then 0 else 1) + snd hn)%nat))) (fun hn => g (fst hn) (snd hn))).
      { intros u b x1 Hx1. rewrite mean_next.
        transitivity (mean (met pr pt (put (w_has w) o b)) (fun hn => g (fst hn) ((if w_has w o then 0 else 1) + snd hn)%nat)).
        - exact (IH pt (S k) nc x1 (with_object w o b) (fun t' => DD (u :: t'))
                   (fun x' r => F x' ((if Z.eqb (has_object x i) 0 then - cost_get cf else 0) + r)) (fun h n => g h ((if w_has w o then 0 else 1) + n)%nat)
                   HFt Hx1 ltac:(lia)
                   (fun t' j => eq_trans (f_equal (d_consume (DD (u :: t'))) (eq_sym (Nat.add_succ_r k j))) (HD (u :: t') (S j)))
                   (fun x' h n r Hx' Hr' => HG x' h ((if w_has w o then 0 else 1) + n)%nat _ Hx' (HM n r Hr'))).
        - apply mean_ext. intros q hn _. rewrite mean_certain. reflexivity. }
      assert (HE : forall u t', F (fst (update_for_conditions cf (DD (u :: t')) k ((c, i) :: t) x)) (snd (update_for_conditions cf (DD (u :: t')) k ((c, i) :: t) x))
        = let x1 := match c with CConsumes => set_object x i 0 | CSome => set_object x i (if d_consume (DD (u :: t')) k then 0%Z else 1%Z) | CUses => set_object x i 1 | COther => x end in
          F (fst (update_for_conditions cf (DD (u :: t')) (S k) t x1)) ((if Z.eqb (has_object x i) 0 then - cost_get cf else 0) + snd (update_for_conditions cf (DD (u :: t')) (S k) t x1))).
      { intros u t'. cbn [update_for_conditions]. cbv zeta.
        match goal with |- context[let (_, _) := ?e in _] => destruct e as [x'' r'] end. reflexivity. }
      rewrite mean_tapes.
      transitivity (mean sp (fun u => mean (tapes sp nc) (fun t' =>
          let x1 := match c with CConsumes => set_object x i 0 | CSome => set_object x i (if below (p_consume_all pr) u then 0%Z else 1%Z) | CUses => set_object x i 1 | COther => x end in
          F (fst (update_for_conditions cf (DD (u :: t')) (S k) t x1)) ((if Z.eqb (has_object x i) 0 then - cost_get cf else 0) + snd (update_for_conditions cf (DD (u :: t')) (S k) t x1))))).
      { apply mean_ext. intros q u _. apply mean_ext. intros q' t' _. rewrite HE.
        pose proof (HD (u :: t') 0%nat) as H0. rewrite Nat.add_0_r in H0. cbn [nth] in H0. rewrite H0. reflexivity. }
      cbn [met]. rewrite mean_next. cbv zeta. destruct c.
      + rewrite mean_certain.
        transitivity (mean sp (fun _ => mean (next (met pr pt (put (w_has w) o false)) (fun hn => certain (fst hn, ((if w_has w o then 0 else 1) + snd hn)%nat))) (fun hn => g (fst hn) (snd hn)))).
        * apply mean_ext. intros q u _. apply HI. exact (rep_set_obj cf m _ _ _ _ B x w i o false Hr E2).
        * apply (mean_const sp _ Hs).
      + rewrite mean_certain.
        transitivity (mean sp (fun _ => mean (next (met pr pt (put (w_has w) o true)) (fun hn => certain (fst hn, ((if w_has w o then 0 else 1) + snd hn)%nat))) (fun hn => g (fst hn) (snd hn)))).
        * apply mean_ext. intros q u _. apply HI. exact (rep_set_obj cf m _ _ _ _ B x w i o true Hr E2).
        * apply (mean_const sp _ Hs).
      + rewrite mean_next.
        rewrite <- (coin_law sp (supp_marks pr) Hs Hu (p_consume_all pr) (fun all => mean (certain (negb all)) (fun b => mean (next (met pr pt (put (w_has w) o b)) (fun hn => certain (fst hn, ((if w_has w o then 0 else 1) + snd hn)%nat))) (fun hn => g (fst hn) (snd hn))))) by (right; left; reflexivity).
        apply mean_ext. intros q u _. rewrite mean_certain. apply HI.
        replace (if below (p_consume_all pr) u then 0%Z else 1%Z) with (Z.b2z (negb (below (p_consume_all pr) u))) by (destruct (below (p_consume_all pr) u); reflexivity).
        exact (rep_set_obj cf m _ _ _ _ B x w i o _ Hr E2).
      + rewrite mean_certain.
        transitivity (mean sp (fun _ => mean (next (met pr pt (put (w_has w) o (w_has w o))) (fun hn => certain (fst hn, ((if w_has w o then 0 else 1) + snd hn)%nat))) (fun hn => g (fst hn) (snd hn)))).
        * apply mean_ext. intros q u _. apply HI. eapply rep_ext; [exact Hr|]. repeat split; auto. intros o' _. cbn. destruct (String.eqb_spec o' o); congruence.
        * apply (mean_const sp _ Hs).
  Qed.

  Lemma choose_law (l : list nat) (F : res nat -> Q) : l <> [] -> (length l <= K)%nat ->
    mean si (fun k => F (choose l k)) == mean (among l) (fun j => F (Ok j)).
  Proof.
    intros Hl Hk. rewrite mean_among. assert (0 < length l)%nat by (destruct l; [contradiction|cbn; lia]).
    rewrite <- (mean_fair si (fun x => x) K l (fun j => F (Ok j)) Hi Hf) by lia. apply mean_ext. intros q k _. unfold choose.
    rewrite (nth_error_nth' l 0%nat) by (apply Nat.mod_upper_bound; lia). reflexivity.
  Qed.

  (** The end of a leaf *)
  Lemma finishing_law x w i nc base (DD : nat -> list Q -> draws) (F : res (sstate * Q) -> Q) (g : world -> string -> Q -> Q) :
    Rep cf m x w -> w_stage w = Doing i ->
    (forall p, In p ps -> (length (sp_conditions p) <= nc)%nat) -> (forall l, In l succs -> (length l <= K)%nat) ->
    (forall k t, d_succ (DD k t) = k) -> (forall k t j, d_consume (DD k t) j = below (p_consume_all pr) (nth j t 0)) ->
    (forall x' w' r n, Rep cf m x' w' -> r == - missing_cost cf n -> F (Ok (x', r)) == g w' "none"%string (base - missing_cost cf n)) ->
    mean si (fun k => mean (tapes sp nc) (fun t => F (update_for_transition cf m (DD k t) x (Z.of_nat i)))) ==
    mean (finishing cf pr ps succs i w base) (fun e => g (fst (fst e)) (snd (fst e)) (snd e)).
  Proof.
    intros Hr Hst Hnc HK HDs HDc HG. assert (Hil : (i < length nodes)%nat) by (rewrite <- (b_nodes _ _ _ _ _ B); apply Hr; auto).
    destruct (node_lookup m _ _ _ _ B D i Hil) as [nd [p [l [cs (N1 & N2 & N3 & N4 & N5 & N6 & N7)]]]].
    unfold finishing. rewrite N3, N4. rewrite mean_next.
    assert (Hlc : (length cs <= nc)%nat).
    { assert (E : length cs = length (sp_conditions p)) by (clear - N7; induction N7; cbn; congruence). rewrite E. apply Hnc. eapply nth_error_In; eauto. }
    assert (HX : forall k g0, (forall j, g0 = Doing j -> (j < length (htm_nodes m))%nat) ->
      mean (tapes sp nc) (fun t => F (Ok (update_for_conditions cf (DD k t) 0 cs (set_htm x (stage_index m g0))))) ==
      mean (next (met pr (sp_conditions p) (w_has w)) (fun hn => certain ({| w_stage := g0; w_prefs := w_prefs w; w_holding := w_holding w; w_has := fst hn |}, "none"%string, base - missing_cost cf (snd hn))))
           (fun e => g (fst (fst e)) (snd (fst e)) (snd e))).
    { intros k g0 Hg0. rewrite mean_next.
      transitivity (mean (met pr (sp_conditions p) (w_has w)) (fun hn => g {| w_stage := g0; w_prefs := w_prefs w; w_holding := w_holding w; w_has := fst hn |} "none"%string (base - missing_cost cf (snd hn)))).
      - pose proof (rep_set_htm cf m x w g0 Hr Hg0) as Hr1.
        rewrite <- (met_law cs (sp_conditions p) 0 nc (set_htm x (stage_index m g0)) (with_stage w g0) (DD k) (fun x' r => F (Ok (x', r)))
                     (fun h n => g {| w_stage := g0; w_prefs := w_prefs w; w_holding := w_holding w; w_has := h |} "none"%string (base - missing_cost cf n))
                     N7 Hr1 Hlc (fun t j => HDc k t j) (fun x' h n r H1 H2 => HG x' _ r n H1 H2)).
        apply mean_ext. intros q t _. destruct (update_for_conditions cf (DD k t) 0 cs (set_htm x (stage_index m g0))); reflexivity.
      - apply mean_ext. intros q hn _. rewrite mean_certain. reflexivity. }
    assert (HE : forall k t, update_for_transition cf m (DD k t) x (Z.of_nat i) =
      (do h <- choose (match l with [] => [length nodes] | _ => l end) k; Ok (update_for_conditions cf (DD k t) 0 cs (set_htm x (Z.of_nat h))))).
    { intros k t. unfold update_for_transition. rewrite !py_nth_nat, N5, N6. cbn [bind]. rewrite HDs. reflexivity. }
    destruct l as [|j0 l'].
    - rewrite mean_certain. symmetry. etransitivity; [symmetry; apply (mean_const si _ Hi)|]. symmetry. apply mean_ext. intros q k _.
      rewrite <- (HX k Cleaning) by discriminate. apply mean_ext. intros q' t _. rewrite HE. unfold choose. rewrite Nat.mod_1_r. cbn [nth_error bind].
      cbn [stage_index]. unfold htm_clean. rewrite (b_nodes _ _ _ _ _ B). reflexivity.
    - rewrite mean_next. set (l := j0 :: l') in *.
      transitivity (mean si (fun k => (fun r => match r with
         | Ok j => mean (next (met pr (sp_conditions p) (w_has w)) (fun hn => certain ({| w_stage := Doing j; w_prefs := w_prefs w; w_holding := w_holding w; w_has := fst hn |}, "none"%string, base - missing_cost cf (snd hn))))
           (fun e => g (fst (fst e)) (snd (fst e)) (snd e))
         | Err _ => 0 end) (choose l k))).
      + apply mean_ext. intros q k _. destruct (choose_ok l k) as [j [Ej Hj]]; [discriminate|]. rewrite Ej. rewrite <- (HX k (Doing j)).
        * apply mean_ext. intros q' t _. rewrite HE. change (match l with [] => [length nodes] | _ => l end) with l. rewrite Ej. reflexivity.
        * intros j' E; inversion E; subst. rewrite (b_nodes _ _ _ _ _ B). destruct D as (D1 & D2 & D3 & D4). apply (D4 _ _ _ N4 Hj).
      + rewrite (choose_law l (fun r => match r with
         | Ok j => mean (next (met pr (sp_conditions p) (w_has w)) (fun hn => certain ({| w_stage := Doing j; w_prefs := w_prefs w; w_holding := w_holding w; w_has := fst hn |}, "none"%string, base - missing_cost cf (snd hn))))
           (fun e => g (fst (fst e)) (snd (fst e)) (snd e))
         | Err _ => 0 end)); [|discriminate|apply HK; eapply nth_error_In; eauto].
        apply mean_ext. intros q j _. rewrite mean_certain. reflexivity.
  Qed.

  Lemma const3 nc c : mean sp (fun _ => mean si (fun _ => mean (tapes sp nc) (fun _ => c))) == c.
  Proof.
    transitivity (mean sp (fun _ => c)); [|apply (mean_const sp c Hs)]. apply mean_ext. intros q u _.
    transitivity (mean si (fun _ => c)); [|apply (mean_const si c Hi)]. apply mean_ext. intros q' k _. apply (mean_const _ c (tapes_space sp nc Hs)).
  Qed.
  Lemma const2 nc c : mean si (fun _ => mean (tapes sp nc) (fun _ => c)) == c.
  Proof. transitivity (mean si (fun _ => c)); [|apply (mean_const si c Hi)]. apply mean_ext. intros q' k _. apply (mean_const _ c (tapes_space sp nc Hs)). Qed.
  Lemma coin_1 F : mean (coin 1) F == F true.
  Proof. rewrite mean_coin. ring. Qed.
  Lemma coin_0 F : mean (coin 0) F == F false.
  Proof. rewrite mean_coin. ring. Qed.

  Definition seen (f : Z -> nat -> Q -> Q) (e : res (Z * nat * Q)) : Q := match e with Ok (s, o, r) => f s o r | Err _ => 0 end.
  Definition told (g : world -> string -> Q -> Q) (e : world * string * Q) : Q := g (fst (fst e)) (snd (fst e)) (snd e).

  Section Body.
    Variables (nc : nat) (f : Z -> nat -> Q -> Q) (g : world -> string -> Q -> Q).
    Hypothesis Hpr : (1 <= cf_preferences cf)%nat.
    Hypothesis Hnc : forall p, In p ps -> (length (sp_conditions p) <= nc)%nat.
    Hypothesis HK : forall l, In l succs -> (length l <= K)%nat.
    Hypothesis HA : agree cf m f g.
    Lemma rep_agree x w o ob r r' : Rep cf m x w -> nth_error observations o = Some ob -> r == r' -> f (st x) o r == g w ob r'.
    Proof. intros H. apply HA. apply reads_st. exact H. Qed.

    Lemma hold_case a hv act x w DD random : (a = 1%Z /\ act = HoldH /\ hv = "h"%string) \/ (a = 2%Z /\ act = HoldV /\ hv = "v"%string) ->
      Rep cf m x w ->
      (forall u k t, d_hold (DD u k t) = below (98 # 100) u) ->
      (forall u k t, d_succ (DD u k t) = k) -> (forall u k t j, d_consume (DD u k t) j = below (p_consume_all pr) (nth j t 0)) ->
      mean sp (fun u => mean si (fun k => mean (tapes sp nc) (fun t => seen f (body cf m (DD u k t) random a x)))) ==
      mean (hold_law cf pr ps succs random w hv) (told g).
    Proof.
      intros Ha Hr HDh HDs HDc.
      assert (E0 : Z.eqb a 0 = false) by (apply Z.eqb_neq; lia).
      assert (E12 : Z.eqb a 1 || Z.eqb a 2 = true) by (destruct Ha as [[-> _]|[-> _]]; reflexivity).
      unfold body. rewrite <- orb_assoc, E12, E0. cbn [orb].
      rewrite (rep_final cf m _ _ Hr), (rep_clean cf m _ _ Hr), (rep_htm cf m _ _ Hr). unfold hold_law.
      destruct (w_stage w) as [i| |] eqn:Ew.
      - assert (Hil : (i < length nodes)%nat) by (rewrite <- (b_nodes _ _ _ _ _ B); apply Hr; auto).
        destruct (node_lookup m _ _ _ _ B D i Hil) as [nd [p [l [cs (N1 & N2 & N3 & _)]]]].
        cbn [stage_index]. rewrite py_nth_nat, N1. cbn [bind]. rewrite N2. cbn [bind].
        rewrite (pref_b cf m _ _ Hpr Hr). unfold is_help. rewrite N3.
        assert (EH : match sp_hold p with Some h => (String.eqb h "h" && Z.eqb a 1) || (String.eqb h "v" && Z.eqb a 2) | None => false end =
                     match sp_hold p with Some h => String.eqb h hv | None => false end).
        { destruct (sp_hold p) as [h|]; [|reflexivity]. destruct Ha as [(-> & _ & ->)|(-> & _ & ->)]; cbn [Z.eqb Pos.eqb]; rewrite ?andb_true_r, ?andb_false_r, ?orb_false_r; reflexivity. }
        rewrite EH. destruct (wants_hold w && match sp_hold p with Some h => String.eqb h hv | None => false end) eqn:Eb; cbn [negb andb].
        + rewrite <- (mean_const sp (mean (finishing cf pr ps succs i w (r_subtask cf + r_preference cf - cost_hold cf)) (told g)) Hs).
          apply mean_ext. intros q u _.
          refine (finishing_law x w i nc (r_subtask cf + r_preference cf - cost_hold cf) (DD u)
             (fun e => seen f (do (x', rc) <- e; Ok (st x', O_NONE, - cost_hold cf + r_preference cf + rc + r_subtask cf + (if reward_independent_preference cf && negb (wants_hold w) then r_preference cf - cost_hold cf else 0))))
             g Hr Ew Hnc HK (HDs u) (HDc u) _).
          intros x' w' r n Hx' Hrr. cbn [bind seen]. apply rep_agree; [exact Hx'|reflexivity|].
          apply andb_true_iff in Eb. destruct Eb as [-> _]. cbn [negb]. rewrite andb_false_r, Hrr. ring.
        + rewrite mean_next.
          assert (HF : forall u, mean si (fun k => mean (tapes sp nc) (fun t => seen f (
              if negb random || d_hold (DD u k t) then Ok (st x, O_FAIL, - cost_hold cf)
              else do (x', rc) <- update_for_transition cf m (DD u k t) x (Z.of_nat i); Ok (st x', O_NONE, - cost_hold cf + rc + r_subtask cf + (if reward_independent_preference cf && negb (wants_hold w) then r_preference cf - cost_hold cf else 0)))))
            == (fun fails : bool => mean (if fails then certain (w, "fail"%string, - cost_hold cf) else finishing cf pr ps succs i w (r_subtask cf + compensation cf w - cost_hold cf)) (told g)) (negb random || below (98 # 100) u)).
          { intros u. cbv beta. destruct (negb random || below (98 # 100) u) eqn:Eu.
            - rewrite mean_certain. transitivity (mean si (fun _ => mean (tapes sp nc) (fun _ => f (st x) O_FAIL (- cost_hold cf)))).
              + apply mean_ext. intros q k _. apply mean_ext. intros q' t _. rewrite HDh, Eu. reflexivity.
              + rewrite const2. apply rep_agree; [exact Hr|reflexivity|reflexivity].
            - transitivity (mean si (fun k => mean (tapes sp nc) (fun t => seen f (do (x', rc) <- update_for_transition cf m (DD u k t) x (Z.of_nat i); Ok (st x', O_NONE, - cost_hold cf + rc + r_subtask cf + (if reward_independent_preference cf && negb (wants_hold w) then r_preference cf - cost_hold cf else 0)))))).
              + apply mean_ext. intros q k _. apply mean_ext. intros q' t _. rewrite HDh, Eu. reflexivity.
              + refine (finishing_law x w i nc (r_subtask cf + compensation cf w - cost_hold cf) (DD u)
                 (fun e => seen f (do (x', rc) <- e; Ok (st x', O_NONE, - cost_hold cf + rc + r_subtask cf + (if reward_independent_preference cf && negb (wants_hold w) then r_preference cf - cost_hold cf else 0))))
                 g Hr Ew Hnc HK (HDs u) (HDc u) _).
                intros x' w' r n Hx' Hrr. cbn [bind seen]. apply rep_agree; [exact Hx'|reflexivity|]. rewrite Hrr. unfold compensation. ring. }
          transitivity (mean sp (fun u => (fun fails : bool => mean (if fails then certain (w, "fail"%string, - cost_hold cf) else finishing cf pr ps succs i w (r_subtask cf + compensation cf w - cost_hold cf)) (told g)) (negb random || below (98 # 100) u))).
          { apply mean_ext. intros q u _. rewrite <- HF. apply mean_ext. intros q' k _. apply mean_ext. intros q'' t _. reflexivity. }
          destruct random; cbn [negb orb].
          * apply (coin_law sp (supp_marks pr) Hs Hu (98 # 100) (fun fails : bool => mean (if fails then certain (w, "fail"%string, - cost_hold cf) else finishing cf pr ps succs i w (r_subtask cf + compensation cf w - cost_hold cf)) (told g))). cbn. auto 10.
          * rewrite (coin_1 (fun fails : bool => mean (if fails then certain (w, "fail"%string, - cost_hold cf) else finishing cf pr ps succs i w (r_subtask cf + compensation cf w - cost_hold cf)) (told g))). apply (mean_const sp _ Hs).
      - rewrite mean_certain. cbn [seen]. rewrite const3. apply rep_agree; [exact Hr|reflexivity|reflexivity].
      - rewrite mean_certain. cbn [seen]. rewrite const3. apply rep_agree; [exact Hr|reflexivity|reflexivity].
    Qed.

    Lemma body_law a act x w DD random : acts m a act -> Rep cf m x w ->
      (forall u k t, d_hold (DD u k t) = below (98 # 100) u) ->
      (forall u k t, d_answer (DD u k t) = below (if wants_hold w then 9 # 10 else 95 # 100) u) ->
      (forall u k t, d_fail (DD u k t) = below (p_fail pr) u) ->
      (forall u k t, d_succ (DD u k t) = k) -> (forall u k t j, d_consume (DD u k t) j = below (p_consume_all pr) (nth j t 0)) ->
      mean sp (fun u => mean si (fun k => mean (tapes sp nc) (fun t => seen f (body cf m (DD u k t) random a x)))) ==
      mean (action_law cf pr ps succs (objects m) random w act) (told g).
    Proof.
      intros Ha Hr HDh HDa HDf HDs HDc.
      destruct (act_cases m _ _ _ _ B _ _ Ha) as [[-> ->]|[Hh'|[[-> ->]|[Hge [i [o (Ho & Eo & Hk)]]]]]].
      - (* wait *)
        unfold body. cbn [Z.eqb orb action_law]. rewrite (rep_final cf m _ _ Hr), (rep_clean cf m _ _ Hr), (rep_htm cf m _ _ Hr).
        destruct (w_stage w) as [i| |] eqn:Ew.
        + assert (Hil : (i < length nodes)%nat) by (rewrite <- (b_nodes _ _ _ _ _ B); apply Hr; auto).
          destruct (node_lookup m _ _ _ _ B D i Hil) as [nd [p [l [cs (N1 & N2 & N3 & _)]]]].
          cbn [stage_index]. rewrite py_nth_nat, N1. cbn [bind]. rewrite N2. cbn [bind].
          rewrite (pref_b cf m _ _ Hpr Hr).
          replace (match sp_hold p with Some h => (String.eqb h "h" && false) || (String.eqb h "v" && false) | None => false end) with false
            by (destruct (sp_hold p) as [h|]; [rewrite !andb_false_r|]; reflexivity).
          rewrite !andb_false_r. cbn [negb andb].
          rewrite <- (mean_const sp (mean (finishing cf pr ps succs i w (r_subtask cf + compensation cf w)) (told g)) Hs).
          apply mean_ext. intros q u _.
          refine (finishing_law x w i nc (r_subtask cf + compensation cf w) (DD u)
             (fun e => seen f (do (x', rc) <- e; Ok (st x', O_NONE, 0 + rc + r_subtask cf + (if reward_independent_preference cf && negb (wants_hold w) then r_preference cf - cost_hold cf else 0))))
             g Hr Ew Hnc HK (HDs u) (HDc u) _).
          intros x' w' r n Hx' Hrr. cbn [bind seen]. apply rep_agree; [exact Hx'|reflexivity|]. rewrite Hrr. unfold compensation. ring.
        + rewrite mean_certain. cbn [seen]. rewrite const3. apply rep_agree; [|reflexivity|].
          * apply (rep_set_htm cf m x w Finished Hr); discriminate.
          * cbn [snd]. rewrite (left_over_count cf m _ _ Hr). ring.
        + rewrite mean_certain. cbn [seen]. rewrite const3. apply rep_agree; [exact Hr|reflexivity|reflexivity].
      - destruct Hh' as [[-> ->]|[-> ->]]; cbn [action_law].
        + apply (hold_case 1 "h" HoldH); auto.
        + apply (hold_case 2 "v" HoldV); auto 10.
      - (* ask *)
        unfold body. cbn [Z.eqb Pos.eqb orb action_law]. rewrite (pref_b cf m _ _ Hpr Hr), mean_next.
        assert (HF : forall u, mean si (fun k => mean (tapes sp nc) (fun t => seen f (Ok (st x, if negb random || d_answer (DD u k t) then if wants_hold w then O_YES else O_NO else O_NONE, - cost_intrinsic cf))))
           == (fun ans : bool => mean (certain (w, (if ans then (if wants_hold w then "yes" else "no") else "none")%string, - cost_intrinsic cf)) (told g)) (negb random || below (if wants_hold w then 9 # 10 else 95 # 100) u)).
        { intros u. cbv beta. rewrite mean_certain.
          transitivity (mean si (fun _ => mean (tapes sp nc) (fun _ => f (st x) (if negb random || below (if wants_hold w then 9 # 10 else 95 # 100) u then if wants_hold w then O_YES else O_NO else O_NONE) (- cost_intrinsic cf)))).
          - apply mean_ext. intros q k _. apply mean_ext. intros q' t _. rewrite HDa. reflexivity.
          - rewrite const2. unfold told. cbn [fst snd]. apply rep_agree; [exact Hr| |reflexivity].
            destruct (negb random || below (if wants_hold w then 9 # 10 else 95 # 100) u); [destruct (wants_hold w)|]; reflexivity. }
        transitivity (mean sp (fun u => (fun ans : bool => mean (certain (w, (if ans then (if wants_hold w then "yes" else "no") else "none")%string, - cost_intrinsic cf)) (told g)) (negb random || below (if wants_hold w then 9 # 10 else 95 # 100) u))).
        { apply mean_ext. intros q u _. exact (HF u). }
        destruct random; cbn [negb orb].
        + apply (coin_law sp (supp_marks pr) Hs Hu (if wants_hold w then 9 # 10 else 95 # 100) (fun ans : bool => mean (certain (w, (if ans then (if wants_hold w then "yes" else "no") else "none")%string, - cost_intrinsic cf)) (told g))).
          destruct (wants_hold w); cbn; auto 10.
        + rewrite (coin_1 (fun ans : bool => mean (certain (w, (if ans then (if wants_hold w then "yes" else "no") else "none")%string, - cost_intrinsic cf)) (told g))). apply (mean_const sp _ Hs).
      - (* objects *)
        unfold body. replace (Z.eqb a 0) with false by (symmetry; apply Z.eqb_neq; lia). replace (Z.eqb a 1) with false by (symmetry; apply Z.eqb_neq; lia).
        replace (Z.eqb a 2) with false by (symmetry; apply Z.eqb_neq; lia). replace (Z.eqb a 3) with false by (symmetry; apply Z.eqb_neq; lia).
        cbn [orb]. rewrite Eo. cbn [bind]. rewrite (rep_obj cf m _ _ _ _ Hr Ho).
        assert (HC : forall b : bool, w_has w o = negb b ->
          mean sp (fun u => mean si (fun k => mean (tapes sp nc) (fun t => seen f (if random && d_fail (DD u k t) then Ok (st x, O_FAIL, - cost_intrinsic cf) else Ok (st (set_object x i (Z.b2z b)), O_NONE, - cost_intrinsic cf))))) ==
          mean (next (coin (if random then p_fail pr else 0)) (fun fails => if fails then certain (w, "fail"%string, - cost_intrinsic cf) else certain (with_object w o b, "none"%string, - cost_intrinsic cf))) (told g)).
        { intros b _. rewrite mean_next.
          transitivity (mean sp (fun u => (fun fails : bool => mean (if fails then certain (w, "fail"%string, - cost_intrinsic cf) else certain (with_object w o b, "none"%string, - cost_intrinsic cf)) (told g)) (random && below (p_fail pr) u))).
          { apply mean_ext. intros q u _. cbv beta.
            transitivity (mean si (fun _ => mean (tapes sp nc) (fun _ => seen f (if random && below (p_fail pr) u then Ok (st x, O_FAIL, - cost_intrinsic cf) else Ok (st (set_object x i (Z.b2z b)), O_NONE, - cost_intrinsic cf))))).
            - apply mean_ext. intros q' k _. apply mean_ext. intros q'' t _. rewrite HDf. reflexivity.
            - rewrite const2. destruct (random && below (p_fail pr) u); rewrite mean_certain; cbn [seen]; apply rep_agree; try reflexivity; [exact Hr|].
              exact (rep_set_obj cf m _ _ _ _ B x w i o b Hr Ho). }
          destruct random; cbn [andb].
          - apply (coin_law sp (supp_marks pr) Hs Hu (p_fail pr) (fun fails : bool => mean (if fails then certain (w, "fail"%string, - cost_intrinsic cf) else certain (with_object w o b, "none"%string, - cost_intrinsic cf)) (told g))). cbn. auto.
          - rewrite (coin_0 (fun fails : bool => mean (if fails then certain (w, "fail"%string, - cost_intrinsic cf) else certain (with_object w o b, "none"%string, - cost_intrinsic cf)) (told g))). apply (mean_const sp _ Hs). }
        destruct Hk as [[-> ->]|[-> ->]]; cbn [action_law].
        + destruct (w_has w o) eqn:Eh; cbn [Z.b2z Z.eqb Pos.eqb].
          * rewrite mean_certain. cbn [seen]. rewrite const3. apply rep_agree; [exact Hr|reflexivity|reflexivity].
          * exact (HC true eq_refl).
        + destruct (w_has w o) eqn:Eh; cbn [Z.b2z Z.eqb Pos.eqb].
          * exact (HC false eq_refl).
          * rewrite mean_certain. cbn [seen]. rewrite const3. apply rep_agree; [exact Hr|reflexivity|reflexivity].
    Qed.
  End Body.

  Lemma mean_numbers no np nc (F : numbers -> Q) :
    mean (numbers_space sp si no np nc) F ==
    mean (tapes sp no) (fun a => mean (tapes sp np) (fun b => mean sp (fun u => mean si (fun k => mean (tapes sp nc) (fun t =>
      F {| n_objects := a; n_preferences := b; n_luck := u; n_index := k; n_consume := t |}))))).
  Proof.
    unfold numbers_space.
    rewrite (mean_map _ (fun w => let '(a, (b, (c, (d, e)))) := w in {| n_objects := a; n_preferences := b; n_luck := c; n_index := d; n_consume := e |}) F).
    rewrite mean_pairs. apply mean_ext. intros q a _. rewrite mean_pairs. apply mean_ext. intros q' b _. rewrite mean_pairs. apply mean_ext. intros q2 u _.
    rewrite mean_pairs. reflexivity.
  Qed.

  Lemma rep_exists w : good cf m w -> exists x, Rep cf m x w.
  Proof. intros H. exists (int_to_state cf m (encode (feat m w))). split; [apply siz_int|]. split; [exact H|reflexivity]. Qed.

  Definition some_draws (w : world) (u : Q) (k : nat) (t : list Q) : draws :=
    {| d_object := fun _ => false; d_preference := fun _ => false; d_succ := k; d_hold := below (98 # 100) u;
       d_answer := below (if wants_hold w then 9 # 10 else 95 # 100) u; d_fail := below (p_fail pr) u;
       d_consume := fun j => below (p_consume_all pr) (nth j t 0) |}.

  Section Step.
    Variables (nc : nat) (f : Z -> nat -> Q -> Q) (g : world -> string -> Q -> Q).
    Hypothesis Hpr : (1 <= cf_preferences cf)%nat.
    Hypothesis Hnc : forall p, In p ps -> (length (sp_conditions p) <= nc)%nat.
    Hypothesis HK : forall l, In l succs -> (length l <= K)%nat.
    Hypothesis HA : agree cf m f g.

    Lemma action_law_ext a act random w w' : acts m a act -> good cf m w -> same_world (objects m) w w' ->
      mean (action_law cf pr ps succs (objects m) random w act) (told g) == mean (action_law cf pr ps succs (objects m) random w' act) (told g).
    Proof.
      intros Ha Hg Hw. destruct (rep_exists w Hg) as [x Hx]. pose proof (rep_ext cf m _ _ _ Hx Hw) as Hx'.
      rewrite <- (body_law nc f g Hpr Hnc HK HA a act x w (some_draws w) random Ha Hx) by reflexivity.
      rewrite <- (body_law nc f g Hpr Hnc HK HA a act x w' (some_draws w) random Ha Hx'); try reflexivity.
      intros u k t. cbn. destruct Hw as (_ & E & _). unfold wants_hold. rewrite E. reflexivity.
    Qed.

    Lemma step_draws_law a act random s w tob tpr : acts m a act -> reads cf m s w ->
      mean sp (fun u => mean si (fun k => mean (tapes sp nc) (fun t =>
        seen f (drawn_transition cf m pr {| n_objects := tob; n_preferences := tpr; n_luck := u; n_index := k; n_consume := t |} random a s)))) ==
      mean (action_law cf pr ps succs (objects m) random
              (if random then with_prefs (with_has w (flip_has m (fun i => below (p_changed_by_human pr) (nth i tob 0)) (w_has w)))
                                (flip (map (fun i => below (p_change_preference pr) (nth i tpr 0)) (seq 0 (cf_preferences cf))) (w_prefs w))
               else w) act) (told g).
    Proof.
      intros Ha Hr.
      set (DD := fun u k t => step_draws cf m pr {| n_objects := tob; n_preferences := tpr; n_luck := u; n_index := k; n_consume := t |} random s).
      set (w1 := if random then _ else w).
      set (x1 := disturb cf m (DD 0 0%nat []) random (int_to_state cf m s)).
      assert (Hx1 : Rep cf m x1 w1).
      { apply reads_rep in Hr. exact (disturb_rep cf m _ _ _ _ B (DD 0 0%nat []) random _ _ Hr). }
      assert (HE : forall u k t, seen f (drawn_transition cf m pr {| n_objects := tob; n_preferences := tpr; n_luck := u; n_index := k; n_consume := t |} random a s) =
                                 seen f (body cf m (DD u k t) random a x1)).
      { intros u k t. f_equal. unfold drawn_transition. rewrite (sample_body cf m _ _ _ _ B _ _ _ _ _ Hr). reflexivity. }
      assert (HB := body_law nc f g Hpr Hnc HK HA a act x1 w1 DD random Ha Hx1).
      assert (Hans : forall u k t, d_answer (DD u k t) = below (if wants_hold w1 then 9 # 10 else 95 # 100) u).
      { intros u k t. assert (E : wants_hold w1 = negb (Z.eqb (has_preference x1 0) 0)) by (symmetry; exact (pref_b cf m _ _ Hpr Hx1)).
        rewrite E. change (d_answer (DD u k t)) with (below (if Z.eqb (has_preference x1 0) 0 then 95 # 100 else 9 # 10) u).
        destruct (Z.eqb (has_preference x1 0) 0); reflexivity. }
      specialize (HB (fun _ _ _ => eq_refl) Hans (fun _ _ _ => eq_refl) (fun _ _ _ => eq_refl) (fun _ _ _ _ => eq_refl)).
      refine (Qeq_trans _ _ _ _ HB). apply mean_ext. intros q u _. apply mean_ext. intros q1 k _. apply mean_ext. intros q2 t _. rewrite HE. reflexivity.
    Qed.

    Lemma transition_law a act random s w : acts m a act -> reads cf m s w ->
      mean (numbers_space sp si (length (objects m)) (cf_preferences cf) nc) (fun x => seen f (drawn_transition cf m pr x random a s)) ==
      mean (step_law cf pr ps succs (objects m) random w act) (told g).
    Proof.
      intros Ha Hr. rewrite mean_numbers. assert (HL : length (w_prefs w) = cf_preferences cf) by apply Hr.
      transitivity (mean (tapes sp (length (objects m))) (fun tob => mean (tapes sp (cf_preferences cf)) (fun tpr =>
         mean (action_law cf pr ps succs (objects m) random
              (if random then with_prefs (with_has w (flip_has m (fun i => below (p_changed_by_human pr) (nth i tob 0)) (w_has w)))
                                (flip (map (fun i => below (p_change_preference pr) (nth i tpr 0)) (seq 0 (cf_preferences cf))) (w_prefs w))
               else w) act) (told g)))).
      { apply mean_ext. intros q tob _. apply mean_ext. intros q' tpr _. exact (step_draws_law a act random s w tob tpr Ha Hr). }
      unfold step_law. destruct random.
      - rewrite mean_next. unfold spontaneous. rewrite mean_next.
        set (H := fun h l => mean (action_law cf pr ps succs (objects m) true {| w_stage := w_stage w; w_prefs := l; w_holding := w_holding w; w_has := h |} act) (told g)).
        assert (HH : forall h1 h2 l, (forall o, h1 o = h2 o) -> length l = cf_preferences cf -> H h1 l == H h2 l).
        { intros h1 h2 l Hh Hl. unfold H. apply (action_law_ext a); [exact Ha| |repeat split; cbn; auto].
          split; [cbn; apply Hr|exact Hl]. }
        assert (HF : forall t, length (flip (map (fun i => below (p_change_preference pr) (nth i t 0)) (seq 0 (cf_preferences cf))) (w_prefs w)) = cf_preferences cf).
        { intros t. unfold flip. rewrite map_length, combine_length, map_length, seq_length, HL. lia. }
        transitivity (mean (moved (p_changed_by_human pr) (objects m) (w_has w)) (fun h => mean (tapes sp (cf_preferences cf)) (fun tpr => H h (flip (map (fun i => below (p_change_preference pr) (nth i tpr 0)) (seq 0 (cf_preferences cf))) (w_prefs w))))).
        + rewrite <- (moved_law sp (supp_marks pr) Hs Hu (p_changed_by_human pr) (objects m) ltac:(cbn; auto) (b_nodup _ _ _ _ _ B)
                       (fun h => mean (tapes sp (cf_preferences cf)) (fun tpr => H h (flip (map (fun i => below (p_change_preference pr) (nth i tpr 0)) (seq 0 (cf_preferences cf))) (w_prefs w)))) (w_has w)).
          * apply mean_ext. intros q tob _. apply mean_ext. intros q' tpr _. reflexivity.
          * intros h1 h2 Hh. apply mean_ext. intros q tpr _. apply HH; [exact Hh|apply HF].
        + apply mean_ext. intros q h _. rewrite mean_next.
          transitivity (mean (changed (p_change_preference pr) (w_prefs w)) (H h)).
          * rewrite <- HL. apply (changed_law sp (supp_marks pr) Hs Hu (p_change_preference pr) (w_prefs w) ltac:(cbn; auto) (H h)).
          * apply mean_ext. intros q' l _. rewrite mean_certain. reflexivity.
      - set (c := mean (action_law cf pr ps succs (objects m) false w act) (told g)).
        transitivity (mean (tapes sp (length (objects m))) (fun _ => c)); [|apply (mean_const _ c (tapes_space sp _ Hs))].
        apply mean_ext. intros q tob _. apply (mean_const _ c (tapes_space sp _ Hs)).
    Qed.
  End Step.

  Lemma start_exact d i : choose init (d_succ d) = Ok i -> exists s, sample_start cf m d = Ok s /\
    reads cf m s {| w_stage := Doing i; w_prefs := map (d_preference d) (seq 0 (cf_preferences cf)); w_holding := false;
                    w_has := flip_has m (d_object d) (fun _ => false) |}.
  Proof.
    intros Ei. destruct D as (D1 & D2 & D3 & D4). unfold sample_start. rewrite (b_init _ _ _ _ _ B), Ei. cbn [bind]. eexists. split; [reflexivity|].
    assert (Hg : forall j, Doing i = Doing j -> (j < length (htm_nodes m))%nat).
    { intros j E; inversion E; subst. rewrite (b_nodes _ _ _ _ _ B). apply D3. eapply choose_In; eauto. }
    pose proof (init_rep cf m (Doing i) Hg) as H0. cbn [stage_index] in H0.
    pose proof (start_prefs_exact cf m d (cf_preferences cf) 0 _ _ H0 ltac:(lia)) as H1.
    cbn [firstn app with_prefs w_stage w_prefs w_holding w_has] in H1.
    apply (rep_random_obj cf m _ _ _ _ B _ _ (d_object d)) in H1.
    apply reads_st in H1. exact H1.
  Qed.

  Lemma start_law_ok nc (f : Z -> Q) (g : world -> Q) : (length init <= K)%nat -> length (p_preferences pr) = cf_preferences cf ->
    (forall s w, reads cf m s w -> f s == g w) ->
    mean (numbers_space sp si (length (objects m)) (cf_preferences cf) nc) (fun x => match drawn_start cf m pr x with Ok s => f s | Err _ => 0 end) ==
    mean (start_law pr init (objects m)) g.
  Proof.
    intros HK HL HA. rewrite mean_numbers.
    assert (Hne : init <> []) by apply D.
    assert (Hext : forall i l h1 h2, In i init -> length l = cf_preferences cf -> (forall o, h1 o = h2 o) ->
      g {| w_stage := Doing i; w_prefs := l; w_holding := false; w_has := h1 |} == g {| w_stage := Doing i; w_prefs := l; w_holding := false; w_has := h2 |}).
    { intros i l h1 h2 Hin Hl Hh.
      destruct (rep_exists {| w_stage := Doing i; w_prefs := l; w_holding := false; w_has := h1 |}) as [x Hx].
      { split; [|exact Hl]. intros j E. cbn in E. inversion E; subst. rewrite (b_nodes _ _ _ _ _ B). apply D. exact Hin. }
      rewrite <- (HA (st x)) by (apply reads_st; exact Hx). apply HA. apply reads_st. apply (rep_ext cf m _ _ _ Hx). repeat split; cbn; auto. }
    set (H := fun h l => mean (among init) (fun i => g {| w_stage := Doing i; w_prefs := l; w_holding := false; w_has := h |})).
    assert (HW : forall tpr, length (map (fun i => below (nth i (p_preferences pr) 0) (nth i tpr 0)) (seq 0 (cf_preferences cf))) = cf_preferences cf)
      by (intros; rewrite map_length, seq_length; reflexivity).
    assert (Hin : forall q i, In (q, i) (among init) -> In i init).
    { intros q i Hi0. unfold among in Hi0. apply in_map_iff in Hi0. destruct Hi0 as [y [E Hy]]. inversion E; subst; auto. }
    transitivity (mean (tapes sp (length (objects m))) (fun tob => mean (tapes sp (cf_preferences cf)) (fun tpr =>
       H (flip_has m (fun i => below (p_changed_by_human pr) (nth i tob 0)) (fun _ => false)) (map (fun i => below (nth i (p_preferences pr) 0) (nth i tpr 0)) (seq 0 (cf_preferences cf)))))).
    { apply mean_ext. intros q tob _. apply mean_ext. intros q1 tpr _. unfold H.
      rewrite <- (mean_const sp (mean (among init) _) Hs). apply mean_ext. intros q2 u _.
      rewrite <- (choose_law init (fun r => match r with Ok i => g {| w_stage := Doing i; w_prefs := map (fun i0 => below (nth i0 (p_preferences pr) 0) (nth i0 tpr 0)) (seq 0 (cf_preferences cf)); w_holding := false;
            w_has := flip_has m (fun i0 => below (p_changed_by_human pr) (nth i0 tob 0)) (fun _ => false) |} | Err _ => 0 end) Hne HK).
      apply mean_ext. intros q3 k _. destruct (choose_ok init k Hne) as [i [Ei Hi']]. rewrite Ei.
      rewrite <- (mean_const (tapes sp nc) (g _) (tapes_space sp nc Hs)). apply mean_ext. intros q4 t _. unfold drawn_start.
      destruct (start_exact (start_draws pr {| n_objects := tob; n_preferences := tpr; n_luck := u; n_index := k; n_consume := t |}) i Ei) as [s [-> Hr]].
      apply HA. exact Hr. }
    unfold start_law. rewrite mean_next.
    transitivity (mean (moved (p_changed_by_human pr) (objects m) (fun _ => false)) (fun h => mean (tapes sp (cf_preferences cf)) (fun tpr => H h (map (fun i => below (nth i (p_preferences pr) 0) (nth i tpr 0)) (seq 0 (cf_preferences cf)))))).
    - rewrite <- (moved_law sp (supp_marks pr) Hs Hu (p_changed_by_human pr) (objects m) ltac:(cbn; auto) (b_nodup _ _ _ _ _ B)
                   (fun h => mean (tapes sp (cf_preferences cf)) (fun tpr => H h (map (fun i => below (nth i (p_preferences pr) 0) (nth i tpr 0)) (seq 0 (cf_preferences cf))))) (fun _ => false)).
      + apply mean_ext. intros q tob _. apply mean_ext. intros q' tpr _. reflexivity.
      + intros h1 h2 Hh. apply mean_ext. intros q tpr _. apply mean_ext. intros q' i Hi'. apply Hext; [eapply Hin; eauto|apply HW|exact Hh].
    - apply mean_ext. intros q h _. rewrite mean_next.
      transitivity (mean (wanted (p_preferences pr)) (H h)).
      + rewrite <- HL. apply (wanted_law sp (supp_marks pr) Hs Hu (p_preferences pr)). intros p Hp. unfold supp_marks. apply in_or_app. right. exact Hp.
      + apply mean_ext. intros q' l _. rewrite mean_next. unfold H. apply mean_ext. intros q2 i _. rewrite mean_certain. reflexivity.
  Qed.
End Law.
