(** Proofs for C96: the dictionary of a whole tree. *)
From Verif Require Import PyBase PyBaseFacts QBase PomdpModel BeliefModel PolicyModel PomcpModel PomcpSpec PolicySpec PolicyProofs PomcpProofs PomcpProofs2
  SharedModel SharedSpec ExportModel ExportSpec.
From Coq Require Import Lia Sorting.Sorted.
Local Open Scope list_scope.
Local Open Scope nat_scope.

(** *** lists *)
Lemma mapM_Forall2 {A C} (f : A -> res C) l : forall r, mapM f l = Ok r -> Forall2 (fun x y => f x = Ok y) l r.
Proof.
  induction l as [|x l IH]; intros r E; cbn [mapM] in E; [assert (r = []) as -> by congruence; constructor|].
  destruct (f x) as [y|e] eqn:Ef; cbn [bind] in E; [|discriminate]. destruct (mapM f l) as [ys|e]; cbn [bind] in E; [|discriminate].
  assert (r = y :: ys) as -> by congruence. constructor; auto.
Qed.
Lemma mapM_total {A C} (f : A -> res C) l : (forall x, In x l -> exists y, f x = Ok y) -> exists r, mapM f l = Ok r.
Proof.
  induction l as [|x l IH]; intros Hf; cbn [mapM]; [eauto|]. destruct (Hf x) as [y ->]; [simpl; auto|]. cbn [bind].
  destruct IH as [r ->]; [intros z Hz; apply Hf; simpl; auto|]. cbn [bind]. eauto.
Qed.
Lemma Forall2_nth_l {A C} (R : A -> C -> Prop) l r : Forall2 R l r -> forall i x, nth_error l i = Some x -> exists y, nth_error r i = Some y /\ R x y.
Proof. induction 1 as [|x y l r Hxy HR IH]; intros [|i] z E; cbn in *; try discriminate; [assert (z = x) as -> by congruence; eauto|apply IH; auto]. Qed.
Lemma Forall2_nth_r {A C} (R : A -> C -> Prop) l r : Forall2 R l r -> forall i y, nth_error r i = Some y -> exists x, nth_error l i = Some x /\ R x y.
Proof. induction 1 as [|x y l r Hxy HR IH]; intros [|i] z E; cbn in *; try discriminate; [assert (z = y) as -> by congruence; eauto|apply IH; auto]. Qed.
Lemma Forall2_length {A C} (R : A -> C -> Prop) l r : Forall2 R l r -> length l = length r.
Proof. induction 1; cbn; congruence. Qed.
Lemma name_at_ok l i nm : name_at l i = Ok nm <-> nth_error l i = Some nm.
Proof. unfold name_at. destruct (nth_error l i); split; intros E; congruence. Qed.
Lemma name_at_total l i : i < length l -> exists nm, name_at l i = Ok nm.
Proof. intros Hi. unfold name_at. destruct (nth_error l i) eqn:E; [eauto|]. apply nth_error_None in E. lia. Qed.

(** actions with a child *)
Lemma filter_map' {A C} (f : C -> bool) (g : A -> C) l : filter f (map g l) = map g (filter (fun x => f (g x)) l).
Proof. induction l as [|x l IH]; cbn; [auto|]. destruct (f (g x)); cbn; congruence. Qed.
Lemma tried_cons {K} (k : option K) t : tried (k :: t) = (match k with Some _ => [0] | None => [] end) ++ map S (tried t).
Proof.
  unfold tried. cbn [length seq]. rewrite <- seq_shift. cbn [filter nth]. rewrite filter_map'. cbn [nth]. destruct k; reflexivity.
Qed.
Lemma present_cons {K} (k : option K) t : present (k :: t) = (match k with Some c => [c] | None => [] end) ++ present t.
Proof. reflexivity. Qed.
Lemma tried_In {K} (kids : list (option K)) a : In a (tried kids) <-> exists c, nth_error kids a = Some (Some c).
Proof.
  unfold tried. rewrite filter_In, in_seq. split.
  - intros [Ha E]. rewrite (nth_error_nth' kids None) by lia. destruct (nth a kids None); [eauto|discriminate].
  - intros [c E]. split; [split; [lia|]; apply nth_error_Some; congruence|]. rewrite (nth_error_nth _ _ None E). reflexivity.
Qed.
Lemma tried_NoDup {K} (kids : list (option K)) : NoDup (tried kids).
Proof. apply NoDup_filter, seq_NoDup. Qed.
Lemma seq_sorted n : forall s, StronglySorted lt (seq s n).
Proof. induction n as [|n IH]; intros s; cbn [seq]; constructor; auto. apply Forall_forall. intros x Hx. apply in_seq in Hx. lia. Qed.
Lemma filter_sorted (f : nat -> bool) l : StronglySorted lt l -> StronglySorted lt (filter f l).
Proof.
  induction 1 as [|x l S0 IH F]; cbn [filter]; [constructor|]. destruct (f x); [constructor|]; auto. apply Forall_forall. intros y Hy. apply filter_In in Hy. eapply Forall_forall in F; [eauto|tauto].
Qed.
Lemma tried_sorted {K} (kids : list (option K)) : StronglySorted lt (tried kids).
Proof. apply filter_sorted, seq_sorted. Qed.
Lemma tried_present {K} (kids : list (option K)) : Forall2 (fun a c => nth_error kids a = Some (Some c)) (tried kids) (present kids).
Proof.
  induction kids as [|k t IH]; [constructor|]. rewrite tried_cons, present_cons.
  assert (T : Forall2 (fun a c => nth_error (k :: t) a = Some (Some c)) (map S (tried t)) (present t)).
  { revert IH. generalize (tried t) (present t). intros l r F. induction F; cbn; constructor; auto. }
  destruct k as [c|]; [constructor; auto|auto].
Qed.
Lemma present_length {K} (kids : list (option K)) : length (present kids) = length (tried kids).
Proof. symmetry. eapply Forall2_length, tried_present. Qed.
(** the place of an action among them *)
Lemma tried_place {K} (kids : list (option K)) : forall a c, nth_error kids a = Some (Some c) ->
  nth_error (tried kids) (length (tried (firstn a kids))) = Some a /\ nth_error (present kids) (length (tried (firstn a kids))) = Some c.
Proof.
  induction kids as [|k t IH]; intros [|a] c E; try discriminate.
  - cbn in E. assert (k = Some c) as -> by congruence. cbn [firstn]. rewrite tried_cons, present_cons. cbn. auto.
  - cbn in E. destruct (IH _ _ E) as [I1 I2]. cbn [firstn]. rewrite !tried_cons, present_cons. destruct k as [k|]; cbn [app length nth_error]; rewrite map_length.
    + rewrite nth_error_map, I1. auto.
    + rewrite nth_error_map, I1. auto.
Qed.

Lemma lookup_nth {V} (o : nat) (v : V) d : lookup o d = Some v -> exists i, nth_error d i = Some (o, v).
Proof. intros E. apply lookup_In in E. apply In_nth_error in E. auto. Qed.
Lemma nth_lookup {V} (o : nat) (v : V) d i : NoDup (map fst d) -> nth_error d i = Some (o, v) -> lookup o d = Some v.
Proof. intros ND E. apply lookup_In_iff; auto. eapply nth_error_In; eauto. Qed.

(** *** induction on trees *)
Section Induction.
  Context {B : Type}.
  Variables (PO : onode B -> Prop) (PA : anode B -> Prop).
  Hypothesis HO : forall v b kids, (forall a c, nth_error kids a = Some (Some c) -> PA c) -> PO (ON v b kids).
  Hypothesis HA : forall v kids, (forall i o m, nth_error kids i = Some (o, m) -> PO m) -> PA (AN v kids).
  Fixpoint onode_induct (n : onode B) : PO n :=
    match n with
    | ON v b kids => HO v b kids ((fix go l : forall a c, nth_error l a = Some (Some c) -> PA c :=
        match l with
        | [] => fun a c E => match a return nth_error [] a = Some (Some c) -> PA c with 0 => fun E => ltac:(discriminate E) | S _ => fun E => ltac:(discriminate E) end E
        | k :: t => fun a => match a return forall c, nth_error (k :: t) a = Some (Some c) -> PA c with
                             | 0 => match k return forall c, Some k = Some (Some c) -> PA c with
                                    | Some c0 => fun c E => match E in _ = y return match y with Some (Some c) => PA c | _ => True end with eq_refl => anode_induct c0 end
                                    | None => fun c E => ltac:(discriminate E)
                                    end
                             | S a => fun c E => go t a c E
                             end
        end) kids)
    end
  with anode_induct (c : anode B) : PA c :=
    match c with
    | AN v kids => HA v kids ((fix go l : forall i o m, nth_error l i = Some (o, m) -> PO m :=
        match l with
        | [] => fun i o m E => match i return nth_error [] i = Some (o, m) -> PO m with 0 => fun E => ltac:(discriminate E) | S _ => fun E => ltac:(discriminate E) end E
        | k :: t => fun i => match i return forall o m, nth_error (k :: t) i = Some (o, m) -> PO m with
                             | 0 => match k return forall o m, Some k = Some (o, m) -> PO m with
                                    | (o0, m0) => fun o m E => match E in _ = y return match y with Some (_, m) => PO m | None => True end with eq_refl => onode_induct m0 end
                                    end
                             | S i => fun o m E => go t i o m E
                             end
        end) kids)
    end.
End Induction.

Section Values.
  Context {X St B H : Type}.
  Variable P : search X St B H.
  Variable to_list : B -> list Q.
  Notation tree_ok := (tree_ok P).
  Notation o_dict := (o_dict P to_list).
  Notation a_dict := (a_dict P to_list).

  Lemma o_dict_eq v b kids : o_dict (ON v b kids) =
    (do names <- mapM (name_at (s_actions P)) (tried kids); do ds <- mapM a_dict (present kids); Ok (OD (avg_value v) (n_simulations v) (to_list b) names ds)).
  Proof.
    cbn [ExportModel.o_dict]. destruct (mapM (name_at (s_actions P)) (tried kids)) as [names|e]; cbn [bind]; [|reflexivity].
    match goal with |- bind (?g kids) _ = _ => assert (E : forall l, g l = mapM a_dict (present l)) end.
    { induction l as [|[c|] l IH]; [reflexivity| |].
      - rewrite present_cons. cbn [app mapM]. rewrite <- IH. reflexivity.
      - rewrite present_cons. cbn [app]. apply IH. }
    rewrite E. reflexivity.
  Qed.
  Lemma a_dict_eq v kids : a_dict (AN v kids) =
    (do names <- mapM (fun om => name_at (s_observations P) (fst om)) kids; do ds <- mapM (fun om => o_dict (snd om)) kids; Ok (AD (avg_value v) (n_simulations v) names ds)).
  Proof. reflexivity. Qed.

  Lemma ok_kid n a c : tree_ok n -> nth_error (o_kids n) a = Some (Some c) -> a < length (s_actions P) /\ NoDup (map fst (a_kids c)) /\ forall o, In o (map fst (a_kids c)) -> o < length (s_observations P).
  Proof.
    intros T E. destruct (T [] n eq_refl) as [L K]. destruct (K a c E) as [K1 K2]. split; [|auto]. rewrite <- L. apply nth_error_Some. congruence.
  Qed.
  Lemma ok_child n a c o m : tree_ok n -> nth_error (o_kids n) a = Some (Some c) -> lookup o (a_kids c) = Some m -> tree_ok m.
  Proof. intros T E El h k F. apply (T ((a, o) :: h)). cbn [PomcpSpec.find]. rewrite E, El. auto. Qed.

  (** every tree of the search has a dictionary *)
  Lemma o_dict_total n : tree_ok n -> exists d, o_dict n = Ok d.
  Proof.
    apply (onode_induct (fun n => tree_ok n -> exists d, o_dict n = Ok d)
             (fun c => (forall o m, In (o, m) (a_kids c) -> tree_ok m) -> (forall o, In o (map fst (a_kids c)) -> o < length (s_observations P)) -> exists d, a_dict c = Ok d)).
    - intros v b kids IH T. rewrite o_dict_eq. destruct (mapM_total (name_at (s_actions P)) (tried kids)) as [names ->].
      { intros a Ha. apply tried_In in Ha. destruct Ha as [c E]. apply name_at_total. apply (ok_kid (ON v b kids) a c T E). }
      cbn [bind]. destruct (mapM_total a_dict (present kids)) as [ds ->]; [|cbn [bind]; eauto].
      intros c Hc. apply In_nth_error in Hc. destruct Hc as [i Ei]. destruct (Forall2_nth_r _ _ _ (tried_present kids) _ _ Ei) as (a & _ & Ea).
      destruct (ok_kid (ON v b kids) a c T Ea) as (_ & ND & R). apply (IH a c Ea); auto.
      intros o m Hm. apply (ok_child (ON v b kids) a c o m T Ea). apply lookup_In_iff; auto.
    - intros v kids IH T R. rewrite a_dict_eq. cbn [a_kids] in T, R. destruct (mapM_total (fun om : nat * onode B => name_at (s_observations P) (fst om)) kids) as [names ->].
      { intros [o m] Hm. apply name_at_total. apply R. apply (in_map fst) in Hm. auto. }
      cbn [bind]. destruct (mapM_total (fun om : nat * onode B => o_dict (snd om)) kids) as [ds ->]; [|cbn [bind]; eauto].
      intros [o m] Hm. cbn [snd]. pose proof Hm as Hm'. apply In_nth_error in Hm'. destruct Hm' as [i Ei]. apply (IH i o m Ei). eapply T; eauto.
  Qed.

  (** what it holds *)
  Lemma all_named_mapM {A} (names : list name) (g : A -> nat) l r : mapM (fun x => name_at names (g x)) l = Ok r -> all_named names (map g l) r.
  Proof.
    intros E. apply mapM_Forall2 in E. unfold all_named. induction E; cbn; constructor; auto. apply name_at_ok. auto.
  Qed.
  Lemma all_named_NoDup names is l : NoDup names -> NoDup is -> all_named names is l -> NoDup l.
  Proof.
    intros N1 N2 F. apply NoDup_nth_error. intros i j Hi Eij. apply (proj1 (NoDup_nth_error is) N2).
    - rewrite (Forall2_length _ _ _ F). auto.
    - destruct (nth_error l i) as [x|] eqn:Ei; [|apply nth_error_None in Ei; lia]. symmetry in Eij.
      destruct (Forall2_nth_r _ _ _ F _ _ Ei) as (k1 & Hk1 & E1). destruct (Forall2_nth_r _ _ _ F _ _ Eij) as (k2 & Hk2 & E2).
      assert (k1 = k2) as ->; [|congruence]. apply (proj1 (NoDup_nth_error names) N1); [apply nth_error_Some; congruence|congruence].
  Qed.
  Lemma dict_parts n d : o_dict n = Ok d -> exists names ds, d = OD (avg_value (o_avg n)) (o_count n) (to_list (o_belief n)) names ds /\
    all_named (s_actions P) (tried (o_kids n)) names /\ Forall2 (fun c d => a_dict c = Ok d) (present (o_kids n)) ds.
  Proof.
    destruct n as [v b kids]. rewrite o_dict_eq. destruct (mapM (name_at (s_actions P)) (tried kids)) as [names|e] eqn:En; cbn [bind]; [|discriminate].
    destruct (mapM a_dict (present kids)) as [ds|e] eqn:Ed; cbn [bind]; [|discriminate]. intros E. exists names, ds. split; [unfold o_count; cbn; congruence|]. cbn [o_kids]. split.
    - apply (all_named_mapM (s_actions P) (fun i => i)) in En. rewrite map_id in En. auto.
    - apply mapM_Forall2. auto.
  Qed.
  Lemma adict_parts c d : a_dict c = Ok d -> exists names ds, d = AD (avg_value (a_avg c)) (a_count c) names ds /\
    all_named (s_observations P) (map fst (a_kids c)) names /\ Forall2 (fun om d => o_dict (snd om) = Ok d) (a_kids c) ds.
  Proof.
    destruct c as [v kids]. rewrite a_dict_eq. destruct (mapM (fun om : nat * onode B => name_at (s_observations P) (fst om)) kids) as [names|e] eqn:En; cbn [bind]; [|discriminate].
    destruct (mapM (fun om : nat * onode B => o_dict (snd om)) kids) as [ds|e] eqn:Ed; cbn [bind]; [|discriminate]. intros E. exists names, ds. split; [unfold a_count; cbn; congruence|]. cbn [a_kids]. split.
    - apply (all_named_mapM (s_observations P) fst) in En. auto.
    - apply mapM_Forall2 in Ed. auto.
  Qed.

  Hypothesis NA : NoDup (s_actions P).
  Hypothesis NO : NoDup (s_observations P).

  (** reading the entry of an index *)
  Lemma entry_at {C} names is l (cs : list C) i k nm : NoDup names -> NoDup is -> all_named names is l -> nth_error is i = Some k -> nth_error names k = Some nm -> entry l cs nm = nth_error cs i.
  Proof.
    intros N1 N2 F Ei En. unfold entry. pose proof (all_named_NoDup _ _ _ N1 N2 F) as N3. destruct (Forall2_nth_l _ _ _ F _ _ Ei) as (y & Ey & Hy).
    assert (y = nm) as -> by congruence. rewrite (list_index_nth l i nm N3 Ey). auto.
  Qed.
  Lemma entry_some {C} names is l (cs : list C) nm c : all_named names is l -> entry l cs nm = Some c -> exists i k, nth_error is i = Some k /\ nth_error names k = Some nm /\ nth_error cs i = Some c.
  Proof.
    intros F E. unfold entry in E. destruct (list_index l nm) as [i|] eqn:Ei; [|discriminate]. apply list_index_ok in Ei. destruct (Forall2_nth_r _ _ _ F _ _ Ei) as (k & Hk & En). eauto.
  Qed.
  Lemma entry_action n d a c nm : o_dict n = Ok d -> nth_error (o_kids n) a = Some (Some c) -> nth_error (s_actions P) a = Some nm ->
    exists e, entry (od_actions d) (od_children d) nm = Some e /\ a_dict c = Ok e.
  Proof.
    intros E Ek En. destruct (dict_parts _ _ E) as (names & ds & -> & F & G). cbn [od_actions od_children].
    destruct (tried_place _ _ _ Ek) as [T1 T2]. rewrite (entry_at _ _ _ ds _ _ _ NA (tried_NoDup _) F T1 En). destruct (Forall2_nth_l _ _ _ G _ _ T2) as (e & Ee & He). eauto.
  Qed.
  Lemma action_entry n d nm e : o_dict n = Ok d -> entry (od_actions d) (od_children d) nm = Some e ->
    exists a c, nth_error (o_kids n) a = Some (Some c) /\ nth_error (s_actions P) a = Some nm /\ a_dict c = Ok e.
  Proof.
    intros E Ee. destruct (dict_parts _ _ E) as (names & ds & -> & F & G). cbn [od_actions od_children] in Ee.
    destruct (entry_some _ _ _ _ _ _ F Ee) as (i & a & Ei & En & Ed). destruct (Forall2_nth_l _ _ _ (tried_present (o_kids n)) _ _ Ei) as (c & Ec & Ek).
    destruct (Forall2_nth_l _ _ _ G _ _ Ec) as (e' & Ee' & He). assert (e' = e) as -> by congruence. eauto.
  Qed.
  Lemma entry_observation c e o m nm : NoDup (map fst (a_kids c)) -> a_dict c = Ok e -> lookup o (a_kids c) = Some m -> nth_error (s_observations P) o = Some nm ->
    exists d, entry (ad_observations e) (ad_children e) nm = Some d /\ o_dict m = Ok d.
  Proof.
    intros ND E El En. destruct (adict_parts _ _ E) as (names & ds & -> & F & G). cbn [ad_observations ad_children]. destruct (lookup_nth _ _ _ El) as [i Ei].
    assert (Ei' : nth_error (map fst (a_kids c)) i = Some o) by (rewrite nth_error_map, Ei; auto).
    rewrite (entry_at _ _ _ ds _ _ _ NO ND F Ei' En). destruct (Forall2_nth_l _ _ _ G _ _ Ei) as (d & Ed & Hd). eauto.
  Qed.
  Lemma observation_entry c e nm d : NoDup (map fst (a_kids c)) -> a_dict c = Ok e -> entry (ad_observations e) (ad_children e) nm = Some d ->
    exists o m, lookup o (a_kids c) = Some m /\ nth_error (s_observations P) o = Some nm /\ o_dict m = Ok d.
  Proof.
    intros ND E Ee. destruct (adict_parts _ _ E) as (names & ds & -> & F & G). cbn [ad_observations ad_children] in Ee.
    destruct (entry_some _ _ _ _ _ _ F Ee) as (i & o & Ei & En & Ed). rewrite nth_error_map in Ei. destruct (nth_error (a_kids c) i) as [[o' m]|] eqn:Ek; [|discriminate].
    cbn in Ei. assert (o' = o) as -> by congruence. destruct (Forall2_nth_l _ _ _ G _ _ Ek) as (d' & Ed' & Hd). assert (d' = d) as -> by congruence. exists o, m. split; [eapply nth_lookup; eauto|auto].
  Qed.

  Lemma dict_describes n d : tree_ok n -> o_dict n = Ok d -> describes P to_list d n.
  Proof.
    intros T E. destruct (dict_parts _ _ E) as (names & ds & Ed & F & G). rewrite Ed. cbn. split; [auto|]. split; [auto|]. split; [auto|]. split; [|split].
    - intros nm. split.
      + intros Hn. apply In_nth_error in Hn. destruct Hn as [i Ei]. destruct (Forall2_nth_r _ _ _ F _ _ Ei) as (a & Ea & En). apply nth_error_In, tried_In in Ea. destruct Ea as [c Ec]. eauto.
      + intros (a & c & Ec & En). destruct (tried_place _ _ _ Ec) as [T1 _]. destruct (Forall2_nth_l _ _ _ F _ _ T1) as (y & Ey & Hy). assert (y = nm) as -> by congruence. eapply nth_error_In; eauto.
    - intros a c nm Ec En. destruct (entry_action _ _ _ _ _ E Ec En) as (e & Ee & He). rewrite Ed in Ee. cbn in Ee. exists e. split; [auto|].
      destruct (adict_parts _ _ He) as (names' & ds' & -> & F' & G'). cbn. split; [auto|]. split; [auto|]. split; [auto|]. symmetry. eapply Forall2_length; eauto.
    - split.
      + cbn [od_children od_actions]. rewrite <- (Forall2_length _ _ _ G), <- (Forall2_length _ _ _ F). apply present_length.
      + exists (tried (o_kids n)). split; [apply tried_sorted|auto].
  Qed.

  Lemma read_find h nh : named P h nh -> forall n d, tree_ok n -> o_dict n = Ok d ->
    match PomcpSpec.find n h with
    | Some m => exists d', read d nh = Some d' /\ o_dict m = Ok d' /\ tree_ok m
    | None => read d nh = None
    end.
  Proof.
    induction 1 as [|[a o] [na no] h nh [H1 H2] F IH]; intros n d T E; cbn [PomcpSpec.find read]; [eauto|]. cbn [fst snd] in H1, H2.
    destruct (entry (od_actions d) (od_children d) na) as [e|] eqn:Ee.
    - destruct (action_entry _ _ _ _ E Ee) as (a' & c & Ek & En & He). assert (a' = a) as ->.
      { apply (proj1 (NoDup_nth_error _) NA); [apply nth_error_Some; congruence|congruence]. }
      rewrite Ek. destruct (ok_kid _ _ _ T Ek) as (_ & ND & _). destruct (entry (ad_observations e) (ad_children e) no) as [d'|] eqn:Ed.
      + destruct (observation_entry _ _ _ _ ND He Ed) as (o' & m & El & En' & Hd). assert (o' = o) as ->.
        { apply (proj1 (NoDup_nth_error _) NO); [apply nth_error_Some; congruence|congruence]. }
        rewrite El. apply IH; auto. eapply ok_child; eauto.
      + destruct (lookup o (a_kids c)) as [m|] eqn:El; [|auto]. destruct (entry_observation _ _ _ _ _ ND He El H2) as (d' & Ed' & _). congruence.
    - destruct (nth_error (o_kids n) a) as [[c|]|] eqn:Ek; auto. destruct (entry_action _ _ _ _ _ E Ek H1) as (e & Ee' & _). congruence.
  Qed.
  Lemma read_named nh : forall n d d', tree_ok n -> o_dict n = Ok d -> read d nh = Some d' -> exists h, named P h nh /\ PomcpSpec.find n h <> None.
  Proof.
    induction nh as [|[na no] nh IH]; intros n d d' T E R; cbn [read] in R; [exists []; split; [constructor|discriminate]|].
    destruct (entry (od_actions d) (od_children d) na) as [e|] eqn:Ee; [|discriminate]. destruct (action_entry _ _ _ _ E Ee) as (a & c & Ek & En & He).
    destruct (entry (ad_observations e) (ad_children e) no) as [d1|] eqn:Ed; [|discriminate]. destruct (ok_kid _ _ _ T Ek) as (_ & ND & _).
    destruct (observation_entry _ _ _ _ ND He Ed) as (o & m & El & En' & Hd). destruct (IH m d1 d' (ok_child _ _ _ _ _ T Ek El) Hd R) as (h & Hh & Fh).
    exists ((a, o) :: h). split; [constructor; auto|]. cbn [PomcpSpec.find]. rewrite Ek, El. auto.
  Qed.
End Values.
