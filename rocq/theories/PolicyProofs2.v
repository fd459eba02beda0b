(** Proofs for C50, C52 and C56: the graph runner, loading and visit. *)
From Verif Require Import PyBase PyBaseFacts QBase PomdpModel PomdpSpec PomdpProofs PomdpProofs2 SuppModel PolicyModel PolicySpec Props_Pomdp PolicyProofs.
From Coq Require Import Lia Lqa.
Local Open Scope list_scope.
Local Open Scope nat_scope.

(** *** tables *)
Lemma combine_seq_nth {A} (l : list A) : forall a k, nth_error (combine (seq a (length l)) l) k = option_map (fun x => (a + k, x)) (nth_error l k).
Proof.
  induction l as [|x t IH]; intros a k; [destruct k; reflexivity|]. cbn [length seq combine]. destruct k as [|k]; cbn [nth_error]; [rewrite Nat.add_0_r; reflexivity|].
  rewrite IH. replace (S a + k) with (a + S k) by lia. reflexivity.
Qed.
Lemma map_combine_nth {A B} (f : nat * A -> B) (l : list A) k : nth_error (map f (combine (seq 0 (length l)) l)) k = option_map (fun x => f (k, x)) (nth_error l k).
Proof. rewrite nth_error_map, combine_seq_nth. destruct (nth_error l k); reflexivity. Qed.
Lemma set_entry_length tr i j v : length (set_entry tr i j v) = length tr.
Proof. unfold set_entry. rewrite map_length, combine_length, seq_length. lia. Qed.
Definition set_row (row : list (option Z)) (j : nat) (v : Z) := map (fun jt : nat * option Z => if Nat.eqb (fst jt) j then Some v else snd jt) (combine (seq 0 (length row)) row).
Lemma set_row_length row j v : length (set_row row j v) = length row.
Proof. unfold set_row. rewrite map_length, combine_length, seq_length. lia. Qed.
Lemma set_row_nth row j v k : nth_error (set_row row j v) k = option_map (fun t => if Nat.eqb k j then Some v else t) (nth_error row k).
Proof. unfold set_row. rewrite map_combine_nth. reflexivity. Qed.
Lemma set_entry_nth tr i j v k : nth_error (set_entry tr i j v) k = option_map (fun row => if Nat.eqb k i then set_row row j v else row) (nth_error tr k).
Proof. unfold set_entry. rewrite map_combine_nth. reflexivity. Qed.
Lemma set_entry_In tr i j v row : In row (set_entry tr i j v) -> exists row0, In row0 tr /\ (row = row0 \/ row = set_row row0 j v).
Proof.
  intros H. apply In_nth_error in H. destruct H as [k H]. rewrite set_entry_nth in H. destruct (nth_error tr k) as [r0|] eqn:E; [|discriminate]. cbn in H.
  exists r0. split; [eapply nth_error_In; eauto|]. destruct (Nat.eqb k i); inversion H; auto.
Qed.
Lemma set_row_In row j v t : In t (set_row row j v) -> In t row \/ t = Some v.
Proof.
  intros H. apply In_nth_error in H. destruct H as [k H]. rewrite set_row_nth in H. destruct (nth_error row k) as [r0|] eqn:E; [|discriminate]. cbn in H.
  destruct (Nat.eqb k j); [right; congruence|]. left. apply (nth_error_In row k). congruence.
Qed.

(** *** the constructor *)
Lemma mk_policy_ok acts obs tr vals st i g : mk_policy acts obs tr vals st i = Ok g ->
  0 < length tr /\ length tr = length acts /\ (forall row, In row tr -> length row = length obs) /\
  g_actions g = acts /\ g_observations g = obs /\ g_trans g = tr /\ g_values g = vals /\
  match i, st with Some z, _ => g_init g = z /\ (z < Z.of_nat (length acts))%Z | None, Some b => exists n, g_init g = Z.of_nat n /\ node_from_belief vals b = Ok n | None, None => False end.
Proof.
  unfold mk_policy. destruct (negb (Nat.eqb (length tr) 0) && Nat.eqb (length tr) (length acts) && _)%bool eqn:E; cbn [negb]; [|discriminate].
  apply andb_true_iff in E. destruct E as [E E3]. apply andb_true_iff in E. destruct E as [E1 E2]. apply negb_true_iff, Nat.eqb_neq in E1. apply Nat.eqb_eq in E2.
  rewrite forallb_forall in E3. intros H. split; [lia|]. split; [auto|]. split; [intros row Hr; apply Nat.eqb_eq; auto|].
  destruct i as [z|].
  - destruct (Z.ltb_spec z (Z.of_nat (length acts))); [|discriminate]. cbn [bind] in H. match type of H with Ok ?x = _ => assert (g = x) as -> by congruence end. cbn. repeat split; auto.
  - destruct st as [b|]; [|discriminate]. destruct (node_from_belief vals b) as [n|] eqn:En; [|discriminate]. cbn [bind] in H.
    match type of H with Ok ?x = _ => assert (g = x) as -> by congruence end. cbn. do 4 (split; [reflexivity|]). eauto.
Qed.
Lemma mk_policy_start acts obs tr vals b n : 0 < length tr -> length tr = length acts -> (forall row, In row tr -> length row = length obs) ->
  node_from_belief vals b = Ok n -> mk_policy acts obs tr vals (Some b) None = Ok {| g_actions := acts; g_observations := obs; g_trans := tr; g_values := vals; g_init := Z.of_nat n |}.
Proof.
  intros H1 H2 H3 E. unfold mk_policy. rewrite E. apply Nat.eqb_eq in H2. rewrite H2.
  destruct (Nat.eqb_spec (length tr) 0); [lia|]. cbn [negb andb].
  assert (forallb (fun r : list (option Z) => Nat.eqb (length r) (length obs)) tr = true) as -> by (apply forallb_forall; intros x Hx; apply Nat.eqb_eq; auto). reflexivity.
Qed.
Lemma mk_policy_init acts obs tr vals st z : 0 < length tr -> length tr = length acts -> (forall row, In row tr -> length row = length obs) ->
  (z < Z.of_nat (length acts))%Z -> mk_policy acts obs tr vals st (Some z) = Ok {| g_actions := acts; g_observations := obs; g_trans := tr; g_values := vals; g_init := z |}.
Proof.
  intros H1 H2 H3 E. unfold mk_policy. apply Nat.eqb_eq in H2. rewrite H2.
  destruct (Nat.eqb_spec (length tr) 0); [lia|]. cbn [negb andb].
  assert (forallb (fun r : list (option Z) => Nat.eqb (length r) (length obs)) tr = true) as -> by (apply forallb_forall; intros x Hx; apply Nat.eqb_eq; auto).
  apply Z.ltb_lt in E. rewrite E. reflexivity.
Qed.

(** *** the graph runner *)
Lemma next_spec g n o : shaped g -> NoDup (g_observations g) -> n < length (g_actions g) ->
  (~ In o (g_observations g) /\ gr_step g o (Some (Z.of_nat n)) = (Some (Z.of_nat n), Err EValue)) \/
  (exists t, entry_at g n o t /\ gr_step g o (Some (Z.of_nat n)) = match t with Some z => (Some z, Ok tt) | None => (None, Err EImpossible) end).
Proof.
  intros [S1 S2] ND Hn. unfold gr_step, gp_next. destruct (list_index (g_observations g) o) as [j|e] eqn:E; cbn [bind].
  - right. pose proof (list_index_ok _ _ _ E) as E'. rewrite axis_nat. rewrite S1. apply Nat.ltb_lt in Hn. rewrite Hn. apply Nat.ltb_lt in Hn. cbn [bind].
    destruct (nth_error (g_trans g) n) as [row|] eqn:Er; [|apply nth_error_None in Er; lia].
    assert (Hj : j < length (g_observations g)) by (apply nth_error_Some; congruence). rewrite <- (S2 row (nth_error_In _ _ Er)) in Hj.
    destruct (nth_error row j) as [t|] eqn:Et; [|apply nth_error_None in Et; lia]. exists t. split; [exists j, row; auto|]. destruct t; reflexivity.
  - left. destruct (list_index_err _ _ _ E) as [-> H]. auto.
Qed.
Lemma entry_unique g n o t t' : NoDup (g_observations g) -> entry_at g n o t -> entry_at g n o t' -> t = t'.
Proof.
  intros ND (j & row & A1 & A2 & A3) (j' & row' & B1 & B2 & B3). assert (j = j').
  { apply (proj1 (NoDup_nth_error _) ND); [apply nth_error_Some; congruence|congruence]. } subst. congruence.
Qed.
Lemma entry_closed g n o z : closed g -> entry_at g n o (Some z) -> exists m, z = Z.of_nat m /\ m < length (g_actions g).
Proof.
  intros C (j & row & A1 & A2 & A3). specialize (C row z (nth_error_In _ _ A2) (nth_error_In _ _ A3)). exists (Z.to_nat z). lia.
Qed.
Lemma run_spec g : shaped g -> NoDup (g_observations g) -> closed g -> forall obs n c e, n < length (g_actions g) -> run (gr_step g) obs (Some (Z.of_nat n)) = (c, e) ->
  match e with
  | Ok _ => exists k, c = Some (Z.of_nat k) /\ k < length (g_actions g) /\ follows g n obs k
  | Err e => exists pre o rest k, obs = pre ++ o :: rest /\ follows g n pre k /\ k < length (g_actions g) /\
      ((e = EValue /\ ~ In o (g_observations g) /\ c = Some (Z.of_nat k)) \/ (e = EImpossible /\ entry_at g k o None /\ c = None))
  end.
Proof.
  intros Sh ND C. induction obs as [|o rest IH]; intros n c e Hn E; cbn [run] in E.
  - assert (c = Some (Z.of_nat n) /\ e = Ok tt) as [-> ->] by (split; congruence). exists n. split; [auto|]. split; [auto|constructor].
  - destruct (next_spec g n o Sh ND Hn) as [[H1 H2]|(t & H1 & H2)]; rewrite H2 in E.
    + assert (c = Some (Z.of_nat n) /\ e = Err EValue) as [-> ->] by (split; congruence). exists [], o, rest, n. split; [reflexivity|]. split; [constructor|]. auto.
    + destruct t as [z|].
      * destruct (entry_closed _ _ _ _ C H1) as (m & -> & Hm). specialize (IH m c e Hm E). destruct e as [u|e].
        -- destruct IH as (k & K1 & K2 & K3). exists k. split; [auto|]. split; [auto|]. econstructor; eauto.
        -- destruct IH as (pre & o' & rest' & k & -> & K2 & K3 & K4). exists (o :: pre), o', rest', k. split; [reflexivity|]. split; [econstructor; eauto|]. auto.
      * assert (c = None /\ e = Err EImpossible) as [-> ->] by (split; congruence). exists [], o, rest, n. split; [reflexivity|]. split; [constructor|]. auto.
Qed.
Lemma run_follows g : shaped g -> NoDup (g_observations g) -> forall obs n k, n < length (g_actions g) -> closed g -> follows g n obs k -> run (gr_step g) obs (Some (Z.of_nat n)) = (Some (Z.of_nat k), Ok tt).
Proof.
  intros Sh ND obs. induction obs as [|o rest IH]; intros n k Hn C F; inversion F; subst; [reflexivity|]. cbn [run].
  destruct (next_spec g n o Sh ND Hn) as [[N1 N2]|(t & N1 & N2)].
  - exfalso. apply N1. match goal with H : entry_at g n o _ |- _ => destruct H as (j & row & A1 & _) end. eapply nth_error_In; eauto.
  - match goal with H : entry_at g n o (Some _) |- _ => pose proof (entry_unique _ _ _ _ _ ND N1 H); pose proof (entry_closed _ _ _ _ C H) as (m' & Em & Hm) end. subst t. rewrite N2. apply IH; auto. lia.
Qed.
Lemma action_in_range g n : n < length (g_actions g) -> exists a, gr_action g (Some (Z.of_nat n)) = Ok a /\ nth_error (g_actions g) n = Some a.
Proof.
  intros H. cbn [gr_action]. unfold gp_action. rewrite axis_nat. pose proof (proj2 (Nat.ltb_lt _ _) H) as H'. rewrite H'. cbn [bind].
  destruct (nth_error (g_actions g) n) as [a|] eqn:E; [eauto|]. apply nth_error_None in E. lia.
Qed.

(** *** loading *)
Lemma zmax_spec l m : zmax l = Ok m <-> In m l /\ forall x, In x l -> (x <= m)%Z.
Proof.
  destruct l as [|a t]; cbn [zmax].
  - split; [discriminate|]. intros [[] _].
  - assert (H : forall t a, In (fold_left Z.max t a) (a :: t) /\ forall x, In x (a :: t) -> (x <= fold_left Z.max t a)%Z).
    { clear. induction t as [|b t IH]; intros a; cbn [fold_left]; [split; [simpl; auto|]; intros x [->|[]]; lia|].
      destruct (IH (Z.max a b)) as [I1 I2]. split.
      - destruct I1 as [I1|I1]; [|simpl; auto]. rewrite <- I1. destruct (Z.max_spec a b) as [[_ ->]|[_ ->]]; simpl; auto.
      - intros x [->|[->|Hx]]; [specialize (I2 _ (or_introl eq_refl)); lia|specialize (I2 _ (or_introl eq_refl)); lia|]. apply I2. simpl; auto. }
    destruct (H t a) as [H1 H2]. split.
    + intros E. assert (m = fold_left Z.max t a) as -> by congruence. auto.
    + intros [H3 H4]. f_equal. specialize (H2 _ H3). specialize (H4 _ H1). lia.
Qed.
Lemma zmax_some l : l <> [] -> exists m, zmax l = Ok m.
Proof. destruct l; [congruence|]. cbn. eauto. Qed.
Lemma somes_In tr z : In z (somes tr) <-> exists row, In row tr /\ In (Some z) row.
Proof.
  unfold somes. rewrite in_flat_map. split; intros (row & H1 & H2); exists row; (split; [auto|]).
  - apply in_flat_map in H2. destruct H2 as (t & T1 & T2). destruct t as [x|]; [|destruct T2]. destruct T2 as [->|[]]. auto.
  - apply in_flat_map. exists (Some z). simpl. auto.
Qed.
Lemma axis_range n z i : axis n z = Ok i <-> (- Z.of_nat n <= z < Z.of_nat n)%Z /\ i = Z.to_nat (z mod Z.of_nat n).
Proof.
  unfold axis. destruct (Z.ltb_spec z 0).
  - destruct (Z.ltb_spec (z + Z.of_nat n) 0); cbn [orb]; [split; [discriminate|lia]|]. destruct (Z.leb_spec (Z.of_nat n) (z + Z.of_nat n)); [lia|].
    assert (E : (z mod Z.of_nat n = z + Z.of_nat n)%Z) by (symmetry; apply (Z.mod_unique _ _ (-1)); lia). rewrite E.
    split; [intros X; split; [lia|congruence]|intros [_ ->]; reflexivity].
  - destruct (Z.ltb_spec z 0); [lia|]. cbn [orb]. destruct (Z.leb_spec (Z.of_nat n) z); [split; [discriminate|lia]|].
    rewrite Z.mod_small by lia. split; [intros X; split; [lia|congruence]|intros [_ ->]; reflexivity].
Qed.
Definition pick (p : pomdp) (a : Z) : res name := do i <- axis (length (p_actions p)) a; match nth_error (p_actions p) i with Some x => Ok x | None => Err EIndex end.
Lemma names_ok p acts : (forall a, In a acts -> - Z.of_nat (nA p) <= a < Z.of_nat (nA p))%Z -> exists l, mapM (pick p) acts = Ok l.
Proof.
  induction acts as [|a t IH]; intros H; [eexists; reflexivity|]. cbn [mapM]. destruct IH as [l El]; [intros; apply H; simpl; auto|].
  assert (Ha : (- Z.of_nat (nA p) <= a < Z.of_nat (nA p))%Z) by (apply H; simpl; auto). unfold pick at 1.
  rewrite (proj2 (axis_range (length (p_actions p)) a _) (conj Ha eq_refl)). cbn [bind].
  destruct (nth_error (p_actions p) _) eqn:E; [cbn [bind]; rewrite El; eexists; reflexivity|].
  apply nth_error_None in E. unfold nA in Ha. pose proof (Z.mod_pos_bound a (Z.of_nat (length (p_actions p)))). lia.
Qed.
Lemma names_spec p acts l : mapM (pick p) acts = Ok l -> (forall a, In a acts -> - Z.of_nat (nA p) <= a < Z.of_nat (nA p))%Z /\ Forall2 (action_name p) acts l.
Proof.
  revert l. induction acts as [|a t IH]; intros l E; cbn [mapM] in E; [assert (l = []) as -> by congruence; split; [intros a []|constructor]|].
  unfold pick at 1 in E. destruct (axis (length (p_actions p)) a) as [i|] eqn:Ei; cbn [bind] in E; [|discriminate]. apply axis_range in Ei. destruct Ei as [Hi ->].
  destruct (nth_error (p_actions p) _) as [x|] eqn:Ex; cbn [bind] in E; [|discriminate]. destruct (mapM (pick p) t) as [l'|]; cbn [bind] in E; [|discriminate].
  assert (l = x :: l') as -> by congruence. destruct (IH l' eq_refl) as [I1 I2]. split; [intros b [<-|Hb]; auto|]. constructor; auto.
Qed.

Lemma Forall2_len {A B} (R : A -> B -> Prop) l m : Forall2 R l m -> length l = length m.
Proof. induction 1; cbn; auto. Qed.
Lemma load_fields p acts vals acts2 tr g : load_policy p (acts, vals) (acts2, tr) = Ok g -> loadable p (acts, vals) (acts2, tr) /\
  g_trans g = tr /\ g_values g = vals /\ g_observations g = p_observations p /\ Forall2 (action_name p) acts (g_actions g) /\
  exists n, g_init g = Z.of_nat n /\ best vals (start_list p) n.
Proof.
  unfold load_policy. destruct (list_eq_dec Z.eq_dec acts acts2) as [<-|]; cbn [negb]; [|discriminate].
  destruct (zmax acts) as [ma|] eqn:Ema; cbn [bind]; [|discriminate]. destruct (Z.ltb_spec ma (Z.of_nat (length (p_actions p)))); cbn [negb]; [|discriminate].
  destruct (zmax (somes tr)) as [mt|] eqn:Emt; cbn [bind]; [|discriminate]. destruct (Z.leb_spec mt (Z.of_nat (length tr))); cbn [negb]; [|discriminate].
  change (mapM _ acts) with (mapM (pick p) acts). destruct (mapM (pick p) acts) as [names|] eqn:En; cbn [bind]; [|discriminate]. intros E.
  apply mk_policy_ok in E. destruct E as (M1 & M2 & M3 & M4 & M5 & M6 & M7 & n & M8 & M9).
  apply names_spec in En. destruct En as [N1 N2]. apply zmax_spec in Ema. destruct Ema as [A1 A2]. apply zmax_spec in Emt. destruct Emt as [T1 T2].
  apply node_spec in M9. destruct M9 as [V1 V2]. rewrite Forall_forall in V1. subst. split.
  - unfold loadable. cbn [fst snd]. split; [auto|]. split; [intros ->; destruct A1|]. split; [auto|]. apply somes_In in T1. destruct T1 as (row & R1 & R2).
    split; [eauto|]. split; [intros row' t R3 R4; specialize (T2 t); assert (In t (somes (g_trans g))) as R5 by (apply somes_In; eauto); specialize (T2 R5); lia|].
    split; [rewrite M2; symmetry; eapply Forall2_len; eauto|]. split; [intros row' R3; exact (M3 row' R3)|].
    split; [intros E; rewrite E in V2; destruct V2 as [V2 _]; cbn in V2; lia|]. auto.
  - do 4 (split; [auto|]). eauto.
Qed.
Lemma load_ok p vf pg : loadable p vf pg -> exists g, load_policy p vf pg = Ok g.
Proof.
  destruct vf as [acts vals], pg as [acts2 tr]. unfold loadable. cbn [fst snd]. intros (<- & Hne & HA & (row & t & R1 & R2) & HT & HL & HR & HV & HVL).
  unfold load_policy. destruct (list_eq_dec Z.eq_dec acts acts); [|congruence]. cbn [negb].
  destruct (zmax_some acts Hne) as [ma Ema]. rewrite Ema. cbn [bind]. apply zmax_spec in Ema. destruct Ema as [A1 _].
  destruct (Z.ltb_spec ma (Z.of_nat (length (p_actions p)))); [|specialize (HA _ A1); unfold nA in HA; lia]. cbn [negb].
  destruct (zmax_some (somes tr)) as [mt Emt]; [intros E; assert (HI : In t (somes tr)) by (apply somes_In; eauto); rewrite E in HI; destruct HI|].
  rewrite Emt. cbn [bind]. apply zmax_spec in Emt. destruct Emt as [T1 _]. apply somes_In in T1. destruct T1 as (row' & T1 & T2).
  destruct (Z.leb_spec mt (Z.of_nat (length tr))); [|specialize (HT _ _ T1 T2); lia]. cbn [negb].
  change (mapM _ acts) with (mapM (pick p) acts). destruct (names_ok p acts HA) as [names En]. rewrite En. cbn [bind].
  destruct (node_from_belief vals (start_list p)) as [n|err] eqn:EN.
  - apply names_spec in En. destruct En as [_ En]. eexists. apply mk_policy_start; [destruct tr; [destruct R1|cbn; lia]|rewrite HL; eapply Forall2_len; eauto|auto|exact EN].
  - apply node_err in EN. destruct EN as [_ [EN|(x & X1 & X2)]]; [congruence|]. specialize (HVL _ X1). congruence.
Qed.
