(** Proofs about SupportivePOMDP. *)
From Verif Require Import QBase PyBase PyBaseFacts HtmModel HtmSpec HtmProofs DagModel DagSpec DagProofs CodecModel CodecSpec CodecProofs SuppModel SuppSpec.
From Coq Require Import Lia.
Import HtmSpec.
Local Open Scope nat_scope.

(** ** Object tables *)
Lemma index_of_eqb_Some {A} (eqb : A -> A -> bool) (Heq : forall x y, eqb x y = true <-> x = y) x l i :
  index_of eqb x l = Some i -> nth_error l i = Some x.
Proof.
  revert i; induction l as [|y t IH]; intros i E; cbn in E; [discriminate|].
  destruct (eqb x y) eqn:Ex; [inversion E; subst; apply Heq in Ex; subst; reflexivity|].
  destruct (index_of eqb x t) as [k|]; [|discriminate]. inversion E; subst. cbn. auto.
Qed.
Lemma index_of_eqb_None {A} (eqb : A -> A -> bool) (Heq : forall x y, eqb x y = true <-> x = y) x l :
  index_of eqb x l = None <-> ~ In x l.
Proof.
  induction l as [|y t IH]; cbn; [intuition|]. destruct (eqb x y) eqn:Ex.
  - apply Heq in Ex. subst. split; [discriminate|intros H; exfalso; apply H; auto].
  - assert (Hne : x <> y) by (intros ->; rewrite (proj2 (Heq y y) eq_refl) in Ex; discriminate).
    destruct (index_of eqb x t) eqn:Ei; cbn.
    + split; [discriminate|]. intros H. exfalso. apply H. right. apply (index_of_eqb_Some _ Heq) in Ei. eapply nth_error_In; eauto.
    + split; [intros _|reflexivity]. intros [E|E]; [congruence|]. apply IH; auto.
Qed.

Lemma seqb_iff x y : String.eqb x y = true <-> x = y.
Proof. apply String.eqb_eq. Qed.

Lemma set_nth_nth {A} i (x : A) l j : nth_error (set_nth i x l) j = if Nat.eqb i j && Nat.ltb i (length l) then Some x else nth_error l j.
Proof.
  revert i j; induction l as [|y t IH]; intros [|i] [|j]; cbn; auto.
  - destruct (Nat.eqb i j); reflexivity.
  - rewrite IH. change (S i <? S (length t)) with (i <? length t). reflexivity.
Qed.
Lemma set_nth_length {A} i (x : A) l : length (set_nth i x l) = length l.
Proof. revert i; induction l as [|y t IH]; intros [|i]; cbn; auto. Qed.

Definition linked (objs : list string) (ci : cond * nat) (co : cond * string) : Prop :=
  fst ci = fst co /\ nth_error objs (snd ci) = Some (snd co).
Definition needs_clear (c : cond) : Prop := c = CUses \/ c = CSome.

Lemma get_object_id_spec o objs clr objs' clr' i : get_object_id o objs clr = (objs', clr', i) ->
  NoDup objs -> length clr = length objs ->
  NoDup objs' /\ length clr' = length objs' /\ nth_error objs' i = Some o /\
  (exists ext, objs' = objs ++ ext) /\ (forall x, In x objs' <-> In x objs \/ x = o) /\
  (forall k, nth_error clr' k = Some true <-> nth_error clr k = Some true).
Proof.
  intros E Hn Hl. unfold get_object_id in E. destruct (index_of String.eqb o objs) as [k|] eqn:Ei; inversion E; subst.
  - apply (index_of_eqb_Some _ seqb_iff) in Ei. split; [auto|]. split; [auto|]. split; [auto|]. split; [exists []; rewrite app_nil_r; auto|].
    split; [|reflexivity]. intros x. split; [auto|]. intros [H| ->]; auto. eapply nth_error_In; eauto.
  - apply (index_of_eqb_None _ seqb_iff) in Ei. split.
    { apply NoDup_rev in Hn. rewrite <- (rev_involutive (objs ++ [o])). apply NoDup_rev. rewrite rev_app_distr. cbn.
      constructor; auto. intros H. apply in_rev in H. auto. }
    split; [rewrite !app_length; cbn; lia|]. split; [rewrite nth_error_app2, Nat.sub_diag by lia; reflexivity|].
    split; [eauto|]. split.
    { intros x. rewrite in_app_iff. cbn. intuition. }
    intros k. destruct (Nat.lt_ge_cases k (length clr)).
    + rewrite nth_error_app1 by auto. reflexivity.
    + rewrite nth_error_app2 by auto. rewrite (proj2 (nth_error_None clr k)) by auto. split; [|discriminate].
      destruct (k - length clr) as [|[|]]; cbn; discriminate.
Qed.

Lemma linked_ext objs ext ci co : linked objs ci co -> linked (objs ++ ext) ci co.
Proof. intros [H1 H2]; split; auto. rewrite nth_error_app1; auto. apply nth_error_Some. congruence. Qed.

Lemma add_conditions_spec cs : forall objs clr objs' clr' cs', add_conditions cs objs clr = (objs', clr', cs') ->
  NoDup objs -> length clr = length objs ->
  NoDup objs' /\ length clr' = length objs' /\ (exists ext, objs' = objs ++ ext) /\
  (forall x, In x objs' <-> In x objs \/ exists c, In (c, x) cs) /\
  Forall2 (linked objs') cs' cs /\
  (forall k, nth_error clr' k = Some true <->
     nth_error clr k = Some true \/ exists c o, In (c, o) cs /\ needs_clear c /\ nth_error objs' k = Some o).
Proof.
  induction cs as [|[c o] t IH]; intros objs clr objs' clr' cs' E Hn Hl; cbn in E.
  - inversion E; subst. split; [auto|]. split; [auto|]. split; [exists []; rewrite app_nil_r; auto|].
    split; [intros x; split; [auto|intros [H|[c []]]; auto]|]. split; [constructor|].
    intros k. split; [auto|]. intros [H|[c [o [[] _]]]]; auto.
  - destruct (get_object_id o objs clr) as [[objs1 clr1] i] eqn:Eg.
    destruct (get_object_id_spec _ _ _ _ _ _ Eg Hn Hl) as (G1 & G2 & G3 & [e1 G4] & G5 & G6).
    set (clr2 := match c with CUses | CSome => set_nth i true clr1 | _ => clr1 end) in *.
    assert (H2 : length clr2 = length objs1) by (unfold clr2; destruct c; rewrite ?set_nth_length; auto).
    assert (H2' : forall k, nth_error clr2 k = Some true <-> nth_error clr k = Some true \/ (needs_clear c /\ k = i)).
    { intros k. rewrite <- G6. assert (Hi : (i < length clr1)%nat) by (rewrite G2; apply nth_error_Some; congruence).
      assert (HS : nth_error (set_nth i true clr1) k = Some true <-> nth_error clr1 k = Some true \/ k = i).
      { rewrite set_nth_nth. rewrite (proj2 (Nat.ltb_lt _ _) Hi), andb_true_r.
        destruct (Nat.eqb_spec i k); [intuition|]. intuition congruence. }
      unfold clr2, needs_clear. destruct c; try rewrite HS; intuition discriminate. }
    destruct (add_conditions t objs1 clr2) as [[objs3 clr3] rest] eqn:Ea.
    destruct (IH _ _ _ _ _ Ea G1 H2) as (I1 & I2 & [e2 I3] & I4 & I5 & I6).
    assert (objs3 = objs') as -> by congruence. assert (clr3 = clr') as -> by congruence. assert (cs' = (c, i) :: rest) as -> by congruence. clear E.
    split; [auto|]. split; [auto|]. split; [exists (e1 ++ e2); rewrite app_assoc; congruence|].
    split.
    { intros x. rewrite I4, G5. cbn [In]. split.
      - intros [[H| ->]|[c' H]]; eauto.
      - intros [H|[c' [H|H]]]; [auto|inversion H; auto|eauto]. }
    assert (Ho : nth_error objs' i = Some o) by (rewrite I3, nth_error_app1; auto; apply nth_error_Some; congruence).
    split; [constructor; [split; auto|auto]|].
    intros k. rewrite I6, H2'. split.
    + intros [[H|[H ->]]|[c' [o' (A1 & A2 & A3)]]]; [auto| |].
      * right. exists c, o. cbn; auto.
      * right. exists c', o'. cbn; auto.
    + intros [H|[c' [o' ([A1|A1] & A2 & A3)]]]; [auto| |right; eauto].
      inversion A1; subst. left. right. split; auto.
      rewrite NoDup_nth_error in I1. symmetry. apply I1; [apply nth_error_Some; congruence|congruence].
Qed.

Lemma populate_spec nodes : forall objs clr objs' clr' conds, populate_conditions nodes objs clr = Ok (objs', clr', conds) ->
  NoDup objs -> length clr = length objs ->
  exists ps, mapM action_params nodes = Ok ps /\
  NoDup objs' /\ length clr' = length objs' /\ (exists ext, objs' = objs ++ ext) /\
  (forall x, In x objs' <-> In x objs \/ exists p c, In p ps /\ In (c, x) (sp_conditions p)) /\
  Forall2 (fun cs p => Forall2 (linked objs') cs (sp_conditions p)) conds ps /\
  (forall k, nth_error clr' k = Some true <->
     nth_error clr k = Some true \/ exists p c o, In p ps /\ In (c, o) (sp_conditions p) /\ needs_clear c /\ nth_error objs' k = Some o).
Proof.
  induction nodes as [|n t IH]; intros objs clr objs' clr' conds E Hn Hl; cbn [populate_conditions] in E.
  - assert (objs' = objs) as -> by congruence. assert (clr' = clr) as -> by congruence. assert (conds = []) as -> by congruence.
    exists []. split; [reflexivity|]. split; [auto|]. split; [auto|]. split; [exists []; rewrite app_nil_r; auto|].
    split; [intros x; split; [auto|intros [H|[p [c [[] _]]]]; auto]|]. split; [constructor|].
    intros k; split; [auto|intros [H|[p [c [o [[] _]]]]]; auto].
  - destruct (action_params n) as [p|] eqn:Ep; [|discriminate]. cbn [bind] in E.
    destruct (add_conditions (sp_conditions p) objs clr) as [[objs1 clr1] cs] eqn:Ea.
    destruct (populate_conditions t objs1 clr1) as [[[objs2 clr2] rest]|] eqn:Er; [|discriminate]. cbn [bind] in E.
    assert (objs' = objs2) as -> by congruence. assert (clr' = clr2) as -> by congruence. assert (conds = cs :: rest) as -> by congruence.
    destruct (add_conditions_spec _ _ _ _ _ _ Ea Hn Hl) as (A1 & A2 & [e1 A3] & A4 & A5 & A6).
    destruct (IH _ _ _ _ _ Er A1 A2) as [ps (B0 & B1 & B2 & [e2 B3] & B4 & B5 & B6)].
    exists (p :: ps). cbn [mapM]. rewrite Ep, B0. cbn [bind]. split; [reflexivity|]. split; [auto|]. split; [auto|].
    split; [exists (e1 ++ e2); rewrite app_assoc; congruence|].
    split.
    { intros x. rewrite B4, A4. split.
      - intros [[H|[c H]]|[p' [c [H1 H2]]]]; [auto| |]; right; [exists p, c|exists p', c]; cbn; auto.
      - intros [H|[p' [c [[->|H1] H2]]]]; [auto|left; eauto|right; eauto]. }
    split.
    { constructor; auto. clear - A5 B3. induction A5; constructor; auto. rewrite B3. apply linked_ext; auto. }
    assert (Hx : forall k o, nth_error objs1 k = Some o -> nth_error objs2 k = Some o).
    { intros k o H. rewrite B3, nth_error_app1; auto. apply nth_error_Some; congruence. }
    intros k. rewrite B6, A6. split.
    + intros [[H|[c [o (H1 & H2 & H3)]]]|[p' [c [o (H0 & H1 & H2 & H3)]]]]; [auto| |]; right; [exists p, c, o|exists p', c, o]; cbn; auto.
    + intros [H|[p' [c [o ([->|H0] & H1 & H2 & H3)]]]]; [auto| |right; eauto 8].
      left; right. exists c, o. split; [auto|]. split; [auto|].
      assert (Hin : In o objs1) by (apply A4; eauto). apply In_nth_error in Hin. destruct Hin as [k' Hk].
      assert (k' = k) as <-; [|auto]. rewrite NoDup_nth_error in B1. apply B1; [apply nth_error_Some; rewrite (Hx _ _ Hk); congruence|].
      rewrite H3. apply Hx; auto.
Qed.

Lemma populate_ok_iff nodes : forall objs clr, (exists r, populate_conditions nodes objs clr = Ok r) <-> (exists ps, mapM action_params nodes = Ok ps).
Proof.
  induction nodes as [|n t IH]; intros objs clr; cbn [populate_conditions mapM].
  - split; eauto.
  - destruct (action_params n) as [p|]; cbn [bind]; [|split; intros [? H]; discriminate].
    destruct (add_conditions (sp_conditions p) objs clr) as [[objs1 clr1] cs].
    specialize (IH objs1 clr1). split.
    + intros [r E]. destruct (populate_conditions t objs1 clr1) as [r'|]; [|discriminate].
      destruct (proj1 IH) as [ps ->]; [eauto|]. cbn [bind]; eauto.
    + intros [ps E]. destruct (mapM action_params t) as [ps'|]; [|discriminate].
      destruct (proj2 IH) as [[[a b] r'] ->]; [eauto|]. cbn [bind]; eauto.
Qed.

(** ** Action tables *)
Definition obj_names (objs : list string) (clr : list bool) : list string :=
  concat (map (fun oc : string * bool => ("bring " ++ fst oc)%string :: (if snd oc then [("clear " ++ fst oc)%string] else [])) (combine objs clr)).

Definition oeqb (x y : option Z) : bool := match x, y with Some u, Some v => Z.eqb u v | _, _ => false end.

Lemma object_actions_low clr : forall j a b k, object_actions clr j = (b, k) -> (a < j)%Z ->
  index_of Z.eqb a b = None /\ index_of oeqb (Some a) k = None.
Proof.
  induction clr as [|c t IH]; intros j a b k E Ha; cbn in E; [inversion E; auto|].
  destruct c.
  - destruct (object_actions t (j + 2)) as [b' k'] eqn:Et. inversion E; subst. cbn.
    rewrite (proj2 (Z.eqb_neq a j)), (proj2 (Z.eqb_neq a (j + 1))) by lia.
    destruct (IH _ a _ _ Et) as [-> ->]; [lia|]. auto.
  - destruct (object_actions t (j + 1)) as [b' k'] eqn:Et. inversion E; subst. cbn.
    rewrite (proj2 (Z.eqb_neq a j)) by lia. destruct (IH _ a _ _ Et) as [-> ->]; [lia|]. auto.
Qed.

Lemma object_actions_spec clr : forall objs j b k, object_actions clr j = (b, k) -> length clr = length objs ->
  length b = length objs /\ length k = length objs /\
  length (obj_names objs clr) = (length objs + count_occ Bool.bool_dec clr true)%nat /\
  (forall a nm, nth_error (obj_names objs clr) a = Some nm ->
     exists i o, nth_error objs i = Some o /\
      ((nm = ("bring " ++ o)%string /\ index_of Z.eqb (j + Z.of_nat a)%Z b = Some i /\ nth_error b i = Some (j + Z.of_nat a)%Z) \/
       (nm = ("clear " ++ o)%string /\ nth_error clr i = Some true /\ index_of Z.eqb (j + Z.of_nat a)%Z b = None /\
        index_of oeqb (Some (j + Z.of_nat a)%Z) k = Some i /\ nth_error k i = Some (Some (j + Z.of_nat a)%Z)))) /\
  (forall a, (j + Z.of_nat (length (obj_names objs clr)) <= a)%Z -> index_of Z.eqb a b = None /\ index_of oeqb (Some a) k = None) /\
  (forall i o, nth_error objs i = Some o ->
     (exists a, nth_error (obj_names objs clr) a = Some ("bring " ++ o)%string /\ nth_error b i = Some (j + Z.of_nat a)%Z) /\
     (nth_error clr i = Some true -> exists a, nth_error (obj_names objs clr) a = Some ("clear " ++ o)%string /\ nth_error k i = Some (Some (j + Z.of_nat a)%Z)) /\
     (nth_error clr i = Some false -> nth_error k i = Some None)).
Proof.
  induction clr as [|c t IH]; intros [|o objs] j b k E Hl; cbn in Hl; try discriminate; cbn [object_actions] in E.
  - inversion E; subst. cbn. split; [auto|]. split; [auto|]. split; [auto|]. split; [intros [|a] nm H; discriminate|].
    split; [auto|]. intros [|i] o H; discriminate.
  - destruct c.
    + destruct (object_actions t (j + 2)) as [b' k'] eqn:Et. inversion E; subst b k; clear E.
      destruct (IH objs _ _ _ Et ltac:(lia)) as (I1 & I2 & I3 & I4 & I5 & I6).
      change (obj_names (o :: objs) (true :: t)) with (("bring " ++ o)%string :: ("clear " ++ o)%string :: obj_names objs t).
      split; [cbn; lia|]. split; [cbn; lia|].
      split; [cbn [length count_occ]; rewrite I3; destruct (Bool.bool_dec true true); [lia|congruence]|]. split; [|split].
      * intros [|[|a]] nm E; cbn [nth_error] in E.
        { inversion E; subst. exists 0%nat, o. split; [reflexivity|]. left. rewrite Z.add_0_r. cbn. rewrite Z.eqb_refl. auto. }
        { inversion E; subst. exists 0%nat, o. split; [reflexivity|]. right. change (Z.of_nat 1) with 1%Z. split; [reflexivity|]. split; [reflexivity|].
          cbn [index_of oeqb nth_error]. rewrite (proj2 (Z.eqb_neq (j + 1) j)) by lia. rewrite Z.eqb_refl.
          destruct (object_actions_low _ _ (j + 1) _ _ Et) as [-> _]; [lia|]. auto. }
        { destruct (I4 _ _ E) as [i [o' [Ho H]]]. exists (S i), o'. split; [exact Ho|].
          replace (j + Z.of_nat (S (S a)))%Z with (j + 2 + Z.of_nat a)%Z by lia.
          cbn [index_of oeqb nth_error]. rewrite (proj2 (Z.eqb_neq (j + 2 + Z.of_nat a) j)), (proj2 (Z.eqb_neq (j + 2 + Z.of_nat a) (j + 1))) by lia.
          destruct H as [(H1 & H2 & H3)|(H1 & H2 & H3 & H4 & H5)]; [left|right]; rewrite ?H2, ?H3, ?H4; auto. }
      * intros a Ha. cbn [length] in Ha. cbn [index_of oeqb].
        rewrite (proj2 (Z.eqb_neq a j)), (proj2 (Z.eqb_neq a (j + 1))) by lia. destruct (I5 a) as [-> ->]; [lia|]. auto.
      * intros [|i] o' Ho; cbn [nth_error] in Ho.
        { inversion Ho; subst. split; [exists 0%nat; cbn; split; [auto|f_equal; lia]|].
          split; [intros _; exists 1%nat; cbn; auto|discriminate]. }
        { destruct (I6 _ _ Ho) as ([a [E1 E2]] & E3 & E4). cbn [nth_error].
          split; [exists (S (S a)); split; [exact E1|rewrite E2; f_equal; lia]|]. split; [|auto].
          intros H. destruct (E3 H) as [a' [F1 F2]]. exists (S (S a')). split; [exact F1|]. rewrite F2. do 2 f_equal. lia. }
    + destruct (object_actions t (j + 1)) as [b' k'] eqn:Et. inversion E; subst b k; clear E.
      destruct (IH objs _ _ _ Et ltac:(lia)) as (I1 & I2 & I3 & I4 & I5 & I6).
      change (obj_names (o :: objs) (false :: t)) with (("bring " ++ o)%string :: obj_names objs t).
      split; [cbn; lia|]. split; [cbn; lia|].
      split; [cbn [length count_occ]; rewrite I3; destruct (Bool.bool_dec false true); [congruence|lia]|]. split; [|split].
      * intros [|a] nm E; cbn [nth_error] in E.
        { inversion E; subst. exists 0%nat, o. split; [reflexivity|]. left. rewrite Z.add_0_r. cbn. rewrite Z.eqb_refl. auto. }
        { destruct (I4 _ _ E) as [i [o' [Ho H]]]. exists (S i), o'. split; [exact Ho|].
          replace (j + Z.of_nat (S a))%Z with (j + 1 + Z.of_nat a)%Z by lia.
          cbn [index_of oeqb nth_error]. rewrite (proj2 (Z.eqb_neq (j + 1 + Z.of_nat a) j)) by lia.
          destruct H as [(H1 & H2 & H3)|(H1 & H2 & H3 & H4 & H5)]; [left|right]; rewrite ?H2, ?H3, ?H4; auto. }
      * intros a Ha. cbn [length] in Ha. cbn [index_of oeqb].
        rewrite (proj2 (Z.eqb_neq a j)) by lia. destruct (I5 a) as [-> ->]; [lia|]. auto.
      * intros [|i] o' Ho; cbn [nth_error] in Ho.
        { inversion Ho; subst. split; [exists 0%nat; cbn; split; [auto|f_equal; lia]|]. split; [discriminate|reflexivity]. }
        { destruct (I6 _ _ Ho) as ([a [E1 E2]] & E3 & E4). cbn [nth_error].
          split; [exists (S a); split; [exact E1|rewrite E2; f_equal; lia]|]. split; [|auto].
          intros H. destruct (E3 H) as [a' [F1 F2]]. exists (S a'). split; [exact F1|]. rewrite F2. do 2 f_equal. lia. }
Qed.

(** ** What construction gives *)
Record built (m : spomdp) (nodes : list stree) (succs : list (list nat)) (init : list nat) (ps : list sparams) : Prop := {
  b_nodes : htm_nodes m = nodes;
  b_succs : htm_succs m = map (fun s => match s with [] => [length nodes] | _ => s end) succs;
  b_init : htm_init m = init;
  b_params : mapM action_params nodes = Ok ps;
  b_nodup : NoDup (objects m);
  b_clen : length (clearable m) = length (objects m);
  b_objs : forall x, In x (objects m) <-> exists p c, In p ps /\ In (c, x) (sp_conditions p);
  b_conds : Forall2 (fun cs p => Forall2 (linked (objects m)) cs (sp_conditions p)) (htm_conditions m) ps;
  b_clear : forall k, nth_error (clearable m) k = Some true <->
     exists p c o, In p ps /\ In (c, o) (sp_conditions p) /\ needs_clear c /\ nth_error (objects m) k = Some o;
  b_tables : object_actions (clearable m) 4 = (a_bring m, a_clear m);
  b_nact : n_actions m = Z.of_nat (length (actions m)) }.

Lemma mk_built ordn t m : mk_supportive ordn t = Ok m ->
  exists nodes succs init ps, htm_to_dag ordn t = Ok (nodes, succs, init) /\ built m nodes succs init ps.
Proof.
  intros E. unfold mk_supportive in E. destruct (htm_to_dag ordn t) as [[[nodes succs] init]|]; [|discriminate]. cbn [bind] in E.
  destruct (populate_conditions nodes [] []) as [[[objs clr] conds]|] eqn:Ep; [|discriminate]. cbn [bind] in E.
  destruct (object_actions clr skip_to_a_obj) as [b k] eqn:Eo.
  destruct (populate_spec _ _ _ _ _ _ Ep ltac:(constructor) eq_refl) as [ps (P0 & P1 & P2 & _ & P4 & P5 & P6)].
  destruct (object_actions_spec _ objs _ _ _ Eo P2) as (O1 & O2 & O3 & _).
  exists nodes, succs, init, ps. split; [reflexivity|].
  match type of E with Ok ?r = _ => assert (m = r) as -> by congruence end.
  constructor; cbn [htm_nodes htm_succs htm_init objects clearable htm_conditions a_bring a_clear n_actions]; auto.
  - intros x. rewrite P4. cbn. firstorder.
  - intros j. rewrite P6. split; [|eauto]. intros [H|H]; [|auto]. destruct j; discriminate.
  - unfold actions; cbn [objects clearable]. rewrite app_length. fold (obj_names objs clr). rewrite O3. unfold skip_to_a_obj. cbn [length]. lia.
Qed.
