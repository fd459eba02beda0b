(** Proofs for C96: nodes shared by belief. *)
From Verif Require Import PyBase PyBaseFacts QBase PomdpModel BeliefModel PolicyModel PomcpModel PomcpSpec PolicySpec PolicyProofs PomcpProofs PomcpProofs2
  SharedModel SharedSpec SharedProofs SharedProofs3 ExportModel ExportSpec ExportProofs ExportProofs2.
From Coq Require Import Lia Sorting.Sorted.
Local Open Scope list_scope.
Local Open Scope nat_scope.

(** *** listings *)
Section Listings.
  Context {D : Type}.
  Variables new old : nat -> D -> Prop.
  Lemma listing_ext seen refs ds : listing new old seen refs ds -> forall seen', (forall i, In i seen <-> In i seen') -> listing new old seen' refs ds.
  Proof.
    induction 1 as [seen|seen i refs d ds Hi Hd L IH|seen i refs d ds Hi Hd L IH]; intros seen' E.
    - constructor.
    - constructor; [rewrite <- E; auto|auto|]. apply IH. intros j. cbn. rewrite E. tauto.
    - apply ls_old; [rewrite <- E; auto|auto|]. apply IH. auto.
  Qed.
  Lemma listing_app seen r1 d1 : listing new old seen r1 d1 -> forall r2 d2, listing new old (r1 ++ seen) r2 d2 -> listing new old seen (r1 ++ r2) (d1 ++ d2).
  Proof.
    induction 1 as [seen|seen i refs d ds Hi Hd L IH|seen i refs d ds Hi Hd L IH]; intros r2 d2 L2; cbn [app] in *.
    - auto.
    - constructor; auto. apply IH. eapply listing_ext; [exact L2|]. intros j. cbn. rewrite !in_app_iff. cbn. tauto.
    - apply ls_old; auto. apply IH. eapply listing_ext; [exact L2|]. intros j. cbn. rewrite !in_app_iff. split; [intros [->|[?|?]]; auto|tauto].
  Qed.
  (** one more node, found before its descendants *)
  Variable next : nat -> nat -> Prop.
  Variable good : nat -> Prop.
  Definition visit (seen refs : list nat) (ds : list D) : Prop :=
    listing new old seen refs ds /\ (forall i j, In i refs -> ~ In i seen -> next i j -> In j refs) /\ forall i, In i refs -> good i.
  Lemma visit_nil seen : visit seen [] [].
  Proof. split; [constructor|]. split; intros i; [intros j|]; intros []. Qed.
  Lemma visit_app seen r1 d1 r2 d2 : visit seen r1 d1 -> visit (r1 ++ seen) r2 d2 -> visit seen (r1 ++ r2) (d1 ++ d2).
  Proof.
    intros (L1 & N1 & G1) (L2 & N2 & G2). split; [apply listing_app; auto|]. split.
    - intros i j Hi Hs Hn. apply in_or_app. destruct (in_dec Nat.eq_dec i r1) as [H1|H1]; [left; eapply N1; eauto|]. right. apply in_app_or in Hi.
      destruct Hi as [Hi|Hi]; [contradiction|]. eapply N2; eauto. rewrite in_app_iff. tauto.
    - intros i Hi. apply in_app_or in Hi. destruct Hi; auto.
  Qed.
  Lemma visit_old seen i d : In i seen -> old i d -> good i -> visit seen [i] [d].
  Proof.
    intros Hi Hd Hg. split; [apply ls_old; auto; constructor|]. split; [intros j k [<-|[]] Hs; contradiction|]. intros j [<-|[]]. auto.
  Qed.
  Lemma visit_new seen i d refs ds : ~ In i seen -> new i d -> good i -> visit (i :: seen) refs ds -> (forall j, next i j -> In j refs) -> visit seen (i :: refs) (d :: ds).
  Proof.
    intros Hi Hd Hg (L & N & G) Hn. split; [constructor; auto|]. split.
    - intros j k [<-|Hj] Hs Hk; [right; auto|]. destruct (Nat.eq_dec j i) as [->|Hne]; [right; auto|]. right. eapply N; eauto. cbn. intros [E|E]; [congruence|contradiction].
    - intros j [<-|Hj]; auto.
  Qed.
End Listings.

(** the references not met yet *)
Definition left (len : nat) (seen : list nat) : nat := length (filter (fun j => negb (existsb (Nat.eqb j) seen)) (seq 0 len)).
Lemma filter_weaker {A} (f g : A -> bool) l : (forall x, In x l -> f x = true -> g x = true) -> length (filter f l) <= length (filter g l).
Proof.
  induction l as [|x l IH]; intros Hfg; cbn [filter]; [auto|]. assert (I := IH (fun y Hy => Hfg y (or_intror Hy))). specialize (Hfg x (or_introl eq_refl)).
  destruct (f x); [rewrite Hfg by auto; cbn; lia|]. destruct (g x); cbn; lia.
Qed.
Lemma filter_less {A} (f g : A -> bool) l x : (forall y, In y l -> f y = true -> g y = true) -> In x l -> f x = false -> g x = true -> length (filter f l) < length (filter g l).
Proof.
  induction l as [|y l IH]; intros Hfg Hx Hf Hg; [destruct Hx|]. cbn [filter]. assert (Hl : forall z, In z l -> f z = true -> g z = true) by (intros z Hz; apply Hfg; simpl; auto).
  destruct Hx as [->|Hx].
  - rewrite Hf, Hg. pose proof (filter_weaker f g l Hl). cbn. lia.
  - pose proof (IH Hl Hx Hf Hg). specialize (Hfg y (or_introl eq_refl)). destruct (f y); [rewrite Hfg by auto; cbn; lia|]. destruct (g y); cbn; lia.
Qed.
Lemma existsb_eqb j l : existsb (Nat.eqb j) l = true <-> In j l.
Proof. rewrite existsb_exists. split; [intros (x & Hx & E); apply Nat.eqb_eq in E; congruence|intros Hj; exists j; split; [auto|apply Nat.eqb_refl]]. Qed.
Lemma left_mono len seen seen' : (forall i, In i seen -> In i seen') -> left len seen' <= left len seen.
Proof.
  intros Hs. apply filter_weaker. intros j _ E. apply negb_true_iff in E. apply negb_true_iff. destruct (existsb (Nat.eqb j) seen) eqn:E'; [|auto].
  apply existsb_eqb, Hs, existsb_eqb in E'. congruence.
Qed.
Lemma left_less len seen i : i < len -> ~ In i seen -> left len (i :: seen) < left len seen.
Proof.
  intros Hi Hs. apply (filter_less _ _ _ i).
  - intros j _ E. apply negb_true_iff in E. apply negb_true_iff. cbn in E. apply orb_false_iff in E. tauto.
  - apply in_seq. lia.
  - apply negb_false_iff. cbn. rewrite Nat.eqb_refl. reflexivity.
  - apply negb_true_iff. destruct (existsb (Nat.eqb i) seen) eqn:E; [apply existsb_eqb in E; contradiction|auto].
Qed.
Lemma left_nil len : left len [] = len.
Proof.
  unfold left. rewrite <- (seq_length len 0) at 2. f_equal. generalize (seq 0 len). intros l. induction l as [|x l IH]; cbn; [auto|]. f_equal. apply IH.
Qed.

Section Store.
  Context {X St B H : Type}.
  Variable P : search X St B H.
  Variable to_list : B -> list Q.
  Variable same : B -> B -> bool.
  Hypothesis same_refl : forall b, same b b = true.
  Hypothesis same_sym : forall b c, same b c = same c b.

  (** *** stores of the search *)
  Definition closed (st : store B) : Prop :=
    (forall i j n m, nth_error st i = Some n -> nth_error st j = Some m -> same (sn_belief n) (sn_belief m) = true -> i = j) /\
    forall i n, nth_error st i = Some n -> length (sn_kids n) = length (s_actions P) /\ s_all_visits n <= n_simulations (sn_avg n) /\
      forall a k, nth_error (sn_kids n) a = Some (Some k) -> NoDup (map fst (k_obs k)) /\ forall o j, In (o, j) (k_obs k) -> o < length (s_observations P) /\ j < length st.
  Definition edge (st : store B) (i j : nat) : Prop := exists n a k o, nth_error st i = Some n /\ nth_error (sn_kids n) a = Some (Some k) /\ In (o, j) (k_obs k).

  Lemma edge_find st i j : closed st -> edge st i j -> exists a o, forall h, s_find st i ((a, o) :: h) = s_find st j h.
  Proof.
    intros [_ C] (n & a & k & o & En & Ek & Ho). exists a, o. intros h. cbn [s_find]. rewrite En, Ek. destruct (C _ _ En) as (_ & _ & K). destruct (K _ _ Ek) as [ND _].
    assert (lookup o (k_obs k) = Some j) as -> by (apply lookup_In_iff; auto). auto.
  Qed.
  Lemma find_app (st : store B) h1 : forall i j h2, s_find st i h1 = Some j -> s_find st i (h1 ++ h2) = s_find st j h2.
  Proof.
    induction h1 as [|[a o] h1 IH]; intros i j h2 E; cbn [s_find app] in *; [assert (j = i) as -> by congruence; auto|].
    destruct (nth_error st i) as [n|]; [|discriminate]. destruct (nth_error (sn_kids n) a) as [[k|]|]; try discriminate. destruct (lookup o (k_obs k)) as [j'|]; [|discriminate]. auto.
  Qed.
  Lemma reachable_edge st i j : closed st -> reachable st i -> edge st i j -> reachable st j.
  Proof. intros C [h F] E. destruct (edge_find _ _ _ C E) as (a & o & E'). exists (h ++ [(a, o)]). rewrite (find_app _ _ _ _ _ F). rewrite E'. reflexivity. Qed.
  Lemma find_edges (st : store B) (S0 : nat -> Prop) : (forall i j, S0 i -> edge st i j -> S0 j) -> forall h i j, S0 i -> s_find st i h = Some j -> S0 j.
  Proof.
    intros HS h. induction h as [|[a o] h IH]; intros i j Si E; cbn [s_find] in E; [congruence|].
    destruct (nth_error st i) as [n|] eqn:En; [|discriminate]. destruct (nth_error (sn_kids n) a) as [[k|]|] eqn:Ek; try discriminate. destruct (lookup o (k_obs k)) as [j'|] eqn:El; [|discriminate].
    eapply IH; [|exact E]. eapply HS; [exact Si|]. exists n, a, k, o. split; [auto|]. split; [auto|]. apply lookup_In. auto.
  Qed.

  (** *** dictionaries *)
  Variable st : store B.
  Hypothesis C : closed st.
  Notation new_dict := (new_dict P to_list st).
  Notation old_dict := (old_dict to_list st).
  Notation seen_b := (ExportModel.seen same).
  (** the set of beliefs is that of the references *)
  Definition seen_ok (visited : list B) (seen : list nat) : Prop := forall j n, nth_error st j = Some n -> (seen_b visited (sn_belief n) = true <-> In j seen).
  Lemma seen_ok_ext visited s1 s2 : seen_ok visited s1 -> (forall i, In i s1 <-> In i s2) -> seen_ok visited s2.
  Proof. intros S1 E j n En. rewrite (S1 j n En). apply E. Qed.
  Lemma seen_ok_add visited seen i n : nth_error st i = Some n -> seen_ok visited seen -> seen_ok (visited ++ [sn_belief n]) (i :: seen).
  Proof.
    intros En S0 j m Em. unfold ExportModel.seen. rewrite existsb_app. cbn [existsb]. rewrite orb_false_r, orb_true_iff. fold (seen_b visited (sn_belief m)). rewrite (S0 j m Em). cbn. split.
    - intros [Hj|Hs]; [auto|]. left. destruct C as [C1 _]. eapply C1; eauto.
    - intros [<-|Hj]; [right; assert (m = n) as -> by congruence; auto|auto].
  Qed.

  Variable good : nat -> Prop.
  Hypothesis good_edge : forall i j, good i -> edge st i j -> good j.
  Notation visit := (visit new_dict old_dict (edge st) good).

  Definition spec (f : nat -> list B -> list B * res odict) (fuel : nat) : Prop :=
    forall i visited seen, seen_ok visited seen -> i < length st -> good i -> left (length st) seen <= fuel ->
    exists visited' d refs n, f i visited = (visited', Ok d) /\ visit seen (i :: refs) (all_dicts d) /\ nth_error st i = Some n /\ brief to_list d n /\ seen_ok visited' ((i :: refs) ++ seen).

  (** the children of an action *)
  Lemma obs_ok f fuel : spec f fuel -> forall (l : list (nat * nat)) k visited seen, seen_ok visited seen -> (forall o j, In (o, j) l -> j < length st /\ good j) -> left (length st) seen <= fuel ->
    exists visited' ds refs, along (fun _ oj visited => f (snd oj) visited) k l visited = (visited', Ok ds) /\ visit seen refs (flat_map all_dicts ds) /\ seen_ok visited' (refs ++ seen) /\
      (forall o j, In (o, j) l -> In j refs) /\ Forall2 (fun oj d' => exists m, nth_error st (snd oj) = Some m /\ brief to_list d' m) l ds.
  Proof.
    intros Hf. induction l as [|[o j] l IH]; intros k visited seen S0 HL Hm; cbn [along].
    - exists visited, [], []. split; [auto|]. split; [apply visit_nil|]. split; [auto|]. split; [intros o j []|constructor].
    - cbn [snd]. destruct (HL o j (or_introl eq_refl)) as [Hj Gj]. destruct (Hf j visited seen S0 Hj Gj Hm) as (v1 & d & r1 & n & E1 & V1 & En & Bn & S1). rewrite E1.
      destruct (IH (S k) v1 ((j :: r1) ++ seen) S1) as (v2 & ds & r2 & E2 & V2 & S2 & I2 & F2).
      { intros o' j' Hin. apply (HL o' j'). simpl; auto. }
      { etransitivity; [|exact Hm]. apply left_mono. intros i Hi. apply in_or_app. auto. }
      rewrite E2. cbn [bind]. exists v2, (d :: ds), ((j :: r1) ++ r2). split; [auto|]. split; [cbn [flat_map]; apply visit_app; auto|]. split; [|split].
      + eapply seen_ok_ext; [exact S2|]. intros i. rewrite !in_app_iff. tauto.
      + intros o' j' [E|Hin]; [assert (j' = j) as -> by congruence; simpl; auto|]. apply in_or_app. right. eapply I2; eauto.
      + constructor; auto. cbn [snd]. eauto.
  Qed.
  (** the actions *)
  Lemma kids_ok f fuel : spec f fuel -> forall (l : list akid) k visited seen, seen_ok visited seen ->
    (forall q, In q l -> forall o j, In (o, j) (k_obs q) -> o < length (s_observations P) /\ j < length st /\ good j) -> left (length st) seen <= fuel ->
    exists visited' es refs,
      along (fun _ q visited =>
               match mapM (fun oj => name_at (s_observations P) (fst oj)) (k_obs q) with
               | Err e => (visited, Err e)
               | Ok obs => let (visited, r) := along (fun _ oj visited => f (snd oj) visited) 0 (k_obs q) visited in
                           (visited, do ds <- r; Ok (AD (avg_value (k_avg q)) (n_simulations (k_avg q)) obs ds))
               end) k l visited = (visited', Ok es) /\
      visit seen refs (flat_map all_adicts es) /\ seen_ok visited' (refs ++ seen) /\ (forall q o j, In q l -> In (o, j) (k_obs q) -> In j refs) /\
      Forall2 (fun q e => ad_value e = avg_value (k_avg q) /\ ad_visits e = n_simulations (k_avg q) /\ all_named (s_observations P) (map fst (k_obs q)) (ad_observations e) /\
        Forall2 (fun oj d' => exists m, nth_error st (snd oj) = Some m /\ brief to_list d' m) (k_obs q) (ad_children e)) l es.
  Proof.
    intros Hf. induction l as [|q l IH]; intros k visited seen S0 HL Hm; cbn [along].
    - exists visited, [], []. split; [auto|]. split; [apply visit_nil|]. split; [auto|]. split; [intros q o j []|constructor].
    - destruct (mapM_total (fun oj : nat * nat => name_at (s_observations P) (fst oj)) (k_obs q)) as [obs Eo].
      { intros [o j] Hin. apply name_at_total. apply (HL q (or_introl eq_refl) o j Hin). }
      rewrite Eo. destruct (obs_ok f fuel Hf (k_obs q) 0 visited seen S0) as (v1 & ds & r1 & E1 & V1 & S1 & I1 & F1).
      { intros o j Hin. apply (HL q (or_introl eq_refl) o j Hin). }
      { auto. }
      rewrite E1. cbn [bind]. destruct (IH (S k) v1 (r1 ++ seen) S1) as (v2 & es & r2 & E2 & V2 & S2 & I2 & F2).
      { intros q' Hq. apply HL. simpl; auto. }
      { etransitivity; [|exact Hm]. apply left_mono. intros i Hi. apply in_or_app. auto. }
      rewrite E2. cbn [bind]. eexists v2, _, (r1 ++ r2). split; [reflexivity|]. split; [cbn [flat_map all_adicts]; apply visit_app; auto|]. split; [|split].
      + eapply seen_ok_ext; [exact S2|]. intros i. rewrite !in_app_iff. tauto.
      + intros q' o j [<-|Hq] Hin; apply in_or_app; [left; eapply I1; eauto|right; eapply I2; eauto].
      + constructor; auto. cbn [ad_value ad_visits ad_observations ad_children]. split; [auto|]. split; [auto|]. split; [apply (all_named_mapM (s_observations P) fst); auto|auto].
  Qed.

  Lemma combine_fst {K L} (l : list K) : forall (r : list L), length l = length r -> map fst (combine l r) = l.
  Proof. induction l as [|x l IH]; intros [|y r] E; cbn in *; try discriminate; auto. f_equal. auto. Qed.
  Lemma tried_pairs {K} (kids : list (option K)) a k : In (a, k) (combine (tried kids) (present kids)) <-> nth_error kids a = Some (Some k).
  Proof.
    split.
    - intros Hin. apply In_nth_error in Hin. destruct Hin as [i Ei]. pose proof (tried_present kids) as F. revert i Ei. induction F as [|x y l r Hxy F IH]; intros [|i] E; cbn in E; try discriminate; [|eauto].
      assert (x = a /\ y = k) as [-> ->] by (split; congruence). auto.
    - intros E. destruct (tried_place _ _ _ E) as [T1 T2]. eapply nth_error_In. apply combine_nth_error; eauto.
  Qed.
  Lemma Forall2_combine {K L M} (R : L -> M -> Prop) (l : list K) : forall r es, length l = length r -> Forall2 R r es -> Forall2 (fun p e => R (snd p) e) (combine l r) es.
  Proof. induction l as [|x l IH]; intros r es E F; destruct F; cbn in *; try discriminate; constructor; auto. Qed.

  Lemma s_dict_ok : forall fuel, spec (fun i visited => s_dict P to_list same fuel st i visited) fuel.
  Proof.
    induction fuel as [|fuel IH]; intros i visited seen S0 Hi Gi Hm; (destruct (nth_error st i) as [n|] eqn:En; [|apply nth_error_None in En; lia]).
    - assert (In i seen) as Hs. { destruct (in_dec Nat.eq_dec i seen) as [Hs|Hs]; [auto|]. pose proof (left_less _ _ _ Hi Hs). lia. }
      cbn [s_dict]. rewrite En. pose proof (proj2 (S0 i n En) Hs) as E. rewrite E. exists visited, (OD (avg_value (sn_avg n)) (n_simulations (sn_avg n)) (to_list (sn_belief n)) [] []), [], n.
      split; [auto|]. split; [|split; [auto|split]].
      + cbn [all_dicts flat_map]. apply visit_old; auto. exists n. repeat split; auto.
      + repeat split; auto.
      + eapply seen_ok_ext; [exact S0|]. intros j. cbn. split; [auto|intros [<-|Hj]; auto].
    - cbn [s_dict]. rewrite En. destruct (seen_b visited (sn_belief n)) eqn:E.
      + pose proof (proj1 (S0 i n En) E) as Hs. exists visited, (OD (avg_value (sn_avg n)) (n_simulations (sn_avg n)) (to_list (sn_belief n)) [] []), [], n.
        split; [auto|]. split; [|split; [auto|split]].
        * cbn [all_dicts flat_map]. apply visit_old; auto. exists n. repeat split; auto.
        * repeat split; auto.
        * eapply seen_ok_ext; [exact S0|]. intros j. cbn. split; [auto|intros [<-|Hj]; auto].
      + assert (Hs : ~ In i seen) by (intros Hs; apply (S0 i n En) in Hs; congruence). destruct C as [C1 C2]. destruct (C2 _ _ En) as (LK & _ & CK).
        destruct (mapM_total (name_at (s_actions P)) (tried (sn_kids n))) as [names Enm].
        { intros a Ha. apply tried_In in Ha. destruct Ha as [k Ek]. apply name_at_total. rewrite <- LK. apply nth_error_Some. congruence. }
        cbv zeta. rewrite Enm. destruct (kids_ok _ _ IH (present (sn_kids n)) 0 (visited ++ [sn_belief n]) (i :: seen)) as (v1 & es & refs & E1 & V1 & S1 & I1 & F1).
        { apply seen_ok_add; auto. }
        { intros q Hq o j Hin. apply In_nth_error in Hq. destruct Hq as [p Ep]. destruct (Forall2_nth_r _ _ _ (tried_present (sn_kids n)) _ _ Ep) as (a & _ & Ea).
          destruct (CK _ _ Ea) as [_ R]. destruct (R _ _ Hin) as [R1 R2]. split; [auto|]. split; [auto|]. eapply good_edge; [exact Gi|]. exists n, a, q, o. auto. }
        { pose proof (left_less _ _ _ Hi Hs). lia. }
        rewrite E1. cbn [bind]. eexists v1, _, refs, n. split; [reflexivity|]. split; [|split; [auto|split]].
        * cbn [all_dicts]. apply visit_new; auto.
          -- exists n. split; [auto|]. split; [repeat split; auto|]. exists (combine (tried (sn_kids n)) (present (sn_kids n))). cbn [od_actions od_children].
             assert (LL : length (tried (sn_kids n)) = length (present (sn_kids n))) by (symmetry; apply present_length). rewrite (combine_fst _ _ LL).
             split; [intros; apply tried_pairs|]. split; [apply tried_sorted|]. split.
             ++ apply (all_named_mapM (s_actions P) (fun i => i)) in Enm. rewrite map_id in Enm. auto.
             ++ apply (Forall2_combine (fun q e => ad_value e = avg_value (k_avg q) /\ ad_visits e = n_simulations (k_avg q) /\ all_named (s_observations P) (map fst (k_obs q)) (ad_observations e) /\
                  Forall2 (fun oj d' => exists m, nth_error st (snd oj) = Some m /\ brief to_list d' m) (k_obs q) (ad_children e))); auto.
          -- intros j (n' & a & k & o & En' & Ek & Ho). assert (n' = n) as -> by congruence. eapply I1; [|exact Ho].
             destruct (tried_place _ _ _ Ek) as [_ T2]. eapply nth_error_In; eauto.
        * repeat split; auto.
        * eapply seen_ok_ext; [exact S1|]. intros j. cbn. rewrite !in_app_iff. cbn. tauto.
  Qed.

  (** *** policies *)
  Hypothesis LA : 0 < length (s_actions P).
  Definition node_kept (n n' : snode B) : Prop :=
    sn_avg n' = sn_avg n /\ sn_belief n' = sn_belief n /\ length (sn_kids n') = length (sn_kids n) /\
    forall a, nth_error (sn_kids n') a = nth_error (sn_kids n) a \/ nth_error (sn_kids n) a = Some None /\ nth_error (sn_kids n') a = Some (Some k_new).
  Lemma node_kept_refl (n : snode B) : node_kept n n.
  Proof. repeat split; auto. Qed.
  Lemma store_kept_refl (s : store B) : store_kept s s.
  Proof. split; [auto|]. intros i n E. exists n. split; [auto|]. apply node_kept_refl. Qed.
  Lemma safe_kept (n n' : snode B) a : node_kept n n' -> node_kept n (sn_safe a n').
  Proof.
    intros (K1 & K2 & K3 & K4). unfold node_kept, sn_safe. cbn [sn_avg sn_belief sn_kids]. split; [auto|]. split; [auto|].
    destruct (nth_error (sn_kids n') a) as [[k|]|] eqn:E; [split; auto| |split; auto]. rewrite set_nth_length. split; [auto|]. intros i. destruct (Nat.eq_dec i a) as [->|Hi].
    - right. rewrite set_nth_same by (apply nth_error_Some; congruence). destruct (K4 a) as [E'|[_ E']]; [split; congruence|congruence].
    - rewrite set_nth_other by auto. apply K4.
  Qed.
  Lemma modify_kept s i a : store_kept st s -> store_kept st (modify s i (sn_safe a)).
  Proof.
    intros [L K]. split; [rewrite modify_length; auto|]. intros j n E. destruct (K j n E) as (n' & E' & KN). rewrite modify_nth, E'. destruct (Nat.eqb j i); cbn [option_map]; [|eauto].
    exists (sn_safe a n'). split; [auto|]. apply (safe_kept n n' a KN).
  Qed.
  Lemma as_tree_visits (n : snode B) a : visits (as_tree n) a = s_visits n a.
  Proof. unfold visits, s_visits. cbn [as_tree o_kids]. rewrite nth_error_map. destruct (nth_error (sn_kids n) a) as [[k|]|]; reflexivity. Qed.
  Lemma kept_values (n n' : snode B) : node_kept n n' -> o_avg (as_tree n') = o_avg (averages n) /\ o_belief (as_tree n') = o_belief (averages n) /\
    length (o_kids (as_tree n')) = length (o_kids (averages n)) /\ forall a, visits (as_tree n') a = visits (averages n) a /\ action_value (as_tree n') a = action_value (averages n) a.
  Proof.
    intros (K1 & K2 & K3 & K4). cbn [as_tree averages o_avg o_belief o_kids]. rewrite !map_length. split; [auto|]. split; [auto|]. split; [auto|]. intros a. unfold visits, action_value.
    cbn [as_tree averages o_kids]. rewrite !nth_error_map. destruct (K4 a) as [->|[-> ->]]; auto.
  Qed.
  Lemma chosen_ext (n n' : onode B) a : length (o_kids n') = length (o_kids n) -> (forall i, visits n' i = visits n i /\ action_value n' i = action_value n i) -> chosen n' a -> chosen n a.
  Proof.
    intros L V (C1 & C2 & C3). assert (U : forall i, untried n' i <-> untried n i). { intros i. unfold untried. rewrite L. rewrite (proj1 (V i)). tauto. }
    split; [lia|]. split.
    - intros [i Hi]. apply U, C2. exists i. apply U. auto.
    - intros Hn i Hi. rewrite <- (proj2 (V i)), <- (proj2 (V a)). apply C3; [|lia]. intros j Hj. apply (Hn j), U. auto.
  Qed.
  Lemma informs_ext bl (n n' : onode B) a observed f : o_avg n' = o_avg n -> length (o_kids n') = length (o_kids n) -> (forall i, visits n' i = visits n i /\ action_value n' i = action_value n i) ->
    informs P bl n' a observed f -> informs P bl n a observed f.
  Proof.
    intros A L V (I1 & I2 & I3 & I4 & I5 & I6 & I7 & I8 & I9). assert (Cn : o_count n' = o_count n) by (unfold o_count; congruence).
    unfold informs. rewrite <- A, <- L, <- Cn. do 8 (split; [auto|]). intros j Hj. rewrite <- (proj1 (V j)), <- (proj2 (V j)). apply I9. auto.
  Qed.
  Lemma as_tree_safe (n : snode B) a k : sn_child n a = Ok k -> exists c, safe_child (as_tree n) a = Ok c /\ as_tree (sn_safe a n) = set_kid (as_tree n) a c.
  Proof.
    unfold sn_child, safe_child, sn_safe, as_tree, set_kid. cbn [o_kids o_avg o_belief sn_kids sn_avg sn_belief]. rewrite nth_error_map. intros E.
    destruct (nth_error (sn_kids n) a) as [[k'|]|] eqn:Ea; cbn [option_map]; [| |discriminate].
    - eexists. split; [reflexivity|]. f_equal. symmetry. apply set_nth_id. rewrite nth_error_map, Ea. reflexivity.
    - exists a_new. split; [reflexivity|]. f_equal. rewrite map_set_nth. reflexivity.
  Qed.
  Lemma after_kept (n n' : snode B) a k : node_kept n n' -> sn_child n' a = Ok k -> k_obs k = s_after n a.
  Proof.
    intros (_ & _ & _ & K4) E. unfold sn_child in E. unfold s_after. destruct (K4 a) as [E'|[E1 E2]].
    - rewrite E' in E. destruct (nth_error (sn_kids n) a) as [[k'|]|]; [congruence| |discriminate]. assert (k = k_new) as -> by congruence. reflexivity.
    - rewrite E2 in E. rewrite E1. assert (k = k_new) as -> by congruence. reflexivity.
  Qed.
  (** the entries of a node *)
  Lemma pick_ok s i n observed x : store_kept st s -> nth_error st i = Some n ->
    exists n' a k x' info, nth_error s i = Some n' /\ node_kept n n' /\ best_action P (as_tree n') 0 false x = (Ok a, x') /\ sn_child n' a = Ok k /\ k_obs k = s_after n a /\
      o_info P to_list (as_tree (sn_safe a n')) a observed = Ok info /\ chosen (averages n) a /\ informs P (to_list (sn_belief n)) (averages n) a observed info.
  Proof.
    intros [_ K] En. destruct (K i n En) as (n' & En' & KN). destruct (kept_values n n' KN) as (V1 & V2 & V3 & V4). destruct (proj2 C i n En) as (LK & CV & _).
    assert (LK' : length (o_kids (as_tree n')) = length (s_actions P)) by (rewrite V3; cbn [averages o_kids]; rewrite map_length; auto).
    destruct (best_total P (as_tree n') x) as (a & x' & Eb).
    { lia. }
    { unfold all_visits. rewrite LK'. rewrite (list_sum_ext _ (s_visits n)).
      - unfold o_count. rewrite V1. cbn [averages o_avg]. unfold s_all_visits in CV. rewrite LK in CV. exact CV.
      - intros b _. rewrite (proj1 (V4 b)). exact (as_tree_visits n b). }
    pose proof (best_lt P _ _ _ _ _ _ Eb) as Ha. assert (Hk : exists k, sn_child n' a = Ok k).
    { unfold sn_child. cbn [as_tree o_kids] in Ha. rewrite map_length in Ha. destruct (nth_error (sn_kids n') a) as [[k|]|] eqn:E; eauto. apply nth_error_None in E. lia. }
    destruct Hk as [k Ek]. destruct (as_tree_safe _ _ _ Ek) as (c & Es & Et). destruct (info_total P to_list (as_tree (sn_safe a n')) a observed) as [info Ei]; [lia|].
    exists n', a, k, x', info. split; [auto|]. split; [auto|]. split; [auto|]. split; [auto|]. split; [eapply after_kept; eauto|]. split; [auto|]. split.
    - eapply chosen_ext; [exact V3|exact V4|]. eapply best_chosen; eauto.
    - rewrite Et in Ei. pose proof (info_informs P to_list _ _ _ _ _ Es Ei) as I0. rewrite V2 in I0. cbn [averages o_belief] in I0. eapply informs_ext; eauto.
  Qed.

  Notation new_policy := (new_policy P to_list st).
  Notation old_policy := (old_policy P to_list st).
  Notation pvisit := (ExportProofs3.visit new_policy old_policy (fun _ _ => False) good).
  Definition pspec (f : nat -> option nat -> store B * list B * X -> (store B * list B * X) * res pdict) (fuel : nat) : Prop :=
    forall i observed s visited x seen, store_kept st s -> seen_ok visited seen -> i < length st -> good i -> left (length st) seen <= fuel ->
    exists s' visited' x' d refs n a, f i observed (s, visited, x) = (s', visited', x', Ok d) /\ pvisit seen (i :: refs) (all_pdicts d) /\ nth_error st i = Some n /\
      pbrief P to_list n a d /\ p_observed (pd_info d) = observed /\ store_kept st s' /\ seen_ok visited' ((i :: refs) ++ seen).

  Lemma pobs_ok f fuel : pspec f fuel -> forall (l : list (nat * nat)) k s visited x seen, store_kept st s -> seen_ok visited seen ->
    (forall o j, In (o, j) l -> j < length st /\ good j) -> left (length st) seen <= fuel ->
    exists s' visited' x' ds refs, along (fun p oj w => f (snd oj) (Some p) w) k l (s, visited, x) = (s', visited', x', Ok ds) /\
      pvisit seen refs (flat_map all_pdicts ds) /\ store_kept st s' /\ seen_ok visited' (refs ++ seen) /\ length ds = length l /\
      forall p o j, nth_error l p = Some (o, j) -> exists d' m a', nth_error ds p = Some d' /\ p_observed (pd_info d') = Some (k + p) /\ nth_error st j = Some m /\ pbrief P to_list m a' d'.
  Proof.
    intros Hf. induction l as [|[o j] l IH]; intros k s visited x seen K0 S0 HL Hm; cbn [along].
    - exists s, visited, x, [], []. split; [auto|]. split; [apply visit_nil|]. split; [auto|]. split; [auto|]. split; [auto|]. intros [|p] o j E; discriminate.
    - cbn [snd]. destruct (HL o j (or_introl eq_refl)) as [Hj Gj]. destruct (Hf j (Some k) s visited x seen K0 S0 Hj Gj Hm) as (s1 & v1 & x1 & d & r1 & n & a & E1 & V1 & En & Bn & On & K1 & S1). rewrite E1.
      destruct (IH (S k) s1 v1 x1 ((j :: r1) ++ seen) K1 S1) as (s2 & v2 & x2 & ds & r2 & E2 & V2 & K2 & S2 & L2 & N2).
      { intros o' j' Hin. apply (HL o' j'). simpl; auto. }
      { etransitivity; [|exact Hm]. apply left_mono. intros i Hi. apply in_or_app. auto. }
      rewrite E2. cbn [bind]. exists s2, v2, x2, (d :: ds), ((j :: r1) ++ r2). split; [auto|]. split; [cbn [flat_map]; apply visit_app; auto|]. split; [auto|]. split; [|split].
      + eapply seen_ok_ext; [exact S2|]. intros i. rewrite !in_app_iff. tauto.
      + cbn. auto.
      + intros [|p] o' j' E.
        * assert (j' = j) as -> by (cbn in E; congruence). exists d, n, a. rewrite Nat.add_0_r. auto.
        * cbn in E. rewrite Nat.add_succ_r. apply N2 in E. exact E.
  Qed.

  Lemma s_policy_ok : forall fuel, pspec (s_policy P to_list same fuel) fuel.
  Proof.
    induction fuel as [|fuel IH]; intros i observed s visited x seen K0 S0 Hi Gi Hm; (destruct (nth_error st i) as [n|] eqn:En; [|apply nth_error_None in En; lia]);
      destruct (pick_ok s i n observed x K0 En) as (n' & a & k & x' & info & En' & KN & Eb & Ek & Ea & Ei & Hc & Hf); assert (EB : sn_belief n' = sn_belief n) by apply KN;
      cbn [s_policy]; rewrite En', Eb; cbn [bind]; rewrite Ek; cbn [bind]; rewrite Ei, EB.
    - assert (In i seen) as Hs. { destruct (in_dec Nat.eq_dec i seen) as [Hs|Hs]; [auto|]. pose proof (left_less _ _ _ Hi Hs). lia. }
      pose proof (proj2 (S0 i n En) Hs) as E. rewrite E. assert (IO : p_observed info = observed) by apply Hf. exists (modify s i (sn_safe a)), visited, x', (PD info false [] []), [], n, a.
      assert (Bn : pbrief P to_list n a (PD info false [] [])) by (split; [auto|cbn [pd_info]; rewrite IO; auto]).
      split; [auto|]. split; [|split; [auto|split; [auto|split; [auto|split; [apply modify_kept; auto|]]]]].
      + cbn [all_pdicts flat_map]. apply visit_old; auto. exists n, a. auto.
      + eapply seen_ok_ext; [exact S0|]. intros j. cbn. split; [auto|intros [<-|Hj]; auto].
    - destruct (ExportModel.seen same visited (sn_belief n)) eqn:E.
      + pose proof (proj1 (S0 i n En) E) as Hs. assert (IO : p_observed info = observed) by apply Hf. exists (modify s i (sn_safe a)), visited, x', (PD info false [] []), [], n, a.
        assert (Bn : pbrief P to_list n a (PD info false [] [])) by (split; [auto|cbn [pd_info]; rewrite IO; auto]).
        split; [auto|]. split; [|split; [auto|split; [auto|split; [auto|split; [apply modify_kept; auto|]]]]].
        * cbn [all_pdicts flat_map]. apply visit_old; auto. exists n, a. auto.
        * eapply seen_ok_ext; [exact S0|]. intros j. cbn. split; [auto|intros [<-|Hj]; auto].
      + assert (Hs : ~ In i seen) by (intros Hs; apply (S0 i n En) in Hs; congruence). destruct (proj2 C _ _ En) as (LK & _ & CK). rewrite Ea.
        assert (R : forall o j, In (o, j) (s_after n a) -> o < length (s_observations P) /\ j < length st /\ good j).
        { intros o j Hin. unfold s_after in Hin. destruct (nth_error (sn_kids n) a) as [[k'|]|] eqn:Ek'; try destruct Hin as []. destruct (CK _ _ Ek') as [_ R]. destruct (R _ _ Hin) as [R1 R2].
          split; [auto|]. split; [auto|]. eapply good_edge; [exact Gi|]. exists n, a, k', o. auto. }
        destruct (mapM_total (fun oj : nat * nat => name_at (s_observations P) (fst oj)) (s_after n a)) as [names Enm].
        { intros [o j] Hin. apply name_at_total. apply (R o j Hin). }
        rewrite Enm. destruct (pobs_ok _ _ IH (s_after n a) 0 (modify s i (sn_safe a)) (visited ++ [sn_belief n]) x' (i :: seen)) as (s1 & v1 & x1 & ds & refs & E1 & V1 & K1 & S1 & L1 & N1).
        { apply modify_kept; auto. }
        { apply seen_ok_add; auto. }
        { intros o j Hin. apply (R o j Hin). }
        { pose proof (left_less _ _ _ Hi Hs). lia. }
        rewrite E1. cbn [bind]. assert (IO : p_observed info = observed) by apply Hf. exists s1, v1, x1, (PD info true names ds), refs, n, a.
        assert (Bn : pbrief P to_list n a (PD info true names ds)) by (split; [auto|cbn [pd_info]; rewrite IO; auto]).
        split; [auto|]. split; [|split; [auto|split; [auto|split; [auto|split; [auto|]]]]].
        * cbn [all_pdicts]. apply visit_new; auto; [|intros j []]. exists n, a. cbn [pd_expanded pd_observations pd_children]. split; [auto|]. split; [auto|]. split; [auto|].
          split; [apply (all_named_mapM (s_observations P) fst); auto|]. split; [auto|]. intros p o j Ep. apply (N1 p o j Ep).
        * eapply seen_ok_ext; [exact S1|]. intros j. cbn. rewrite !in_app_iff. cbn. tauto.
  Qed.

  (** *** the export with quotients *)
  Variable quotient : list Q -> res (list Q).
  Lemma along_inv {A W D} (f : nat -> A -> W -> W * res D) (I : W -> Prop) (R : nat -> A -> Prop) : (forall p x w w' c, I w -> f p x w = (w', Ok c) -> I w' /\ R p x) ->
    forall l k w w' cs, I w -> along f k l w = (w', Ok cs) -> I w' /\ forall p x, nth_error l p = Some x -> R (k + p) x.
  Proof.
    intros Hf. induction l as [|x l IH]; intros k w w' cs Iw E; cbn [along] in E.
    - assert (w' = w) as -> by congruence. split; [auto|]. intros [|p] x Ex; discriminate.
    - destruct (f k x w) as [w1 [c|e]] eqn:E1; [|discriminate]. destruct (along f (S k) l w1) as [w2 [cs'|e]] eqn:E2; cbn [bind] in E; [|discriminate]. assert (w' = w2) as -> by congruence.
      destruct (Hf _ _ _ _ _ Iw E1) as [I1 R1]. destruct (IH _ _ _ _ I1 E2) as [I2 R2]. split; [auto|]. intros [|p] y Ey; cbn in Ey.
      + assert (y = x) as -> by congruence. rewrite Nat.add_0_r. auto.
      + rewrite Nat.add_succ_r. apply (R2 p y Ey).
  Qed.
  Lemma s_quotient_paths : forall fuel i s x s' x' d, store_kept st s -> s_quotient P to_list quotient fuel i (s, x) = (s', x', Ok d) ->
    store_kept st s' /\ forall g j, s_find st i g = Some j -> length g < fuel.
  Proof.
    clear LA. induction fuel as [|fuel IH]; intros i s x s' x' d K0 E; cbn [s_quotient] in E; [discriminate|].
    destruct (nth_error s i) as [n'|] eqn:En'; [|discriminate]. destruct (best_action P (as_tree n') 0 false x) as [[a|e] y]; cbn [bind] in E; [|discriminate].
    destruct (sn_child n' a) as [k|e]; cbn [bind] in E; [|discriminate]. destruct (q_info P to_list quotient (as_tree (sn_safe a n')) a) as [[info idx]|e]; [|discriminate].
    match type of E with (let (_, _) := ?t in _) = _ => destruct t as [[s1 x1] r] eqn:Ea end. destruct r as [cs|e]; cbn [bind] in E; [|discriminate].
    assert (s' = s1) as -> by congruence. clear E.
    apply (along_inv _ (fun w => store_kept st (fst w))
      (fun p _ => forall n q o j, nth_error st i = Some n -> nth_error (sn_kids n) p = Some (Some q) -> lookup o (k_obs q) = Some j -> forall g j', s_find st j g = Some j' -> length g < fuel)) in Ea.
    - cbn [fst] in Ea. destruct Ea as [K1 R]. split; [auto|]. intros [|[b o] g] j Ef; cbn [length]; [lia|]. cbn [s_find] in Ef. destruct (nth_error st i) as [n|] eqn:En; [|discriminate].
      destruct (nth_error (sn_kids n) b) as [[q|]|] eqn:Eq; try discriminate. destruct (lookup o (k_obs q)) as [j'|] eqn:El; [|discriminate].
      destruct (proj2 K0 i n En) as (m & Em & _ & _ & Lm & _). assert (m = n') as -> by congruence. assert (Hb : b < length (sn_kids n')) by (rewrite Lm; apply nth_error_Some; congruence).
      destruct (nth_error (sn_kids n') b) as [z|] eqn:Ez; [|apply nth_error_None in Ez; lia]. specialize (R b z Ez n q o j' eq_refl Eq El g j Ef). lia.
    - clear Ea. intros p z [s2 x2] w' c K2 E. cbn [fst] in *. destruct (nth_error s2 i) as [m|] eqn:Em; [|discriminate].
      assert (U : forall n q, nth_error st i = Some n -> nth_error (sn_kids n) p = Some (Some q) -> nth_error (sn_kids m) p = Some (Some q)).
      { intros n q En Eq. destruct (proj2 K2 i n En) as (m' & Em' & _ & _ & _ & N). assert (m' = m) as -> by congruence. destruct (N p) as [->|[E1 _]]; [auto|congruence]. }
      destruct (nth_error (sn_kids m) p) as [[k2|]|] eqn:Ek2.
      + destruct (mapM _ (k_obs k2)) as [names|e]; [|discriminate]. match type of E with (let (_, _) := ?t in _) = _ => destruct t as [w2 r] eqn:Ea end. destruct r as [ds|e]; cbn [bind] in E; [|discriminate].
        assert (w' = w2) as -> by congruence.
        apply (along_inv _ (fun w => store_kept st (fst w)) (fun _ oj => forall g j', s_find st (snd oj) g = Some j' -> length g < fuel)) in Ea; [| |exact K2].
        * destruct Ea as [K3 R]. split; [auto|]. intros n q o j En Eq El g j' Ef. assert (k2 = q) as -> by (specialize (U n q En Eq); congruence).
          apply lookup_In, In_nth_error in El. destruct El as [t Et]. apply (R t (o, j) Et g j' Ef).
        * intros p' [o j] [s3 x3] [s4 x4] d' K3 E3. cbn [fst snd] in *. eapply IH; eauto.
      + assert (w' = (s2, x2)) as -> by congruence. split; [auto|]. intros n q o j En Eq. specialize (U n q En Eq). discriminate.
      + assert (w' = (s2, x2)) as -> by congruence. split; [auto|]. intros n q o j En Eq. specialize (U n q En Eq). discriminate.
    - cbn [fst]. apply modify_kept. auto.
  Qed.
End Store.

(** A cycle has arbitrarily long paths. *)
Lemma turns {B} (st : store B) i g : s_find st i g = Some i -> forall k, s_find st i (concat (repeat g k)) = Some i.
Proof. intros E. induction k as [|k IH]; cbn [repeat concat]; [reflexivity|]. rewrite (find_app _ _ _ _ _ E). auto. Qed.
Lemma turns_length {A} (g : list A) : g <> [] -> forall k, k <= length (concat (repeat g k)).
Proof. intros Hg. induction k as [|k IH]; cbn [repeat concat]; [lia|]. rewrite app_length. destruct g; [congruence|]. cbn [length]. lia. Qed.
Lemma cyclic_paths {B} (st : store B) : cyclic st -> forall k, exists g j, s_find st 0 g = Some j /\ k <= length g.
Proof.
  intros (h & i & g & Eh & Hg & Eg) k. exists (h ++ concat (repeat g k)), i. rewrite (find_app _ _ _ _ _ Eh). split; [apply turns; auto|]. rewrite app_length. pose proof (turns_length g Hg k). lia.
Qed.
