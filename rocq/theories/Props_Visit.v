(** C116: node_search lists the nodes of a search tree. *)
From Coq Require Import Lia Permutation.
From Verif Require Import PyBase PyBaseFacts QBase PomdpModel PomdpProofs BeliefModel EvalModel PolicyModel PomcpModel PomcpSpec SharedModel SharedSpec
  ExportModel ExportSpec ExportProofs ExportProofs3 ExportProofs4 VisitModel VisitSpec VisitProofs VisitProofs2 Props_Pomdp Props_Pomcp Props_Shared Props_Export.
Local Open Scope list_scope.
Local Open Scope nat_scope.

(** The loop ends and node_search returns the histories and the nodes of [l]. *)
Definition tree_finds {X St B H} (P : search X St B H) ord max_nodes root l : Prop :=
  exists f, forall fuel, f <= fuel -> tree_search P fuel ord max_nodes root = Ok (map fst l, map snd l).
Definition store_finds {X St B H} (P : search X St B H) ord max_nodes st l : Prop :=
  exists f, forall fuel, f <= fuel -> store_search P fuel ord max_nodes st = Ok (map fst l, map snd l).
Definition known (ord : string) : Prop := ord = "breadth"%string \/ ord = "depth"%string \/ ord = "q"%string.

Lemma pairs_eq {U V} (l l' : list (U * V)) : map fst l = map fst l' -> map snd l = map snd l' -> l = l'.
Proof.
  revert l'. induction l as [|[u v] l IH]; intros [|[u' v'] l'] E F; try discriminate; [auto|]. cbn in *. injection E. injection F. intros F' -> E' ->. f_equal. auto.
Qed.
Lemma known_read ord : known ord -> exists o, read_order ord = Ok o.
Proof. intros [E|[E|E]]; subst; eexists; reflexivity. Qed.
Lemma tree_finds_one {X St B H} (P : search X St B H) ord m root l l' : tree_finds P ord m root l -> tree_finds P ord m root l' -> l = l'.
Proof. intros [f E] [g F]. specialize (E (f + g)). specialize (F (f + g)). rewrite E in F by lia. specialize (F ltac:(lia)). apply pairs_eq; congruence. Qed.
Lemma store_finds_one {X St B H} (P : search X St B H) ord m st l l' : store_finds P ord m st l -> store_finds P ord m st l' -> l = l'.
Proof. intros [f E] [g F]. specialize (E (f + g)). specialize (F (f + g)). rewrite E in F by lia. specialize (F ltac:(lia)). apply pairs_eq; congruence. Qed.

Section Tree.
  Context {X St B H : Type}.
  Variable P : search X St B H.
  Hypothesis NA : NoDup (s_actions P).
  Hypothesis NO : NoDup (s_observations P).
  Variable root : onode B.
  Hypothesis T : tree_ok P root.
  Notation tgo := (go (@tree_value B) (tree_next P)).
  Notation start := ([tag (@tree_value B) ([], root)]).

  Lemma start_good : good (@tree_value B) (tree_ok P) start.
  Proof. constructor; [split; [reflexivity|exact T]|constructor]. Qed.
  Lemma finds_limit ord o k : read_order ord = Ok o -> tree_finds P ord (Some k) root (snd (tgo (Z.to_nat k) o start [])).
  Proof.
    intros E. exists (Z.to_nat k). intros fuel Hf. unfold tree_search, node_search. rewrite E. cbn [bind]. change (fun n : onode B => avg_value (o_avg n)) with (@tree_value B).
    rewrite (visit_limit _ _ _ _ _ (tree_next P) (tree_ok P) (tree_pushed P NA) (tree_next_ok P) o k (Z.to_nat k)); [reflexivity|apply start_good|auto|]. cbn. lia.
  Qed.
  Lemma finds_all ord o : read_order ord = Ok o -> exists s, tree_finds P ord None root (snd (tgo s o start [])) /\ forall k, s <= k -> tgo k o start [] = ([], snd (tgo s o start [])).
  Proof.
    intros E. destruct (tree_sized P root []) as [s Hs]. assert (Hk : forall k, s <= k -> tgo k o start [] = ([], snd (tgo s o start []))).
    { intros k Hk. replace k with (s + (k - s)) by lia. rewrite go_add. assert (En : fst (tgo s o start []) = []) by (apply (go_ends _ _ _ _ _ _ [s]); [repeat constructor; auto|cbn; lia]).
      destruct (tgo s o start []) as [q f]. cbn [fst snd] in *. subst q. apply go_nil. }
    exists s. split; [|auto]. exists s. intros fuel Hf. unfold tree_search, node_search. rewrite E. cbn [bind]. change (fun n : onode B => avg_value (o_avg n)) with (@tree_value B).
    match goal with |- context [visit _ _ _ _ _ _ _ _ ?q _] => change q with start end.
    rewrite (visit_all _ _ _ _ _ (tree_next P) (tree_ok P) (tree_pushed P NA) (tree_next_ok P)); [|apply start_good|]; rewrite (Hk fuel Hf); reflexivity.
  Qed.
End Tree.

(** *** Trees: without a limit *)
(** Every node of the tree is listed, with the names of the history that leads to it, once, after the node it follows. *)
Theorem C116_nodes : forall X St B H (P : search X St B H) b l r ord, trace P b l r -> in_range P -> NoDup (s_actions P) -> NoDup (s_observations P) -> known ord ->
  exists found, tree_finds P ord None (r_root r) found /\ in_order (tree_next P) (r_root r) found /\
    forall h m, In (h, m) found <-> exists ih nh, named P ih nh /\ PomcpSpec.find (r_root r) ih = Some m /\ h = flat nh.
Proof.
  intros X St B H P b l r ord Tr R NA NO K. pose proof (trace_ready P R _ _ _ Tr) as [T _]. destruct (known_read _ K) as [o Eo]. destruct (finds_all P NA _ T ord o Eo) as (s & F & Hs).
  pose proof (inv_go (@tree_value B) _ (tree_ok P) (tree_next_ok P) (tree_once P NA NO) _ T o s _ _ (inv_start (@tree_value B) _ _ _ T)) as I. specialize (Hs s (le_n _)). rewrite Hs in I. cbn [fst snd] in I.
  eexists. split; [exact F|]. split.
  - destruct I as [_ _ On Fo _ _ _]. cbn in On. rewrite app_nil_r in On. split; auto.
  - intros h m. rewrite <- (tree_place P _ _ _ T). symmetry. eapply inv_all; eauto.
Qed.
Print Assumptions C116_nodes.

(** A limit only cuts the list, and none is listed for a limit that is not positive. *)
Theorem C116_limit : forall X St B H (P : search X St B H) b l r ord found k, trace P b l r -> in_range P -> NoDup (s_actions P) -> NoDup (s_observations P) -> known ord ->
  tree_finds P ord None (r_root r) found -> tree_finds P ord (Some k) (r_root r) (firstn (Z.to_nat k) found).
Proof.
  intros X St B H P b l r ord found k Tr R NA NO K F. pose proof (trace_ready P R _ _ _ Tr) as [T _]. destruct (known_read _ K) as [o Eo]. destruct (finds_all P NA _ T ord o Eo) as (s & F' & Hs).
  rewrite (tree_finds_one _ _ _ _ _ _ F F'). pose proof (finds_limit P NA _ T ord o k Eo) as L. rewrite (go_firstn _ _ o (Z.to_nat k) (Z.to_nat k + s)) in L by lia. rewrite Hs in L by lia. exact L.
Qed.
Print Assumptions C116_limit.

(** 'breadth': level by level. *)
Theorem C116_breadth : forall X St B H (P : search X St B H) b l r found, trace P b l r -> in_range P -> NoDup (s_actions P) -> NoDup (s_observations P) ->
  tree_finds P "breadth" None (r_root r) found ->
  exists d, level (tree_next P) d ([], r_root r) = [] /\ found = flat_map (fun k => level (tree_next P) k ([], r_root r)) (seq 0 d).
Proof.
  intros X St B H P b l r found Tr R NA NO F. pose proof (trace_ready P R _ _ _ Tr) as [T _]. destruct (finds_all P NA _ T "breadth" Breadth eq_refl) as (s & F' & Hs).
  rewrite (tree_finds_one _ _ _ _ _ _ F F'). set (x := ([], r_root r)) in *. set (found' := snd (go (@tree_value B) (tree_next P) s Breadth [tag (@tree_value B) x] [])) in *.
  assert (E : forall d, s <= d -> found' = firstn d (flat_map (fun k => level (tree_next P) k x) (seq 0 d))).
  { intros d Hd. transitivity (snd (go (@tree_value B) (tree_next P) d Breadth [tag (@tree_value B) x] [])); [rewrite Hs by auto; auto|]. apply breadth_start. auto. }
  (* an empty level: otherwise there are more nodes than found *)
  assert (Em : forall d, (exists k, k < d /\ level (tree_next P) k x = []) \/ d <= length (flat_map (fun k => level (tree_next P) k x) (seq 0 d))).
  { induction d as [|d [(k & Hk & Ek)|IH]]; [right; cbn; lia|left; exists k; split; [lia|auto]|]. destruct (level (tree_next P) d x) as [|y q] eqn:Ed; [left; exists d; split; [lia|auto]|].
    right. rewrite seq_S, flat_map_app, app_length. cbn [flat_map plus]. rewrite Ed. cbn. lia. }
  assert (St0 : forall d, length found' < d -> s <= d -> exists k, k < d /\ level (tree_next P) k x = []).
  { intros d H1 H2. destruct (Em d) as [Ek|L]; [auto|]. exfalso. rewrite (E d H2) in H1. rewrite firstn_length in H1. lia. }
  destruct (St0 (S (length found' + s))) as (k & Hk & Ek); [lia|lia|].
  assert (Ez : forall j, k <= j -> level (tree_next P) j x = []) by (intros j Hj; induction Hj as [|j Hj IH]; [auto|]; cbn [level]; rewrite IH; reflexivity).
  assert (Cut : forall d, k <= d -> flat_map (fun k => level (tree_next P) k x) (seq 0 d) = flat_map (fun k => level (tree_next P) k x) (seq 0 k)).
  { intros d Hd. replace d with (k + (d - k)) by lia. rewrite seq_app, flat_map_app. cbn [plus]. rewrite (flat_map_concat_map _ (seq k (d - k))).
    assert (Z : forall m j, k <= j -> concat (map (fun k => level (tree_next P) k x) (seq j m)) = []) by (induction m as [|m IH]; intros j Hj; cbn; [auto|]; rewrite (Ez j Hj); apply IH; lia).
    rewrite Z by lia. apply app_nil_r. }
  exists k. split; [auto|]. set (len := length (flat_map (fun k => level (tree_next P) k x) (seq 0 k))). rewrite (E (k + s + len)) by lia. rewrite (Cut (k + s + len)) by lia. apply firstn_all2. lia.
Qed.
Print Assumptions C116_breadth.

(** 'depth': depth first, and of the nodes that follow a node the last ones first. *)
Theorem C116_depth : forall X St B H (P : search X St B H) b l r found, trace P b l r -> in_range P -> NoDup (s_actions P) -> NoDup (s_observations P) ->
  tree_finds P "depth" None (r_root r) found ->
  exists d, forall d', d <= d' -> found = descent (tree_next P) d' ([], r_root r).
Proof.
  intros X St B H P b l r found Tr R NA NO F. pose proof (trace_ready P R _ _ _ Tr) as [T _]. destruct (finds_all P NA _ T "depth" Depth eq_refl) as (s & F' & Hs).
  rewrite (tree_finds_one _ _ _ _ _ _ F F'). set (x := ([], r_root r)) in *.
  assert (E : forall k d, s <= k -> k <= S d -> snd (go (@tree_value B) (tree_next P) s Depth [tag (@tree_value B) x] []) = firstn k (descent (tree_next P) d x)).
  { intros k d H1 H2. transitivity (snd (go (@tree_value B) (tree_next P) k Depth [tag (@tree_value B) x] [])); [rewrite (Hs k) by auto; auto|]. apply depth_start. auto. }
  set (found' := snd (go (@tree_value B) (tree_next P) s Depth [tag (@tree_value B) x] [])) in *. exists (s + length found'). intros d Hd. specialize (E (S d) d ltac:(lia) ltac:(lia)).
  rewrite E. symmetry. rewrite E in Hd. rewrite firstn_length in Hd. symmetry. apply firstn_all2. lia.
Qed.
Print Assumptions C116_depth.

(** 'q': best first. *)
Theorem C116_best : forall X St B H (P : search X St B H) b l r found, trace P b l r -> in_range P -> NoDup (s_actions P) -> NoDup (s_observations P) ->
  tree_finds P "q" None (r_root r) found -> best_first (tree_next P) (@tree_value B) ([], r_root r) found.
Proof.
  intros X St B H P b l r found Tr R NA NO F. pose proof (trace_ready P R _ _ _ Tr) as [T _]. destruct (finds_all P NA _ T "q" Best eq_refl) as (s & F' & Hs).
  rewrite (tree_finds_one _ _ _ _ _ _ F F'). apply (best_start (@tree_value B) (tree_next P) (tree_ok P) (tree_next_ok P) (tree_once P NA NO) (r_root r) T).
Qed.
Print Assumptions C116_best.

(** Any other order is refused. *)
Theorem C116_unknown : forall X St B H (P : search X St B H) fuel ord max_nodes root st, ~ known ord ->
  tree_search P fuel ord max_nodes root = Err EValue /\ store_search P fuel ord max_nodes st = Err EValue.
Proof.
  intros X St B H P fuel ord max_nodes root st K. unfold tree_search, store_search, node_search.
  assert (read_order ord = Err EValue) as ->; [|auto]. unfold read_order, known in *.
  destruct (String.eqb_spec ord "breadth"); [tauto|]. destruct (String.eqb_spec ord "depth"); [tauto|]. destruct (String.eqb_spec ord "q"); [tauto|]. auto.
Qed.
Print Assumptions C116_unknown.

(** *** Nodes shared by belief *)
Section Store.
  Context {X St B H : Type}.
  Variable P : search X St B H.
  Variable same : B -> B -> bool.
  Variable st : store B.
  Hypothesis NA : NoDup (s_actions P).
  Hypothesis NO : NoDup (s_observations P).
  Hypothesis C : closed P same st.
  Hypothesis L0 : 0 < length st.
  Notation sgo := (go (store_value st) (store_next P st)).
  Notation start := ([tag (store_value st) ([], 0)]).
  Lemma sstart_good : good (store_value st) (live st) start.
  Proof. constructor; [split; [reflexivity|exact L0]|constructor]. Qed.
  Lemma sfinds_limit ord o k : read_order ord = Ok o -> store_finds P ord (Some k) st (snd (sgo (Z.to_nat k) o start [])).
  Proof.
    intros E. exists (Z.to_nat k). intros fuel Hf. unfold store_search, node_search. rewrite E. cbn [bind].
    match goal with |- context [visit _ _ _ _ _ _ _ _ ?q _] => change q with start end.
    rewrite (visit_limit _ _ (store_value st) _ _ (store_next P st) (live st) (store_pushed P same st NA C) (store_next_ok P same st C) o k (Z.to_nat k)); [reflexivity|apply sstart_good|auto|]. cbn. lia.
  Qed.
  Lemma sinv o k : inv (store_value st) (store_next P st) (live st) 0 (fst (sgo k o start [])) (snd (sgo k o start [])).
  Proof. apply (inv_go (store_value st) _ (live st) (store_next_ok P same st C) (store_once P same st NA NO C) 0 L0). apply inv_start. exact L0. Qed.
  Lemma sfinds_all ord o s : read_order ord = Ok o -> fst (sgo s o start []) = [] -> store_finds P ord None st (snd (sgo s o start [])).
  Proof.
    intros E En. exists s. intros fuel Hf. unfold store_search, node_search. rewrite E. cbn [bind].
    match goal with |- context [visit _ _ _ _ _ _ _ _ ?q _] => change q with start end.
    assert (Hk : sgo fuel o start [] = ([], snd (sgo s o start []))).
    { replace fuel with (s + (fuel - s)) by lia. rewrite go_add. destruct (sgo s o start []) as [q f]. cbn [fst snd] in *. subst q. apply go_nil. }
    rewrite (visit_all _ _ (store_value st) _ _ (store_next P st) (live st) (store_pushed P same st NA C) (store_next_ok P same st C)); [|apply sstart_good|]; rewrite Hk; reflexivity.
  Qed.
  Lemma sfinds_not ord o fuel : read_order ord = Ok o -> fst (sgo fuel o start []) <> [] -> store_search P fuel ord None st = Err EFuel.
  Proof.
    intros E En. unfold store_search, node_search. rewrite E. cbn [bind].
    match goal with |- context [visit _ _ _ _ _ _ _ _ ?q _] => change q with start end.
    rewrite (visit_not _ _ (store_value st) _ _ (store_next P st) (live st) (store_pushed P same st NA C) (store_next_ok P same st C)); [reflexivity|apply sstart_good|auto].
  Qed.
End Store.

Lemma find_named {X St B H} (P : search X St B H) same (st : store B) : closed P same st -> forall ih i j, s_find st i ih = Some j -> exists nh, named P ih nh.
Proof.
  intros [_ C] ih. induction ih as [|[a o] ih IH]; intros i j E; [exists []; constructor|]. cbn [s_find] in E. destruct (nth_error st i) as [n|] eqn:En; [|discriminate].
  destruct (nth_error (sn_kids n) a) as [[c|]|] eqn:Ek; try discriminate. destruct (lookup o (k_obs c)) as [m|] eqn:El; [|discriminate]. destruct (IH _ _ E) as [nh Nm]. destruct (C _ _ En) as (L & _ & F).
  destruct (F _ _ Ek) as [_ R]. apply lookup_In in El. destruct (R _ _ El) as [Ho _]. assert (Ha : a < length (s_actions P)) by (rewrite <- L; apply nth_error_Some; congruence).
  exists ((nth a (s_actions P) (NInt 0), nth o (s_observations P) (NInt 0)) :: nh). constructor; [|auto]. cbn. split; apply nth_error_nth'; auto.
Qed.
Lemma named_length {X St B H} (P : search X St B H) ih nh : named P ih nh -> length nh = length ih.
Proof. intros N. symmetry. eapply Forall2_length; eauto. Qed.

(** With a limit node_search returns; every history that leads to a node counts.  Fewer nodes than the limit are only listed
    when there are no more.  A smaller limit only cuts the list. *)
Theorem C116_shared : forall X St B H (P : search X St B H) same b l r ord k, (forall c, same c c = true) -> (forall c d, same c d = same d c) ->
  strace P same b l r -> in_range P -> NoDup (s_actions P) -> NoDup (s_observations P) -> known ord ->
  exists found, store_finds P ord (Some k) (sr_store r) found /\ in_order (store_next P (sr_store r)) 0 found /\ length found <= Z.to_nat k /\
    (forall h i, In (h, i) found -> exists ih nh, named P ih nh /\ s_find (sr_store r) 0 ih = Some i /\ h = flat nh) /\
    (length found < Z.to_nat k -> forall ih nh i, named P ih nh -> s_find (sr_store r) 0 ih = Some i -> In (flat nh, i) found) /\
    forall k', (k' <= k)%Z -> store_finds P ord (Some k') (sr_store r) (firstn (Z.to_nat k') found).
Proof.
  intros X St B H P same b l r ord k Re Sy Tr R NA NO K. destruct (strace_closed P R same Re Sy _ _ _ Tr) as [C L0]. set (st := sr_store r) in *. destruct (known_read _ K) as [o Eo].
  pose proof (sinv P same st NA NO C L0 o (Z.to_nat k)) as I. pose proof (go_found (store_value st) (store_next P st) o (Z.to_nat k) [tag (store_value st) ([], 0)] []) as (l' & E & Hl & Hn).
  exists (snd (go (store_value st) (store_next P st) (Z.to_nat k) o [tag (store_value st) ([], 0)] [])). split; [eapply sfinds_limit; eauto|]. split; [|split; [|split; [|split]]].
  - destruct I as [_ _ On Fo _ _ _]. split; [|auto]. rewrite map_app in On. clear - On. induction (map fst (snd (go (store_value st) (store_next P st) (Z.to_nat k) o [tag (store_value st) ([], 0)] []))) as [|x q IH]; [constructor|].
    cbn in On. inversion On as [|x0 q0 Hn On']; subst. constructor; [intros Hx; apply Hn, in_or_app; auto|auto].
  - rewrite E. cbn. auto.
  - intros h i Hin. apply (store_place P same st C h i L0). destruct I as [_ Pl _ _ _ _ _]. apply Pl, in_or_app. auto.
  - intros Hlt ih nh i Nm Ef. rewrite E in Hlt. cbn in Hlt. specialize (Hn Hlt). rewrite Hn in I. apply (inv_all _ _ _ _ _ I). apply (store_place P same st C); [exact L0|]. eauto.
  - intros k' Hk. pose proof (sfinds_limit P same st NA C L0 ord o k' Eo) as L. rewrite (go_firstn _ _ o (Z.to_nat k') (Z.to_nat k)) in L by lia. exact L.
Qed.
Print Assumptions C116_shared.

(** The orders are the same. *)
Theorem C116_shared_orders : forall X St B H (P : search X St B H) same b l r k found, (forall c, same c c = true) -> (forall c d, same c d = same d c) ->
  strace P same b l r -> in_range P -> NoDup (s_actions P) -> NoDup (s_observations P) ->
  let next := store_next P (sr_store r) in
  (store_finds P "breadth" (Some k) (sr_store r) found -> forall d, Z.to_nat k <= d -> found = firstn (Z.to_nat k) (flat_map (fun i => level next i ([], 0)) (seq 0 d))) /\
  (store_finds P "depth" (Some k) (sr_store r) found -> forall d, Z.to_nat k <= d -> found = firstn (Z.to_nat k) (descent next d ([], 0))) /\
  (store_finds P "q" (Some k) (sr_store r) found -> best_first next (store_value (sr_store r)) ([], 0) found).
Proof.
  intros X St B H P same b l r k found Re Sy Tr R NA NO next. destruct (strace_closed P R same Re Sy _ _ _ Tr) as [C L0]. unfold next. set (st := sr_store r) in *. split; [|split].
  - intros F d Hd. rewrite (store_finds_one _ _ _ _ _ _ F (sfinds_limit P same st NA C L0 "breadth" Breadth k eq_refl)). apply breadth_start. auto.
  - intros F d Hd. rewrite (store_finds_one _ _ _ _ _ _ F (sfinds_limit P same st NA C L0 "depth" Depth k eq_refl)). apply depth_start. lia.
  - intros F. rewrite (store_finds_one _ _ _ _ _ _ F (sfinds_limit P same st NA C L0 "q" Best k eq_refl)).
    apply (best_start (store_value st) _ (live st) (store_next_ok P same st C) (store_once P same st NA NO C) 0 L0).
Qed.
Print Assumptions C116_shared_orders.

(** Without a limit it returns exactly when no node leads back to itself, that is when histories of nodes have a greatest
    length; otherwise it does not end. *)
Theorem C116_shared_unlimited : forall X St B H (P : search X St B H) same b l r ord, (forall c, same c c = true) -> (forall c d, same c d = same d c) ->
  strace P same b l r -> in_range P -> NoDup (s_actions P) -> NoDup (s_observations P) -> known ord ->
  ((exists d, forall ih i, s_find (sr_store r) 0 ih = Some i -> length ih <= d) <-> exists found, store_finds P ord None (sr_store r) found) /\
  ((forall d, exists ih i, s_find (sr_store r) 0 ih = Some i /\ d < length ih) -> forall fuel, store_search P fuel ord None (sr_store r) = Err EFuel).
Proof.
  intros X St B H P same b l r ord Re Sy Tr R NA NO K. destruct (strace_closed P R same Re Sy _ _ _ Tr) as [C L0]. set (st := sr_store r) in *. destruct (known_read _ K) as [o Eo].
  assert (Bd : forall s, fst (go (store_value st) (store_next P st) s o [tag (store_value st) ([], 0)] []) = [] -> exists d, forall ih i, s_find st 0 ih = Some i -> length ih <= d).
  { intros s En. pose proof (sinv P same st NA NO C L0 o s) as I. rewrite En in I. pose proof (inv_all _ _ _ _ _ I) as Al.
    set (found := snd (go (store_value st) (store_next P st) s o [tag (store_value st) ([], 0)] [])) in *. exists (list_max (map (fun x => length (fst x)) found)).
    intros ih i Ef. destruct (find_named P same st C _ _ _ Ef) as [nh Nm]. assert (Hin : In (flat nh, i) found) by (apply Al, (store_place P same st C); eauto).
    pose proof (proj1 (list_max_le (map (fun x => length (fst x)) found) _) (le_n _)) as Mx. rewrite Forall_forall in Mx. specialize (Mx (length (flat nh))).
    rewrite flat_length, (named_length P _ _ Nm) in Mx. assert (2 * length ih <= list_max (map (fun x => length (fst x)) found)); [|lia]. apply Mx. apply in_map_iff. exists (flat nh, i). split; [|auto].
    cbn [fst]. rewrite flat_length, (named_length P _ _ Nm). auto. }
  assert (Ed : forall fuel, fst (go (store_value st) (store_next P st) fuel o [tag (store_value st) ([], 0)] []) = [] \/ store_search P fuel ord None st = Err EFuel).
  { intros fuel. destruct (fst (go (store_value st) (store_next P st) fuel o [tag (store_value st) ([], 0)] [])) as [|y q] eqn:E; [auto|]. right. eapply sfinds_not; eauto. rewrite E. discriminate. }
  split; [split|].
  - intros [d Hd].
    assert (Lv : forall i x, In x (level (store_next P st) i ([], 0)) -> place (store_next P st) 0 x /\ length (fst x) = 2 * i).
    { induction i as [|i IH]; intros x Hx; cbn in Hx.
      - destruct Hx as [<-|[]]. split; [constructor|auto].
      - apply in_flat_map in Hx. destruct Hx as (y & Hy & Hx). destruct (IH _ Hy) as [Py Ly]. split; [eapply place_next; eauto|].
        assert (Oy : live st (snd y)) by (apply (place_ok _ (live st) (store_next_ok P same st C) 0 L0); auto). destruct x as [hx mx], y as [hy my]. cbn [fst snd] in *.
        destruct (store_next_ok P same st C _ _ _ _ Oy Hx) as (_ & a & o' & ->). rewrite app_length. cbn [length]. lia. }
    destruct (sized_bound (store_next P st) d ([], 0)) as [s Hs].
    { intros [h j] i Hi Hin. destruct (Lv _ _ Hin) as [Pl Ll]. apply (store_place P same st C h j L0) in Pl. destruct Pl as (ih & nh & Nm & Ef & ->). cbn [fst] in Ll.
      rewrite flat_length, (named_length P _ _ Nm) in Ll. specialize (Hd _ _ Ef). lia. }
    eexists. apply (sfinds_all P same st NA C L0 ord o s Eo). apply (go_ends _ _ _ _ _ _ [s]); [repeat constructor; auto|cbn; lia].
  - intros (found & f & Ef). specialize (Ef f (le_n _)). destruct (Ed f) as [E|E]; [eauto|congruence].
  - intros Inf fuel. destruct (Ed fuel) as [E|E]; [|auto]. exfalso. destruct (Bd _ E) as [d Hd]. destruct (Inf d) as (ih & i & Ef & Hl). specialize (Hd _ _ Ef). lia.
Qed.
Print Assumptions C116_shared_unlimited.

(** *** Example: the tiger, after four simulations.  The nodes after (listen, 1) and (right, 1) have the same value. *)
Definition summary {N} (value : N -> Q) (r : res (list (list name) * list N)) := match r with Ok (hs, ns) => Some (hs, map (fun n => Qred (value n)) ns) | Err _ => None end.
Example C116_ex : known "q" /\ (exists l, trace ex_search [1 # 2; 1 # 2]%Q l ex_tree) /\ in_range ex_search /\ NoDup (s_actions ex_search) /\ NoDup (s_observations ex_search) /\
  let listed ord max_nodes := summary (@tree_value (list Q)) (tree_search ex_search 5 ord max_nodes (r_root ex_tree)) in
  let listen1 := [NStr "listen"; NInt 1] in let left0 := [NStr "left"; NInt 0] in let right0 := [NStr "right"; NInt 0] in let right1 := [NStr "right"; NInt 1] in
  listed "q"%string None = Some ([[]; listen1; right1; right0; left0], [-164427 # 1600; -1739 # 40; -1739 # 40; -1849 # 40; -3939 # 40]%Q) /\
  listed "q"%string (Some 2%Z) = Some ([[]; listen1], [-164427 # 1600; -1739 # 40]%Q) /\
  listed "depth"%string None = Some ([[]; right1; right0; left0; listen1], [-164427 # 1600; -1739 # 40; -1849 # 40; -3939 # 40; -1739 # 40]%Q) /\
  listed "breadth"%string None = Some ([[]; listen1; left0; right0; right1], [-164427 # 1600; -1739 # 40; -3939 # 40; -1849 # 40; -1739 # 40]%Q) /\
  listed "best"%string None = None.
Proof.
  destruct ex_hypotheses as (R & NA & NO & _). split; [right; right; reflexivity|]. split; [apply ex_tree_trace|]. do 3 (split; [assumption|]). vm_compute. auto 10.
Qed.
(** With shared nodes there is no end: opening a door leads back to the root. *)
Example C116_ex_shared : (exists l, strace ex_search same_array [1 # 2; 1 # 2]%Q l ex_graph) /\
  match store_search ex_search 5 "breadth" (Some 5%Z) (sr_store ex_graph) with Ok (hs, is) => length hs = 5 /\ is = [0; 1; 2; 0; 0] | Err _ => False end /\
  forall d, exists ih i, s_find (sr_store ex_graph) 0 ih = Some i /\ d < length ih.
Proof.
  split; [apply ex_graph_trace|]. split; [vm_compute; auto|].
  assert (E : forall ih, s_find (sr_store ex_graph) 0 ((1, 0) :: ih) = s_find (sr_store ex_graph) 0 ih).
  { assert (F : s_find (sr_store ex_graph) 0 [(1, 0)] = Some 0) by (vm_compute; reflexivity). intros ih. exact (find_app _ [(1, 0)] 0 0 ih F). }
  induction d as [|d (ih & i & Ei & Hl)]; [exists [(1, 0)], 0; rewrite E; split; [reflexivity|cbn; lia]|]. exists ((1, 0) :: ih), i. rewrite E. split; [exact Ei|cbn; lia].
Qed.
