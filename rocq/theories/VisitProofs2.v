(** Proofs for C116: node_search on trees and on stores. *)
From Coq Require Import Lia Permutation.
From Verif Require Import PyBase PyBaseFacts QBase PomdpModel PomdpProofs PomcpModel PomcpSpec SharedModel SharedSpec
  ExportModel ExportSpec ExportProofs ExportProofs3 ExportProofs4 VisitModel VisitSpec VisitProofs.
Local Open Scope list_scope.
Local Open Scope nat_scope.

(** *** What is pushed *)
Section Pushed.
  Context {N A : Type}.
  Variables actions observations : list name.
  Variable value : N -> Q.
  Variable children : N -> list (option A).
  Variable observed : A -> list (nat * N).
  Hypothesis actions_once : NoDup actions.
  Hypothesis observations_once : NoDup observations.
  Definition fine (n : N) : Prop := length (children n) = length actions /\
    forall a c, nth_error (children n) a = Some (Some c) -> NoDup (map fst (observed c)) /\ forall o, In o (map fst (observed c)) -> o < length observations.
  Definition gname (h : list name) (a o : nat) : list name := h ++ [nth a actions (NInt 0); nth o observations (NInt 0)].
  Definition of_action (h : list name) (kids : list (option A)) (a : nat) : list (list name * N) :=
    match nth_error kids a with
    | Some (Some c) => map (fun om => (gname h a (fst om), snd om)) (observed c)
    | _ => []
    end.
  Definition gnext (x : list name * N) : list (list name * N) := flat_map (of_action (fst x) (children (snd x))) (seq 0 (length actions)).

  Lemma upd_new {V} (k : name) (v : V) d : ~ In k (map fst d) -> upd k v d = d ++ [(k, v)].
  Proof. induction d as [|[k' v'] d IH]; cbn; intros Hk; [auto|]. destruct (eq_dec k k') as [->|_]; [tauto|]. rewrite IH by tauto. auto. Qed.
  Fixpoint dict_list (i : nat) (kids : list (option A)) : list (nat * A) :=
    match kids with [] => [] | None :: kids => dict_list (S i) kids | Some c :: kids => (i, c) :: dict_list (S i) kids end.
  Definition with_name (d : list (nat * A)) : list (name * A) := map (fun ic => (nth (fst ic) actions (NInt 0), snd ic)) d.
  Lemma name_at_nth l i : i < length l -> name_at l i = Ok (nth i l (NInt 0)).
  Proof. intros Hi. unfold name_at. rewrite (nth_error_nth' l (NInt 0) Hi). auto. Qed.
  Lemma dict_from kids : forall i d, i + length kids <= length actions -> (forall j c, In (j, c) d -> j < i) ->
    children_dict_from actions i kids (with_name d) = Ok (with_name (d ++ dict_list i kids)).
  Proof.
    induction kids as [|[c|] kids IH]; intros i d Hi Hd; cbn [children_dict_from dict_list length] in *.
    - rewrite app_nil_r. auto.
    - rewrite name_at_nth by lia. cbn [bind]. rewrite upd_new.
      + change (with_name d ++ [(nth i actions (NInt 0), c)]) with (with_name d ++ with_name [(i, c)]). unfold with_name. rewrite <- map_app. fold (with_name (d ++ [(i, c)])). rewrite IH.
        * rewrite <- app_assoc. auto.
        * lia.
        * intros j c' Hj. apply in_app_iff in Hj. destruct Hj as [Hj|[Hj|[]]]; [specialize (Hd _ _ Hj); lia|]. injection Hj. lia.
      + unfold with_name. rewrite map_map. cbn [fst]. intros Hin. apply in_map_iff in Hin. destruct Hin as ([j c'] & E & Hj). cbn [fst] in E. specialize (Hd _ _ Hj).
        assert (j = i) by (eapply NoDup_nth; [exact actions_once|lia|lia|exact E]). lia.
    - apply IH; [lia|]. intros j c' Hj. specialize (Hd _ _ Hj). lia.
  Qed.
  Lemma dict_list_nth kids : forall i j c, In (j, c) (dict_list i kids) -> i <= j /\ nth_error kids (j - i) = Some (Some c).
  Proof.
    induction kids as [|[c0|] kids IH]; intros i j c Hin; cbn [dict_list] in Hin; [destruct Hin| |].
    - destruct Hin as [E|Hin]; [injection E; intros -> ->; rewrite Nat.sub_diag; auto|]. apply IH in Hin. destruct Hin as [L E]. split; [lia|]. replace (j - i) with (S (j - S i)) by lia. auto.
    - apply IH in Hin. destruct Hin as [L E]. split; [lia|]. replace (j - i) with (S (j - S i)) by lia. auto.
  Qed.
  Lemma mapM_ok {U V} (f : U -> res V) (g : U -> V) l : (forall x, In x l -> f x = Ok (g x)) -> mapM f l = Ok (map g l).
  Proof. induction l as [|x l IH]; intros E; cbn; [auto|]. rewrite E by (left; auto). cbn [bind]. rewrite IH by (intros; apply E; right; auto). auto. Qed.
  Lemma dict_list_seq h all kids : forall i, (forall j, nth_error all (i + j) = nth_error kids j) ->
    flat_map (of_action h all) (seq i (length kids)) = flat_map (fun ic => map (fun om => (gname h (fst ic) (fst om), snd om)) (observed (snd ic))) (dict_list i kids).
  Proof.
    induction kids as [|k kids IH]; intros i E; cbn [length seq flat_map dict_list]; [auto|]. unfold of_action at 1. pose proof (E 0) as E0. rewrite Nat.add_0_r in E0. rewrite E0. cbn [nth_error].
    assert (E' : forall j, nth_error all (S i + j) = nth_error kids j) by (intros j; change (nth_error kids j) with (nth_error (k :: kids) (S j)); rewrite <- (E (S j)); f_equal; lia). rewrite (IH _ E').
    destruct k as [c|]; cbn; auto.
  Qed.
  Lemma pushed_gnext h n : fine n -> pushed actions observations value children observed h n = Ok (map (fun x => (value (snd x), x)) (gnext (h, n))).
  Proof.
    intros [L F]. unfold pushed, children_dict. change (@nil (name * A)) with (with_name []). rewrite dict_from by (cbn; try lia; tauto). cbn [bind app].
    rewrite (mapM_ok _ (fun ac => map (fun om => (value (snd om), (h ++ [fst ac; nth (fst om) observations (NInt 0)], snd om))) (observed (snd ac)))).
    - cbn [bind]. f_equal. unfold gnext. cbn [fst snd]. rewrite <- L, dict_list_seq by (intros; f_equal; lia). unfold with_name. rewrite map_map. cbn [fst snd].
      rewrite <- flat_map_concat_map. rewrite !flat_map_concat_map, concat_map, map_map. f_equal. apply map_ext. intros [i c]. rewrite map_map. auto.
    - intros [nm c] Hin. cbn [fst snd]. apply mapM_ok. intros [o m] Hm. unfold push_observed. cbn [fst snd]. rewrite name_at_nth; [auto|].
      unfold with_name in Hin. apply in_map_iff in Hin. destruct Hin as ([i c'] & E & Hin). cbn [fst snd] in E. assert (c' = c) as -> by congruence. apply dict_list_nth in Hin. destruct Hin as [_ Hin].
      destruct (F _ _ Hin) as [_ F']. apply F'. apply in_map_iff. exists (o, m). auto.
  Qed.
  Lemma gnext_in h n h' m : fine n -> In (h', m) (gnext (h, n)) <-> exists a c o, nth_error (children n) a = Some (Some c) /\ In (o, m) (observed c) /\ h' = gname h a o.
  Proof.
    intros [L F]. unfold gnext. rewrite in_flat_map. cbn [fst snd]. split.
    - intros (a & Ha & Hin). unfold of_action in Hin. destruct (nth_error (children n) a) as [[c|]|] eqn:E; try destruct Hin. apply in_map_iff in Hin. destruct Hin as ([o m'] & E' & Hin).
      cbn [fst snd] in E'. exists a, c, o. assert (m' = m) as -> by congruence. split; [auto|]. split; [auto|]. congruence.
    - intros (a & c & o & E & Hin & ->). exists a. assert (a < length (children n)) by (apply nth_error_Some; congruence). split; [apply in_seq; lia|]. unfold of_action. rewrite E. apply in_map_iff. exists (o, m). auto.
  Qed.
  Lemma nodup_flat_map {U V} (f : U -> list V) l : NoDup l -> (forall x, In x l -> NoDup (f x)) ->
    (forall x y v, In x l -> In y l -> In v (f x) -> In v (f y) -> x = y) -> NoDup (flat_map f l).
  Proof.
    induction 1 as [|x l Hx _ IH]; intros Hf Hd; cbn; [constructor|]. apply nodup_app; [apply Hf; left; auto| |].
    - apply IH; [intros; apply Hf; right; auto|]. intros y z v Hy Hz. apply Hd; right; auto.
    - intros v Hv Hw. apply in_flat_map in Hw. destruct Hw as (y & Hy & Hw). assert (x = y) as -> by (eapply Hd; [left; auto|right; auto|exact Hv|exact Hw]). auto.
  Qed.
  Lemma gnext_once h n : fine n -> NoDup (map fst (gnext (h, n))).
  Proof.
    intros [L F]. unfold gnext. cbn [fst snd]. rewrite !flat_map_concat_map, concat_map, map_map, <- flat_map_concat_map. apply nodup_flat_map.
    - apply seq_NoDup.
    - intros a _. unfold of_action. destruct (nth_error (children n) a) as [[c|]|] eqn:E; cbn; try constructor. rewrite map_map. cbn [fst]. destruct (F _ _ E) as [ND R].
      assert (Em : forall l, (forall o, In o (map fst l) -> o < length observations) -> NoDup (map fst l) -> NoDup (map (fun x : nat * N => gname h a (fst x)) l)); [|auto].
      induction l as [|[o m] l IHl]; intros Rl NDl; cbn in *; [constructor|]. inversion NDl; subst. constructor; [|apply IHl; auto]. intros Hin. apply in_map_iff in Hin. destruct Hin as ([o' m'] & E' & Hin).
      cbn [fst] in E'. apply app_inv_head in E'. assert (o' = o); [|subst; apply H1; apply in_map_iff; exists (o, m'); auto].
      eapply NoDup_nth; [exact observations_once| | |].
      + apply Rl. right. apply in_map_iff. exists (o', m'). auto.
      + apply Rl. left. auto.
      + injection E'. eauto.
    - intros a b h' Ha Hb. apply in_seq in Ha, Hb. unfold of_action. intros H1 H2.
      assert (G : forall k, In h' (map fst (match nth_error (children n) k with Some (Some c) => map (fun om => (gname h k (fst om), snd om)) (observed c) | _ => [] end)) -> exists o, h' = gname h k o).
      { intros k. destruct (nth_error (children n) k) as [[c|]|]; cbn; try tauto. rewrite map_map. intros Hin. apply in_map_iff in Hin. destruct Hin as (om & <- & _). eexists. reflexivity. }
      apply G in H1, H2. destruct H1 as [o1 ->], H2 as [o2 E]. apply app_inv_head in E. eapply NoDup_nth; [exact actions_once|lia|lia|]. injection E. eauto.
  Qed.
End Pushed.

Lemma flat_app l l' : flat (l ++ l') = flat l ++ flat l'.
Proof. apply flat_map_app. Qed.
Lemma flat_length nh : length (flat nh) = 2 * length nh.
Proof. induction nh as [|[a o] nh IH]; [reflexivity|]. change (flat ((a, o) :: nh)) with (a :: o :: flat nh). cbn [length]. lia. Qed.

(** *** Trees *)
Section Trees.
  Context {X St B H : Type}.
  Variable P : search X St B H.
  Hypothesis NA : NoDup (s_actions P).
  Hypothesis NO : NoDup (s_observations P).
  Notation onode := (onode B).
  Notation tnext := (tree_next P).
  Notation tvalue := (@tree_value B).

  Lemma tree_fine (n : onode) : tree_ok P n -> fine (s_actions P) (s_observations P) (@o_kids B) (@a_kids B) n.
  Proof. intros T. apply (T [] n eq_refl). Qed.
  Lemma tree_next_eq x : tnext x = gnext (s_actions P) (s_observations P) (@o_kids B) (@a_kids B) x.
  Proof. reflexivity. Qed.
  Lemma find_one (n : onode) a c o m : tree_ok P n -> nth_error (o_kids n) a = Some (Some c) -> In (o, m) (a_kids c) -> PomcpSpec.find n [(a, o)] = Some m.
  Proof.
    intros T E Hin. cbn. rewrite E. destruct (T [] n eq_refl) as [_ F]. destruct (F _ _ E) as [ND _]. assert (lookup o (a_kids c) = Some m) as -> by (apply lookup_In_iff; auto). auto.
  Qed.
  Lemma find_snoc (n : onode) : forall h m k, PomcpSpec.find n h = Some m -> PomcpSpec.find n (h ++ k) = PomcpSpec.find m k.
  Proof.
    intros h. revert n. induction h as [|[a o] h IH]; intros n m k E; cbn [PomcpSpec.find app] in *; [assert (n = m) as -> by congruence; auto|].
    destruct (nth_error (o_kids n) a) as [[c|]|]; try discriminate. destruct (lookup o (a_kids c)) as [m'|]; [|discriminate]. auto.
  Qed.
  Lemma tree_ok_find (n : onode) h m : tree_ok P n -> PomcpSpec.find n h = Some m -> tree_ok P m.
  Proof. intros T E k m' E'. apply (T (h ++ k)). rewrite (find_snoc _ _ _ _ E). auto. Qed.
  Lemma tree_step h n h' m : tree_ok P n -> In (h', m) (tnext (h, n)) <->
    exists a o na no, PomcpSpec.find n [(a, o)] = Some m /\ nth_error (s_actions P) a = Some na /\ nth_error (s_observations P) o = Some no /\ h' = h ++ [na; no].
  Proof.
    intros T. rewrite tree_next_eq, gnext_in by (apply tree_fine; auto). destruct (tree_fine _ T) as [L F]. split.
    - intros (a & c & o & E & Hin & ->). exists a, o, (nth a (s_actions P) (NInt 0)), (nth o (s_observations P) (NInt 0)). split; [eapply find_one; eauto|].
      assert (a < length (o_kids n)) by (apply nth_error_Some; congruence). destruct (F _ _ E) as [_ R]. split; [apply nth_error_nth'; lia|]. split; [|reflexivity].
      apply nth_error_nth'. apply R. apply in_map_iff. exists (o, m). auto.
    - intros (a & o & na & no & E & Ea & Eo & ->). cbn in E. destruct (nth_error (o_kids n) a) as [[c|]|] eqn:Ek; try discriminate. destruct (lookup o (a_kids c)) as [m'|] eqn:El; [|discriminate].
      assert (m' = m) as -> by congruence. exists a, c, o. split; [auto|]. split; [apply lookup_In; auto|]. unfold gname. rewrite (nth_error_nth _ _ _ Ea), (nth_error_nth _ _ _ Eo). auto.
  Qed.
  Lemma tree_pushed h (n : onode) : tree_ok P n -> pushed (s_actions P) (s_observations P) tvalue (@o_kids B) (@a_kids B) h n = Ok (map (tag tvalue) (tnext (h, n))).
  Proof. intros T. apply pushed_gnext; [auto|]. apply tree_fine. auto. Qed.
  Lemma tree_next_ok h n h' m : tree_ok P n -> In (h', m) (tnext (h, n)) -> tree_ok P m /\ exists a o, h' = h ++ [a; o].
  Proof. intros T Hin. apply tree_step in Hin; [|auto]. destruct Hin as (a & o & na & no & E & _ & _ & ->). split; [eapply tree_ok_find; eauto|eauto]. Qed.
  Lemma tree_once h n : tree_ok P n -> NoDup (map fst (tnext (h, n))).
  Proof. intros T. apply (gnext_once (s_actions P) (s_observations P) tvalue (@o_kids B) (@a_kids B)); auto. apply tree_fine. auto. Qed.

  Lemma tree_place root h m : tree_ok P root -> place tnext root (h, m) <-> exists ih nh, named P ih nh /\ PomcpSpec.find root ih = Some m /\ h = flat nh.
  Proof.
    intros T. split.
    - remember (h, m) as x eqn:Ex. intros Pl. revert h m Ex. induction Pl as [|[h0 n0] [h1 n1] Pl IH Hin]; intros h m Ex.
      + exists [], []. assert (root = m /\ h = []) as [-> ->] by (split; congruence). split; [constructor|auto].
      + assert (h1 = h /\ n1 = m) as [-> ->] by (split; congruence). destruct (IH _ _ eq_refl) as (ih & nh & Nm & Ef & ->). apply tree_step in Hin; [|eapply tree_ok_find; eauto].
        destruct Hin as (a & o & na & no & E & Ea & Eo & ->). exists (ih ++ [(a, o)]), (nh ++ [(na, no)]). split; [apply Forall2_app; [auto|repeat constructor; auto]|].
        split; [rewrite (find_snoc _ _ _ _ Ef); auto|]. rewrite flat_app. auto.
    - intros (ih & nh & Nm & Ef & ->). revert nh m Nm Ef. induction ih as [|[a o] ih IH] using rev_ind; intros nh m Nm Ef.
      + inversion Nm; subst. cbn in Ef. assert (m = root) as -> by congruence. constructor.
      + apply Forall2_app_inv_l in Nm. destruct Nm as (nh1 & nh2 & N1 & N2 & ->). inversion N2 as [|x y l l' [Ea Eo] N3]; subst. inversion N3; subst. cbn [fst snd] in *. destruct y as [na no]. cbn [fst snd] in *.
        destruct (PomcpSpec.find root ih) as [n|] eqn:En.
        * rewrite (find_snoc _ _ _ _ En) in Ef. eapply place_next; [apply (IH nh1 n); auto|]. apply tree_step; [eapply tree_ok_find; eauto|]. rewrite flat_app. exists a, o, na, no. auto.
        * exfalso. clear - En Ef. revert root En Ef. induction ih as [|[a' o'] ih IH]; intros root En Ef; cbn [PomcpSpec.find app] in *; [discriminate|].
          destruct (nth_error (o_kids root) a') as [[c|]|]; try discriminate. destruct (lookup o' (a_kids c)); [eauto|discriminate].
  Qed.

  Lemma sized_all {N} (next : list name * N -> list (list name * N)) l : (forall x, In x l -> exists k, sized next x k) -> exists ks, Forall2 (sized next) l ks.
  Proof.
    induction l as [|x l IH]; intros Hl; [exists []; constructor|]. destruct (Hl x (or_introl eq_refl)) as [k Hk]. destruct IH as [ks Hks]; [intros; apply Hl; right; auto|].
    exists (k :: ks). constructor; auto.
  Qed.
  Lemma tree_sized (n : onode) : forall h, exists k, sized tnext (h, n) k.
  Proof.
    apply (onode_induct (fun n => forall h, exists k, sized tnext (h, n) k) (fun c => forall o m, In (o, m) (a_kids c) -> forall h, exists k, sized tnext (h, m) k)).
    - intros v b kids IH h. destruct (sized_all tnext (tnext (h, ON v b kids))) as [ks F]; [|exists (S (list_sum ks)); constructor; auto].
      intros [h' m] Hin. unfold tree_next in Hin. apply in_flat_map in Hin. destruct Hin as (a & _ & Hin). cbn [fst snd o_kids] in Hin. destruct (nth_error kids a) as [[c|]|] eqn:E; try destruct Hin.
      apply in_map_iff in Hin. destruct Hin as ([o m'] & E' & Hin). cbn [fst snd] in E'. assert (m' = m) as -> by congruence. eapply IH; eauto.
    - intros v kids IH o m Hin h. apply In_nth_error in Hin. destruct Hin as [i Hi]. eapply IH; eauto.
  Qed.
End Trees.

(** *** Stores *)
Section Stores.
  Context {X St B H : Type}.
  Variable P : search X St B H.
  Variable same : B -> B -> bool.
  Variable st : store B.
  Hypothesis NA : NoDup (s_actions P).
  Hypothesis NO : NoDup (s_observations P).
  Hypothesis C : closed P same st.
  Notation snext := (store_next P st).
  Notation svalue := (store_value st).
  Notation skids := (fun i => match nth_error st i with Some n => sn_kids n | None => [] end).
  Definition live (i : nat) : Prop := i < length st.

  Lemma store_fine i : live i -> fine (s_actions P) (s_observations P) skids k_obs i.
  Proof.
    intros Hi. destruct (nth_error st i) as [n|] eqn:E; [|apply nth_error_None in E; unfold live in Hi; lia]. destruct C as [_ C']. destruct (C' _ _ E) as (L & _ & F). split.
    - rewrite E. auto.
    - rewrite E. intros a k Ek. destruct (F _ _ Ek) as [ND R]. split; [auto|]. intros o Ho. apply in_map_iff in Ho. destruct Ho as ([o' j] & <- & Hin). apply (R _ _ Hin).
  Qed.
  Lemma store_next_eq x : live (snd x) -> snext x = gnext (s_actions P) (s_observations P) skids k_obs x.
  Proof.
    intros Hi. unfold store_next, gnext, of_action. destruct (nth_error st (snd x)) as [n|] eqn:E; [|apply nth_error_None in E; unfold live in Hi; lia]. reflexivity.
  Qed.
  Lemma store_step h i h' j : live i -> In (h', j) (snext (h, i)) <->
    exists a o na no, s_find st i [(a, o)] = Some j /\ nth_error (s_actions P) a = Some na /\ nth_error (s_observations P) o = Some no /\ h' = h ++ [na; no].
  Proof.
    intros Hi. rewrite store_next_eq by auto. rewrite gnext_in by (apply store_fine; auto). destruct (store_fine _ Hi) as [L F]. destruct (nth_error st i) as [n|] eqn:En; [|apply nth_error_None in En; unfold live in Hi; lia]. split.
    - intros (a & c & o & E & Hin & ->). exists a, o, (nth a (s_actions P) (NInt 0)), (nth o (s_observations P) (NInt 0)). destruct (F _ _ E) as [ND R]. split.
      + cbn. rewrite En, E. assert (lookup o (k_obs c) = Some j) as -> by (apply lookup_In_iff; auto). auto.
      + assert (a < length (sn_kids n)) by (apply nth_error_Some; congruence). split; [apply nth_error_nth'; lia|]. split; [|reflexivity]. apply nth_error_nth'. apply R. apply in_map_iff. exists (o, j). auto.
    - intros (a & o & na & no & E & Ea & Eo & ->). cbn in E. rewrite En in E. destruct (nth_error (sn_kids n) a) as [[c|]|] eqn:Ek; try discriminate. destruct (lookup o (k_obs c)) as [m'|] eqn:El; [|discriminate].
      assert (m' = j) as -> by congruence. exists a, c, o. split; [auto|]. split; [apply lookup_In; auto|]. unfold gname. rewrite (nth_error_nth _ _ _ Ea), (nth_error_nth _ _ _ Eo). auto.
  Qed.
  Lemma live_one i a o j : live i -> s_find st i [(a, o)] = Some j -> live j.
  Proof.
    intros Hi E. cbn in E. destruct (nth_error st i) as [n|] eqn:En; [|discriminate]. destruct (nth_error (sn_kids n) a) as [[c|]|] eqn:Ek; try discriminate. destruct (lookup o (k_obs c)) as [m'|] eqn:El; [|discriminate].
    assert (m' = j) as -> by congruence. destruct C as [_ C']. destruct (C' _ _ En) as (_ & _ & F). destruct (F _ _ Ek) as [_ R]. apply lookup_In in El. apply (R _ _ El).
  Qed.
  Lemma store_pushed h i : live i -> pushed (s_actions P) (s_observations P) svalue skids k_obs h i = Ok (map (tag svalue) (snext (h, i))).
  Proof. intros Hi. rewrite store_next_eq by auto. apply pushed_gnext; [auto|]. apply store_fine. auto. Qed.
  Lemma store_next_ok h i h' j : live i -> In (h', j) (snext (h, i)) -> live j /\ exists a o, h' = h ++ [a; o].
  Proof. intros Hi Hin. apply store_step in Hin; [|auto]. destruct Hin as (a & o & na & no & E & _ & _ & ->). split; [eapply live_one; eauto|eauto]. Qed.
  Lemma store_once h i : live i -> NoDup (map fst (snext (h, i))).
  Proof. intros Hi. rewrite store_next_eq by auto. apply (gnext_once (s_actions P) (s_observations P) svalue skids k_obs); auto. apply store_fine. auto. Qed.
  Lemma store_place h j : live 0 -> place snext 0 (h, j) <-> exists ih nh, named P ih nh /\ s_find st 0 ih = Some j /\ h = flat nh.
  Proof.
    intros H0. assert (Lv : forall x, place snext 0 x -> live (snd x)) by (apply place_ok; [apply store_next_ok|auto]). split.
    - remember (h, j) as x eqn:Ex. intros Pl. revert h j Ex. induction Pl as [|[h0 n0] [h1 n1] Pl IH Hin]; intros h j Ex.
      + exists [], []. assert (j = 0 /\ h = []) as [-> ->] by (split; congruence). split; [constructor|auto].
      + assert (h1 = h /\ n1 = j) as [-> ->] by (split; congruence). destruct (IH _ _ eq_refl) as (ih & nh & Nm & Ef & ->). apply store_step in Hin; [|apply (Lv _ Pl)].
        destruct Hin as (a & o & na & no & E & Ea & Eo & ->). exists (ih ++ [(a, o)]), (nh ++ [(na, no)]). split; [apply Forall2_app; [auto|repeat constructor; auto]|].
        split; [rewrite (find_app _ _ _ _ _ Ef); auto|]. rewrite flat_app. auto.
    - intros (ih & nh & Nm & Ef & ->). revert nh j Nm Ef. induction ih as [|[a o] ih IH] using rev_ind; intros nh j Nm Ef.
      + inversion Nm; subst. cbn in Ef. assert (j = 0) as -> by congruence. constructor.
      + apply Forall2_app_inv_l in Nm. destruct Nm as (nh1 & nh2 & N1 & N2 & ->). inversion N2 as [|x y l l' [Ea Eo] N3]; subst. inversion N3; subst. cbn [fst snd] in *. destruct y as [na no]. cbn [fst snd] in *.
        destruct (s_find st 0 ih) as [n|] eqn:En.
        * rewrite (find_app _ _ _ _ _ En) in Ef. assert (Pl : place snext 0 (flat nh1, n)) by (apply IH; auto). eapply place_next; [exact Pl|]. apply store_step; [apply (Lv _ Pl)|]. rewrite flat_app. exists a, o, na, no. auto.
        * exfalso. clear - En Ef. revert En Ef. generalize 0. induction ih as [|[a' o'] ih IH]; intros i En Ef; cbn [s_find app] in *; [discriminate|].
          destruct (nth_error st i) as [n|]; [|discriminate]. destruct (nth_error (sn_kids n) a') as [[c|]|]; try discriminate. destruct (lookup o' (k_obs c)); [eauto|discriminate].
  Qed.
End Stores.
