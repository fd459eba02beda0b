(** Proofs for C96: policies exported from a tree. *)
From Verif Require Import PyBase PyBaseFacts QBase PomdpModel BeliefModel PolicyModel PomcpModel PomcpSpec PolicySpec PolicyProofs PomcpProofs PomcpProofs2
  SharedModel SharedSpec ExportModel ExportSpec ExportProofs.
From Coq Require Import Lia.
Local Open Scope list_scope.
Local Open Scope nat_scope.

(** *** loops *)
Section Through.
  Context {A W C : Type}.
  Variable f : nat -> A -> W -> A * W * res C.
  Lemma through_ok l : forall k w l' w' cs, through f k l w = (l', w', Ok cs) -> length cs = length l /\
    forall i x, nth_error l i = Some x -> exists c w1 w2 x', nth_error cs i = Some c /\ f (k + i) x w1 = (x', w2, Ok c).
  Proof.
    induction l as [|x l IH]; intros k w l' w' cs E; cbn [through] in E.
    - assert (cs = []) as -> by congruence. split; [auto|]. intros [|i] x Ex; discriminate.
    - destruct (f k x w) as [[x' w1] [c|e]] eqn:Ef; [|discriminate]. destruct (through f (S k) l w1) as [[l1 w2] [cs1|e]] eqn:Et; cbn [bind] in E; [|discriminate].
      assert (cs = c :: cs1) as -> by congruence. destruct (IH _ _ _ _ _ Et) as [L N]. split; [cbn; congruence|].
      intros [|i] y Ey; cbn in Ey.
      + assert (y = x) as -> by congruence. exists c, w, w1, x'. rewrite Nat.add_0_r. auto.
      + destruct (N _ _ Ey) as (c' & v1 & v2 & y' & Hc & Hf). exists c', v1, v2, y'. replace (k + S i) with (S k + i) by lia. auto.
  Qed.
  Lemma through_rel (R : A -> A -> Prop) l : (forall x, R x x) -> (forall i x w x' w' r, In x l -> f i x w = (x', w', r) -> R x x') ->
    forall k w l' w' r, through f k l w = (l', w', r) -> Forall2 R l l'.
  Proof.
    intros Rr. induction l as [|x l IH]; intros Hf k w l' w' r E; cbn [through] in E; [assert (l' = []) as -> by congruence; constructor|].
    assert (Fr : forall m, Forall2 R m m) by (induction m; constructor; auto).
    destruct (f k x w) as [[x' w1] [c|e]] eqn:Ef.
    - destruct (through f (S k) l w1) as [[l1 w2] r1] eqn:Et. assert (l' = x' :: l1) as -> by congruence.
      constructor; [eapply Hf; simpl; eauto|]. eapply IH; eauto. intros i y v y' v' r' Hy. apply Hf. simpl; auto.
    - assert (l' = x' :: l) as -> by congruence. constructor; [eapply Hf; simpl; eauto|apply Fr].
  Qed.
  (** with positions, when the whole loop succeeds *)
  Lemma through_rel_at (R : nat -> A -> A -> C -> Prop) l : (forall i x w x' w' c, f i x w = (x', w', Ok c) -> R i x x' c) ->
    forall k w l' w' cs, through f k l w = (l', w', Ok cs) -> forall i x, nth_error l i = Some x -> exists x' c, nth_error l' i = Some x' /\ nth_error cs i = Some c /\ R (k + i) x x' c.
  Proof.
    intros Hf. induction l as [|x l IH]; intros k w l' w' cs E i y Ey; cbn [through] in E; [destruct i; discriminate|].
    destruct (f k x w) as [[x' w1] [c|e]] eqn:Ef; [|discriminate]. destruct (through f (S k) l w1) as [[l1 w2] [cs1|e]] eqn:Et; cbn [bind] in E; [|discriminate].
    assert (cs = c :: cs1) as -> by congruence. assert (l' = x' :: l1) as -> by congruence. destruct i as [|i]; cbn in Ey.
    - assert (y = x) as -> by congruence. exists x', c. rewrite Nat.add_0_r. cbn. split; [auto|]. split; [auto|]. eapply Hf; eauto.
    - destruct (IH _ _ _ _ _ Et _ _ Ey) as (z & d & E1 & E2 & E3). exists z, d. replace (k + S i) with (S k + i) by lia. auto.
  Qed.
  Lemma through_total l : (forall i x w, In x l -> exists x' w' c, f i x w = (x', w', Ok c)) -> forall k w, exists l' w' cs, through f k l w = (l', w', Ok cs).
  Proof.
    induction l as [|x l IH]; intros Hf k w; cbn [through]; [eauto|]. destruct (Hf k x w) as (x' & w' & c & ->); [simpl; auto|].
    destruct (IH (fun i y v Hy => Hf i y v (or_intror Hy)) (S k) w') as (l' & w2 & cs & ->). cbn [bind]. eauto.
  Qed.
End Through.

(** Trees that are the same but for children made and never used *)
Inductive osame {B} : onode B -> onode B -> Prop :=
| os_node v b ks ks' : Forall2 ksame ks ks' -> osame (ON v b ks) (ON v b ks')
with ksame {B} : option (anode B) -> option (anode B) -> Prop :=
| ks_none : ksame None None
| ks_made : ksame None (Some a_new)
| ks_kid c c' : csame c c' -> ksame (Some c) (Some c')
with csame {B} : anode B -> anode B -> Prop :=
| cs_node v l l' : Forall2 (fun om om' : nat * onode B => fst om' = fst om /\ osame (snd om) (snd om')) l l' -> csame (AN v l) (AN v l').

Section Policies.
  Context {X St B H : Type}.
  Variable P : search X St B H.
  Variable to_list : B -> list Q.
  Notation tree_ok := (tree_ok P).
  Notation o_policy := (o_policy P to_list).
  Notation a_policy := (a_policy P to_list).

  (** *** one node *)
  Lemma best_chosen (n : onode B) x a x' : best_action P n 0 false x = (Ok a, x') -> chosen n a.
  Proof.
    intros E. split; [eapply best_lt; eauto|]. split.
    - intros [i U]. apply not_init_In in U. apply not_init_In. eapply best_untried; eauto. intros E0. rewrite E0 in U. destruct U.
    - intros U. assert (E0 : not_init n = []).
      { destruct (not_init n) as [|i l] eqn:En; [auto|]. destruct (U i). apply not_init_In. rewrite En. simpl. auto. }
      destruct (action_value_best P n false x a x' E E0) as [V1 V2]. intros i Hi. split; auto.
  Qed.
  Lemma safe_child_cases (n : onode B) a c : safe_child n a = Ok c -> nth_error (o_kids n) a = Some (Some c) \/ nth_error (o_kids n) a = Some None /\ c = a_new.
  Proof. unfold safe_child. destruct (nth_error (o_kids n) a) as [[d|]|]; intros E; [left; congruence|right; split; congruence|discriminate]. Qed.
  Lemma safe_total (n : onode B) a : a < length (o_kids n) -> exists c, safe_child n a = Ok c.
  Proof. intros Ha. unfold safe_child. destruct (nth_error (o_kids n) a) as [[d|]|] eqn:E; eauto. apply nth_error_None in E. lia. Qed.
  Lemma visits_safe (n : onode B) a c i : safe_child n a = Ok c -> visits (set_kid n a c) i = visits n i /\ action_value (set_kid n a c) i = action_value n i.
  Proof.
    intros E. pose proof (safe_child_lt _ _ _ E) as Ha. destruct (Nat.eq_dec i a) as [->|Hi].
    - unfold visits, action_value. rewrite kid_set_same by auto. destruct (safe_child_cases _ _ _ E) as [->|[-> ->]]; auto.
    - unfold visits, action_value. rewrite kid_set_other by auto. auto.
  Qed.
  Lemma info_informs (n : onode B) a c observed f : safe_child n a = Ok c -> o_info P to_list (set_kid n a c) a observed = Ok f -> informs P (to_list (o_belief n)) n a observed f.
  Proof.
    intros Es E. unfold o_info in E. destruct (name_at (s_actions P) a) as [nm|e] eqn:En; cbn [bind] in E; [|discriminate]. apply name_at_ok in En.
    set (n1 := set_kid n a c) in *. assert (L : length (o_kids n1) = length (o_kids n)) by (cbn; apply set_nth_length).
    assert (K : forall i, i < length (o_kids n) -> exists k, nth_error (o_kids n1) i = Some k /\ visits n i = match k with Some d => a_count d | None => 0 end /\
                action_value n i = match k with Some d => avg_value (a_avg d) | None => 0%Q end).
    { intros i Hi. destruct (visits_safe n a c i Es) as [V1 V2]. fold n1 in V1, V2. destruct (nth_error (o_kids n1) i) as [k|] eqn:Ek; [|apply nth_error_None in Ek; lia].
      exists k. split; [auto|]. rewrite <- V1, <- V2. unfold visits, action_value. rewrite Ek. destruct k; auto. }
    match type of E with Ok ?g = _ => assert (f = g) as -> by congruence end. clear E.
    unfold informs. cbn [p_value p_visits p_belief p_action p_observed p_values p_terms p_child_visits].
    unfold o_values, o_terms, o_child_visits. rewrite !map_length. repeat split; auto; intros.
    - destruct (K i H0) as (k & Ek & Ev & Ea). rewrite nth_error_map, Ek. cbn [option_map]. rewrite Ev. destruct k; auto.
    - destruct (K i H0) as (k & Ek & Ev & Ea). rewrite nth_error_map, Ek. cbn [option_map]. rewrite Ev, Ea. destruct k as [d|]; [|reflexivity].
      change (o_count n1) with (o_count n). destruct (Nat.ltb_spec 0 (o_count n)); [|lia]. rewrite andb_true_r. destruct (Nat.eqb_spec (a_count d) 0) as [->|]; [reflexivity|].
      destruct (Nat.ltb_spec 0 (a_count d)); [reflexivity|lia].
    - destruct (K i H0) as (k & Ek & Ev & Ea). rewrite nth_error_map, Ek. cbn [option_map]. rewrite Ev. destruct k as [d|]; [|reflexivity].
      change (o_count n1) with (o_count n). destruct (Nat.eqb_spec (a_count d) 0) as [->|]; [reflexivity|]. destruct (Nat.ltb_spec 0 (a_count d)); [reflexivity|lia].
  Qed.
  Lemma best_total (n : onode B) x : 0 < length (o_kids n) -> all_visits n <= o_count n -> exists a x', best_action P n 0 false x = (Ok a, x').
  Proof.
    intros L V. unfold best_action. destruct (not_init n) as [|i l] eqn:En.
    - assert (V0 : 0 < visits n 0).
      { destruct (visits n 0) eqn:V0; [|lia]. assert (I : In 0 (not_init n)) by (apply not_init_In; split; auto). rewrite En in I. destruct I. }
      assert (0 < o_count n).
      { unfold all_visits in V. destruct (length (o_kids n)) as [|k]; [lia|]. cbn [seq map] in V. unfold list_sum in V. cbn [fold_right] in V. lia. }
      destruct (Nat.eqb_spec (o_count n) 0); [lia|]. assert (L' : length (augmented P n 0 false) = length (o_kids n)) by (unfold augmented; apply map_length).
      destruct (argmaxQ_spec (augmented P n 0 false)) as (k & Ek & _); [intros E0; rewrite E0 in L'; cbn in L'; lia|]. exists k, x. congruence.
    - unfold choice. destruct (s_rand P x) as [r y]. cbn [length]. assert (Hk : r mod S (length l) < S (length l)) by (apply Nat.mod_upper_bound; lia).
      destruct (nth_error (i :: l) (r mod S (length l))) as [a|] eqn:Ea; [|apply nth_error_None in Ea; cbn in Ea; lia]. eauto.
  Qed.

  (** *** unfolding *)
  Lemma o_policy_eq n observed x : o_policy n observed x =
    let (a, x) := best_action P n 0 false x in
    match (do a <- a; do c <- safe_child n a; Ok (a, c)) with
    | Err e => (n, x, Err e)
    | Ok (a, c) =>
        let n := set_kid n a c in
        match o_info P to_list n a observed with
        | Err e => (n, x, Err e)
        | Ok info => let '(c, x, r) := a_policy c x in (set_kid n a c, x, do (names, ds) <- r; Ok (PD info true names ds))
        end
    end.
  Proof.
    destruct n as [v b kids]. cbn [ExportModel.o_policy]. destruct (best_action P (ON v b kids) 0 false x) as [[a|e] y]; cbn [bind]; [|reflexivity].
    destruct (safe_child (ON v b kids) a) as [c|e] eqn:Es; cbn [bind]; [|reflexivity]. destruct (o_info P to_list _ a observed) as [info|e]; [|reflexivity].
    rewrite nth_error_map. pose proof (safe_child_lt _ _ _ Es) as Ha. cbn [o_kids] in Ha. destruct (safe_child_cases _ _ _ Es) as [Ek|[Ek ->]]; cbn [o_kids] in Ek; rewrite Ek; cbn [option_map].
    - reflexivity.
    - cbn [ExportModel.a_policy mapM through a_new bind]. unfold set_kid at 2. cbn [o_avg o_belief o_kids set_kid]. rewrite set_nth_set. reflexivity.
  Qed.
  Lemma a_policy_eq v kids x : a_policy (AN v kids) x =
    match mapM (fun om => name_at (s_observations P) (fst om)) kids with
    | Err e => (AN v kids, x, Err e)
    | Ok names =>
        let '(kids, x, r) := through (fun i om x => let '(m, x, r) := o_policy (snd om) (Some i) x in ((fst om, m), x, r)) 0 kids x in
        (AN v kids, x, do ds <- r; Ok (names, ds))
    end.
  Proof. reflexivity. Qed.
  Lemma after_safe (n : onode B) a c : safe_child n a = Ok c -> after_action n a = a_kids c.
  Proof. intros E. unfold after_action. destruct (safe_child_cases _ _ _ E) as [->|[-> ->]]; reflexivity. Qed.

  (** *** what is exported *)
  Definition pos (i o : nat) : nat := i.
  Definition listed (b : B) (l : list Q) : Prop := l = to_list b.
  Lemma policy_correct n : forall observed x n' x' d, o_policy n observed x = (n', x', Ok d) -> policy_for P pos listed n observed d.
  Proof.
    apply (onode_induct (fun n => forall observed x n' x' d, o_policy n observed x = (n', x', Ok d) -> policy_for P pos listed n observed d)
      (fun c => forall x c' x' names ds, a_policy c x = (c', x', Ok (names, ds)) -> all_named (s_observations P) (map fst (a_kids c)) names /\ length ds = length (a_kids c) /\
         forall i o m, nth_error (a_kids c) i = Some (o, m) -> exists d, nth_error ds i = Some d /\ policy_for P pos listed m (Some i) d)).
    - intros v b kids IH observed x n' x' d E. rewrite o_policy_eq in E. destruct (best_action P (ON v b kids) 0 false x) as [[a|e] y] eqn:Eb; cbn [bind] in E; [|discriminate].
      destruct (safe_child (ON v b kids) a) as [c|e] eqn:Es; cbn [bind] in E; [|discriminate]. cbv zeta in E.
      destruct (o_info P to_list _ a observed) as [info|e] eqn:Ei; [|discriminate]. destruct (a_policy c y) as [[c' y'] [[names ds]|e]] eqn:Ec; cbn [bind] in E; [|discriminate].
      assert (d = PD info true names ds) as -> by congruence. clear E.
      assert (K : all_named (s_observations P) (map fst (a_kids c)) names /\ length ds = length (a_kids c) /\
         forall i o m, nth_error (a_kids c) i = Some (o, m) -> exists d, nth_error ds i = Some d /\ policy_for P pos listed m (Some i) d).
      { destruct (safe_child_cases _ _ _ Es) as [Ek|[Ek ->]]; [eapply IH; eauto|]. unfold a_new in Ec. rewrite a_policy_eq in Ec. cbn [mapM through bind] in Ec.
        assert (names = []) as -> by congruence. assert (ds = []) as -> by congruence. split; [constructor|]. split; [auto|]. intros [|i] o m Em; discriminate. }
      destruct K as (K1 & K2 & K3). pose proof (after_safe _ _ _ Es) as EA. apply (pf_node P pos listed _ observed a (to_list b)); rewrite ?EA; auto.
      + eapply best_chosen; eauto.
      + reflexivity.
      + eapply (info_informs (ON v b kids)); eauto.
    - intros v kids IH x c' x' names ds E. rewrite a_policy_eq in E. destruct (mapM _ kids) as [names'|e] eqn:En; [|discriminate].
      match type of E with context [through ?f 0 kids x] => destruct (through f 0 kids x) as [[kids' y] [ds'|e]] eqn:Et end; cbn [bind] in E; [|discriminate].
      assert (names' = names) as -> by congruence. assert (ds' = ds) as -> by congruence. cbn [a_kids].
      split; [apply (all_named_mapM (s_observations P) fst); auto|]. destruct (through_ok _ _ _ _ _ _ _ Et) as [L N]. split; [auto|].
      intros i o m Em. destruct (N _ _ Em) as (d & w1 & w2 & om' & Ed & Ef). cbn [Nat.add fst snd] in Ef. destruct (o_policy m (Some i) w1) as [[m' w3] r] eqn:Ep.
      assert (r = Ok d) as -> by congruence. exists d. split; [auto|]. eapply IH; eauto.
  Qed.

  (** *** what is changed *)
  Notation kept := (@osame B).
  Definition akept (c c' : anode B) : Prop := a_avg c' = a_avg c /\ Forall2 (fun om om' => fst om' = fst om /\ kept (snd om) (snd om')) (a_kids c) (a_kids c').
  Definition okept (k k' : option (anode B)) : Prop :=
    match k, k' with
    | Some c, Some c' => akept c c'
    | None, None => True
    | None, Some c' => c' = a_new
    | Some _, None => False
    end.
  Lemma akept_same c c' : akept c c' <-> csame c c'.
  Proof.
    split.
    - intros [E F]. destruct c as [v l], c' as [v' l']. cbn in E, F. subst v'. constructor. exact F.
    - intros S0. inversion S0; subst. split; [reflexivity|]. cbn. auto.
  Qed.
  Lemma okept_same k k' : okept k k' <-> ksame k k'.
  Proof.
    split.
    - destruct k as [c|], k' as [c'|]; cbn; intros R; [constructor; apply akept_same; auto|destruct R|subst c'; constructor|constructor].
    - intros S0. inversion S0; subst; cbn; [auto|auto|apply akept_same; auto].
  Qed.
  Lemma kept_kids v b kids kids' : Forall2 okept kids kids' -> kept (ON v b kids) (ON v b kids').
  Proof. intros F. constructor. induction F; constructor; auto. apply okept_same. auto. Qed.
  Lemma kept_refl n : kept n n.
  Proof.
    apply (onode_induct (fun n => kept n n) (fun c => akept c c)).
    - intros v b kids IH. apply kept_kids. induction kids as [|k l IHl]; constructor; [|apply IHl; intros a c E; apply (IH (S a) c E)]. destruct k as [c|]; [apply (IH 0 c eq_refl)|exact I].
    - intros v kids IH. split; [auto|]. cbn [a_kids]. induction kids as [|[o m] l IHl]; constructor; [split; [auto|apply (IH 0 o m eq_refl)]|apply IHl; intros i o' m' E; apply (IH (S i) o' m' E)].
  Qed.
  Lemma kept_list l : Forall2 (fun om om' : nat * onode B => fst om' = fst om /\ kept (snd om) (snd om')) l l.
  Proof. induction l; constructor; auto. split; [auto|apply kept_refl]. Qed.
  Lemma akept_refl c : akept c c.
  Proof. split; [auto|apply kept_list]. Qed.
  Lemma okept_refl k : okept k k.
  Proof. destruct k; [apply akept_refl|exact I]. Qed.
  Lemma kept_lookup o l l' : Forall2 (fun om om' : nat * onode B => fst om' = fst om /\ kept (snd om) (snd om')) l l' ->
    match lookup o l, lookup o l' with Some m, Some m' => kept m m' | None, None => True | _, _ => False end.
  Proof.
    induction 1 as [|[k m] [k' m'] l l' [E1 E2] F IH]; cbn [lookup]; [exact I|]. cbn [fst snd] in E1, E2. rewrite E1. destruct (eq_dec o k); [exact E2|exact IH].
  Qed.
  Lemma kept_inv n n' : kept n n' -> o_avg n' = o_avg n /\ o_belief n' = o_belief n /\ Forall2 okept (o_kids n) (o_kids n').
  Proof.
    intros S0. inversion S0; subst. cbn. split; [auto|]. split; [auto|]. match goal with F : Forall2 _ _ _ |- _ => induction F; constructor; auto end; [apply okept_same; auto|].
    match goal with F : _ -> Forall2 okept l l' |- _ => apply F end. constructor. auto.
  Qed.
  Lemma same_view n n' : kept n n' -> view_kept (t_view n) (t_view n').
  Proof.
    intros S0. destruct (kept_inv _ _ S0) as (E1 & E2 & F). split; [cbn; congruence|]. cbn [t_view snd]. clear -F. induction F as [|k k' l l' R F IH]; cbn [map]; constructor; auto.
    destruct k as [c|], k' as [c'|]; cbn in R |- *; [|destruct R| |left; auto].
    - left. destruct R as [-> R]. f_equal. f_equal. clear -R. induction R as [|x y l l' [E _] R IH]; cbn; [auto|]. congruence.
    - subst c'. right. auto.
  Qed.
  Lemma same_kept n n' : kept n n' -> ExportSpec.kept n n'.
  Proof.
    intros S0 h. revert n n' S0. induction h as [|[a o] h IH]; intros n n' S0; cbn [PomcpSpec.find]; [apply same_view; auto|].
    destruct (kept_inv _ _ S0) as (_ & _ & F). destruct (nth_error (o_kids n) a) as [k|] eqn:Ek.
    - destruct (Forall2_nth_l _ _ _ F _ _ Ek) as (k' & Ek' & R). rewrite Ek'. destruct k as [c|], k' as [c'|]; cbn in R; [|destruct R| |exact I].
      + destruct R as [_ R]. pose proof (kept_lookup o _ _ R) as L. destruct (lookup o (a_kids c)), (lookup o (a_kids c')); [apply IH; auto|destruct L|destruct L|exact I].
      + subst c'. cbn. auto.
    - assert (Ek' : nth_error (o_kids n') a = None) by (apply nth_error_None; rewrite <- (Forall2_length _ _ _ F); apply nth_error_None; auto). rewrite Ek'. exact I.
  Qed.
  Lemma okept_set kids a c c' : (nth_error kids a = Some (Some c) \/ nth_error kids a = Some None /\ c = a_new) -> (nth_error kids a = Some None -> c' = a_new) -> akept c c' -> Forall2 okept kids (set_nth kids a (Some c')).
  Proof.
    revert a. induction kids as [|k l IH]; intros [|a] E E0 K; cbn in *; try (destruct E as [E|[E _]]; discriminate).
    - constructor; [|clear; induction l; constructor; [apply okept_refl|assumption]]. destruct E as [E|[E _]].
      + assert (k = Some c) as -> by congruence. exact K.
      + assert (k = None) as -> by congruence. cbn. auto.
    - constructor; [apply okept_refl|]. apply IH; auto.
  Qed.
  Lemma kept_set (n : onode B) a c c' : safe_child n a = Ok c -> (nth_error (o_kids n) a = Some None -> c' = a_new) -> akept c c' -> kept n (set_kid n a c').
  Proof. intros E E0 K. destruct n as [v b kids]. apply kept_kids. eapply okept_set; eauto. apply (safe_child_cases _ _ _ E). Qed.

  Lemma policy_kept n : forall observed x n' x' r, o_policy n observed x = (n', x', r) -> kept n n'.
  Proof.
    apply (onode_induct (fun n => forall observed x n' x' r, o_policy n observed x = (n', x', r) -> kept n n')
      (fun c => forall x c' x' r, a_policy c x = (c', x', r) -> akept c c')).
    - intros v b kids IH observed x n' x' r E. rewrite o_policy_eq in E. destruct (best_action P (ON v b kids) 0 false x) as [[a|e] y] eqn:Eb; cbn [bind] in E; [|assert (n' = ON v b kids) as -> by congruence; apply kept_refl].
      destruct (safe_child (ON v b kids) a) as [c|e] eqn:Es; cbn [bind] in E; [|assert (n' = ON v b kids) as -> by congruence; apply kept_refl]. cbv zeta in E.
      assert (K0 : kept (ON v b kids) (set_kid (ON v b kids) a c)).
      { eapply kept_set; eauto; [|apply akept_refl]. intros E0. destruct (safe_child_cases _ _ _ Es) as [E1|[_ E1]]; [congruence|auto]. }
      destruct (o_info P to_list _ a observed) as [info|e] eqn:Ei; [|assert (n' = set_kid (ON v b kids) a c) as -> by congruence; auto].
      destruct (a_policy c y) as [[c' y'] q] eqn:Ec. assert (n' = set_kid (ON v b kids) a c') as -> by (rewrite set_kid_set_kid in E; congruence).
      destruct (safe_child_cases _ _ _ Es) as [Ek|[Ek ->]].
      + apply (kept_set _ _ c c' Es); [congruence|]. eapply IH; eauto.
      + unfold a_new in Ec. rewrite a_policy_eq in Ec. cbn [mapM through bind] in Ec. assert (c' = a_new) as -> by (unfold a_new; congruence). exact K0.
    - intros v kids IH x c' x' r E. rewrite a_policy_eq in E. destruct (mapM _ kids) as [names'|e] eqn:En; [|assert (c' = AN v kids) as -> by congruence; apply akept_refl].
      match type of E with context [through ?f 0 kids x] => destruct (through f 0 kids x) as [[kids' y] q] eqn:Et end.
      assert (c' = AN v kids') as -> by congruence. split; [reflexivity|]. cbn [a_kids]. eapply through_rel; [| |exact Et].
      + intros om. split; [auto|apply kept_refl].
      + intros i [o m] w om' w' q' Hm Ef. cbn [fst snd] in Ef. destruct (o_policy m (Some i) w) as [[m' w3] r3] eqn:Ep. assert (om' = (o, m')) as -> by congruence.
        cbn [fst snd]. split; [auto|]. apply In_nth_error in Hm. destruct Hm as [j Ej]. eapply IH; eauto.
  Qed.

  (** *** exports succeed *)
  Definition ready (n : onode B) : Prop := tree_ok n /\ forall h m, PomcpSpec.find n h = Some m -> all_visits m <= o_count m.
  Lemma ready_child n a c o m : ready n -> nth_error (o_kids n) a = Some (Some c) -> lookup o (a_kids c) = Some m -> ready m.
  Proof. intros [T V] E El. split; [eapply ok_child; eauto|]. intros h k F. apply (V ((a, o) :: h)). cbn [PomcpSpec.find]. rewrite E, El. auto. Qed.
  Lemma info_total (n : onode B) a observed : a < length (s_actions P) -> exists f, o_info P to_list n a observed = Ok f.
  Proof. intros Ha. unfold o_info. destruct (name_at_total (s_actions P) a Ha) as [nm ->]. cbn [bind]. eauto. Qed.
  Lemma pick_total n x : 0 < length (s_actions P) -> ready n -> exists a y c, best_action P n 0 false x = (Ok a, y) /\ safe_child n a = Ok c /\ a < length (s_actions P).
  Proof.
    intros LA [T V]. destruct (T [] n eq_refl) as [L _]. destruct (best_total n x) as (a & y & Eb); [lia|apply (V [] n eq_refl)|]. pose proof (best_lt P _ _ _ _ _ _ Eb) as Ha.
    destruct (safe_total n a Ha) as [c Es]. exists a, y, c. split; [auto|]. split; [auto|lia].
  Qed.
  Lemma names_total (kids : list (nat * onode B)) : (forall o, In o (map fst kids) -> o < length (s_observations P)) -> exists names, mapM (fun om => name_at (s_observations P) (fst om)) kids = Ok names.
  Proof. intros R. apply mapM_total. intros om Hm. apply name_at_total. apply R. apply in_map. auto. Qed.
  Lemma policy_total n : 0 < length (s_actions P) -> ready n -> forall observed x, exists n' x' d, o_policy n observed x = (n', x', Ok d).
  Proof.
    intros LA. apply (onode_induct (fun n => ready n -> forall observed x, exists n' x' d, o_policy n observed x = (n', x', Ok d))
      (fun c => (forall o m, In (o, m) (a_kids c) -> ready m) -> (forall o, In o (map fst (a_kids c)) -> o < length (s_observations P)) -> forall x, exists c' x' r, a_policy c x = (c', x', Ok r))).
    - intros v b kids IH Rn observed x. destruct (pick_total _ x LA Rn) as (a & y & c & Eb & Es & Ha). rewrite o_policy_eq, Eb. cbn [bind]. rewrite Es. cbn [bind]. cbv zeta.
      destruct (info_total (set_kid (ON v b kids) a c) a observed Ha) as [f ->].
      assert (K : exists c' x' r, a_policy c y = (c', x', Ok r)).
      { destruct (safe_child_cases _ _ _ Es) as [Ek|[_ ->]]; [|unfold a_new; rewrite a_policy_eq; cbn; eauto]. destruct (ok_kid P _ _ _ (proj1 Rn) Ek) as (_ & ND & R).
        apply (IH a c Ek); [|exact R]. intros o m Hm. apply (ready_child (ON v b kids) a c o m Rn Ek). apply lookup_In_iff; auto. }
      destruct K as (c' & x' & [names ds] & ->). cbn [bind]. eauto.
    - intros v kids IH Rc R x. cbn [a_kids] in *. rewrite a_policy_eq. destruct (names_total kids R) as [names ->].
      match goal with |- context [through ?f 0 kids x] => destruct (through_total f kids) with (k := 0) (w := x) as (kids' & w & ds & ->) end; [|cbn [bind]; eauto].
      intros i [o m] w Hm. cbn [fst snd]. pose proof Hm as Hm'. apply In_nth_error in Hm'. destruct Hm' as [j Ej].
      destruct (IH j o m Ej (Rc o m Hm) (Some i) w) as (m' & w' & d & ->). eauto.
  Qed.

  (** *** the export with quotients *)
  Variable quotient : list Q -> res (list Q).
  Notation o_quotient := (o_quotient P to_list quotient).
  Notation a_quotient := (a_quotient P to_list quotient).
  Definition num_obs (i o : nat) : nat := o.
  Definition quotiented (b : B) (l : list Q) : Prop := quotient (to_list b) = Ok l.

  Lemma set_observed_for num bl (n : onode B) observed d i : policy_for P num bl n observed d -> policy_for P num bl n (Some i) (set_observed d i).
  Proof.
    intros F. inversion F as [n0 ob a b f names ds F1 F2 F3 F4 F5 F6 E1 E2 E3]; subst. cbn [set_observed]. eapply pf_node; eauto.
    destruct F3 as (I1 & I2 & I3 & I4 & I5 & I6 & I7 & I8 & I9). unfold informs. cbn [p_value p_visits p_belief p_action p_observed p_values p_terms p_child_visits]. auto 12.
  Qed.
  Lemma q_info_ok (n : onode B) a c f idx : NoDup (s_actions P) -> safe_child n a = Ok c -> q_info P to_list quotient (set_kid n a c) a = Ok (f, idx) ->
    exists q, quotiented (o_belief n) q /\ informs P q n a None f /\ idx = length (tried (firstn a (o_kids (set_kid n a c)))).
  Proof.
    intros NA Es E. unfold q_info in E. destruct (o_info P to_list (set_kid n a c) a None) as [i|e] eqn:Ei; cbn [bind] in E; [|discriminate].
    destruct (info_informs _ _ _ _ _ Es Ei) as (I1 & I2 & I3 & I4 & I5 & I6 & I7 & I8 & I9). rewrite I3 in E. destruct (quotient (to_list (o_belief n))) as [q|e] eqn:Eq; cbn [bind] in E; [|discriminate].
    rewrite (list_index_nth _ _ _ NA I4) in E. cbn [bind] in E. exists q. split; [auto|].
    match type of E with Ok (?g, ?j) = _ => assert (f = g) as -> by congruence; assert (idx = j) as -> by congruence end. split; [|auto].
    unfold informs. cbn [p_value p_visits p_belief p_action p_observed p_values p_terms p_child_visits]. auto 12.
  Qed.
  Lemma tried_shape {K L} (kids : list (option K)) (cs : list (option L)) :
    (forall i, (exists k, nth_error kids i = Some (Some k)) <-> (exists c, nth_error cs i = Some (Some c))) -> length kids = length cs -> tried kids = tried cs.
  Proof.
    intros S0 L0. unfold tried. rewrite L0. apply filter_ext_in. intros i Hi. apply in_seq in Hi. specialize (S0 i).
    rewrite (nth_error_nth' kids None), (nth_error_nth' cs None) in S0 by lia. destruct (nth i kids None), (nth i cs None); auto; exfalso.
    - destruct S0 as [[c E] _]; [eauto|]. discriminate.
    - destruct S0 as [_ [c E]]; [eauto|]. discriminate.
  Qed.
  Lemma nth_error_firstn' {K} (l : list K) : forall a i, nth_error (firstn a l) i = if Nat.ltb i a then nth_error l i else None.
  Proof.
    induction l as [|x l IH]; intros [|a] [|i]; cbn [firstn nth_error]; auto.
    - destruct (Nat.ltb _ _); auto.
    - rewrite IH. destruct (Nat.ltb_spec i a), (Nat.ltb_spec (S i) (S a)); auto; lia.
  Qed.
  Lemma q_join_ok f idx children d : q_join P f idx children = Ok d -> exists names ds ds', nth_error children idx = Some (names, ds) /\ d = PD f true names ds' /\
    Forall2 (fun dn d' => exists i, list_index (s_observations P) (snd dn) = Ok i /\ d' = set_observed (fst dn) i) (combine ds names) ds'.
  Proof.
    unfold q_join. destruct (nth_error children idx) as [[names ds]|]; [|discriminate]. intros E.
    destruct (mapM _ (combine ds names)) as [ds'|e] eqn:Em; cbn [bind] in E; [|discriminate]. exists names, ds, ds'. split; [auto|]. split; [congruence|].
    apply mapM_Forall2 in Em. clear E. induction Em as [|[d0 nm] y l r Hy F IH]; constructor; auto. cbn [fst snd] in *. destruct (list_index (s_observations P) nm) as [i|]; cbn [bind] in Hy; [|discriminate].
    exists i. split; [auto|congruence].
  Qed.
  Lemma combine_nth_error {K L} (l : list K) (r : list L) i x y : nth_error l i = Some x -> nth_error r i = Some y -> nth_error (combine l r) i = Some (x, y).
  Proof. revert r i. induction l as [|a l IH]; intros [|b r] [|i] E1 E2; cbn in *; try discriminate; [congruence|auto]. Qed.

  Definition go_kid (a : nat) (i : nat) (k : option (anode B)) (x : X) : option (anode B) * X * res (option (list name * list pdict)) :=
    match k with
    | Some c => let '(c, x, r) := a_quotient c x in (Some c, x, do y <- r; Ok (Some y))
    | None => if Nat.eqb i a then (Some a_new, x, Ok (Some ([], []))) else (None, x, Ok None)
    end.
  Lemma o_quotient_eq v b kids x : o_quotient (ON v b kids) x =
    let (a, x) := best_action P (ON v b kids) 0 false x in
    match (do a <- a; do c <- safe_child (ON v b kids) a; Ok (a, c)) with
    | Err e => (ON v b kids, x, Err e)
    | Ok (a, c) =>
        match q_info P to_list quotient (set_kid (ON v b kids) a c) a with
        | Err e => (set_kid (ON v b kids) a c, x, Err e)
        | Ok (info, idx) => let '(kids, x, r) := through (go_kid a) 0 kids x in (ON v b kids, x, do cs <- r; q_join P info idx (present cs))
        end
    end.
  Proof. reflexivity. Qed.
  Lemma a_quotient_eq v kids x : a_quotient (AN v kids) x =
    match mapM (fun om => name_at (s_observations P) (fst om)) kids with
    | Err e => (AN v kids, x, Err e)
    | Ok names =>
        let '(kids, x, r) := through (fun _ om x => let '(m, x, r) := o_quotient (snd om) x in ((fst om, m), x, r)) 0 kids x in
        (AN v kids, x, do ds <- r; Ok (names, ds))
    end.
  Proof. reflexivity. Qed.

  (** the results of the children have the shape of the children after the change *)
  Lemma results_shape v b kids a c x kids' x' cs : safe_child (ON v b kids) a = Ok c -> through (go_kid a) 0 kids x = (kids', x', Ok cs) ->
    tried (firstn a (o_kids (set_kid (ON v b kids) a c))) = tried (firstn a cs) /\ exists k, nth_error cs a = Some (Some k) /\
      (nth_error kids a = Some None -> k = ([], [])) /\ (forall c0, nth_error kids a = Some (Some c0) -> exists y c' y', a_quotient c0 y = (c', y', Ok k)).
  Proof.
    intros Es Et. pose proof (safe_child_lt _ _ _ Es) as Ha. cbn [o_kids] in Ha. destruct (through_ok _ _ _ _ _ _ _ Et) as [L N]. cbn [set_kid o_kids].
    assert (Hi : forall i k, nth_error kids i = Some k -> exists r, nth_error cs i = Some r /\
      match k with Some c0 => exists y c' y' z, r = Some z /\ a_quotient c0 y = (c', y', Ok z) | None => if Nat.eqb i a then r = Some ([], []) else r = None end).
    { intros i k Ek. destruct (N _ _ Ek) as (r & w1 & w2 & k' & Er & Ef). exists r. split; [auto|]. unfold go_kid in Ef. cbn [Nat.add] in Ef. destruct k as [c0|].
      - destruct (a_quotient c0 w1) as [[c1 w3] [z|e]] eqn:Eq; cbn [bind] in Ef; [|discriminate]. exists w1, c1, w3, z. split; [congruence|auto].
      - destruct (Nat.eqb i a); congruence. }
    split.
    - apply tried_shape; [|rewrite !firstn_length, set_nth_length; lia]. intros i. rewrite !nth_error_firstn'. destruct (Nat.ltb_spec i a) as [Hia|]; [|split; intros [k E]; discriminate].
      rewrite set_nth_other by lia. destruct (nth_error kids i) as [k|] eqn:Ek; [|apply nth_error_None in Ek; lia]. destruct (Hi _ _ Ek) as (r & Er & Hr). rewrite Er. destruct k as [c0|].
      + destruct Hr as (_ & _ & _ & z & -> & _). split; eauto.
      + destruct (Nat.eqb_spec i a); [lia|]. subst r. split; intros [z E]; discriminate.
    - destruct (nth_error kids a) as [k|] eqn:Ek; [|apply nth_error_None in Ek; lia]. destruct (Hi _ _ Ek) as (r & Er & Hr). destruct k as [c0|].
      + destruct Hr as (y & c' & y' & z & -> & Hq). exists z. split; [auto|]. split; [discriminate|]. intros c1 E1. assert (c1 = c0) as -> by congruence. eauto.
      + rewrite Nat.eqb_refl in Hr. subst r. eexists. split; [eauto|]. split; [auto|]. discriminate.
  Qed.

  Hypothesis NA : NoDup (s_actions P).
  Hypothesis NO : NoDup (s_observations P).
  Lemma quotient_correct n : forall x n' x' d, o_quotient n x = (n', x', Ok d) -> policy_for P num_obs quotiented n None d.
  Proof.
    apply (onode_induct (fun n => forall x n' x' d, o_quotient n x = (n', x', Ok d) -> policy_for P num_obs quotiented n None d)
      (fun c => forall x c' x' names ds, a_quotient c x = (c', x', Ok (names, ds)) -> all_named (s_observations P) (map fst (a_kids c)) names /\ length ds = length (a_kids c) /\
         forall i o m, nth_error (a_kids c) i = Some (o, m) -> exists d, nth_error ds i = Some d /\ policy_for P num_obs quotiented m None d)).
    - intros v b kids IH x n' x' d E. rewrite o_quotient_eq in E. destruct (best_action P (ON v b kids) 0 false x) as [[a|e] y] eqn:Eb; cbn [bind] in E; [|discriminate].
      destruct (safe_child (ON v b kids) a) as [c|e] eqn:Es; cbn [bind] in E; [|discriminate]. destruct (q_info P to_list quotient _ a) as [[f idx]|e] eqn:Ei; [|discriminate].
      destruct (through (go_kid a) 0 kids y) as [[kids' y'] [cs|e]] eqn:Et; cbn [bind] in E; [|discriminate]. assert (Ej : q_join P f idx (present cs) = Ok d) by congruence. clear E.
      destruct (q_info_ok _ _ _ _ _ NA Es Ei) as (q & Hq & If & Hidx). destruct (results_shape _ _ _ _ _ _ _ _ _ Es Et) as (Sh & [names ds] & Ek & K0 & K1). rewrite Sh in Hidx.
      destruct (q_join_ok _ _ _ _ Ej) as (names' & ds0 & ds' & En & -> & F). destruct (tried_place cs a _ Ek) as [_ Ep]. subst idx. rewrite Ep in En.
      assert (names' = names) as -> by congruence. assert (ds0 = ds) as -> by congruence. clear En Ep.
      assert (K : all_named (s_observations P) (map fst (a_kids c)) names /\ length ds = length (a_kids c) /\
         forall i o m, nth_error (a_kids c) i = Some (o, m) -> exists d, nth_error ds i = Some d /\ policy_for P num_obs quotiented m None d).
      { destruct (safe_child_cases _ _ _ Es) as [Ec|[Ec ->]]; cbn [o_kids] in Ec.
        - destruct (K1 _ Ec) as (w & c' & w' & Ea). eapply IH; eauto.
        - specialize (K0 Ec). assert (names = []) as -> by congruence. assert (ds = []) as -> by congruence. split; [constructor|]. split; [auto|]. intros [|i] o m Em; discriminate. }
      destruct K as (A1 & A2 & A3). pose proof (after_safe _ _ _ Es) as EA. pose proof (Forall2_length _ _ _ A1) as LN. rewrite map_length in LN.
      apply (pf_node P num_obs quotiented _ None a q); rewrite ?EA; auto.
      + eapply best_chosen; eauto.
      + rewrite <- (Forall2_length _ _ _ F), combine_length. lia.
      + intros i o m Em. destruct (A3 _ _ _ Em) as (d0 & Ed0 & Pd0).
        destruct (Forall2_nth_l _ _ _ A1 i o) as (nm & En & Eo); [rewrite nth_error_map, Em; reflexivity|].
        destruct (Forall2_nth_l _ _ _ F i (d0, nm)) as (d1 & Ed1 & j & Ej1 & ->); [apply combine_nth_error; auto|]. cbn [fst snd] in *.
        rewrite (list_index_nth _ _ _ NO Eo) in Ej1. assert (j = o) as -> by congruence. exists (set_observed d0 o). split; [auto|]. apply (set_observed_for _ _ _ None). auto.
    - intros v kids IH x c' x' names ds E. rewrite a_quotient_eq in E. destruct (mapM _ kids) as [names'|e] eqn:En; [|discriminate].
      match type of E with context [through ?f 0 kids x] => destruct (through f 0 kids x) as [[kids' y] [ds'|e]] eqn:Et end; cbn [bind] in E; [|discriminate].
      assert (names' = names) as -> by congruence. assert (ds' = ds) as -> by congruence. cbn [a_kids].
      split; [apply (all_named_mapM (s_observations P) fst); auto|]. destruct (through_ok _ _ _ _ _ _ _ Et) as [L N]. split; [auto|].
      intros i o m Em. destruct (N _ _ Em) as (d & w1 & w2 & om' & Ed & Ef). cbn [Nat.add fst snd] in Ef. destruct (o_quotient m w1) as [[m' w3] r] eqn:Ep.
      assert (r = Ok d) as -> by congruence. exists d. split; [auto|]. eapply IH; eauto.
  Qed.
End Policies.

Section QuotientMore.
  Context {X St B H : Type}.
  Variable P : search X St B H.
  Variable to_list : B -> list Q.
  Variable quotient : list Q -> res (list Q).
  Notation o_quotient := (o_quotient P to_list quotient).
  Notation a_quotient := (a_quotient P to_list quotient).
  Notation akept := (@akept B).

  Lemma quotient_kept n : forall x n' x' r, o_quotient n x = (n', x', r) -> osame n n'.
  Proof.
    apply (onode_induct (fun n => forall x n' x' r, o_quotient n x = (n', x', r) -> osame n n')
      (fun c => forall x c' x' r, a_quotient c x = (c', x', r) -> akept c c')).
    - intros v b kids IH x n' x' r E. rewrite o_quotient_eq in E. destruct (best_action P (ON v b kids) 0 false x) as [[a|e] y] eqn:Eb; cbn [bind] in E; [|assert (n' = ON v b kids) as -> by congruence; apply kept_refl].
      destruct (safe_child (ON v b kids) a) as [c|e] eqn:Es; cbn [bind] in E; [|assert (n' = ON v b kids) as -> by congruence; apply kept_refl].
      destruct (q_info P to_list quotient _ a) as [[f idx]|e] eqn:Ei.
      + destruct (through (go_kid P to_list quotient a) 0 kids y) as [[kids' y'] q] eqn:Et. assert (n' = ON v b kids') as -> by congruence. apply kept_kids.
        eapply through_rel; [apply okept_refl| |exact Et]. intros i k w k' w' q' Hk Ef. unfold go_kid in Ef. destruct k as [c0|].
        * destruct (a_quotient c0 w) as [[c1 w3] q3] eqn:Eq. assert (k' = Some c1) as -> by congruence. apply In_nth_error in Hk. destruct Hk as [j Ej]. cbn. eapply IH; eauto.
        * destruct (Nat.eqb i a); [assert (k' = Some a_new) as -> by congruence; reflexivity|assert (k' = None) as -> by congruence; exact I].
      + assert (n' = set_kid (ON v b kids) a c) as -> by congruence. eapply kept_set; eauto; [|apply akept_refl].
        intros E0. destruct (safe_child_cases _ _ _ Es) as [E1|[_ E1]]; [congruence|auto].
    - intros v kids IH x c' x' r E. rewrite a_quotient_eq in E. destruct (mapM _ kids) as [names'|e] eqn:En; [|assert (c' = AN v kids) as -> by congruence; apply akept_refl].
      match type of E with context [through ?f 0 kids x] => destruct (through f 0 kids x) as [[kids' y] q] eqn:Et end.
      assert (c' = AN v kids') as -> by congruence. split; [reflexivity|]. cbn [a_kids]. eapply through_rel; [| |exact Et].
      + intros om. split; [auto|apply kept_refl].
      + intros i [o m] w om' w' q' Hm Ef. cbn [fst snd] in Ef. destruct (o_quotient m w) as [[m' w3] r3] eqn:Ep. assert (om' = (o, m')) as -> by congruence.
        cbn [fst snd]. split; [auto|]. apply In_nth_error in Hm. destruct Hm as [j Ej]. eapply IH; eauto.
  Qed.

  Hypothesis NA : NoDup (s_actions P).
  Hypothesis LA : 0 < length (s_actions P).
  Definition qready (n : onode B) : Prop := ready P n /\ forall h m, PomcpSpec.find n h = Some m -> exists q, quotient (to_list (o_belief m)) = Ok q.
  Lemma qready_child n a c o m : qready n -> nth_error (o_kids n) a = Some (Some c) -> lookup o (a_kids c) = Some m -> qready m.
  Proof. intros [T V] E El. split; [eapply ready_child; eauto|]. intros h k F. apply (V ((a, o) :: h)). cbn [PomcpSpec.find]. rewrite E, El. auto. Qed.
  Lemma quotient_total n : qready n -> forall x, exists n' x' d, o_quotient n x = (n', x', Ok d).
  Proof.
    apply (onode_induct (fun n => qready n -> forall x, exists n' x' d, o_quotient n x = (n', x', Ok d))
      (fun c => (forall o m, In (o, m) (a_kids c) -> qready m) -> (forall o, In o (map fst (a_kids c)) -> o < length (s_observations P)) -> forall x, exists c' x' names ds,
         a_quotient c x = (c', x', Ok (names, ds)) /\ forall nm, In nm names -> In nm (s_observations P))).
    - intros v b kids IH [Rn Rq] x. destruct (pick_total _ _ x LA Rn) as (a & y & c & Eb & Es & Ha). rewrite o_quotient_eq, Eb. cbn [bind]. rewrite Es. cbn [bind].
      destruct (info_total P to_list (set_kid (ON v b kids) a c) a None Ha) as [f Ef]. destruct (Rq [] _ eq_refl) as [q Hq].
      assert (Ei : exists f' idx, q_info P to_list quotient (set_kid (ON v b kids) a c) a = Ok (f', idx)).
      { unfold q_info. rewrite Ef. cbn [bind]. destruct (info_informs _ _ _ _ _ _ _ Es Ef) as (_ & _ & I3 & I4 & _). rewrite I3, Hq. cbn [bind]. rewrite (list_index_nth _ _ _ NA I4). cbn [bind]. eauto. }
      destruct Ei as (f' & idx & Ei). rewrite Ei.
      assert (KC : forall i c0, nth_error kids i = Some (Some c0) -> forall w, exists c' x' names ds, a_quotient c0 w = (c', x', Ok (names, ds)) /\ forall nm, In nm names -> In nm (s_observations P)).
      { intros i c0 E0. destruct (ok_kid P _ _ _ (proj1 Rn) E0) as (_ & ND & R). apply (IH i c0 E0); [|exact R]. intros o m Hm. apply (qready_child (ON v b kids) i c0 o m (conj Rn Rq) E0). apply lookup_In_iff; auto. }
      destruct (through_total (go_kid P to_list quotient a) kids) with (k := 0) (w := y) as (kids' & w' & cs & Et).
      { intros i k w Hk. unfold go_kid. destruct k as [c0|]; [|destruct (Nat.eqb i a); eauto]. apply In_nth_error in Hk. destruct Hk as [j Ej].
        destruct (KC _ _ Ej w) as (c' & x' & names & ds & -> & _). cbn [bind]. eauto. }
      rewrite Et. cbn [bind]. destruct (q_info_ok _ _ _ _ _ _ _ _ NA Es Ei) as (_ & _ & _ & Hidx). destruct (results_shape _ _ _ _ _ _ _ _ _ _ _ _ Es Et) as (Sh & [names ds] & Ek & K0 & K1).
      rewrite Sh in Hidx. destruct (tried_place cs a _ Ek) as [_ Ep]. subst idx. unfold q_join. rewrite Ep.
      assert (RN : forall nm, In nm names -> In nm (s_observations P)).
      { destruct (safe_child_cases _ _ _ Es) as [Ec|[Ec _]]; cbn [o_kids] in Ec.
        - destruct (K1 _ Ec) as (w & c' & w2 & Ea). destruct (KC _ _ Ec w) as (c2 & x2 & n2 & d2 & Ea2 & R). assert (n2 = names) as -> by congruence. auto.
        - specialize (K0 Ec). assert (names = []) as -> by congruence. intros nm []. }
      match goal with |- context [mapM ?g ?l] => destruct (mapM_total g l) as [ds' ->] end; [|cbn [bind]; eauto].
      intros [d0 nm] Hd. cbn [fst snd]. apply in_combine_r in Hd. destruct (list_index_In _ _ (RN _ Hd)) as [j ->]. cbn [bind]. eauto.
    - intros v kids IH Rc R x. cbn [a_kids] in *. rewrite a_quotient_eq. destruct (names_total P kids R) as [names En]. rewrite En.
      match goal with |- context [through ?f 0 kids x] => destruct (through_total f kids) with (k := 0) (w := x) as (kids' & w & ds & ->) end.
      { intros i [o m] w Hm. cbn [fst snd]. pose proof Hm as Hm'. apply In_nth_error in Hm'. destruct Hm' as [j Ej].
        destruct (IH j o m Ej (Rc o m Hm) w) as (m' & w' & d & ->). eauto. }
      cbn [bind]. do 4 eexists. split; [reflexivity|]. intros nm Hn. apply mapM_Forall2 in En. apply In_nth_error in Hn. destruct Hn as [j Ej].
      destruct (Forall2_nth_r _ _ _ En _ _ Ej) as (om & _ & Eo). apply name_at_ok in Eo. eapply nth_error_In; eauto.
  Qed.
End QuotientMore.
