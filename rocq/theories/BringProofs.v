(** Proofs for the POMDP of a task whose leaves bring objects: the tables. *)
From Coq Require Import Lia Lqa Field.
From Verif Require Import PyBase PyBaseFacts QBase PomdpModel PomdpSpec PomdpProofs HtmModel HtmSpec HtmProofs ConvModel NodeModel NodeSpec BringModel BringSpec NodeProofs NodeProofs2 NodeProofs3 NodeProofs4 ConvProofs ConvProofs2 ConvProofs3.
Local Open Scope list_scope.
Local Open Scope nat_scope.

Lemma ix_1 next : ix 1 next = map fst next.
Proof. apply map_ext. intros x. apply Nat.mul_1_l. Qed.
Lemma indices_1 {P} m (c : n2p P) l : start_indices_from m (map (n_states 1) (c :: l)) = m :: start_indices_from (m + n_leaves c) (map (n_states 1) l).
Proof. cbn [map start_indices_from]. unfold n_states at 1. rewrite Nat.mul_1_l. reflexivity. Qed.
Lemma next_init_1 {P} (l : list (n2p P)) k next : Forall proper l -> next_init_children 1 l k (map fst next) = Ok (map (map fst) (nexts l k next)).
Proof. intros F. pose proof (next_init_ok 1 l k next F) as H. rewrite Nat.mul_1_l, ix_1 in H. rewrite H. f_equal. apply map_ext. apply ix_1. Qed.

Section Flat.
  Context {X : Type}.
  Variable upd : action string -> X -> nat -> list nat -> list Q -> res X.
  Definition bstep (x : X) (li : linfo) : res X := upd (li_a li) x (li_k li) (map fst (li_next li)) (map snd (li_next li)).
  Lemma bring_flat t : proper t -> forall k next after x, bring_update upd t x k (map fst next) (map snd next) = foldM bstep (flat t k next after) x.
  Proof.
    induction t as [a|l IH|l IH] using n2p_ind'; intros Pt k next after x; inversion Pt as [|l0 Hne HF|l0 Hne HF]; subst.
    - cbn [bring_update flat foldM]. unfold bstep. cbn [li_a li_k li_next]. destruct (upd _ _ _ _ _); reflexivity.
    - cbn [bring_update flat]. rewrite (next_init_1 l k next HF), (next_probas_ok l k next HF). cbn [bind]. unfold bring_indices, start_indices. zero m Hm. rewrite <- Hm at 1.
      clear Pt Hne. replace (nexts l k next) with (nexts l (k + m) next) by (rewrite Hm, Nat.add_0_r; reflexivity). replace (flat_seq flat l k next after) with (flat_seq flat l (k + m) next after) by (rewrite Hm, Nat.add_0_r; reflexivity).
      clear Hm. revert m x. induction l as [|c l IHl]; intros m x; [reflexivity|]. inversion IH as [|x1 x2 IHc IHr]; inversion HF as [|x3 x4 Pc Fl]; subst. rewrite !indices_1. cbn [flat_seq nexts]. rewrite foldM_app. destruct (nexts_tl_head l (k + m + n_leaves c) next) as [r Er]. rewrite Er. cbn [map].
      rewrite (IHc Pc (k + m) _ (after ++ seq (k + m + n_leaves c) (total l))). match goal with |- (do x <- ?g; _) = _ => destruct g as [x'|] end; cbn [bind]; [|reflexivity].
      specialize (IHl IHr Fl (m + n_leaves c) x'). rewrite Nat.add_assoc in IHl. rewrite <- IHl. destruct l as [|d l]; [reflexivity|]. cbn [nexts nexts_tl next_of] in *. assert (r = nexts_tl l (k + m + n_leaves c + n_leaves d) next) as -> by congruence. reflexivity.
    - cbn [bring_update flat]. unfold bring_indices, start_indices. zero m Hm. rewrite <- Hm at 1. clear Pt Hne. replace (flat_alt flat l k next after) with (flat_alt flat l (k + m) next after) by (rewrite Hm, Nat.add_0_r; reflexivity).
      clear Hm. revert m x. induction l as [|c l IHl]; intros m x; [reflexivity|]. inversion IH as [|x1 x2 IHc IHr]; inversion HF as [|x3 x4 Pc Fl]; subst. rewrite !indices_1. cbn [flat_alt]. rewrite foldM_app.
      rewrite (IHc Pc (k + m) next after). match goal with |- (do x <- ?g; _) = _ => destruct g as [x'|] end; cbn [bind]; [|reflexivity].
      specialize (IHl IHr Fl (m + n_leaves c) x'). rewrite Nat.add_assoc in IHl. exact IHl.
  Qed.
End Flat.

(** *** Tables updated one entry at a time *)
Lemma foldM_pt3 {A} (f : tensor -> A -> res tensor) (u : A -> nat -> nat -> nat -> Q -> Q) l : (forall T x, In x l -> exists T', f T x = Ok T' /\ forall a s s', T' a s s' = u x a s s' (T a s s')) ->
  forall T, exists T', foldM f l T = Ok T' /\ forall a s s', T' a s s' = fold_left (fun v x => u x a s s' v) l (T a s s').
Proof.
  induction l as [|x l IH]; intros H T; cbn [foldM fold_left]; [eauto|]. destruct (H T x (or_introl eq_refl)) as (T1 & -> & H1). cbn [bind]. destruct (IH (fun T y Hy => H T y (or_intror Hy)) T1) as (T2 & -> & H2). exists T2. split; [reflexivity|]. intros a s s'. rewrite H2, H1. reflexivity.
Qed.
Lemma foldM_pt4 {A} (f : tensor4 -> A -> res tensor4) (u : A -> nat -> nat -> nat -> nat -> Q -> Q) l : (forall T x, In x l -> exists T', f T x = Ok T' /\ forall a s s' o, T' a s s' o = u x a s s' o (T a s s' o)) ->
  forall T, exists T', foldM f l T = Ok T' /\ forall a s s' o, T' a s s' o = fold_left (fun v x => u x a s s' o v) l (T a s s' o).
Proof.
  induction l as [|x l IH]; intros H T; cbn [foldM fold_left]; [eauto|]. destruct (H T x (or_introl eq_refl)) as (T1 & -> & H1). cbn [bind]. destruct (IH (fun T y Hy => H T y (or_intror Hy)) T1) as (T2 & -> & H2). exists T2. split; [reflexivity|]. intros a s s' o. rewrite H2, H1. reflexivity.
Qed.
Lemma fold_none {A} (u : A -> Q -> Q) l : (forall x v, In x l -> u x v = v) -> forall v, fold_left (fun v x => u x v) l v = v.
Proof. induction l as [|x l IH]; intros H v; cbn [fold_left]; [reflexivity|]. rewrite H by (left; auto). apply IH. intros; apply H; right; auto. Qed.
Lemma fold_one {A} (u : A -> Q -> Q) l x : In x l -> NoDup l -> (forall y v, In y l -> y <> x -> u y v = v) -> forall v, fold_left (fun v x => u x v) l v = u x v.
Proof.
  induction l as [|y l IH]; intros Hx N H v; [destruct Hx|]. inversion N as [|z w N1 N2]; subst. cbn [fold_left]. destruct Hx as [->|Hx].
  - apply fold_none. intros z w Hz. apply H; [right; auto|]. intros ->. auto.
  - rewrite (H y v (or_introl eq_refl)) by (intros ->; auto). apply IH; auto. intros z w Hz Nz. apply H; [right|]; auto.
Qed.
Lemma fold_exists {A} (P : A -> bool) (c : Q) l : forall v, fold_left (fun v x => if P x then c else v) l v = if existsb P l then c else v.
Proof. induction l as [|x l IH]; intros v; cbn [fold_left existsb]; [reflexivity|]. rewrite IH. destruct (P x); cbn; [destruct (existsb P l); reflexivity|reflexivity]. Qed.

Lemma flat_NoDup {P} (t : n2p P) k next after : NoDup (flat t k next after).
Proof. apply (NoDup_map_inv li_k). rewrite flat_k. apply seq_NoDup. Qed.

(** *** Indices of actions *)
Lemma last_index_nth x l : NoDup l -> forall i j, last_index_from i x l = Some j <-> exists k, j = i + k /\ nth_error l k = Some x.
Proof.
  induction 1 as [|y l Ny N IH]; intros i j; cbn [last_index_from].
  - split; [discriminate|]. intros (k & _ & E). destruct k; discriminate.
  - destruct (last_index_from (S i) x l) as [j'|] eqn:E.
    + apply IH in E. destruct E as (k & -> & E). split.
      * intros Ej. assert (j = S i + k) as -> by congruence. exists (S k). split; [lia|auto].
      * intros ([|k'] & -> & E'); cbn in E'; [exfalso; apply Ny; assert (y = x) as -> by congruence; apply nth_error_In in E; auto|]. f_equal. assert (k = k'); [|lia].
        apply (proj1 (NoDup_nth_error l) N); [apply nth_error_Some; congruence|congruence].
    + destruct (String.eqb_spec y x) as [->|Ne].
      * split; [intros Ej; exists 0; split; [assert (j = i) by congruence; lia|reflexivity]|]. intros ([|k] & -> & E'); [f_equal; lia|]. exfalso. apply Ny. cbn in E'. apply nth_error_In in E'. auto.
      * split; [discriminate|]. intros ([|k] & -> & E'); cbn in E'; [congruence|]. exfalso. assert (last_index_from (S i) x l = Some (S i + k)) by (apply IH; eauto). congruence.
Qed.
Lemma last_index_some x l : forall i, In x l -> exists j, last_index_from i x l = Some j.
Proof. induction l as [|y l IH]; intros i H; [destruct H|]. cbn [last_index_from]. destruct (last_index_from (S i) x l) eqn:E; [eauto|]. destruct H as [->|H]; [rewrite String.eqb_refl; eauto|]. destruct (IH (S i) H) as [j Hj]. congruence. Qed.
Lemma last_index_in x l : forall i j, last_index_from i x l = Some j -> In x l.
Proof. induction l as [|y l IH]; intros i j; cbn [last_index_from]; [discriminate|]. destruct (last_index_from (S i) x l) eqn:E; [intros _; right; eauto|]. destruct (String.eqb_spec y x); [intros; left; auto|discriminate]. Qed.

Section Actions.
  Variable objects : list string.
  Lemma get_in x : In ("get-" ++ x)%string (bring_actions objects) <-> In x objects.
  Proof.
    unfold bring_actions. rewrite in_app_iff, !in_map_iff. split; [intros [(y & E & H)|(y & E & H)]; [|discriminate]; assert (y = x) as -> by (cbn in E; congruence); auto|]. intros H. left. eauto.
  Qed.
  Lemma ask_in x : In ("ask-" ++ x)%string (bring_actions objects) <-> In x objects.
  Proof.
    unfold bring_actions. rewrite in_app_iff, !in_map_iff. split; [intros [(y & E & H)|(y & E & H)]; [discriminate|]; assert (y = x) as -> by (cbn in E; congruence); auto|]. intros H. right. eauto.
  Qed.
  Lemma actions_NoDup : NoDup objects <-> NoDup (bring_actions objects).
  Proof.
    unfold bring_actions. split.
    - intros N. apply NoDup_app_disj; [apply FinFun.Injective_map_NoDup; auto; intros x y E; cbn in E; congruence|apply FinFun.Injective_map_NoDup; auto; intros x y E; cbn in E; congruence|]. intros s H1 H2. apply in_map_iff in H1. apply in_map_iff in H2. destruct H1 as (x & <- & _). destruct H2 as (y & E & _). discriminate.
    - intros N. assert (G : forall l l' : list string, NoDup (l ++ l') -> NoDup l). { clear. induction l as [|x l IH]; intros l' N; [constructor|]. inversion N as [|y z N1 N2]; subst. constructor; [|eauto]. intros K. apply N1. apply in_or_app. auto. }
      apply G in N. apply NoDup_map_inv in N. auto.
  Qed.
  Lemma actions_length : length (bring_actions objects) = length objects + length objects.
  Proof. unfold bring_actions. rewrite app_length, !map_length. reflexivity. Qed.
  Lemma actions_nth i : nth_error (bring_actions objects) i = if i <? length objects then option_map (fun o => "get-" ++ o)%string (nth_error objects i) else option_map (fun o => "ask-" ++ o)%string (nth_error objects (i - length objects)).
  Proof.
    unfold bring_actions. destruct (Nat.ltb_spec i (length objects)).
    - rewrite nth_error_app1 by (rewrite map_length; auto). apply nth_error_map.
    - rewrite nth_error_app2 by (rewrite map_length; auto). rewrite map_length. apply nth_error_map.
  Qed.
  Lemma get_index x i : NoDup objects -> (action_index (bring_actions objects) ("get-" ++ x) = Ok i <-> fetches objects i x).
  Proof.
    intros N. unfold action_index, fetches. pose proof (last_index_nth ("get-" ++ x) (bring_actions objects) (proj1 actions_NoDup N) 0) as L. split.
    - intros E. destruct (last_index_from 0 ("get-" ++ x) (bring_actions objects)) as [j|] eqn:El; [|discriminate E]. assert (j = i) as -> by congruence. destruct (proj1 (L i) eq_refl) as (k & -> & Ek). cbn [Nat.add]. rewrite actions_nth in Ek. destruct (Nat.ltb_spec k (length objects)); [destruct (nth_error objects k); cbn in Ek; congruence|].
      destruct (nth_error objects (k - length objects)); discriminate.
    - intros E. assert (last_index_from 0 ("get-" ++ x) (bring_actions objects) = Some i) as ->; [|reflexivity]. apply L. exists i. split; [reflexivity|]. rewrite actions_nth. assert (i < length objects) by (apply nth_error_Some; congruence). destruct (Nat.ltb_spec i (length objects)); [|lia]. rewrite E. reflexivity.
  Qed.
  Lemma ask_index x i : NoDup objects -> (action_index (bring_actions objects) ("ask-" ++ x) = Ok i <-> asks objects i x).
  Proof.
    intros N. unfold action_index, asks. pose proof (last_index_nth ("ask-" ++ x) (bring_actions objects) (proj1 actions_NoDup N) 0) as L. split.
    - intros E. destruct (last_index_from 0 ("ask-" ++ x) (bring_actions objects)) as [j|] eqn:El; [|discriminate E]. assert (j = i) as -> by congruence. destruct (proj1 (L i) eq_refl) as (k & -> & Ek). cbn [Nat.add]. rewrite actions_nth in Ek. destruct (Nat.ltb_spec k (length objects)).
      + destruct (nth_error objects k); discriminate.
      + exists (k - length objects). split; [lia|]. destruct (nth_error objects (k - length objects)); cbn in Ek; congruence.
    - intros (j & -> & E). assert (last_index_from 0 ("ask-" ++ x) (bring_actions objects) = Some (length objects + j)) as ->; [|reflexivity]. apply L. exists (length objects + j). split; [reflexivity|]. rewrite actions_nth. destruct (Nat.ltb_spec (length objects + j) (length objects)); [lia|]. replace (length objects + j - length objects) with j by lia. rewrite E. reflexivity.
  Qed.
End Actions.
