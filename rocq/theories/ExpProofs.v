(** Proofs for C104 and C105. *)
From Verif Require Import PyBase EvalModel ExpModel ExpSpec.
From Coq Require Import Lia.
Local Open Scope list_scope.
Local Open Scope nat_scope.

Section Dicts.
  Context {V : Type}.
  Lemma lookup_assign (d : list (string * V)) k v k' : lookup (assign d k v) k' = if String.eqb k k' then Some v else lookup d k'.
  Proof.
    induction d as [|[a x] d IH]; cbn; [reflexivity|]. destruct (String.eqb a k) eqn:E.
    - apply String.eqb_eq in E as ->. cbn. destruct (String.eqb k k'); reflexivity.
    - cbn. rewrite IH. destruct (String.eqb a k') eqn:F; [|reflexivity]. apply String.eqb_eq in F as ->. rewrite String.eqb_sym, E. reflexivity.
  Qed.
  Lemma lookup_update (e d : list (string * V)) k : lookup (update d e) k = match last_value e k with Some v => Some v | None => lookup d k end.
  Proof.
    revert d. induction e as [|[a x] e IH]; intros d; cbn; [reflexivity|]. unfold update in IH. cbn. rewrite IH, lookup_assign. destruct (last_value e k); [reflexivity|]. destruct (String.eqb a k); reflexivity.
  Qed.
  Definition keys (d : list (string * V)) : list string := map fst d.
  Lemma keys_assign_in (d : list (string * V)) k v k' : In k' (keys (assign d k v)) <-> k' = k \/ In k' (keys d).
  Proof.
    induction d as [|[a x] d IH]; cbn; [intuition|]. destruct (String.eqb a k) eqn:E; cbn.
    - apply String.eqb_eq in E as ->. intuition.
    - rewrite IH. intuition.
  Qed.
  Lemma keys_assign (d : list (string * V)) k v : NoDup (keys d) -> NoDup (keys (assign d k v)).
  Proof.
    induction d as [|[a x] d IH]; cbn; intros H; [repeat constructor; intros []|]. inversion H; subst. destruct (String.eqb a k) eqn:E; cbn; [constructor; auto|].
    constructor; auto. intros K. apply keys_assign_in in K as [->|K]; [rewrite String.eqb_refl in E; discriminate|auto].
  Qed.
  Lemma keys_update (e d : list (string * V)) : NoDup (keys d) -> NoDup (keys (update d e)).
  Proof. revert d. induction e as [|[a x] e IH]; intros d H; cbn; auto. apply IH, keys_assign, H. Qed.
  Lemma lookup_none (d : list (string * V)) k : ~ In k (keys d) -> lookup d k = None.
  Proof. induction d as [|[a x] d IH]; cbn; intros H; auto. destruct (String.eqb a k) eqn:E; [apply String.eqb_eq in E; tauto|]. apply IH. tauto. Qed.
  Lemma last_lookup (d : list (string * V)) k : NoDup (keys d) -> last_value d k = lookup d k.
  Proof.
    induction d as [|[a x] d IH]; cbn; intros H; [reflexivity|]. inversion H; subst. rewrite IH by auto. destruct (String.eqb a k) eqn:E.
    - apply String.eqb_eq in E as ->. rewrite lookup_none; auto.
    - destruct (lookup d k); reflexivity.
  Qed.
  Lemma lookup_in (d : list (string * V)) k v : lookup d k = Some v -> In (k, v) d.
  Proof. induction d as [|[a x] d IH]; cbn; [discriminate|]. destruct (String.eqb a k) eqn:E; [apply String.eqb_eq in E as ->; intros [= ->]; auto|auto]. Qed.
  Lemma in_lookup (d : list (string * V)) k v : NoDup (keys d) -> In (k, v) d -> lookup d k = Some v.
  Proof.
    induction d as [|[a x] d IH]; cbn; intros H; [intros []|]. inversion H as [|? ? H1 H2]; subst. intros [[= -> ->]|K]; [rewrite String.eqb_refl; reflexivity|].
    destruct (String.eqb a k) eqn:E; [|auto]. apply String.eqb_eq in E as ->. exfalso. apply H1. apply (in_map fst) in K. exact K.
  Qed.
End Dicts.
Lemma last_map {V W} (f : V -> W) (d : list (string * V)) k : last_value (map (fun kv => (fst kv, f (snd kv))) d) k = option_map f (last_value d k).
Proof. induction d as [|[a x] d IH]; cbn; [reflexivity|]. rewrite IH. destruct (last_value d k); cbn; [reflexivity|]. destruct (String.eqb a k); reflexivity. Qed.
Lemma lookup_map {V W} (f : V -> W) (d : list (string * V)) k : lookup (map (fun kv => (fst kv, f (snd kv))) d) k = option_map f (lookup d k).
Proof. induction d as [|[a x] d IH]; cbn; [reflexivity|]. destruct (String.eqb a k); auto. Qed.
Lemma last_vals d k : last_value (vals_of d) k = written d k.
Proof. apply last_map. Qed.
Lemma last_values d k : last_value (values d) k = written (map (fun kv => (fst kv, Some (snd kv))) d) k.
Proof. unfold values, written. rewrite !last_map. destruct (last_value d k); reflexivity. Qed.

(** Lists *)
Lemma replace_length {X} (l : list X) i x : length (replace l i x) = length l.
Proof. revert i. induction l; intros [|i]; cbn; auto. Qed.
Lemma nth_replace {X} (l : list X) i x j d : i < length l -> nth j (replace l i x) d = if j =? i then x else nth j l d.
Proof. revert i j. induction l as [|y l IH]; intros [|i] [|j] H; cbn in *; try lia; auto. apply IH. lia. Qed.
Lemma nth_error_replace {X} (l : list X) i x j : i < length l -> nth_error (replace l i x) j = if j =? i then Some x else nth_error l j.
Proof. revert i j. induction l as [|y l IH]; intros [|i] [|j] H; cbn in *; try lia; auto. apply IH. lia. Qed.

Lemma nodup_app_l {X} (l l' : list X) : NoDup (l ++ l') -> NoDup l.
Proof. induction l; cbn; intros H; constructor; inversion H; subst; auto. intros K. apply H2, in_or_app. auto. Qed.
Lemma nodup_app_r {X} (l l' : list X) : NoDup (l ++ l') -> NoDup l'.
Proof. induction l; cbn; intros H; auto. inversion H; auto. Qed.
(** The heap *)
Lemma at_item w a k v b : a < length (heap w) -> at_ (item w a k v) b = if b =? a then assign (at_ w a) k v else at_ w b.
Proof. intros H. unfold at_, item, put, set_heap. cbn [heap]. rewrite nth_replace by auto. reflexivity. Qed.
Lemma at_alloc w d b : at_ (fst (alloc w d)) b = if b =? length (heap w) then d else at_ w b.
Proof.
  unfold at_, alloc, set_heap. cbn [fst heap]. destruct (b =? length (heap w)) eqn:E; [apply Nat.eqb_eq in E as ->; rewrite app_nth2, Nat.sub_diag by lia; reflexivity|]. apply Nat.eqb_neq in E.
  destruct (Nat.lt_ge_cases b (length (heap w))); [rewrite app_nth1 by lia; reflexivity|]. rewrite !nth_overflow by (rewrite ?app_length; cbn; lia). reflexivity.
Qed.
Lemma heap_item w a k v : length (heap (item w a k v)) = length (heap w).
Proof. apply replace_length. Qed.
(** What does not change *)
Definition same_names (w w' : world) : Prop := classes w' = classes w /\ given w' = given w /\ exps w' = exps w /\ files w' = files w.
Lemma item_names w a k v : same_names w (item w a k v).
Proof. repeat split. Qed.

Definition flat (d : pdict) : Prop := forall k v, lookup d k = Some v -> v = VObject \/ exists j, v = VJson j.
Definition based (d : pdict) : Prop := forall k, lookup base_parameters k <> None -> lookup d k <> None.
Definition good_results (x : experiment) (d : pdict) : Prop :=
  forall k v, lookup d k = Some v -> (k = "parameters"%string /\ v = VDict (e_params x)) \/ (k = "t_warmup"%string /\ exists t, v = VJson (JNum t)) \/ (k = "evaluations"%string /\ exists l, v = VEvals l).
Definition owned (w : world) : list nat := given w ++ flat_map (fun x => [e_params x; e_results x]) (exps w).
Record Inv (w : world) : Prop := {
  i_keys : forall a, NoDup (keys (at_ w a));
  i_nodup : NoDup (owned w);
  i_owned : forall a, In a (owned w) -> a < length (heap w);
  i_classes : forall a, In a (classes w) -> a < length (heap w) /\ ~ In a (owned w);
  i_flat : forall a, In a (classes w) \/ In a (given w) \/ (exists x, In x (exps w) /\ a = e_params x) -> flat (at_ w a);
  i_based : forall a, In a (classes w) \/ (exists x, In x (exps w) /\ a = e_params x) -> based (at_ w a);
  i_results : forall x, In x (exps w) -> good_results x (at_ w (e_results x)) }.

Lemma owned_exp w x : In x (exps w) -> In (e_params x) (owned w) /\ In (e_results x) (owned w).
Proof. intros H. split; apply in_or_app; right; apply in_flat_map; exists x; cbn; auto. Qed.
Lemma owned_given w a : In a (given w) -> In a (owned w).
Proof. intros H. apply in_or_app. auto. Qed.
Lemma nodup_exps w x y : NoDup (owned w) -> In x (exps w) -> In y (exps w) ->
  e_params x <> e_results y /\ (e_params x = e_params y -> x = y) /\ (e_results x = e_results y -> x = y).
Proof.
  unfold owned. intros H. apply nodup_app_r in H. revert H. induction (exps w) as [|z l IH]; cbn; [intros _ []|]. intros H. inversion H as [|? ? H1 H2]; subst. inversion H2 as [|? ? H3 H4]; subst.
  assert (K : forall u, In u l -> In (e_params u) (flat_map (fun x => [e_params x; e_results x]) l) /\ In (e_results u) (flat_map (fun x => [e_params x; e_results x]) l)) by (intros u Hu; split; apply in_flat_map; exists u; cbn; auto).
  intros [->|Hx] [->|Hy].
  - split; [|auto]. intros E. apply H1. left. congruence.
  - destruct (K y Hy) as [K1 K2]. split; [intros E; apply H1; right; rewrite E; auto|]. split; intros E; exfalso; [apply H1; right; rewrite E; auto|apply H3; rewrite E; auto].
  - destruct (K x Hx) as [K1 K2]. split; [intros E; apply H3; rewrite <- E; auto|]. split; intros E; exfalso; [apply H1; right; rewrite <- E; auto|apply H3; rewrite <- E; auto].
  - apply IH; auto.
Qed.
Lemma nodup_given w a x : NoDup (owned w) -> In a (given w) -> In x (exps w) -> a <> e_params x /\ a <> e_results x.
Proof.
  unfold owned. intros H Ha Hx.
  assert (K : forall b, In b (given w) -> In b (flat_map (fun x => [e_params x; e_results x]) (exps w)) -> False).
  { clear a Ha. intros b. revert H. generalize (flat_map (fun x => [e_params x; e_results x]) (exps w)). intros l. induction (given w) as [|z g IH]; cbn; [intros _ []|]. intros H. inversion H; subst. intros [->|Hb] Hl; [apply H2, in_or_app; auto|apply IH; auto]. }
  split; intros ->; apply (K _ Ha), in_flat_map; exists x; cbn; auto.
Qed.
Lemma given_inj w i j a : NoDup (owned w) -> nth_error (given w) i = Some a -> nth_error (given w) j = Some a -> i = j.
Proof. intros H E F. apply nodup_app_l in H. rewrite NoDup_nth_error in H. apply H; [apply nth_error_Some; congruence|congruence]. Qed.
Lemma exps_inj w e e' x y : NoDup (owned w) -> nth_error (exps w) e = Some x -> nth_error (exps w) e' = Some y -> (e_params x = e_params y \/ e_results x = e_results y) -> e = e'.
Proof.
  intros H E F Hxy. unfold owned in H. apply nodup_app_r in H. revert e e' E F. induction (exps w) as [|z l IH]; intros [|e] [|e'] E F; cbn in *; try discriminate; auto; inversion H as [|? ? H1 H2]; subst; inversion H2 as [|? ? H3 H4]; subst.
  - injection E as ->. apply nth_error_In in F. exfalso. destruct Hxy as [K|K]; [apply H1; right|apply H3]; rewrite K; apply in_flat_map; exists y; cbn; auto.
  - injection F as ->. apply nth_error_In in E. exfalso. destruct Hxy as [K|K]; [apply H1; right|apply H3]; rewrite <- K; apply in_flat_map; exists x; cbn; auto.
  - f_equal. apply IH; auto.
Qed.

Lemma flat_assign d k v : flat d -> (v = VObject \/ exists j, v = VJson j) -> flat (assign d k v).
Proof. intros F H k' v' E. rewrite lookup_assign in E. destruct (String.eqb k k'); [injection E as <-; auto|eapply F; eauto]. Qed.
Lemma flat_update d e : flat d -> (forall k v, In (k, v) e -> v = VObject \/ exists j, v = VJson j) -> flat (update d e).
Proof. revert d. induction e as [|[k v] e IH]; intros d F H; cbn; auto. apply IH; [apply flat_assign; auto; apply (H k v); left; auto|intros; apply (H k0 v0); right; auto]. Qed.
Lemma flat_nil : flat [].
Proof. intros k v E. discriminate. Qed.
Lemma flat_in d k v : NoDup (keys d) -> flat d -> In (k, v) d -> v = VObject \/ exists j, v = VJson j.
Proof. intros N F H. apply (F k). apply in_lookup; auto. Qed.
Lemma flat_vals d : forall k v, In (k, v) (vals_of d) -> v = VObject \/ exists j, v = VJson j.
Proof. intros k v H. apply in_map_iff in H as ([k' o] & [= <- <-] & _). destruct o; cbn; eauto. Qed.
Lemma flat_values d : forall k v, In (k, v) (values d) -> v = VObject \/ exists j, v = VJson j.
Proof. intros k v H. apply in_map_iff in H as ([k' o] & [= <- <-] & _). eauto. Qed.
Lemma based_update d e : based d -> based (update d e).
Proof. intros B k H. rewrite lookup_update. destruct (last_value e k); [discriminate|]. apply B, H. Qed.
Lemma based_assign d k v : based d -> based (assign d k v).
Proof. intros B k' H. rewrite lookup_assign. destruct (String.eqb k k'); [discriminate|]. apply B, H. Qed.

Lemma inv_item w a k v : Inv w -> In a (owned w) ->
  (In a (given w) \/ (exists x, In x (exps w) /\ a = e_params x) -> v = VObject \/ exists j, v = VJson j) ->
  (forall x, In x (exps w) -> a = e_results x -> good_results x (assign (at_ w a) k v)) ->
  Inv (item w a k v).
Proof.
  intros I Ha Hf Hr. pose proof (i_owned _ I a Ha) as L. assert (A := fun b => at_item w a k v b L). constructor.
  - intros b. rewrite A. destruct (b =? a); [apply keys_assign|]; apply I.
  - apply I.
  - intros b Hb. rewrite heap_item. apply I. exact Hb.
  - intros b Hb. rewrite heap_item. apply I. exact Hb.
  - intros b Hb. rewrite A. destruct (b =? a) eqn:E; [|apply I; exact Hb]. apply Nat.eqb_eq in E as ->. destruct Hb as [Hb|Hb]; [exfalso; apply (i_classes _ I a Hb); exact Ha|].
    apply flat_assign; [apply I; right; exact Hb|auto].
  - intros b Hb. rewrite A. destruct (b =? a) eqn:E; [|apply I; exact Hb]. apply Nat.eqb_eq in E as ->. apply based_assign. apply I. exact Hb.
  - intros x Hx. rewrite A. destruct (e_results x =? a) eqn:E; [|apply I; exact Hx]. apply Nat.eqb_eq in E. apply Hr; auto.
Qed.
Lemma inv_file w p f : Inv w -> Inv (set_file w p f).
Proof. intros I. constructor; apply I. Qed.
Lemma inv_path w e x p : Inv w -> nth_error (exps w) e = Some x ->
  Inv {| heap := heap w; classes := classes w; given := given w; files := files w;
         exps := replace (exps w) e {| e_class := e_class x; e_params := e_params x; e_results := e_results x; e_path := p |} |}.
Proof.
  intros I E. set (y := {| e_class := e_class x; e_params := e_params x; e_results := e_results x; e_path := p |}). assert (Hin : In x (exps w)) by (eapply nth_error_In; eauto).
  assert (O : forall l e, nth_error l e = Some x -> flat_map (fun x => [e_params x; e_results x]) (replace l e y) = flat_map (fun x => [e_params x; e_results x]) l).
  { induction l as [|z l IH]; intros [|e'] F; cbn in *; try discriminate; auto; [injection F as ->; reflexivity|]. rewrite IH; auto. }
  assert (R : forall z, In z (replace (exps w) e y) -> In z (exps w) \/ z = y).
  { generalize (exps w) e. clear. induction l as [|u l IH]; intros [|e] z; cbn; auto; [intros [<-|H]; auto|]. intros [<-|H]; auto. destruct (IH _ _ H); auto. }
  assert (P : forall a, (exists z, In z (replace (exps w) e y) /\ a = e_params z) -> exists z, In z (exps w) /\ a = e_params z).
  { intros a (z & Hz & ->). destruct (R z Hz) as [K| ->]; [eauto|exists x; auto]. }
  constructor; unfold owned; cbn [heap classes given exps files]; rewrite ?O by auto; try apply I.
  - intros a [H|[H|H]]; apply I; auto.
  - intros a [H|H]; apply I; auto.
  - intros z Hz. destruct (R z Hz) as [K| ->]; [apply (i_results _ I z K)|]. apply (i_results _ I x Hin).
Qed.

(** A run: changes of the dictionaries of the experiment and of files. *)
Definition fits (x : experiment) (k : string) (v : pval) : Prop :=
  (k = "parameters"%string /\ v = VDict (e_params x)) \/ (k = "t_warmup"%string /\ exists t, v = VJson (JNum t)) \/ (k = "evaluations"%string /\ exists l, v = VEvals l).
Inductive edits (b : bool) (x : experiment) (w : world) : world -> Prop :=
| ed_same : edits b x w w
| ed_param w' k j : b = true -> edits b x w w' -> edits b x w (item w' (e_params x) k (val_of j))
| ed_result w' k v : edits b x w w' -> fits x k v -> edits b x w (item w' (e_results x) k v)
| ed_file w' p f : edits b x w w' -> edits b x w (set_file w' p f).
Lemma edits_facts b x w w' : edits b x w w' -> classes w' = classes w /\ given w' = given w /\ exps w' = exps w /\ length (heap w') = length (heap w).
Proof. induction 1 as [|w' k j B0 H (A & B & C & D)|w' k v H (A & B & C & D) F|w' p f H (A & B & C & D)]; auto; rewrite ?heap_item; auto. Qed.
Lemma edits_at b x w w' : edits b x w w' -> e_params x < length (heap w) -> e_results x < length (heap w) -> forall a, a <> e_params x -> a <> e_results x -> at_ w' a = at_ w a.
Proof.
  induction 1 as [|w' k j B0 H IH|w' k v H IH F|w' p f H IH]; auto; intros L1 L2 a N1 N2; destruct (edits_facts _ _ _ _ H) as (_ & _ & _ & E).
  - rewrite at_item by lia. destruct (a =? e_params x) eqn:K; [apply Nat.eqb_eq in K; tauto|auto].
  - rewrite at_item by lia. destruct (a =? e_results x) eqn:K; [apply Nat.eqb_eq in K; tauto|auto].
Qed.
Lemma edits_params x w w' : edits false x w w' -> e_results x < length (heap w) -> e_params x <> e_results x -> at_ w' (e_params x) = at_ w (e_params x).
Proof.
  remember false as b. induction 1 as [|w' k j B0 H IH|w' k v H IH F|w' p f H IH]; auto; intros L N; [congruence|]. destruct (edits_facts _ _ _ _ H) as (_ & _ & _ & E).
  rewrite at_item by lia. destruct (e_params x =? e_results x) eqn:K; [apply Nat.eqb_eq in K; tauto|auto].
Qed.
Lemma edits_inv b x w w' : edits b x w w' -> In x (exps w) -> Inv w -> Inv w'.
Proof.
  induction 1 as [|w' k j B0 H IH|w' k v H IH F|w' p f H IH]; auto; intros Hx I; specialize (IH Hx I); destruct (edits_facts _ _ _ _ H) as (_ & _ & E & _); rewrite <- E in Hx; destruct (owned_exp _ _ Hx) as [O1 O2].
  - apply inv_item; auto; [intros _; destruct j; cbn; eauto|]. intros y Hy K. exfalso. destruct (nodup_exps w' x y (i_nodup _ IH) Hx Hy). auto.
  - apply inv_item; auto.
    + intros [G|(y & Hy & K)]; exfalso; [destruct (nodup_given w' _ x (i_nodup _ IH) G Hx); auto|destruct (nodup_exps w' y x (i_nodup _ IH) Hy Hx) as (N & _); auto].
    + intros y Hy K. assert (x = y) as <- by (apply (nodup_exps w' x y (i_nodup _ IH) Hx Hy); exact K). intros k' v' L. rewrite lookup_assign in L. destruct (String.eqb k k') eqn:Ek; [apply String.eqb_eq in Ek as <-; injection L as <-; exact F|]. apply (i_results _ IH x Hx _ _ L).
  - apply inv_file, IH.
Qed.
Lemma edits_trans b x w w1 w2 : edits b x w w1 -> edits b x w1 w2 -> edits b x w w2.
Proof. intros H. induction 1; auto; constructor; auto. Qed.
Lemma debug_edits x w : edits true x w (set_debug w x).
Proof. unfold set_debug, debug_parameters. cbn [fold_left fst snd]. unfold num. repeat (apply (ed_param _ _ _ _ _ (Some _)); [reflexivity|]). apply ed_same. Qed.
Lemma write_edits b opens w x p : edits b x w (fst (write_result opens w x p)).
Proof. unfold write_result. destruct (opens p); [|apply ed_same]. destruct (json_of w 2 (VDict (e_results x))); apply ed_file, ed_same. Qed.
Lemma run_edits {S} opens (hk : hooks S) w x debug : edits debug x w (fst (run opens hk w x debug)).
Proof.
  unfold run. set (w1 := if debug then set_debug w x else w). assert (E1 : edits debug x w w1) by (subst w1; destruct debug; [apply debug_edits|apply ed_same]).
  set (w2 := item w1 (e_results x) "parameters" (VDict (e_params x))). assert (E2 : edits debug x w w2) by (apply ed_result; [exact E1|left; auto]).
  destruct (h_init hk _) as [s|]; [|exact E2]. destruct (lookup _ "n_warmup"); [|exact E2]. destruct (h_warmup hk s p) as [[s1 t]|]; [|exact E2].
  set (w3 := item w2 (e_results x) "t_warmup" (VJson (JNum t))). assert (E3 : edits debug x w w3) by (apply ed_result; [exact E2|right; left; eauto]).
  destruct (lookup _ "n_evaluations"); [|exact E3]. destruct (h_evaluate hk s1 p0) as [l|]; [|exact E3].
  set (w4 := item w3 (e_results x) "evaluations" (VEvals l)). assert (E4 : edits debug x w w4) by (apply ed_result; [exact E3|right; right; eauto]).
  destruct (h_finish hk s1 l); [|exact E4]. destruct (e_path x); [|exact E4]. eapply edits_trans; [exact E4|apply write_edits].
Qed.

(** New dictionaries, classes and experiments *)
Lemma create_facts w c dflt o : (forall a, o = Some a -> a < length (heap w)) ->
  let w' := create w c dflt o in
  classes w' = classes w /\ given w' = given w /\ files w' = files w /\ length (heap w') = length (heap w) + 2 /\
  exps w' = exps w ++ [{| e_class := c; e_params := length (heap w); e_results := S (length (heap w)); e_path := None |}] /\
  forall b, at_ w' b = if b =? length (heap w) then match o with Some a => update (at_ w dflt) (at_ w a) | None => at_ w dflt end
                       else if b =? S (length (heap w)) then [] else at_ w b.
Proof.
  intros Ho w'. subst w'. unfold create. destruct (alloc w (at_ w dflt)) as [w1 p] eqn:E1. assert (w1 = fst (alloc w (at_ w dflt)) /\ p = length (heap w)) as [Ew1 ->] by (rewrite E1; split; [reflexivity|injection E1; auto]).
  assert (A1 : forall b, at_ w1 b = if b =? length (heap w) then at_ w dflt else at_ w b) by (intros b; rewrite Ew1; apply at_alloc).
  assert (L1 : length (heap w1) = length (heap w) + 1) by (rewrite Ew1; cbn; rewrite app_length; reflexivity).
  set (w2 := match o with Some a => put w1 (length (heap w)) (update (at_ w1 (length (heap w))) (at_ w1 a)) | None => w1 end).
  assert (L2 : length (heap w2) = length (heap w) + 1) by (subst w2; destruct o; auto; cbn; rewrite replace_length; auto).
  assert (A2 : forall b, at_ w2 b = if b =? length (heap w) then match o with Some a => update (at_ w dflt) (at_ w a) | None => at_ w dflt end else at_ w b).
  { intros b. subst w2. destruct o as [a|]; [|apply A1]. unfold at_, put, set_heap. cbn [heap]. rewrite nth_replace by lia. fold (at_ w1 b) (at_ w1 (length (heap w))) (at_ w1 a). rewrite !A1, Nat.eqb_refl.
    specialize (Ho a eq_refl). destruct (a =? length (heap w)) eqn:K; [apply Nat.eqb_eq in K; lia|]. destruct (b =? length (heap w)); reflexivity. }
  assert (N : classes w2 = classes w /\ given w2 = given w /\ files w2 = files w /\ exps w2 = exps w) by (subst w2; rewrite Ew1; destruct o; repeat split). destruct N as (N1 & N2 & N3 & N4).
  destruct (alloc w2 []) as [w3 r] eqn:E3. assert (w3 = fst (alloc w2 []) /\ r = S (length (heap w))) as [Ew3 ->] by (rewrite E3; split; [reflexivity|injection E3 as _ <-; lia]).
  cbn [classes given files heap exps]. rewrite Ew3. cbn [alloc fst set_heap classes given files heap exps]. rewrite N1, N2, N3, N4, app_length. cbn [length]. repeat split; auto; [lia|].
  intros b. change (at_ (fst (alloc w2 [])) b = if b =? length (heap w) then match o with Some a => update (at_ w dflt) (at_ w a) | None => at_ w dflt end else if b =? S (length (heap w)) then [] else at_ w b).
  rewrite at_alloc, A2, L2. destruct (b =? length (heap w) + 1) eqn:K1, (b =? length (heap w)) eqn:K2, (b =? S (length (heap w))) eqn:K3; auto; rewrite ?Nat.eqb_eq, ?Nat.eqb_neq in *; lia.
Qed.
Lemma inv_create w c dflt o : Inv w -> In dflt (classes w) -> (forall a, o = Some a -> a < length (heap w) /\ flat (at_ w a)) -> Inv (create w c dflt o).
Proof.
  intros I Hd Ho. destruct (create_facts w c dflt o) as (C1 & C2 & C3 & C4 & C5 & A); [intros a E; apply Ho; auto|]. set (w' := create w c dflt o) in *. set (x := {| e_class := c; e_params := length (heap w); e_results := S (length (heap w)); e_path := None |}) in *.
  assert (OW : owned w' = owned w ++ [length (heap w); S (length (heap w))]) by (unfold owned; rewrite C2, C5, flat_map_app, app_assoc; reflexivity).
  assert (LT : forall a, a < length (heap w) -> at_ w' a = at_ w a). { intros a La. rewrite A. destruct (a =? length (heap w)) eqn:K; [apply Nat.eqb_eq in K; lia|]. destruct (a =? S (length (heap w))) eqn:K'; [apply Nat.eqb_eq in K'; lia|reflexivity]. }
  assert (PX : forall a, (exists y, In y (exps w') /\ a = e_params y) -> (exists y, In y (exps w) /\ a = e_params y) \/ a = length (heap w)).
  { intros a (y & Hy & ->). rewrite C5 in Hy. apply in_app_or in Hy as [Hy|[<-|[]]]; [eauto|right; reflexivity]. }
  assert (NEW : at_ w' (length (heap w)) = match o with Some a => update (at_ w dflt) (at_ w a) | None => at_ w dflt end) by (rewrite A, Nat.eqb_refl; reflexivity).
  constructor.
  - intros a. rewrite A. destruct (a =? length (heap w)); [destruct o; [apply keys_update|]; apply I|]. destruct (a =? S (length (heap w))); [constructor|apply I].
  - rewrite OW. assert (N := i_nodup _ I). assert (B := i_owned _ I). revert N B. generalize (owned w). induction l as [|z l IH]; cbn; intros N B; [repeat constructor; cbn; intuition lia|]. inversion N; subst. constructor; [|apply IH; auto].
    intros K. apply in_app_or in K as [K|[K|[K|[]]]]; auto; specialize (B z (or_introl eq_refl)); lia.
  - intros a Ha. rewrite OW in Ha. rewrite C4. apply in_app_or in Ha as [Ha|[<-|[<-|[]]]]; try lia. apply (i_owned _ I) in Ha. lia.
  - intros a Ha. rewrite C1 in Ha. destruct (i_classes _ I a Ha). rewrite C4. split; [lia|]. rewrite OW. intros K. apply in_app_or in K as [K|[K|[K|[]]]]; auto; lia.
  - intros a Ha. rewrite C1, C2 in Ha. assert (FD : flat (at_ w dflt)) by (apply I; auto).
    destruct Ha as [Ha|[Ha|Ha]].
    + rewrite LT; [apply I; auto|apply (i_classes _ I a Ha)].
    + rewrite LT; [apply I; auto|apply (i_owned _ I), owned_given, Ha].
    + apply PX in Ha as [Ha| ->].
      * rewrite LT; [apply I; auto|]. destruct Ha as (y & Hy & ->). apply (i_owned _ I). apply (owned_exp w y Hy).
      * rewrite NEW. destruct o as [a|]; [|exact FD]. destruct (Ho a eq_refl) as [La Fa]. apply flat_update; [exact FD|]. intros k v K. apply (flat_in (at_ w a) k v); auto. apply I.
  - intros a Ha. rewrite C1 in Ha. assert (BD : based (at_ w dflt)) by (apply I; auto). destruct Ha as [Ha|Ha].
    + rewrite LT; [apply I; auto|apply (i_classes _ I a Ha)].
    + apply PX in Ha as [Ha| ->].
      * rewrite LT; [apply I; auto|]. destruct Ha as (y & Hy & ->). apply (i_owned _ I). apply (owned_exp w y Hy).
      * rewrite NEW. destruct o; [apply based_update|]; exact BD.
  - intros y Hy. rewrite C5 in Hy. apply in_app_or in Hy as [Hy|[<-|[]]].
    + rewrite LT; [apply I; auto|]. apply (i_owned _ I). apply (owned_exp w y Hy).
    + change (e_results x) with (S (length (heap w))). rewrite A. destruct (S (length (heap w)) =? length (heap w)) eqn:K; [apply Nat.eqb_eq in K; lia|]. rewrite Nat.eqb_refl. intros k v E. discriminate.
Qed.
(** An allocated dictionary that may get a name for the caller or be the defaults of a class *)
Lemma inv_alloc w d cs gs : Inv w -> NoDup (keys d) -> flat d -> (gs = [] \/ gs = [length (heap w)]) -> (cs = [] \/ (cs = [length (heap w)] /\ gs = [] /\ based d)) ->
  Inv {| heap := heap w ++ [d]; classes := classes w ++ cs; given := given w ++ gs; exps := exps w; files := files w |}.
Proof.
  intros I Nd Fd Hg Hc. set (w' := {| heap := heap w ++ [d]; classes := classes w ++ cs; given := given w ++ gs; exps := exps w; files := files w |}).
  assert (A : forall b, at_ w' b = if b =? length (heap w) then d else at_ w b) by (intros b; apply (at_alloc w d b)).
  assert (LT : forall a, a < length (heap w) -> at_ w' a = at_ w a). { intros a La. rewrite A. destruct (a =? length (heap w)) eqn:K; [apply Nat.eqb_eq in K; lia|reflexivity]. }
  assert (L : length (heap w') = length (heap w) + 1) by (subst w'; cbn; rewrite app_length; reflexivity).
  assert (OI : forall a, In a (owned w') <-> In a (owned w) \/ In a gs). { intros a. unfold owned, w'. cbn [given exps]. rewrite !in_app_iff. tauto. }
  assert (GS : forall a, In a gs -> a = length (heap w)) by (intros a Ha; destruct Hg as [-> | ->]; [destruct Ha|destruct Ha as [<-|[]]; reflexivity]).
  assert (CS : forall a, In a cs -> a = length (heap w) /\ gs = [] /\ based d) by (intros a Ha; destruct Hc as [-> |(-> & K1 & K2)]; [destruct Ha|destruct Ha as [<-|[]]; auto]).
  assert (CL : forall a, In a (classes w') -> In a (classes w) \/ In a cs) by (intros a Ha; apply in_app_or in Ha; exact Ha).
  constructor.
  - intros a. rewrite A. destruct (a =? length (heap w)); auto. apply I.
  - unfold owned, w'. cbn [given exps]. destruct Hg as [-> | ->]; [rewrite app_nil_r; apply I|]. rewrite <- app_assoc. cbn [app]. apply NoDup_Add with (a := length (heap w)) (l := owned w); [|split; [apply I|intros K; apply (i_owned _ I) in K; lia]].
    unfold owned. apply Add_app.
  - intros a Ha. rewrite L. apply OI in Ha as [Ha|Ha]; [apply (i_owned _ I) in Ha; lia|]. apply GS in Ha. lia.
  - intros a Ha. rewrite L, OI. apply CL in Ha as [Ha|Ha].
    + destruct (i_classes _ I a Ha). split; [lia|]. intros [K|K]; auto. apply GS in K. lia.
    + destruct (CS a Ha) as (-> & -> & _). split; [lia|]. intros [K|[]]. apply (i_owned _ I) in K. lia.
  - intros a [Ha|[Ha|(y & Hy & ->)]].
    + apply CL in Ha as [Ha|Ha]; [rewrite LT; [apply I; auto|apply (i_classes _ I a Ha)]|]. destruct (CS a Ha) as (-> & _). rewrite A, Nat.eqb_refl. exact Fd.
    + apply in_app_or in Ha as [Ha|Ha]; [rewrite LT; [apply I; auto|apply (i_owned _ I), owned_given, Ha]|]. apply GS in Ha as ->. rewrite A, Nat.eqb_refl. exact Fd.
    + rewrite LT; [apply I; eauto|]. apply (i_owned _ I). apply (owned_exp w y Hy).
  - intros a [Ha|(y & Hy & ->)].
    + apply CL in Ha as [Ha|Ha]; [rewrite LT; [apply I; auto|apply (i_classes _ I a Ha)]|]. destruct (CS a Ha) as (-> & _ & Bd). rewrite A, Nat.eqb_refl. exact Bd.
    + rewrite LT; [apply I; eauto|]. apply (i_owned _ I). apply (owned_exp w y Hy).
  - intros y Hy. rewrite LT; [apply (i_results _ I y Hy)|]. apply (i_owned _ I). apply (owned_exp w y Hy).
Qed.
Lemma inv_alias w a : Inv w -> In a (classes w) -> Inv {| heap := heap w; classes := classes w ++ [a]; given := given w; exps := exps w; files := files w |}.
Proof.
  intros I Ha. assert (K : forall b, In b (classes w ++ [a]) -> In b (classes w)) by (intros b Hb; apply in_app_or in Hb as [Hb|[<-|[]]]; auto).
  constructor; try apply I; cbn [classes].
  - intros b Hb. apply (i_classes _ I b (K b Hb)).
  - intros b [Hb|Hb]; apply I; auto.
  - intros b [Hb|Hb]; apply I; auto.
Qed.

(** One operation *)
Record frame {S} (o : op S) (w w' : world) : Prop := {
  f_inv : Inv w';
  f_classes : forall c a, nth_error (classes w) c = Some a -> nth_error (classes w') c = Some a /\ at_ w' a = at_ w a;
  f_given : forall i a, nth_error (given w) i = Some a -> nth_error (given w') i = Some a /\ (~ touches_given i o -> at_ w' a = at_ w a);
  f_exps : forall e x, nth_error (exps w) e = Some x -> exists x', nth_error (exps w') e = Some x' /\ e_class x' = e_class x /\ e_params x' = e_params x /\ e_results x' = e_results x /\
             (~ touches e o -> at_ w' (e_params x) = at_ w (e_params x)) /\ (~ runs e o -> at_ w' (e_results x) = at_ w (e_results x)) }.
Lemma apply_frame {S} (o : op S) w : Inv w -> frame o w (fst (apply o w)).
Proof.
  intros I.
  assert (SAME : frame o w w). { constructor; auto. intros e x E. exists x. auto 10. }
  assert (EXT : forall w', Inv w' -> (exists cs, classes w' = classes w ++ cs) -> (exists gs, given w' = given w ++ gs) -> (exists xs, exps w' = exps w ++ xs) -> (forall a, a < length (heap w) -> at_ w' a = at_ w a) -> frame o w w').
  { intros w' I' [cs C] [gs G] [xs X] A. constructor; auto.
    - intros c a E. rewrite C, nth_error_app1 by (apply nth_error_Some; congruence). split; [exact E|]. apply A, (i_classes _ I). eapply nth_error_In; eauto.
    - intros i a E. rewrite G, nth_error_app1 by (apply nth_error_Some; congruence). split; [exact E|]. intros _. apply A, (i_owned _ I), owned_given. eapply nth_error_In; eauto.
    - intros e x E. exists x. rewrite X, nth_error_app1 by (apply nth_error_Some; congruence). destruct (owned_exp w x (nth_error_In _ _ E)) as [E1 E2]. apply (i_owned _ I) in E1, E2. repeat split; auto. }
  assert (ALLOC : forall a d, a < length (heap w) -> nth a (heap w ++ [d]) [] = at_ w a) by (intros a d La; apply app_nth1; exact La).
  assert (CREATE : forall c dflt oa, In dflt (classes w) -> (forall a, oa = Some a -> a < length (heap w) /\ flat (at_ w a)) -> frame o w (create w c dflt oa)).
  { intros c dflt oa Hd Ha. destruct (create_facts w c dflt oa) as (C1 & C2 & C3 & C4 & C5 & A); [intros a E; apply Ha; exact E|]. apply EXT.
    - apply inv_create; auto.
    - exists []. rewrite app_nil_r. exact C1.
    - exists []. rewrite app_nil_r. exact C2.
    - eauto.
    - intros a La. rewrite A. destruct (a =? length (heap w)) eqn:K; [apply Nat.eqb_eq in K; lia|]. destruct (a =? Datatypes.S (length (heap w))) eqn:K'; [apply Nat.eqb_eq in K'; lia|reflexivity]. }
  assert (EDITS : forall b e x w', nth_error (exps w) e = Some x -> edits b x w w' -> (b = true -> touches e o) -> (runs e o \/ at_ w' (e_results x) = at_ w (e_results x)) -> frame o w w').
  { intros b e x w' E ED HB HR. assert (Hx : In x (exps w)) by (eapply nth_error_In; eauto). destruct (owned_exp w x Hx) as [O1 O2]. pose proof (i_owned _ I _ O1) as L1. pose proof (i_owned _ I _ O2) as L2.
    destruct (edits_facts _ _ _ _ ED) as (F1 & F2 & F3 & F4). pose proof (edits_at _ _ _ _ ED L1 L2) as A. destruct (nodup_exps w x x (i_nodup _ I) Hx Hx) as (Npr & _). constructor.
    - eapply edits_inv; eauto.
    - intros c a K. rewrite F1. split; [exact K|]. apply nth_error_In in K. destruct (i_classes _ I a K) as [_ K']. apply A; intros ->; auto.
    - intros i a K. rewrite F2. split; [exact K|]. intros _. apply nth_error_In in K. apply A; apply (nodup_given w a x (i_nodup _ I) K Hx).
    - intros e' y K. exists y. rewrite F3. repeat split; auto.
      + intros T. destruct (Nat.eq_dec e' e) as [->|Ne].
        * assert (y = x) as -> by congruence. destruct b; [exfalso; auto|]. eapply edits_params; eauto.
        * apply A; [intros Q; apply Ne; eapply exps_inj; [apply I|exact K|exact E|auto]|apply nodup_exps with (w := w); [apply I|eapply nth_error_In; eauto|exact Hx]].
      + intros T. destruct (Nat.eq_dec e' e) as [->|Ne].
        * assert (y = x) as -> by congruence. destruct HR as [HR|HR]; [contradiction|exact HR].
        * apply A; [|intros Q; apply Ne; eapply exps_inj; [apply I|exact K|exact E|auto]]. intros Q. symmetry in Q. revert Q. apply nodup_exps with (w := w); [apply I|exact Hx|eapply nth_error_In; eauto]. }
  destruct o as [d|i k j|c own|c i|c cfg|e k j|e p|e|e debug hk opens|i cfg opens]; cbn [apply].
  - unfold alloc. cbn [fst set_heap heap classes given exps files]. apply EXT; cbn [heap classes given exps].
    + replace (classes w) with (classes w ++ []) by apply app_nil_r. apply inv_alloc; auto; [apply keys_update; constructor|apply flat_update; [apply flat_nil|apply flat_vals]].
    + exists []. rewrite app_nil_r. reflexivity.
    + eauto.
    + exists []. rewrite app_nil_r. reflexivity.
    + intros a La. apply (ALLOC a _ La).
  - destruct (nth_error (given w) i) as [a|] eqn:E; [|exact SAME]. cbn [fst]. assert (Ha : In a (given w)) by (eapply nth_error_In; eauto). pose proof (owned_given w a Ha) as Oa. pose proof (i_owned _ I a Oa) as La.
    assert (A := fun b => at_item w a k (val_of j) b La). assert (N : forall b, b <> a -> at_ (item w a k (val_of j)) b = at_ w b). { intros b Nb. rewrite A. destruct (b =? a) eqn:K; [apply Nat.eqb_eq in K; tauto|reflexivity]. }
    constructor.
    + apply inv_item; auto; [intros _; destruct j; cbn; eauto|]. intros x Hx K. exfalso. destruct (nodup_given w a x (i_nodup _ I) Ha Hx). auto.
    + intros c b K. split; [exact K|]. apply N. intros ->. apply nth_error_In in K. apply (i_classes _ I a K). exact Oa.
    + intros i' b K. split; [exact K|]. intros T. apply N. intros ->. apply T. cbn. eapply given_inj; eauto. apply I.
    + intros e x K. exists x. repeat split; auto; intros _; apply N; apply nth_error_In in K; destruct (nodup_given w a x (i_nodup _ I) Ha K); auto.
  - destruct (nth_error (classes w) c) as [a|] eqn:E; [|exact SAME]. assert (Ha : In a (classes w)) by (eapply nth_error_In; eauto). destruct own as [d|].
    + unfold alloc. cbn [fst set_heap heap classes given exps files]. apply EXT; cbn [heap classes given exps].
      * replace (given w) with (given w ++ []) by apply app_nil_r. apply inv_alloc; auto; [apply keys_update, I|apply flat_update; [apply I; auto|apply flat_vals]|right; repeat split; apply based_update, I; auto].
      * eauto.
      * exists []. rewrite app_nil_r. reflexivity.
      * exists []. rewrite app_nil_r. reflexivity.
      * intros b Lb. apply (ALLOC b _ Lb).
    + cbn [fst]. apply EXT; cbn [heap classes given exps]; eauto; [apply inv_alias; auto|exists []; rewrite app_nil_r; reflexivity|exists []; rewrite app_nil_r; reflexivity].
  - destruct (nth_error (classes w) c) as [dflt|] eqn:E; [|exact SAME]. apply nth_error_In in E. destruct i as [i|]; [|apply CREATE; [exact E|discriminate]].
    destruct (nth_error (given w) i) as [a|] eqn:G; [|exact SAME]. apply nth_error_In in G. apply CREATE; [exact E|]. intros a' [= <-]. split; [apply (i_owned _ I), owned_given, G|apply I; auto].
  - destruct (nth_error (classes w) c) as [dflt|] eqn:E; [|exact SAME]. apply nth_error_In in E. unfold load. destruct (lookup (files w) cfg) as [[j|]|]; [|exact SAME|exact SAME].
    destruct j; try (destruct (truthy _); [exact SAME|]; apply CREATE; [exact E|discriminate]).
    unfold alloc. set (w1 := set_heap w (heap w ++ [update [] (values d)])).
    assert (I1 : Inv w1). { subst w1. unfold set_heap. replace (classes w) with (classes w ++ []) by apply app_nil_r. replace (given w) with (given w ++ []) by apply app_nil_r. apply inv_alloc; auto; [apply keys_update; constructor|apply flat_update; [apply flat_nil|apply flat_values]]. }
    assert (L1 : length (heap w1) = length (heap w) + 1) by (subst w1; cbn; rewrite app_length; reflexivity).
    assert (A1 : forall a, at_ w1 a = if a =? length (heap w) then update [] (values d) else at_ w a) by (intros a; apply (at_alloc w)).
    cbn [fst]. destruct (create_facts w1 c dflt (Some (length (heap w)))) as (C1 & C2 & C3 & C4 & C5 & A); [intros a [= <-]; lia|]. apply EXT.
    + apply inv_create; auto. intros a [= <-]. split; [change (length (heap w) < length (heap w1)); lia|]. rewrite A1, Nat.eqb_refl. apply flat_update; [apply flat_nil|apply flat_values].
    + exists []. rewrite app_nil_r. exact C1.
    + exists []. rewrite app_nil_r. exact C2.
    + eauto.
    + intros a La. assert (N1 : (a =? length (heap w1)) = false) by (apply Nat.eqb_neq; lia). assert (N2 : (a =? Datatypes.S (length (heap w1))) = false) by (apply Nat.eqb_neq; lia). assert (N3 : (a =? length (heap w)) = false) by (apply Nat.eqb_neq; lia). rewrite A, N1, N2, A1, N3. reflexivity.
  - destruct (nth_error (exps w) e) as [x|] eqn:E; [|exact SAME]. cbn [fst]. apply (EDITS true e x); auto; [apply ed_param; [reflexivity|apply ed_same]|cbn; auto|]. right.
    assert (Hx : In x (exps w)) by (eapply nth_error_In; eauto). destruct (owned_exp w x Hx) as [O1 O2]. rewrite at_item by (apply (i_owned _ I), O1). destruct (e_results x =? e_params x) eqn:K; [|reflexivity]. apply Nat.eqb_eq in K. exfalso. destruct (nodup_exps w x x (i_nodup _ I) Hx Hx) as (N & _). auto.
  - destruct (nth_error (exps w) e) as [x|] eqn:E; [|exact SAME]. cbn [fst]. constructor; cbn [classes given exps]; auto.
    + apply inv_path; auto.
    + intros e' y K. rewrite nth_error_replace by (apply nth_error_Some; congruence). destruct (e' =? e) eqn:Q; [|exists y; auto 10]. apply Nat.eqb_eq in Q as ->. assert (y = x) as -> by congruence. eexists. split; [reflexivity|]. auto 10.
  - destruct (nth_error (exps w) e) as [x|] eqn:E; [|exact SAME]. cbn [fst]. apply (EDITS true e x); auto; [apply debug_edits|cbn; auto|]. right.
    assert (Hx : In x (exps w)) by (eapply nth_error_In; eauto). destruct (owned_exp w x Hx) as [O1 O2]. pose proof (i_owned _ I _ O1) as L1. destruct (nodup_exps w x x (i_nodup _ I) Hx Hx) as (N & _).
    unfold set_debug, debug_parameters. cbn [fold_left fst snd]. rewrite !at_item by (rewrite ?heap_item; exact L1). destruct (e_results x =? e_params x) eqn:K; [apply Nat.eqb_eq in K; exfalso; auto|reflexivity].
  - destruct (nth_error (exps w) e) as [x|] eqn:E; [|exact SAME]. apply (EDITS debug e x); auto; [apply run_edits|intros ->; cbn; auto|left; cbn; auto].
  - destruct (nth_error (given w) i) as [a|] eqn:E; [|exact SAME]. unfold prepare. destruct (opens cfg); [|exact SAME].
    assert (FILE : forall f, frame (Prepare i cfg opens : op S) w (set_file w cfg f)). { intros f. apply EXT; auto; [apply inv_file; exact I| | |]; exists []; rewrite app_nil_r; reflexivity. }
    destruct (json_of w 1 (VDict a)); apply FILE.
Qed.
Lemma inv_imported fs : Inv (imported fs).
Proof.
  constructor; cbn.
  - intros [|[|a]]; cbn; [|constructor|constructor]. repeat constructor; cbn; intuition discriminate.
  - constructor.
  - intros a [].
  - intros a [<-|[]]. split; [lia|intros []].
  - intros a [[<-|[]]|[[]|(x & [] & _)]]. intros k v E. apply lookup_in in E. cbn in E. unfold num, flag, text in E. right. repeat (destruct E as [[= <- <-]|E]; [eauto|]). destruct E.
  - intros a [[<-|[]]|(x & [] & _)]. intros k H. exact H.
  - intros x [].
Qed.
Lemma reach_inv {S} (l : list (op S)) w : Inv w -> Inv (after_all l w).
Proof. revert w. induction l as [|o l IH]; intros w I; cbn; auto. apply IH. apply (f_inv _ _ _ (apply_frame o w I)). Qed.
Lemma reachable_inv {S} (l : list (op S)) w : reachable l w -> Inv w.
Proof. intros [fs ->]. apply reach_inv, inv_imported. Qed.
Lemma after_app {S} (l1 l2 : list (op S)) w : after_all (l1 ++ l2) w = after_all l2 (after_all l1 w).
Proof. revert w. induction l1; intros w; cbn; auto. Qed.
