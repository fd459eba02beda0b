(** C104 and C105: the parameters of experiments, and running them. *)
From Verif Require Import PyBase EvalModel ExpModel ExpSpec ExpProofs ExpProofs2.
From Coq Require Import Lia.
Local Open Scope list_scope.
Local Open Scope nat_scope.

(** *** C104 *)
(** The default parameters of a class are never changed, whatever is done with experiments, their parameters and the
    dictionaries of the caller. *)
Theorem C104_defaults : forall S (l1 l2 : list (op S)) fs c k, c < length (classes (after_all l1 (imported fs))) ->
  default_of (after_all (l1 ++ l2) (imported fs)) c k = default_of (after_all l1 (imported fs)) c k /\
  (forall v, default_of (after_all l1 (imported fs)) 0 k = Some v <-> exists j, v = VJson j /\ is_default k j).
Proof.
  intros S l1 l2 fs c k Hc. assert (K : forall (l : list (op S)) w c a, Inv w -> nth_error (classes w) c = Some a -> nth_error (classes (after_all l w)) c = Some a /\ at_ (after_all l w) a = at_ w a).
  { clear. induction l as [|o l IH]; intros w c a I E; cbn; auto. destruct (f_classes _ _ _ (apply_frame o w I) _ _ E) as [E1 E2]. destruct (IH _ c a (f_inv _ _ _ (apply_frame o w I)) E1) as [E3 E4]. split; auto. congruence. }
  split.
  - rewrite after_app. destruct (nth_error (classes (after_all l1 (imported fs))) c) as [a|] eqn:E; [|apply nth_error_None in E; lia]. destruct (K l2 _ c a (reach_inv l1 _ (inv_imported fs)) E) as [E1 E2]. unfold default_of. rewrite E, E1. unfold at_ in E2. rewrite E2. reflexivity.
  - destruct (K l1 _ 0 0 (inv_imported fs) eq_refl) as [E1 E2]. unfold default_of. rewrite E1. unfold at_ in E2. rewrite E2. cbn [imported heap nth]. intros v. split.
    + unfold base_parameters. cbn [lookup]. repeat match goal with |- context [if String.eqb ?a ?b then _ else _] => destruct (String.eqb_spec a b) as [K0|_]; [subst; intros [= <-]; eexists; split; [reflexivity|constructor]|] end. discriminate.
    + intros (j & -> & D). destruct D; reflexivity.
Qed.
Print Assumptions C104_defaults.

(** A new class has the default parameters of its base class, and its own before them. *)
Theorem C104_class : forall S (l : list (op S)) w c own k, reachable l w -> c < length (classes w) ->
  default_of (fst (apply (DefClass c own : op S) w)) (length (classes w)) k =
  over (match own with Some d => written d | None => fun _ => None end) (default_of w c) k.
Proof.
  intros S l w c own k R Hc. apply reachable_inv in R. unfold default_of, over. cbn [apply]. destruct (nth_error (classes w) c) as [a|] eqn:E; [|apply nth_error_None in E; lia]. destruct own as [d|].
  - unfold alloc. cbn [fst set_heap heap classes]. rewrite nth_error_app2, Nat.sub_diag by lia. cbn [nth_error]. rewrite app_nth2, Nat.sub_diag by lia. cbn [nth]. rewrite lookup_update, last_vals. reflexivity.
  - cbn [fst classes heap]. rewrite nth_error_app2, Nat.sub_diag by lia. reflexivity.
Qed.
Print Assumptions C104_class.

(** A new experiment has the parameters given, then the default ones of its class. *)
Theorem C104_new : forall S (l : list (op S)) w c i, reachable l w -> c < length (classes w) -> (forall j, i = Some j -> j < length (given w)) ->
  let w' := fst (apply (Create c i : op S) w) in let e := length (exps w) in
  snd (apply (Create c i : op S) w) = None /\ length (exps w') = Datatypes.S e /\ path_of w' e = None /\ (forall k, result w' e k = None) /\
  forall k, parameter w' e k = over (match i with Some j => given_of w j | None => fun _ => None end) (default_of w c) k.
Proof.
  intros S l w c i R Hc Hi. apply reachable_inv in R. cbn [apply]. unfold default_of. destruct (nth_error (classes w) c) as [a|] eqn:E; [|apply nth_error_None in E; lia].
  assert (K : forall o, (forall b, o = Some b -> b < length (heap w)) -> let w' := create w c a o in length (exps w') = Datatypes.S (length (exps w)) /\ path_of w' (length (exps w)) = None /\ (forall k, result w' (length (exps w)) k = None) /\
     forall k, parameter w' (length (exps w)) k = lookup (match o with Some b => update (at_ w a) (at_ w b) | None => at_ w a end) k).
  { intros o Ho w'. destruct (create_facts w c a o Ho) as (_ & _ & _ & _ & C5 & A). fold w' in C5, A. unfold path_of, result, parameter. rewrite C5, app_length, nth_error_app2, Nat.sub_diag by lia. cbn [nth_error e_path e_results e_params length].
    split; [lia|]. split; [reflexivity|]. fold (at_ w' (Datatypes.S (length (heap w)))) (at_ w' (length (heap w))). rewrite !A, Nat.eqb_refl. destruct (Datatypes.S (length (heap w)) =? length (heap w)) eqn:Q; [apply Nat.eqb_eq in Q; lia|]. rewrite Nat.eqb_refl. split; reflexivity. }
  destruct i as [j|].
  - specialize (Hi j eq_refl). unfold given_of. destruct (nth_error (given w) j) as [b|] eqn:G; [|apply nth_error_None in G; lia]. cbn [fst snd].
    assert (Lb : b < length (heap w)) by (apply (i_owned _ R), owned_given; eapply nth_error_In; eauto). destruct (K (Some b)) as (K1 & K2 & K3 & K4); [intros ? [= <-]; exact Lb|]. split; [reflexivity|]. split; [exact K1|]. split; [exact K2|]. split; [exact K3|].
    intros k. rewrite K4, lookup_update, last_lookup by apply R. reflexivity.
  - cbn [fst snd]. destruct (K None) as (K1 & K2 & K3 & K4); [discriminate|]. split; [reflexivity|]. split; [exact K1|]. split; [exact K2|]. split; [exact K3|]. exact K4.
Qed.
Print Assumptions C104_new.

(** The same for an experiment loaded from a file; a file without content (null, {}, ...) leaves the defaults. *)
Theorem C104_load : forall S (l : list (op S)) w c config d, reachable l w -> c < length (classes w) -> lookup (files w) config = Some (Some (JDict d)) ->
  let w' := fst (apply (Load c config : op S) w) in let e := length (exps w) in
  snd (apply (Load c config : op S) w) = None /\ length (exps w') = Datatypes.S e /\ path_of w' e = None /\ (forall k, result w' e k = None) /\
  forall k, parameter w' e k = over (written (map (fun kv => (fst kv, Some (snd kv))) d)) (default_of w c) k.
Proof.
  intros S l w c config d R Hc F. apply reachable_inv in R. cbn [apply]. unfold default_of. destruct (nth_error (classes w) c) as [a|] eqn:E; [|apply nth_error_None in E; lia].
  unfold load. rewrite F. unfold alloc. set (w1 := set_heap w (heap w ++ [update [] (values d)])). cbn [fst snd]. cbv zeta.
  assert (L1 : length (heap w1) = length (heap w) + 1) by (subst w1; cbn; rewrite app_length; reflexivity).
  assert (A1 : forall b, at_ w1 b = if b =? length (heap w) then update [] (values d) else at_ w b) by (intros b; apply (at_alloc w)).
  destruct (create_facts w1 c a (Some (length (heap w)))) as (_ & _ & _ & _ & C5 & A); [intros b [= <-]; change (length (heap w) < length (heap w1)); lia|]. set (w' := create w1 c a (Some (length (heap w)))) in *. split; [reflexivity|]. change (exps w1) with (exps w) in C5. change (create (set_heap w (heap w ++ [update [] (values d)])) c a (Some (length (heap w)))) with w'.
  unfold path_of, result, parameter. rewrite C5, app_length, nth_error_app2, Nat.sub_diag by lia. cbn [nth_error e_path e_results e_params length]. split; [lia|]. split; [reflexivity|]. fold (at_ w' (Datatypes.S (length (heap w1)))) (at_ w' (length (heap w1))). rewrite !A, Nat.eqb_refl.
  destruct (Datatypes.S (length (heap w1)) =? length (heap w1)) eqn:Q; [apply Nat.eqb_eq in Q; lia|]. rewrite Nat.eqb_refl. split; [reflexivity|]. intros k. rewrite !A1, Nat.eqb_refl.
  assert (La : a < length (heap w)) by (apply (i_classes _ R); eapply nth_error_In; eauto). destruct (a =? length (heap w)) eqn:Q'; [apply Nat.eqb_eq in Q'; lia|].
  rewrite lookup_update, last_lookup by (apply keys_update; constructor). rewrite lookup_update, last_values. unfold over. cbn [lookup]. destruct (written _ k); reflexivity.
Qed.
Print Assumptions C104_load.

(** Whatever is done, the parameters of an experiment only change when they are set, or for debugging. *)
Theorem C104_kept : forall S (l : list (op S)) w (o : op S) e k, reachable l w -> e < length (exps w) -> ~ touches e o -> parameter (fst (apply o w)) e k = parameter w e k.
Proof.
  intros S l w o e k R He T. apply reachable_inv in R. destruct (nth_error (exps w) e) as [x|] eqn:E; [|apply nth_error_None in E; lia].
  destruct (f_exps _ _ _ (apply_frame o w R) e x E) as (x' & E' & _ & P & _ & A & _). unfold parameter. rewrite E, E', P. specialize (A T). unfold at_ in A. rewrite A. reflexivity.
Qed.
Print Assumptions C104_kept.

Lemma debug_lookup w x k : e_params x < length (heap w) -> lookup (at_ (set_debug w x) (e_params x)) k = over debug_value (lookup (at_ w (e_params x))) k.
Proof.
  intros L. unfold set_debug, debug_parameters. cbn [fold_left fst snd]. repeat (rewrite at_item by (rewrite ?heap_item; exact L)). rewrite Nat.eqb_refl. rewrite !lookup_assign. unfold over, debug_value, num.
  rewrite !(String.eqb_sym _ k).
  destruct (String.eqb k "horizon-length") eqn:E1; [apply String.eqb_eq in E1 as ->; reflexivity|]. destruct (String.eqb k "n_particles") eqn:E2; [apply String.eqb_eq in E2 as ->; reflexivity|].
  destruct (String.eqb k "iterations") eqn:E3; [apply String.eqb_eq in E3 as ->; reflexivity|]. destruct (String.eqb k "n_evaluations") eqn:E4; [apply String.eqb_eq in E4 as ->; reflexivity|].
  destruct (String.eqb k "n_warmup"); reflexivity.
Qed.
(** The parameters during a run: the changes of the run on its parameters are made before everything else. *)
Lemma used_lookup w e x (debug : bool) k : Inv w -> nth_error (exps w) e = Some x -> lookup (at_ (if debug then set_debug w x else w) (e_params x)) k = used w e debug k.
Proof.
  intros I E. unfold used, parameter. rewrite E. destruct debug; [|reflexivity]. apply debug_lookup. apply (i_owned _ I), owned_exp. eapply nth_error_In; eauto.
Qed.
Lemma run_params {S} opens (hk : hooks S) w e x (debug : bool) : Inv w -> nth_error (exps w) e = Some x ->
  at_ (fst (run opens hk w x debug)) (e_params x) = at_ (if debug then set_debug w x else w) (e_params x).
Proof.
  intros I E. assert (Hx : In x (exps w)) by (eapply nth_error_In; eauto). destruct (owned_exp w x Hx) as [O1 O2]. apply (i_owned _ I) in O1, O2. destruct (nodup_exps w x x (i_nodup _ I) Hx Hx) as (N & _).
  set (w1 := if debug then set_debug w x else w). assert (L : length (heap w1) = length (heap w)) by (subst w1; destruct debug; [apply (edits_facts _ _ _ _ (debug_edits x w))|reflexivity]).
  assert (fst (run opens hk w x debug) = fst (run opens hk w1 x false)) as -> by reflexivity. apply (edits_params x w1); [apply run_edits|lia|exact N].
Qed.
Theorem C104_changed : forall S (l : list (op S)) w e k, reachable l w -> e < length (exps w) ->
  (forall k' v, parameter (fst (apply (SetParam e k' v : op S) w)) e k = if String.eqb k' k then Some (as_value v) else parameter w e k) /\
  parameter (fst (apply (Debug e : op S) w)) e k = over debug_value (parameter w e) k /\
  (forall debug (hk : hooks S) opens, parameter (fst (apply (Run e debug hk opens) w)) e k = used w e debug k).
Proof.
  intros S l w e k R He. apply reachable_inv in R. destruct (nth_error (exps w) e) as [x|] eqn:E; [|apply nth_error_None in E; lia]. assert (O : e_params x < length (heap w)) by (apply (i_owned _ R), owned_exp; eapply nth_error_In; eauto).
  split; [|split].
  - intros k' v. cbn [apply]. rewrite E. cbn [fst]. unfold parameter. change (exps (item w (e_params x) k' (val_of v))) with (exps w). rewrite E. fold (at_ (item w (e_params x) k' (val_of v)) (e_params x)). rewrite at_item, Nat.eqb_refl, lookup_assign by exact O. destruct v; reflexivity.
  - cbn [apply]. rewrite E. cbn [fst]. unfold parameter at 1. destruct (edits_facts _ _ _ _ (debug_edits x w)) as (_ & _ & -> & _). rewrite E. fold (at_ (set_debug w x) (e_params x)). rewrite (debug_lookup w x k O). unfold over, parameter. rewrite E. reflexivity.
  - intros debug hk opens. cbn [apply]. rewrite E. unfold parameter. destruct (edits_facts _ _ _ _ (run_edits opens hk w x debug)) as (_ & _ & -> & _). rewrite E. fold (at_ (fst (run opens hk w x debug)) (e_params x)). rewrite (run_params opens hk w e x debug R E). apply (used_lookup w e x debug k R E).
Qed.
Print Assumptions C104_changed.

(** The dictionaries of the caller are only changed by the caller. *)
Theorem C104_given : forall S (l : list (op S)) w (o : op S) i k, reachable l w -> i < length (given w) ->
  (~ touches_given i o -> given_of (fst (apply o w)) i k = given_of w i k) /\
  (forall k' v, given_of (fst (apply (SetItem i k' v : op S) w)) i k = if String.eqb k' k then Some (as_value v) else given_of w i k).
Proof.
  intros S l w o i k R Hi. apply reachable_inv in R. destruct (nth_error (given w) i) as [a|] eqn:E; [|apply nth_error_None in E; lia]. split.
  - intros T. destruct (f_given _ _ _ (apply_frame o w R) i a E) as (E' & A). unfold given_of. rewrite E, E'. specialize (A T). unfold at_ in A. rewrite A. reflexivity.
  - intros k' v. cbn [apply]. rewrite E. cbn [fst]. unfold given_of. change (given (item w a k' (val_of v))) with (given w). rewrite E. fold (at_ (item w a k' (val_of v)) a). rewrite at_item, Nat.eqb_refl, lookup_assign by (apply (i_owned _ R), owned_given; eapply nth_error_In; eauto). destruct v; reflexivity.
Qed.
Print Assumptions C104_given.

(** Every experiment always has the thirteen parameters of the base class. *)
Theorem C104_present : forall S (l : list (op S)) w e k, reachable l w -> e < length (exps w) -> In k base_keys -> parameter w e k <> None.
Proof.
  intros S l w e k R He Hk. apply reachable_inv in R. destruct (nth_error (exps w) e) as [x|] eqn:E; [|apply nth_error_None in E; lia]. unfold parameter. rewrite E.
  apply (i_based _ R (e_params x)); [right; exists x; split; [eapply nth_error_In; eauto|reflexivity]|]. cbn in Hk. repeat (destruct Hk as [<-|Hk]; [discriminate|]). destruct Hk.
Qed.
Print Assumptions C104_present.

(** After a run, results['parameters'] is the dictionary of parameters itself: it shows the parameters of the run, and the
    changes made to them later. *)
Lemma run_shows {S} opens (hk : hooks S) w e x debug : Inv w -> nth_error (exps w) e = Some x -> lookup (at_ (fst (run opens hk w x debug)) (e_results x)) "parameters" = Some (VDict (e_params x)).
Proof.
  intros I E. destruct (x_lt w e x I E) as (L1 & L2 & N).
  assert (R2 : lookup (at_ (w2 w x debug) (e_results x)) "parameters" = Some (VDict (e_params x))) by (unfold w2; rewrite at_item, Nat.eqb_refl, lookup_assign; [reflexivity|destruct (lens w x debug 0 []) as (A & _); lia]).
  assert (R3 : forall t, lookup (at_ (w3 w x debug t) (e_results x)) "parameters" = Some (VDict (e_params x))).
  { intros t. unfold w3. rewrite at_item, Nat.eqb_refl, lookup_assign; [exact R2|]. destruct (lens w x debug 0 []) as (_ & A & _). lia. }
  assert (R4 : forall t l, lookup (at_ (w4 w x debug t l) (e_results x)) "parameters" = Some (VDict (e_params x))) by (intros t l; rewrite (r4 w e x debug I E); reflexivity).
  rewrite (run_stages opens hk w e x debug I E). destruct (h_init hk _) as [s|]; [|exact R2]. destruct (lookup _ "n_warmup"); [|exact R2]. destruct (h_warmup hk s p) as [[s1 t]|]; [|exact R2].
  destruct (lookup _ "n_evaluations"); [|apply R3]. destruct (h_evaluate hk s1 p0) as [l|]; [|apply R3]. destruct (h_finish hk s1 l); [|apply R4]. destruct (e_path x) as [f|]; [|apply R4].
  unfold write_result. destruct (opens f); [|apply R4]. destruct (json_of _ 2 _); apply R4.
Qed.
Theorem C104_shown : forall S (l1 l2 : list (op S)) fs e debug (hk : hooks S) opens k, e < length (exps (after_all l1 (imported fs))) ->
  let w := after_all (l1 ++ Run e debug hk opens :: l2) (imported fs) in shown w e k = parameter w e k.
Proof.
  intros S l1 l2 fs e debug hk opens k He w. subst w. rewrite after_app. cbn [after_all]. set (w0 := after_all l1 (imported fs)) in *. assert (I0 : Inv w0) by (apply reach_inv, inv_imported).
  destruct (nth_error (exps w0) e) as [x|] eqn:E; [|apply nth_error_None in E; lia].
  assert (G : forall (l : list (op S)) w x, Inv w -> nth_error (exps w) e = Some x -> lookup (at_ w (e_results x)) "parameters" = Some (VDict (e_params x)) ->
    exists x', nth_error (exps (after_all l w)) e = Some x' /\ lookup (at_ (after_all l w) (e_results x')) "parameters" = Some (VDict (e_params x'))).
  { clear. induction l as [|o l IH]; intros w x I E K; cbn [after_all]; [eauto|]. destruct (f_exps _ _ _ (apply_frame o w I) e x E) as (x' & E' & _ & P & R & _ & A). apply (IH _ x' (f_inv _ _ _ (apply_frame o w I)) E'). rewrite P, R.
    assert (D : (exists d h p, o = Run e d h p) \/ ~ runs e o). { destruct o; cbn; auto. destruct (Nat.eq_dec e0 e) as [->|N]; eauto 10. }
    destruct D as [(d & h & p & ->)|D]; [|rewrite (A D); exact K]. cbn [apply]. rewrite E. apply (run_shows p h w e x d I E). }
  destruct (f_exps _ _ _ (apply_frame (Run e debug hk opens) w0 I0) e x E) as (x1 & E1 & _ & P1 & R1 & _).
  destruct (G l2 (fst (apply (Run e debug hk opens) w0)) x1 (f_inv _ _ _ (apply_frame _ w0 I0)) E1) as (x' & E' & K).
  { rewrite P1, R1. cbn [apply]. rewrite E. apply (run_shows opens hk w0 e x debug I0 E). }
  unfold shown, result, parameter. rewrite E'. unfold at_ in K. rewrite K. reflexivity.
Qed.
Print Assumptions C104_shown.

(** *** C105 *)
Lemma params_run {S} opens (hk : hooks S) w e x debug : Inv w -> nth_error (exps w) e = Some x -> params_of (fst (apply (Run e debug hk opens) w)) e = q w x debug.
Proof.
  intros I E. cbn [apply]. rewrite E. unfold params_of. destruct (edits_facts _ _ _ _ (run_edits opens hk w x debug)) as (_ & _ & -> & _). rewrite E. apply (run_params opens hk w e x debug I E).
Qed.
Lemma describes_json l : Forall2 describes (map json_of_evaluation l) l.
Proof.
  induction l as [|v l IH]; cbn [map]; constructor; [|exact IH]. unfold describes, json_of_evaluation, numbers, json_numbers. cbn [field lookup String.eqb Ascii.eqb Bool.eqb]. rewrite !map_map. repeat split; reflexivity.
Qed.
(** All that a run can do: fail before the evaluations are known; fail in finish_run; finish without a path; fail when the
    file cannot be opened or when a parameter cannot be written; or write the file. *)
Lemma run_cases {S} opens (hk : hooks S) w e x debug : Inv w -> nth_error (exps w) e = Some x ->
  let w' := fst (run opens hk w x debug) in let out := snd (run opens hk w x debug) in let d := q w x debug in
  ((forall s s1 t l, ~ stages hk d s s1 t l) /\ out <> None /\ files w' = files w) \/
  (exists s s1 t l, stages hk d s s1 t l /\ 
     (forall k, lookup (at_ w' (e_results x)) k = lookup (at_ (w4 w x debug t l) (e_results x)) k) /\
     ((exists er, h_finish hk s1 l = Err er /\ out = Some (Raises er) /\ files w' = files w) \/
      (h_finish hk s1 l = Ok tt /\
       match e_path x with
       | None => out = None /\ files w' = files w
       | Some p =>
           (opens p = false /\ out = Some CannotOpen /\ files w' = files w) \/
           (opens p = true /\ (exists k, lookup d k = Some VObject) /\ out = Some (Raises EType) /\ lookup (files w') p = Some None /\ forall p', p' <> p -> lookup (files w') p' = lookup (files w) p') \/
           (opens p = true /\ (forall k, lookup d k <> Some VObject) /\ out = None /\ holds w' p (lookup d) t l /\ forall p', p' <> p -> lookup (files w') p' = lookup (files w) p')
       end))).
Proof.
  intros I E w' out d. subst w' out. rewrite (run_stages opens hk w e x debug I E). fold d.
  destruct (h_init hk d) as [s|er] eqn:E1; [|left; split; [intros s s1 t l (A & _); congruence|]; split; [discriminate|]; apply (files_same w x debug 0 [])].
  destruct (lookup d "n_warmup") as [n|] eqn:E2; [|left; split; [intros s' s1 t l (A & (n & B & _) & _); congruence|]; split; [discriminate|]; apply (files_same w x debug 0 [])].
  destruct (h_warmup hk s n) as [[s1 t]|er] eqn:E3; [|left; split; [intros s' s1 t l (A & (n' & B & C) & _); congruence|]; split; [discriminate|]; apply (files_same w x debug 0 [])].
  destruct (lookup d "n_evaluations") as [m|] eqn:E4; [|left; split; [intros s' s1' t' l (A & (n' & B & C) & (m & D & _)); congruence|]; split; [discriminate|]; apply (files_same w x debug t [])].
  destruct (h_evaluate hk s1 m) as [l|er] eqn:E5; [|left; split; [intros s' s1' t' l (A & (n' & B & C) & (m' & D & F)); congruence|]; split; [discriminate|]; apply (files_same w x debug t [])].
  right. exists s, s1, t, l. split; [split; [exact E1|]; split; eauto|]. destruct (files_same w x debug t l) as (_ & _ & F4).
  destruct (h_finish hk s1 l) as [[]|er] eqn:E6; [|split; [reflexivity|]; left; exists er; auto].
  destruct (e_path x) as [p|] eqn:E7; [|split; [reflexivity|]; right; auto].
  unfold write_result. destruct (opens p) eqn:E8; [|split; [reflexivity|]; right; auto 10].
  pose proof (written_json w e x debug I E t l) as W. fold d in W. destruct (json_of (w4 w x debug t l) 2 (VDict (e_results x))) as [j|]; cbn [fst snd]; (split; [reflexivity|]); right; (split; [reflexivity|]); right.
  - right. destruct W as (D & P & -> & W1 & W2 & W3 & W4 & W5). split; [reflexivity|]. split; [exact W5|]. split; [reflexivity|].
    assert (K : forall k, in_file (set_file (w4 w x debug t l) p (Some (JDict D))) p k = lookup D k) by (intros k; unfold in_file; cbn [files set_file]; rewrite lookup_assign, String.eqb_refl; reflexivity).
    split; [|intros p' N; cbn [files set_file]; rewrite lookup_assign, F4; apply String.eqb_neq in N; rewrite String.eqb_sym, N; reflexivity].
    unfold holds. rewrite !K. split; [exact W2|]. split; [exists (map json_of_evaluation l); split; [exact W3|apply describes_json]|]. exists P. auto.
  - left. split; [reflexivity|]. split; [exact W|]. split; [reflexivity|]. cbn [files set_file]. split; [rewrite lookup_assign, String.eqb_refl; reflexivity|].
    intros p' N. rewrite lookup_assign, F4. apply String.eqb_neq in N. rewrite String.eqb_sym, N. reflexivity.
Qed.
Lemma used_q {S} (l : list (op S)) w e x debug k : reachable l w -> nth_error (exps w) e = Some x -> lookup (q w x debug) k = used w e debug k.
Proof. intros R E. apply (used_lookup w e x debug k (reachable_inv l w R) E). Qed.

(** A run succeeds exactly when the model and the policy are built, the warmup and all the evaluations succeed, with the
    numbers of iterations and of evaluations of the parameters, finish_run succeeds, and, if there is a path, the file can be
    opened and all the parameters can be written. *)
Theorem C105_run : forall S (l : list (op S)) w e debug (hk : hooks S) opens, reachable l w -> e < length (exps w) ->
  let w' := fst (apply (Run e debug hk opens) w) in let d := params_of w' e in
  (forall k, lookup d k = used w e debug k) /\
  (snd (apply (Run e debug hk opens) w) = None <->
   exists s s1 t v, stages hk d s s1 t v /\ h_finish hk s1 v = Ok tt /\ forall p, path_of w e = Some p -> opens p = true /\ writable (used w e debug)).
Proof.
  intros S l w e debug hk opens R He w' d. pose proof (reachable_inv l w R) as I. destruct (nth_error (exps w) e) as [x|] eqn:E; [|apply nth_error_None in E; lia].
  assert (Ed : d = q w x debug) by apply (params_run opens hk w e x debug I E). rewrite Ed. clear d Ed. split; [intros k; apply (used_q l w e x debug k R E)|].
  assert (Ep : path_of w e = e_path x) by (unfold path_of; rewrite E; reflexivity). rewrite Ep. pose proof (run_cases opens hk w e x debug I E) as C. cbv zeta in C. cbn [apply]. rewrite E.
  destruct C as [(C1 & C2 & _)|(s & s1 & t & v & St & _ & C)].
  - split; [intros K; tauto|]. intros (s & s1 & t & v & St & _). destruct (C1 _ _ _ _ St).
  - assert (U : forall s' s1' t' v', stages hk (q w x debug) s' s1' t' v' -> s1' = s1 /\ v' = v).
    { intros s' s1' t' v' St'. destruct St as (A & (n & B & C') & (m & D & F)), St' as (A' & (n' & B' & C'') & (m' & D' & F')). assert (s' = s) by congruence. assert (n' = n) by congruence. assert (m' = m) by congruence. subst. rewrite C' in C''. injection C'' as <- <-. split; congruence. }
    destruct C as [(er & F & -> & _)|(F & C)].
    + split; [discriminate|]. intros (s' & s1' & t' & v' & St' & F' & _). destruct (U _ _ _ _ St') as (-> & ->). congruence.
    + destruct (e_path x) as [p|]; [|split; [intros _; exists s, s1, t, v; split; [exact St|]; split; [exact F|discriminate]|intros _; apply C]].
      destruct C as [(O & -> & _)|[(O & (k & K) & -> & _)|(O & W & -> & _)]]; (split; [try discriminate|try reflexivity]).
      * intros (s' & s1' & t' & v' & _ & _ & H). destruct (H p eq_refl). congruence.
      * intros (s' & s1' & t' & v' & _ & _ & H). destruct (H p eq_refl) as [_ W]. destruct (W k). rewrite <- (used_q l w e x debug k R E). exact K.
      * intros _. exists s, s1, t, v. split; [exact St|]. split; [exact F|]. intros p' [= <-]. split; [exact O|]. intros k. rewrite <- (used_q l w e x debug k R E). apply W.
Qed.
Print Assumptions C105_run.

(** What a successful run leaves: the results in memory, and the file at the path, which holds the parameters of the run,
    the time of the warmup and the evaluations; no other file changes. *)
Theorem C105_success : forall S (l : list (op S)) w e debug (hk : hooks S) opens, reachable l w -> e < length (exps w) ->
  let w' := fst (apply (Run e debug hk opens) w) in snd (apply (Run e debug hk opens) w) = None ->
  exists s s1 t v, stages hk (params_of w' e) s s1 t v /\ h_finish hk s1 v = Ok tt /\
    result w' e "t_warmup" = Some (VJson (JNum t)) /\ result w' e "evaluations" = Some (VEvals v) /\ (forall k, shown w' e k = used w e debug k) /\
    (forall p, path_of w e = Some p -> holds w' p (used w e debug) t v) /\
    forall p, path_of w e <> Some p -> lookup (files w') p = lookup (files w) p.
Proof.
  intros S l w e debug hk opens R He w' Out. pose proof (reachable_inv l w R) as I. destruct (nth_error (exps w) e) as [x|] eqn:E; [|apply nth_error_None in E; lia].
  assert (Ed : params_of w' e = q w x debug) by apply (params_run opens hk w e x debug I E). rewrite Ed.
  assert (Ep : path_of w e = e_path x) by (unfold path_of; rewrite E; reflexivity). rewrite Ep. pose proof (run_cases opens hk w e x debug I E) as C. cbv zeta in C.
  assert (W' : w' = fst (run opens hk w x debug)) by (subst w'; cbn [apply]; rewrite E; reflexivity). cbn [apply] in Out. rewrite E in Out.
  assert (Ex : nth_error (exps w') e = Some x) by (rewrite W'; destruct (edits_facts _ _ _ _ (run_edits opens hk w x debug)) as (_ & _ & -> & _); exact E).
  clearbody w'. subst w'. destruct C as [(_ & C & _)|(s & s1 & t & v & St & Res & C)]; [tauto|]. exists s, s1, t, v. split; [exact St|].
  destruct C as [(er & _ & K & _)|(F & C)]; [congruence|]. split; [exact F|].
  assert (Sh : forall k, shown (fst (run opens hk w x debug)) e k = used w e debug k).
  { intros k. unfold shown, result. rewrite Ex. fold (at_ (fst (run opens hk w x debug)) (e_results x)). rewrite (run_shows opens hk w e x debug I E). fold (at_ (fst (run opens hk w x debug)) (e_params x)). rewrite (run_params opens hk w e x debug I E). apply (used_lookup w e x debug k I E). }
  unfold result. rewrite Ex. fold (at_ (fst (run opens hk w x debug)) (e_results x)). rewrite !Res, !(r4 w e x debug I E). split; [reflexivity|]. split; [reflexivity|]. split; [exact Sh|].
  destruct (e_path x) as [p|].
  - destruct C as [(_ & K & _)|[(_ & _ & K & _)|(_ & _ & _ & H & O)]]; try congruence. split.
    + intros p' [= <-]. destruct H as (H1 & H2 & D & H3 & H4). split; [exact H1|]. split; [exact H2|]. exists D. split; [exact H3|]. intros k. rewrite H4. apply (used_q l w e x debug k R E).
    + intros p' N. apply O. congruence.
  - destruct C as [_ ->]. split; [discriminate|reflexivity].
Qed.
Print Assumptions C105_success.

(** A run that fails writes nothing, with one exception: when the parameters cannot be written, the file at the path is left
    without its content. *)
Theorem C105_failure : forall S (l : list (op S)) w e debug (hk : hooks S) opens, reachable l w -> e < length (exps w) ->
  let w' := fst (apply (Run e debug hk opens) w) in snd (apply (Run e debug hk opens) w) <> None ->
  same_files w w' \/
  exists p, path_of w e = Some p /\ opens p = true /\ ~ writable (used w e debug) /\ (exists s s1 t v, stages hk (params_of w' e) s s1 t v) /\ lookup (files w') p = Some None /\ forall p', p' <> p -> lookup (files w') p' = lookup (files w) p'.
Proof.
  intros S l w e debug hk opens R He w' Out. pose proof (reachable_inv l w R) as I. destruct (nth_error (exps w) e) as [x|] eqn:E; [|apply nth_error_None in E; lia].
  assert (Ep : path_of w e = e_path x) by (unfold path_of; rewrite E; reflexivity). rewrite Ep. pose proof (run_cases opens hk w e x debug I E) as C. cbv zeta in C.
  assert (W' : w' = fst (run opens hk w x debug)) by (subst w'; cbn [apply]; rewrite E; reflexivity). assert (PW : params_of w' e = q w x debug) by (apply (params_run opens hk w e x debug I E)). cbn [apply] in Out. rewrite E in Out. clearbody w'. subst w'.
  unfold same_files. destruct C as [(_ & _ & ->)|(s & s1 & t & v & St & Res & C)]; [left; reflexivity|].
  destruct C as [(er & _ & _ & ->)|(F & C)]; [left; reflexivity|]. destruct (e_path x) as [p|]; [|destruct C as [_ ->]; left; reflexivity].
  destruct C as [(_ & _ & ->)|[(O & (k & K) & _ & L & Oth)|(_ & _ & K & _)]]; [left; reflexivity| |tauto].
  right. exists p. split; [reflexivity|]. split; [exact O|]. split; [intros W; apply (W k); rewrite <- (used_q l w e x debug k R E); exact K|]. split; [|auto]. rewrite PW. eauto.
Qed.
Print Assumptions C105_failure.

(** The only reasons why a run fails; a missing parameter is not one of them, except for the subclass. *)
Theorem C105_cause : forall S (l : list (op S)) w e debug (hk : hooks S) opens pb, reachable l w -> e < length (exps w) ->
  snd (apply (Run e debug hk opens) w) = Some pb -> fails opens hk (params_of (fst (apply (Run e debug hk opens) w)) e) (path_of w e) pb.
Proof.
  intros S l w e debug hk opens pb R He Out. pose proof (reachable_inv l w R) as I. destruct (nth_error (exps w) e) as [x|] eqn:E; [|apply nth_error_None in E; lia].
  rewrite (params_run opens hk w e x debug I E). assert (Ep : path_of w e = e_path x) by (unfold path_of; rewrite E; reflexivity). rewrite Ep. cbn [apply] in Out. rewrite E in Out.
  assert (PR : forall k, In k ["n_warmup"; "n_evaluations"]%string -> lookup (q w x debug) k <> None).
  { intros k Hk. rewrite (used_q l w e x debug k R E). unfold used. assert (K : parameter w e k <> None) by (apply (C104_present S l w e k R He); cbn in *; intuition). destruct debug; [|exact K]. unfold over. destruct (debug_value k); [discriminate|exact K]. }
  rewrite (run_stages opens hk w e x debug I E) in Out. set (d := q w x debug) in *.
  destruct (h_init hk d) as [s|er] eqn:E1; [|injection Out as <-; apply in_init; exact E1].
  destruct (lookup d "n_warmup") as [n|] eqn:E2; [|destruct (PR "n_warmup"%string); cbn; auto].
  destruct (h_warmup hk s n) as [[s1 t]|er] eqn:E3; [|injection Out as <-; eapply in_warmup; eauto].
  destruct (lookup d "n_evaluations") as [m|] eqn:E4; [|destruct (PR "n_evaluations"%string); cbn; auto].
  destruct (h_evaluate hk s1 m) as [v|er] eqn:E5; [|injection Out as <-; eapply in_evaluate; eauto].
  destruct (h_finish hk s1 v) as [[]|er] eqn:E6; [|injection Out as <-; eapply in_finish; [split; [exact E1|]; split; eauto|exact E6]].
  destruct (e_path x) as [p|]; [|discriminate]. unfold write_result in Out. destruct (opens p) eqn:E7; [|injection Out as <-; eapply in_open; [split; [exact E1|]; split; eauto|exact E6|reflexivity|exact E7]].
  pose proof (written_json w e x debug I E t v) as W. destruct (json_of (w4 w x debug t v) 2 (VDict (e_results x))); [discriminate|]. injection Out as <-. destruct W as (k & K). eapply in_write; [split; [exact E1|]; split; eauto|exact E6|reflexivity|exact E7|exact K].
Qed.
Print Assumptions C105_cause.

(** A file written by a run is read back as long as nothing writes it again: the returns, times and numbers of calls of the
    evaluations of the run, in order. *)
Lemma apply_files {S} (o : op S) w p : Inv w -> ~ may_write w o p -> lookup (files (fst (apply o w))) p = lookup (files w) p.
Proof.
  intros I N. destruct o; cbn [apply].
  - reflexivity.
  - destruct (nth_error (given w) i); reflexivity.
  - destruct (nth_error (classes w) c); [|reflexivity]. destruct own; reflexivity.
  - destruct (nth_error (classes w) c); [|reflexivity]. destruct i as [i|]; [|reflexivity]. destruct (nth_error (given w) i); reflexivity.
  - destruct (nth_error (classes w) c); [|reflexivity]. unfold load. destruct (lookup (files w) config) as [[j|]|]; [|reflexivity|reflexivity]. destruct j; cbn [truthy fst]; try (destruct (negb _) || destruct b || destruct l); reflexivity.
  - destruct (nth_error (exps w) e); reflexivity.
  - destruct (nth_error (exps w) e); reflexivity.
  - destruct (nth_error (exps w) e); [|reflexivity]. reflexivity.
  - destruct (nth_error (exps w) e) as [x|] eqn:E; [|reflexivity]. cbn [may_write] in N. unfold path_of in N. rewrite E in N.
    pose proof (run_cases opens hk w e x debug I E) as C. cbv zeta in C. destruct C as [(_ & _ & ->)|(s & s1 & t & v & _ & _ & C)]; [reflexivity|].
    destruct C as [(er & _ & _ & ->)|(_ & C)]; [reflexivity|]. destruct (e_path x) as [f|]; [|destruct C as [_ ->]; reflexivity]. assert (p <> f) by congruence.
    destruct C as [(_ & _ & ->)|[(_ & _ & _ & _ & C)|(_ & _ & _ & _ & C)]]; auto.
  - cbn [may_write] in N. destruct (nth_error (given w) i); [|reflexivity]. unfold prepare. destruct (opens config); [|reflexivity].
    apply String.eqb_neq in N. destruct (json_of w 1 (VDict n)); cbn [fst files set_file]; rewrite lookup_assign, N; reflexivity.
Qed.
Lemma untouched_files {S} (l : list (op S)) w p : Inv w -> untouched l w p -> lookup (files (after_all l w)) p = lookup (files w) p.
Proof.
  revert w. induction l as [|o l IH]; intros w I U; cbn [after_all]; [reflexivity|]. rewrite IH; [|apply (apply_frame o w I)|].
  - apply apply_files; [exact I|]. apply (U [] o l eq_refl).
  - intros l1 o' l2 El. apply (U (o :: l1) o' l2). rewrite El. reflexivity.
Qed.
Lemma untouched_nil {S} w p : untouched ([] : list (op S)) w p.
Proof. intros [|o1 l1] o l2 E; discriminate. Qed.
Lemma untouched_cons {S} (o : op S) l w p : ~ may_write w o p -> untouched l (fst (apply o w)) p -> untouched (o :: l) w p.
Proof. intros N U [|o1 l1] o' l2 E; cbn in E; injection E as <- E; [exact N|]. apply (U l1 o' l2 E). Qed.
Lemma read_back js v : Forall2 describes js v ->
  mapR (fun r => jget r "return") js = Ok (fst (fst (readings v))) /\ mapR (fun r => jget r "elapsed-time") js = Ok (snd (fst (readings v))) /\ mapR (fun r => jget r "simulator-calls") js = Ok (snd (readings v)).
Proof.
  induction 1 as [|j x js v (D1 & D2 & D3 & _) _ (IH1 & IH2 & IH3)]; [cbn; auto|]. destruct j; try discriminate. cbn [field] in *. cbn [mapR jget]. rewrite D1, D2, D3, IH1, IH2, IH3. cbn. auto.
Qed.
Lemma holds_read w path name f t v : holds w (result_path path name) f t v -> get_results w path name = inl (Ok (readings v)).
Proof.
  intros (_ & (js & E & D) & _). unfold get_results, in_file in *. destruct (lookup (files w) (result_path path name)) as [[[]|]|]; try discriminate. cbn [jget]. rewrite E. cbn [bind]. destruct (read_back js v D) as (-> & -> & ->). reflexivity.
Qed.
Lemma holds_same w w' p f t v : lookup (files w') p = lookup (files w) p -> holds w p f t v -> holds w' p f t v.
Proof. unfold holds, in_file. intros ->. auto. Qed.
Theorem C105_read : forall S (l l2 : list (op S)) w e debug (hk : hooks S) opens path name, reachable l w -> e < length (exps w) ->
  snd (apply (Run e debug hk opens) w) = None -> path_of w e = Some (result_path path name) ->
  let w' := fst (apply (Run e debug hk opens) w) in untouched l2 w' (result_path path name) ->
  exists s s1 t v, stages hk (params_of w' e) s s1 t v /\ get_results (after_all l2 w') path name = inl (Ok (readings v)).
Proof.
  intros S l l2 w e debug hk opens path name R He Out Ep w' U. destruct (C105_success S l w e debug hk opens R He Out) as (s & s1 & t & v & St & _ & _ & _ & _ & H & _). exists s, s1, t, v. split; [exact St|].
  assert (I' : Inv w') by (apply (apply_frame _ w (reachable_inv l w R))). apply (holds_read _ _ _ (used w e debug) t). eapply holds_same; [apply (untouched_files l2 w' _ I' U)|]. apply H, Ep.
Qed.
Print Assumptions C105_read.

(** Different names in the same directory are different files. *)
Lemma append_inj a b c : (a ++ b = a ++ c -> b = c)%string.
Proof. induction a; cbn; [auto|]. intros [= H]. auto. Qed.
Lemma append_inj_r a b c : (a ++ c = b ++ c -> a = b)%string.
Proof.
  revert b. induction a as [|x a IH]; intros [|y b] H; cbn in H; [reflexivity| | |].
  - exfalso. apply (f_equal String.length) in H. cbn in H. assert (K : forall u v, String.length (u ++ v) = String.length u + String.length v) by (induction u; cbn; intros; [reflexivity|rewrite IHu; reflexivity]). rewrite K in H. lia.
  - exfalso. apply (f_equal String.length) in H. cbn in H. assert (K : forall u v, String.length (u ++ v) = String.length u + String.length v) by (induction u; cbn; intros; [reflexivity|rewrite IHu; reflexivity]). rewrite K in H. lia.
  - injection H as -> H. rewrite (IH b H). reflexivity.
Qed.
Theorem C105_separate : forall path n1 n2, starts_slash n1 = false -> starts_slash n2 = false -> result_path path n1 = result_path path n2 -> n1 = n2.
Proof.
  intros path n1 n2 H1 H2 E. unfold result_path, path_join in E. replace (starts_slash (n1 ++ ".json")) with false in E by (destruct n1; [reflexivity|exact (eq_sym H1)]). replace (starts_slash (n2 ++ ".json")) with false in E by (destruct n2; [reflexivity|exact (eq_sym H2)]).
  apply (append_inj_r _ _ ".json"). destruct (String.eqb path "" || ends_slash path)%bool; [apply (append_inj path)|apply (append_inj path) in E; apply (append_inj "/")]; exact E.
Qed.
Print Assumptions C105_separate.

(** From the launcher to its results: the parameters of a job are written to its configuration file; another process reads
    them, runs the experiment and writes the file of results; reading that file gives the evaluations, made with the values
    of the launcher over the defaults of the class, and the debug values over both if asked for. *)
Lemma prepared {S} (l : list (op S)) w i config opens : reachable l w -> i < length (given w) -> snd (apply (Prepare i config opens : op S) w) = None ->
  exists D, lookup (files (fst (apply (Prepare i config opens : op S) w))) config = Some (Some (JDict D)) /\ forall k, written (map (fun kv => (fst kv, Some (snd kv))) D) k = given_of w i k.
Proof.
  intros R Hi Out. pose proof (reachable_inv l w R) as I. cbn [apply] in *. unfold given_of. destruct (nth_error (given w) i) as [a|] eqn:E; [|apply nth_error_None in E; lia]. unfold prepare in *. destruct (opens config); [|discriminate].
  change (json_of w 1 (VDict a)) with (match all_some (map (fun kv => (fst kv, json_of w 0 (snd kv))) (at_ w a)) with Some d => Some (JDict d) | None => None end) in *.
  assert (Ha : In a (given w)) by (eapply nth_error_In; eauto). pose proof (flat_json w (at_ w a) (i_flat _ I a (or_intror (or_introl Ha))) (i_keys _ I a) 0) as F.
  destruct (all_some (map (fun kv => (fst kv, json_of w 0 (snd kv))) (at_ w a))) as [D|] eqn:A; [|discriminate]. exists D. cbn [fst files set_file]. rewrite lookup_assign, String.eqb_refl. split; [reflexivity|]. intros k. destruct F as [F _]. fold (at_ w a). rewrite <- F, <- last_values, last_lookup.
  - unfold values. rewrite lookup_map. reflexivity.
  - assert (K : keys D = keys (at_ w a)).
    { unfold keys. rewrite (all_some_keys _ _ A), map_map. reflexivity. }
    unfold values. unfold keys in *. rewrite map_map. cbn [fst]. change (NoDup (map fst D)). rewrite K. apply (i_keys _ I a).
Qed.
Theorem C105_job : forall S (l l2 : list (op S)) w i config opens1 c (hk : hooks S) opens path name debug,
  reachable l w -> i < length (given w) -> snd (apply (Prepare i config opens1 : op S) w) = None ->
  let w1 := fst (apply (Prepare i config opens1 : op S) w) in let w2 := after_all l2 (imported (files w1)) in
  untouched l2 (imported (files w1)) config -> c < length (classes w2) ->
  let w3 := fst (run_from_arguments opens hk w2 c (Some config) (Some path) (Some name) debug) in
  snd (run_from_arguments opens hk w2 c (Some config) (Some path) (Some name) debug) = None ->
  let f := over (given_of w i) (default_of w2 c) in let f' := if debug then over debug_value f else f in
  exists s s1 t v d, (forall k, lookup d k = f' k) /\ stages hk d s s1 t v /\ h_finish hk s1 v = Ok tt /\
    holds w3 (result_path path name) f' t v /\ get_results w3 path name = inl (Ok (readings v)) /\
    forall p, p <> result_path path name -> lookup (files w3) p = lookup (files w2) p.
Proof.
  intros S l l2 w i config opens1 c hk opens path name debug R Hi Out1 w1 w2 U Hc w3 Out3 f f'.
  destruct (prepared l w i config opens1 R Hi Out1) as (D & FD & GD). fold w1 in FD.
  assert (R2 : reachable l2 w2) by (exists (files w1); reflexivity).
  assert (F2 : lookup (files w2) config = Some (Some (JDict D))) by (subst w2; rewrite (untouched_files l2 _ config (inv_imported _) U); exact FD).
  destruct (C104_load S l2 w2 c config D R2 Hc F2) as (L1 & L2 & L3 & _ & L5).
  set (m := fst (apply (Load c config : op S) w2)) in *. set (e := length (exps w2)) in *.
  assert (Em : m = after_all (l2 ++ [Load c config]) (imported (files w1))) by (rewrite after_app; reflexivity).
  set (sp := SetPath e (Some (result_path path name)) : op S). assert (R3 : reachable (l2 ++ [Load c config; sp]) (fst (apply sp m))).
  { exists (files w1). change ([Load c config; sp]) with ([Load c config] ++ [sp]). rewrite app_assoc, after_app, <- Em. reflexivity. }
  unfold run_from_arguments in Out3. subst w3. unfold run_from_arguments. fold m in Out3. rewrite L1 in Out3 |- *. fold e sp in Out3 |- *. fold m.
  assert (Ee : exists x, nth_error (exps m) e = Some x) by (destruct (nth_error (exps m) e) eqn:Q; [eauto|apply nth_error_None in Q; lia]). destruct Ee as [x Ex].
  assert (Es : fst (apply sp m) = {| heap := heap m; classes := classes m; given := given m; files := files m; exps := replace (exps m) e {| e_class := e_class x; e_params := e_params x; e_results := e_results x; e_path := Some (result_path path name) |} |}) by (cbn [apply sp]; rewrite Ex; reflexivity).
  assert (Er : nth_error (exps (fst (apply sp m))) e = Some {| e_class := e_class x; e_params := e_params x; e_results := e_results x; e_path := Some (result_path path name) |}) by (rewrite Es; cbn [exps]; rewrite nth_error_replace, Nat.eqb_refl by lia; reflexivity).
  assert (He : e < length (exps (fst (apply sp m)))) by (apply nth_error_Some; congruence).
  assert (Pp : path_of (fst (apply sp m)) e = Some (result_path path name)) by (unfold path_of; rewrite Er; reflexivity).
  assert (Pk : forall k, used (fst (apply sp m)) e debug k = f' k).
  { assert (Q : forall k, parameter (fst (apply sp m)) e k = f k) by (intros k; unfold f, over; specialize (L5 k); unfold over in L5; rewrite GD in L5; rewrite <- L5; unfold parameter; rewrite Er, Ex, Es; reflexivity).
    intros k. unfold used, f'. destruct debug; [|apply Q]. unfold over. rewrite Q. reflexivity. }
  destruct (C105_success S _ _ e debug hk opens R3 He Out3) as (s & s1 & t & v & St & Fi & _ & _ & _ & H & Oth).
  exists s, s1, t, v, (params_of (fst (apply (Run e debug hk opens) (fst (apply sp m)))) e).
  split; [intros k; rewrite <- Pk; apply (C105_run S _ _ e debug hk opens R3 He)|]. split; [exact St|]. split; [exact Fi|].
  assert (H' : holds (fst (apply (Run e debug hk opens) (fst (apply sp m)))) (result_path path name) f' t v).
  { destruct (H _ Pp) as (H1 & H2 & d & H3 & H4). split; [exact H1|]. split; [exact H2|]. exists d. split; [exact H3|]. intros k. rewrite H4. apply Pk. }
  split; [exact H'|]. split; [apply (holds_read _ _ _ _ _ _ H')|]. intros p N. rewrite Oth by congruence. rewrite Es. cbn [files]. subst m. apply apply_files; [apply (reachable_inv l2 w2 R2)|intros []].
Qed.
Print Assumptions C105_job.

(** Without a name, a path is a TypeError after the configuration is loaded, and nothing is run; an experiment that cannot
    be loaded is not run either. *)
Theorem C105_no_name : forall S (l : list (op S)) w c config path (hk : hooks S) opens debug, reachable l w -> c < length (classes w) ->
  let r := run_from_arguments opens hk w c config (Some path) None debug in
  snd r <> None /\ same_files w (fst r) /\ (config = None -> snd r = Some (Raises EType)).
Proof.
  intros S l w c config path hk opens debug R Hc r. pose proof (reachable_inv l w R) as I. subst r. unfold run_from_arguments. destruct config as [f|].
  - destruct (snd (apply (Load c f : op S) w)) eqn:E; cbn [fst snd]; (split; [discriminate|]); (split; [|discriminate]); intros p'; apply apply_files; auto.
  - assert (E : snd (apply (Create c None : op S) w) = None) by (cbn [apply]; destruct (nth_error (classes w) c) eqn:Q; [reflexivity|apply nth_error_None in Q; lia]). rewrite E. cbn [fst snd]. split; [discriminate|]. split; [|reflexivity]. intros p'. apply apply_files; auto.
Qed.
Print Assumptions C105_no_name.
Theorem C105_not_loaded : forall S (l : list (op S)) w c f path name (hk : hooks S) opens debug pb, reachable l w ->
  snd (apply (Load c f : op S) w) = Some pb -> let r := run_from_arguments opens hk w c (Some f) path name debug in snd r = Some pb /\ same_files w (fst r) /\ exps (fst r) = exps w.
Proof.
  intros S l w c f path name hk opens debug pb R E r. subst r. unfold run_from_arguments. rewrite E. cbn [fst snd]. split; [reflexivity|]. split; [intros p; apply apply_files; [apply (reachable_inv l w R)|auto]|].
  cbn [apply] in *. destruct (nth_error (classes w) c); [|reflexivity]. unfold load in *. destruct (lookup (files w) f) as [[j|]|]; [|reflexivity|reflexivity]. destruct j; cbn [snd] in E; try discriminate; try reflexivity; destruct (truthy _); try discriminate; reflexivity.
Qed.
Print Assumptions C105_not_loaded.

(** *** Examples *)
(** A program: a dictionary of parameters, a class with its own defaults, an experiment of that class. *)
Definition ex_ev (k : nat) : evaluation :=
  {| ev_record := {| r_return := 5; r_states := [0; 3]%Z; r_actions := [1]; r_observations := [0]; r_rewards := [5%Q] |}; ev_elapsed := 1 # 4; ev_calls := 10 + k |}.
(** Evaluations numbered from 0, as many as asked for; the state counts the parameters *)
Definition ex_hooks : hooks nat :=
  {| h_init := fun d => Ok (length d); h_warmup := fun s n => match n with VJson (JNum q) => Ok (s, (q / 1000)%Q) | _ => Err EType end;
     h_evaluate := fun s m => match m with VJson (JNum q) => Ok (map ex_ev (seq 0 (Z.to_nat (Qnum q)))) | _ => Err EType end; h_finish := fun _ _ => Ok tt |}.
Definition ex_dict : list (string * option json) := [("n_evaluations", Some (JNum 3)); ("p_preference", Some (JNum (1 # 2)))]%string.
Definition ex_own : list (string * option json) := [("p_preference", Some (JNum (1 # 5))); ("task", Some (JText "sequence"))]%string.
Definition ex_ops : list (op nat) := [NewDict ex_dict; DefClass 0 (Some ex_own); Create 1 (Some 0)].
Definition ex_w : world := after_all ex_ops (imported []).
Example C104_ex_reachable : reachable ex_ops ex_w /\ length (classes ex_w) = 2 /\ length (exps ex_w) = 1 /\ length (given ex_w) = 1.
Proof. split; [exists []; reflexivity|]. vm_compute. auto. Qed.
(** The dictionary of the caller goes before the class, and the class before its base. *)
Example C104_ex_new : parameter ex_w 0 "n_evaluations" = Some (VJson (JNum 3)) /\ parameter ex_w 0 "p_preference" = Some (VJson (JNum (1 # 2))) /\
  parameter ex_w 0 "task" = Some (VJson (JText "sequence")) /\ parameter ex_w 0 "n_warmup" = Some (VJson (JNum 2000)) /\
  default_of ex_w 1 "p_preference" = Some (VJson (JNum (1 # 5))) /\ default_of ex_w 0 "p_preference" = Some (VJson (JNum (3 # 10))) /\ default_of ex_w 0 "task" = None.
Proof. vm_compute. auto 10. Qed.
(** Changing the parameters of one experiment, or the dictionary it was made from, changes nothing else; results show the
    parameters as they are now. *)
Definition ex_more : list (op nat) := [Create 1 (Some 0); SetItem 0 "n_evaluations" (Some (JNum 7)); Run 0 true ex_hooks (fun _ => true); SetParam 0 "policy" None].
Example C104_ex_kept : let w := after_all ex_more ex_w in
  parameter w 0 "n_evaluations" = Some (VJson (JNum 2)) /\ parameter w 1 "n_evaluations" = Some (VJson (JNum 3)) /\ given_of w 0 "n_evaluations" = Some (VJson (JNum 7)) /\
  default_of w 1 "n_evaluations" = Some (VJson (JNum 20)) /\ shown w 0 "policy" = Some VObject /\ parameter w 1 "policy" = Some (VJson (JText "pomcp")).
Proof. vm_compute. auto 10. Qed.
(** A run with a path, read back; and the same run with a parameter that cannot be written. *)
Definition ex_path : list (op nat) := ex_ops ++ [SetPath 0 (Some (result_path "out" "first"))].
Definition ex_p : world := after_all ex_path (imported []).
Definition ex_run : op nat := Run 0 false ex_hooks (fun _ => true).
Example C105_ex_run : reachable ex_path ex_p /\ 0 < length (exps ex_p) /\ snd (apply ex_run ex_p) = None /\ path_of ex_p 0 = Some (result_path "out" "first") /\ result_path "out" "first" = "out/first.json"%string.
Proof. split; [exists []; reflexivity|]. vm_compute. auto 10. Qed.
Example C105_ex_read : let w := fst (apply ex_run ex_p) in
  get_results w "out" "first" = inl (Ok ([JNum 5; JNum 5; JNum 5], [JNum (1 # 4); JNum (1 # 4); JNum (1 # 4)], [JNum 10; JNum 11; JNum 12])) /\
  in_file w "out/first.json" "t_warmup" = Some (JNum (2000 # 1000)) /\ untouched ex_more w (result_path "out" "third") /\
  (exists d, in_file w "out/first.json" "parameters" = Some (JDict d) /\ lookup d "task" = Some (JText "sequence") /\ lookup d "p_preference" = Some (JNum (1 # 2))).
Proof.
  split; [vm_compute; reflexivity|]. split; [vm_compute; reflexivity|]. split.
  - repeat (apply untouched_cons; [intros H; vm_compute in H; exact H || discriminate H|]). apply untouched_nil.
  - eexists. split; [vm_compute; reflexivity|]. split; reflexivity.
Qed.
Example C105_ex_object : let w := fst (apply (SetParam 0 "policy" None : op nat) ex_p) in
  snd (apply ex_run w) = Some (Raises EType) /\ lookup (files (fst (apply ex_run w))) "out/first.json" = Some None /\ ~ writable (used w 0 false).
Proof. split; [vm_compute; reflexivity|]. split; [vm_compute; reflexivity|]. intros W. apply (W "policy"%string). vm_compute. reflexivity. Qed.
Example C105_ex_refused : snd (apply (Run 0 false ex_hooks (fun _ => false)) ex_p) = Some CannotOpen /\ snd (apply (SetParam 0 "n_warmup" (Some JNull) : op nat) ex_p) = None /\
  snd (apply ex_run (fst (apply (SetParam 0 "n_warmup" (Some JNull) : op nat) ex_p))) = Some (Raises EType).
Proof. vm_compute. auto. Qed.
(** A job from end to end *)
Definition ex_ready : op nat := Prepare 0 "job.conf" (fun _ => true).
Definition ex_fresh : world := after_all [DefClass 0 (Some ex_own) : op nat] (imported (files (fst (apply ex_ready ex_w)))).
Definition ex_job := run_from_arguments (fun _ => true) ex_hooks ex_fresh 1 (Some "job.conf"%string) (Some "out/"%string) (Some "first"%string) true.
Example C105_ex_job : snd (apply ex_ready ex_w) = None /\ snd ex_job = None /\ untouched [DefClass 0 (Some ex_own) : op nat] (imported (files (fst (apply ex_ready ex_w)))) "job.conf" /\
  get_results (fst ex_job) "out/" "first" = inl (Ok ([JNum 5; JNum 5], [JNum (1 # 4); JNum (1 # 4)], [JNum 10; JNum 11])) /\
  snd (run_from_arguments (fun _ => true) ex_hooks ex_fresh 1 None (Some "out/"%string) None false) = Some (Raises EType) /\
  snd (run_from_arguments (fun _ => true) ex_hooks ex_fresh 1 (Some "job2.conf"%string) (Some "out/"%string) None false) = Some CannotOpen.
Proof.
  split; [vm_compute; reflexivity|]. split; [vm_compute; reflexivity|]. split; [|vm_compute; auto].
  apply untouched_cons; [intros []|apply untouched_nil].
Qed.
