(** Proofs for the POMDP of a task whose leaves bring objects: the arguments of the constructor of POMDP and the specification. *)
From Coq Require Import Lia Lqa Field.
From Verif Require Import PyBase PyBaseFacts QBase PomdpModel PomdpSpec PomdpProofs HtmModel HtmSpec HtmProofs ConvModel NodeModel NodeSpec BringModel BringSpec NodeProofs NodeProofs2 NodeProofs3 NodeProofs4 ConvProofs ConvProofs2 ConvProofs3 BringProofs.
Local Open Scope list_scope.
Local Open Scope nat_scope.

Lemma foldM_ok_all {A S} (f : S -> A -> res S) (G : A -> Prop) l : (forall s x s', f s x = Ok s' -> G x) -> forall s s', foldM f l s = Ok s' -> Forall G l.
Proof. intros H. induction l as [|x l IH]; intros s s' E; [constructor|]. cbn [foldM] in E. destruct (f s x) as [s1|] eqn:E1; cbn [bind] in E; [|discriminate]. constructor; [apply (H _ _ _ E1)|apply (IH _ _ E)]. Qed.
Lemma bring_states_flat t : bring_states t = map (fun a => "before-" ++ name_radix (a_name a))%string (leaves t).
Proof. induction t as [a|l IH|l IH] using n2p_ind'; [reflexivity| |]; cbn [bring_states leaves]; (induction IH as [|c l H _ IHl]; cbn [flat_map]; [reflexivity|]; rewrite map_app, H, IHl; reflexivity). Qed.

Lemma T_end_eq loop n T i a s s' : bring_T_end loop n T i a s s' =
  if loop then if (s =? n - 1) && mem s' i then (1 / inject_Z (Z.of_nat (length i)))%Q else T a s s'
  else if (s =? n - 1) && (s' =? n - 1) then 1%Q else T a s s'.
Proof. destruct loop; reflexivity. Qed.
Lemma R_end_eq er loop n R a s s' o : bring_R_end er loop n R a s s' o =
  if loop then if s =? n - 1 then (- er)%Q else R a s s' o
  else if (s =? n - 1) && (s' =? n - 1) then 0%Q else if s' =? n - 1 then (R a s s' o - er)%Q else R a s s' o.
Proof. destruct loop; reflexivity. Qed.

Section Core.
  Variables cost_com cost_get cost_err end_reward : Q.
  Variable objects : list string.
  Variables loop no_answer : bool.
  Variable t : n2p string.
  Hypothesis Pt : proper t.
  Notation L := (n_leaves t).
  Notation fls := (flat t 0 [(L, 1%Q)] []).
  Notation M := (length objects).
  Notation li_t := (linfo (P := string)).

  Definition gi (li : li_t) : nat := match get_of objects (li_a li) with Ok i => i | Err _ => 0 end.
  Definition ai (li : li_t) : nat := match ask_of objects (li_a li) with Ok i => i | Err _ => 0 end.
  Definition nx (li : li_t) : list nat := map fst (li_next li).
  Definition uT (li : li_t) (a s s' : nat) (v : Q) : Q :=
    if (a =? gi li) && (s =? li_k li) && mem s' (nx li) then assigned (nx li) (map snd (li_next li)) s'
    else if (a =? gi li) && (s =? li_k li) && (s' =? li_k li) then 0%Q else if (s =? li_k li) && (s' =? li_k li) then 1%Q else v.
  Definition yes_vec : list Q := if no_answer then o_maybe_yes else o_yes.
  Definition no_vec : list Q := if no_answer then o_maybe_no else o_no.
  Definition uO (li : li_t) (a s o : nat) (v : Q) : Q :=
    if (a =? ai li) && (s =? li_k li) then nth o yes_vec 0%Q else if (a =? gi li) && mem s (nx li) then nth o o_maybe_good 0%Q else v.
  Definition uR (li : li_t) (a s s' : nat) (_ : nat) (v : Q) : Q := if (a =? gi li) && (s =? li_k li) && mem s' (nx li) then cost_get else v.

  Definition bsize : nat := S L.
  Definition bnames : list string := bring_states t ++ ["end"%string].
  Lemma bnames_length : length bnames = bsize.
  Proof. unfold bnames, bsize. rewrite app_length, bring_states_flat, map_length, n_leaves_length. cbn. lia. Qed.

  Definition known (a : action string) : Prop := exists x, obj_of a = Ok x /\ In x objects.
  Lemma known_get a : known a <-> exists i, get_of objects a = Ok i.
  Proof.
    unfold known, get_of, action_index. split.
    - intros (x & -> & H). cbn [bind]. apply (proj2 (get_in objects x)) in H. destruct (last_index_some _ _ 0 H) as [j ->]. exists j. reflexivity.
    - intros [i E]. destruct (obj_of a) as [x|]; [|discriminate]. cbn [bind] in E. exists x. split; [reflexivity|]. destruct (last_index_from 0 ("get-" ++ x) (bring_actions objects)) eqn:El; [|discriminate E]. apply last_index_in in El. apply (proj1 (get_in objects x)) in El. auto.
  Qed.
  Lemma known_ask a : known a -> exists i, ask_of objects a = Ok i.
  Proof. unfold known, ask_of, action_index. intros (x & -> & H). cbn [bind]. apply (proj2 (ask_in objects x)) in H. destruct (last_index_some _ _ 0 H) as [j ->]. exists j. reflexivity. Qed.

  Lemma fin_1 : [(L, 1%Q)] = [(L, 1%Q)] /\ [length bnames - 1] = map fst [(L, 1%Q)].
  Proof. split; [reflexivity|]. rewrite bnames_length. unfold bsize. cbn. f_equal. lia. Qed.

  Definition tT (T : tensor) : Prop := forall a s s', T a s s' = bring_T_end loop bsize (fun a s s' => fold_left (fun v li => uT li a s s' v) fls 0%Q) (map fst (inits t)) a s s'.
  Definition tO (O : tensor) : Prop := forall a s o, O a s o = fold_left (fun v li => uO li a s o v) fls (bring_init_O objects no_answer a s o).
  Definition tR (R : tensor4) : Prop := forall a s s' o, R a s s' o = bring_R_end end_reward loop bsize (fun a s s' o => fold_left (fun v li => uR li a s s' o v) fls (bring_init_R cost_com cost_err objects a s s' o)) a s s' o.

  Lemma fls_known : Forall known (leaves t) -> forall li, In li fls -> known (li_a li).
  Proof. intros F li H. rewrite Forall_forall in F. apply F. pose proof (flat_action _ _ _ _ _ H) as E. apply nth_error_In in E. auto. Qed.
  Lemma bring_core discount solver : Forall known (leaves t) -> exists T O R,
    bring_node_to_pomdp cost_com cost_get cost_err end_reward objects loop no_answer discount t solver =
      mk_pomdp (array3 (length (bring_actions objects)) bsize bsize T) (array3 (length (bring_actions objects)) bsize 4 O) (array4 (length (bring_actions objects)) bsize bsize 4 R)
        (array1 bsize (assigned (map fst (inits t)) (map snd (inits t)))) (bring_discount loop discount) (Some (map NStr bnames)) (Some (map NStr (bring_actions objects))) (Some (map NStr observations)) "cost" solver /\
    tT T /\ tO O /\ tR R.
  Proof.
    intros F. unfold bring_node_to_pomdp. fold bnames. rewrite (init_ok 1 t Pt), (start_ok t Pt). cbn [bind]. assert (E1 : map (fun x : nat * Q => 1 * fst x) (inits t) = map fst (inits t)) by (apply map_ext; intros; apply Nat.mul_1_l). rewrite E1. unfold same_length at 1. rewrite !map_length, Nat.eqb_refl. cbn [bind].
    rewrite (proj2 fin_1). change [1%Q] with (map snd [(L, 1%Q)]). unfold bring_update_T, bring_update_O, bring_update_R. rewrite !(bring_flat _ t Pt 0 [(L, 1%Q)] []).
    destruct (foldM_pt3 (bstep (bring_leaf_T objects)) uT fls) with (T := fun _ _ _ : nat => 0%Q) as (T & -> & HT).
    { intros T li Hli. unfold bstep, bring_leaf_T. destruct (proj1 (known_get _) (fls_known F li Hli)) as [g Hg]. rewrite Hg. cbn [bind]. unfold same_length. rewrite !map_length, Nat.eqb_refl. cbn [bind]. eexists. split; [reflexivity|]. intros a s s'. unfold uT, gi. rewrite Hg. reflexivity. }
    cbn [bind].
    destruct (foldM_pt3 (bstep (fun a O s_start s_next _ => bring_leaf_O objects no_answer a O s_start s_next)) uO fls) with (T := bring_init_O objects no_answer) as (O & -> & HO).
    { intros T0 li Hli. unfold bstep, bring_leaf_O. destruct (proj1 (known_get _) (fls_known F li Hli)) as [g Hg]. destruct (known_ask _ (fls_known F li Hli)) as [k Hk]. rewrite Hg, Hk. cbn [bind]. eexists. split; [reflexivity|]. intros a s s'. unfold uO, gi, ai. rewrite Hg, Hk. reflexivity. }
    cbn [bind].
    destruct (foldM_pt4 (bstep (fun a R s_start s_next _ => bring_leaf_R cost_get objects a R s_start s_next)) uR fls) with (T := bring_init_R cost_com cost_err objects) as (R & -> & HR).
    { intros T0 li Hli. unfold bstep, bring_leaf_R. destruct (proj1 (known_get _) (fls_known F li Hli)) as [g Hg]. rewrite Hg. cbn [bind]. eexists. split; [reflexivity|]. intros a s s' o. unfold uR, gi. rewrite Hg. reflexivity. }
    cbn [bind]. rewrite bnames_length. eexists _, _, _. split; [reflexivity|]. split; [|split].
    - intros a s s'. unfold bring_T_end, put3. destruct loop; rewrite HT; reflexivity.
    - exact HO.
    - intros a s s' o. unfold bring_R_end, put4. destruct loop; rewrite HR; reflexivity.
  Qed.
  Lemma bring_core_known discount solver p : bring_node_to_pomdp cost_com cost_get cost_err end_reward objects loop no_answer discount t solver = Ok p -> Forall known (leaves t).
  Proof.
    unfold bring_node_to_pomdp. fold bnames. rewrite (init_ok 1 t Pt), (start_ok t Pt). cbn [bind]. unfold same_length at 1. rewrite !map_length, Nat.eqb_refl. cbn [bind]. intros E.
    rewrite (proj2 fin_1) in E. change [1%Q] with (map snd [(L, 1%Q)]) in E. unfold bring_update_T in E. rewrite (bring_flat _ t Pt 0 [(L, 1%Q)] []) in E. match type of E with (do T <- ?g; _) = _ => destruct g as [T|] eqn:ET; cbn [bind] in E; [|discriminate E] end.
    apply (foldM_ok_all _ (fun li => known (li_a li))) in ET.
    - rewrite <- (flat_a t 0 [(L, 1%Q)] []). apply Forall_map. exact ET.
    - intros T0 li T1 E1. unfold bstep, bring_leaf_T in E1. apply known_get. destruct (get_of objects (li_a li)); [eauto|discriminate].
  Qed.

  (** *** Entries *)
  Section Entries.
    Hypothesis HN : NoDup objects.
    Hypothesis HK : Forall known (leaves t).
    Lemma finish_L : finish t = L.
    Proof. unfold finish. rewrite n_leaves_length. reflexivity. Qed.
    Lemma fetches_inj a x y : fetches objects a x -> fetches objects a y -> x = y.
    Proof. unfold fetches. congruence. Qed.
    Lemma fetches_fun a b x : fetches objects a x -> fetches objects b x -> a = b.
    Proof. unfold fetches. intros H1 H2. apply (proj1 (NoDup_nth_error objects) HN); [apply nth_error_Some; congruence|congruence]. Qed.
    Lemma asks_inj a x y : asks objects a x -> asks objects a y -> x = y.
    Proof. intros (i & -> & H1) (j & E & H2). assert (i = j) as -> by lia. congruence. Qed.
    Lemma asks_fun a b x : asks objects a x -> asks objects b x -> a = b.
    Proof. intros (i & -> & H1) (j & -> & H2). f_equal. apply (fetches_fun i j x); auto. Qed.
    Lemma fetches_lt a x : fetches objects a x -> a < M.
    Proof. unfold fetches. intros H. apply nth_error_Some. congruence. Qed.
    Lemma asks_ge a x : asks objects a x -> M <= a < M + M.
    Proof. intros (i & -> & H). assert (i < M) by (apply nth_error_Some; congruence). lia. Qed.
    Lemma action_cases a : a < length (bring_actions objects) -> (exists x, fetches objects a x) \/ (exists x, asks objects a x).
    Proof.
      rewrite actions_length. intros H. destruct (Nat.lt_ge_cases a M) as [Ha|Ha].
      - left. unfold fetches. destruct (nth_error objects a) eqn:E; [eauto|]. apply nth_error_None in E. lia.
      - right. destruct (nth_error objects (a - M)) as [x|] eqn:E; [|apply nth_error_None in E; lia]. exists x, (a - M). split; [lia|auto].
    Qed.
    Lemma obj_iff a x : obj_of a = Ok x <-> a_class a = KBring /\ a_params a = Some x.
    Proof. unfold obj_of. split; [|intros [-> ->]; reflexivity]. destruct (a_class a); try discriminate. destruct (a_params a); [|discriminate]. intros E. split; congruence. Qed.
    Lemma wants_fun k x y : wants t k x -> wants t k y -> x = y.
    Proof. intros (a & H1 & _ & H2) (b & H3 & _ & H4). congruence. Qed.
    Lemma wants_lt k x : wants t k x -> k < L.
    Proof. intros (a & H & _). rewrite n_leaves_length. apply nth_error_Some. congruence. Qed.
    Lemma leaf_facts li : In li fls -> exists x, wants t (li_k li) x /\ fetches objects (gi li) x /\ asks objects (ai li) x.
    Proof.
      intros H. destruct (fls_known HK li H) as (x & E & _). exists x. pose proof (flat_action _ _ _ _ _ H) as Ha. rewrite Nat.sub_0_r in Ha. split; [exists (li_a li); split; [auto|apply obj_iff; auto]|].
      pose proof (fls_known HK li H) as K. destruct (proj1 (known_get _) K) as [g Hg]. destruct (known_ask _ K) as [k Hk]. unfold gi, ai. rewrite Hg, Hk. unfold get_of in Hg. unfold ask_of in Hk. rewrite E in Hg, Hk. cbn [bind] in Hg, Hk. split; [apply get_index; auto|apply ask_index; auto].
    Qed.
    Lemma leaf_at s : s < L -> exists li, In li fls /\ li_k li = s.
    Proof. intros H. apply (flat_get t 0 [(L, 1%Q)] [] s H). Qed.
    Lemma leaf_wants k x : wants t k x -> exists li, In li fls /\ li_k li = k /\ fetches objects (gi li) x /\ asks objects (ai li) x.
    Proof. intros H. destruct (leaf_at k (wants_lt k x H)) as (li & Hli & <-). exists li. destruct (leaf_facts li Hli) as (y & H1 & H2 & H3). rewrite (wants_fun _ _ _ H H1). auto. Qed.
    Lemma next_site li j q : In li fls -> (In (j, q) (li_next li) <-> exists o, leads t (li_k li) o q /\ j = site t o).
    Proof.
      intros H. rewrite (flat_leads t 0 [(L, 1%Q)] [] li (li_k li) H eq_refl). split.
      - intros [(j0 & -> & Hl)|[Hl [E|[]]]]; [exists (Some j0); auto|]. exists None. assert (j = L) as -> by congruence. assert (q = 1%Q) as -> by congruence. cbn. rewrite finish_L. auto.
      - intros ([j0|] & Hl & ->); [left; exists j0; auto|]. right. pose proof (leads_none_one _ _ _ Hl) as ->. split; [auto|left; cbn; rewrite finish_L; auto].
    Qed.
    Lemma nx_site li j : In li fls -> (mem j (nx li) = true <-> exists o q, leads t (li_k li) o q /\ j = site t o).
    Proof.
      intros H. rewrite mem_In. unfold nx. rewrite in_map_iff. split.
      - intros ([i q] & <- & Hi). apply (next_site li i q H) in Hi. destruct Hi as (o & Ho & ->). eauto.
      - intros (o & q & Ho & ->). exists (site t o, q). split; [reflexivity|]. apply next_site; eauto.
    Qed.
    Lemma next_good li : In li fls -> good_next (li_k li + 1) (li_next li).
    Proof. intros H. apply (flat_good t 0 [(L, 1%Q)] [] li Pt); auto. split; [apply NoDup_cons; [intros []|apply NoDup_nil]|]. split; [discriminate|]. split; [intros x [<-|[]]; reflexivity|]. split; [reflexivity|]. intros x [<-|[]]. cbn. lia. Qed.
    Lemma next_le li x : In li fls -> In x (li_next li) -> fst x < bsize.
    Proof. intros H Hx. destruct x as [j q]. apply (next_site li j q H) in Hx. unfold bsize. destruct Hx as ([j0|] & Hl & ->); cbn; [|rewrite finish_L; lia]. pose proof (leads_bound_next t _ _ _ Hl j0 eq_refl). lia. Qed.
    Lemma assigned_look l j : NoDup (map fst l) -> assigned (map fst l) (map snd l) j = look l j.
    Proof.
      intros N. assert (E : map (fun x : nat * Q => 1 * fst x) l = map fst l) by (apply map_ext; intros; apply Nat.mul_1_l). destruct (in_dec Nat.eq_dec j (map fst l)) as [H|H].
      - rewrite <- E in H. destruct (look_map (fun q => q) 1 l j ltac:(lia) H N) as (i & q & Ej & Hi & _ & E2). rewrite E in E2. rewrite E2. symmetry. apply look_In; auto. rewrite Ej, Nat.mul_1_l. auto.
      - rewrite assigned_notin by auto. symmetry. apply look_notin. auto.
    Qed.

    Lemma uT_other li a s s' v : s <> li_k li -> uT li a s s' v = v.
    Proof. intros H. unfold uT. destruct (Nat.eqb_spec s (li_k li)); [contradiction|]. rewrite !andb_false_r. reflexivity. Qed.
    Lemma T_leaf T li a s' : tT T -> In li fls -> T a (li_k li) s' = if a =? gi li then look (li_next li) s' else if s' =? li_k li then 1%Q else 0%Q.
    Proof.
      intros HT Hli. rewrite HT. pose proof (flat_range _ _ _ _ _ Hli) as Hr. assert (E : (li_k li =? bsize - 1) = false) by (apply Nat.eqb_neq; unfold bsize; lia).
      rewrite T_end_eq, E. cbn [andb]. assert (G : fold_left (fun v li0 => uT li0 a (li_k li) s' v) fls 0%Q = uT li a (li_k li) s' 0%Q).
      { apply (fold_one (fun li0 v => uT li0 a (li_k li) s' v) fls li Hli (flat_NoDup _ _ _ _)). intros li' v H' Ne. apply uT_other. intros K. apply Ne. symmetry. apply (flat_unique _ _ _ _ _ _ Hli H' K). }
      destruct loop; rewrite G; unfold uT; rewrite Nat.eqb_refl, !andb_true_r; cbn [andb]; (destruct (Nat.eqb_spec a (gi li)); cbn [andb]; [|reflexivity]);
        (destruct (next_good li Hli) as (Nd & _ & _ & _ & Hb); unfold nx; rewrite (assigned_look _ _ Nd); destruct (mem s' (map fst (li_next li))) eqn:Em; [reflexivity|]; rewrite look_notin by (rewrite <- mem_In; rewrite Em; discriminate); destruct (s' =? li_k li); reflexivity).
    Qed.
    Definition rowL : list (nat * Q) := if loop then map (fun x => (fst x, (1 / inject_Z (Z.of_nat (length (inits t))))%Q)) (inits t) else [(L, 1%Q)].
    Lemma T_last T a s' : tT T -> T a L s' = look rowL s'.
    Proof.
      intros HT. rewrite HT. rewrite T_end_eq. unfold rowL. replace (bsize - 1) with L by (unfold bsize; lia). rewrite Nat.eqb_refl. cbn [andb].
      assert (G : fold_left (fun v li0 => uT li0 a L s' v) fls 0%Q = 0%Q). { apply (fold_none (fun li0 v => uT li0 a L s' v)). intros li v H. apply uT_other. pose proof (flat_range _ _ _ _ _ H). lia. }
      rewrite G. rewrite map_length. destruct loop.
      - destruct (mem s' (map fst (inits t))) eqn:Em.
        + apply mem_In in Em. apply in_map_iff in Em. destruct Em as ([j q] & <- & Hj). symmetry. apply look_In; [rewrite map_map; apply inits_NoDup|]. apply in_map_iff. exists (j, q). auto.
        + symmetry. apply look_notin. rewrite map_map. change (~ In s' (map fst (inits t))). rewrite <- mem_In, Em. discriminate.
      - rewrite look_cons. rewrite Nat.eqb_sym. destruct (L =? s'); reflexivity.
    Qed.
    Lemma starts_list l : NoDup l -> (forall j, In j l <-> exists r, run t r /\ starts_with r j) -> length l = length (inits t).
    Proof.
      intros N H. rewrite <- (map_length fst (inits t)). assert (HI : forall j, In j l <-> In j (map fst (inits t))).
      { intros j. rewrite H, <- (enters_run t j Pt), in_map_iff. split; [intros [q Hq]; exists (j, q); split; [reflexivity|apply inits_enters; auto]|intros ([j' q] & <- & Hx); exists q; apply inits_enters; auto]. }
      apply Nat.le_antisymm; apply NoDup_incl_length; auto; try apply inits_NoDup; intros j; apply HI.
    Qed.
    Lemma T_moves T a s s' : tT T -> s < bsize -> (forall q, moves objects loop t a s s' q -> T a s s' = q) /\ ((forall q, ~ moves objects loop t a s s' q) -> T a s s' = 0%Q).
    Proof.
      intros HT Hs. unfold bsize in Hs. assert (s < L \/ s = L) as [Hl | ->] by lia.
      - destruct (leaf_at s Hl) as (li & Hli & <-). rewrite (T_leaf T li a s' HT Hli). destruct (leaf_facts li Hli) as (x & W & F & _). destruct (next_good li Hli) as (Nd & _ & _ & _ & Hb). split.
        + intros q H. inversion H as [k y o q0 W' F' Ho E1 E2|k y W' F' E1 E2|Lo E1 E2|l j Lo N HI Hj E1 E2]; subst.
          * rewrite (wants_fun _ _ _ W' W) in F'. rewrite (fetches_fun _ _ _ F' F), Nat.eqb_refl. apply look_In; auto. apply next_site; eauto.
          * rewrite (wants_fun _ _ _ W' W) in F'. destruct (Nat.eqb_spec a (gi li)) as [->|]; [contradiction|]. rewrite Nat.eqb_refl. reflexivity.
          * rewrite finish_L in *. lia.
          * rewrite finish_L in *. lia.
        + intros H. destruct (Nat.eqb_spec a (gi li)) as [->|Na].
          * apply look_notin. intros K. apply in_map_iff in K. destruct K as ([j q] & <- & Hj). apply (next_site li j q Hli) in Hj. destruct Hj as (o & Ho & ->). apply (H q). eapply mo_right; eauto.
          * destruct (Nat.eqb_spec s' (li_k li)) as [->|]; [|reflexivity]. exfalso. apply (H 1%Q). eapply mo_other; eauto. intros K. apply Na. apply (fetches_fun _ _ _ K F).
      - rewrite (T_last T a s' HT). unfold rowL. split.
        + intros q H. inversion H as [k y o q0 W' F' Ho E1 E2|k y W' F' E1 E2|Lo E1 E2|l j Lo N HI Hj E1 E2]; subst; try (apply wants_lt in W'; lia).
          * rewrite Lo, look_cons, finish_L, Nat.eqb_refl. reflexivity.
          * rewrite Lo, (starts_list l N HI). apply look_In; [rewrite map_map; apply inits_NoDup|]. apply HI in Hj. apply (enters_run t s' Pt) in Hj. destruct Hj as [q Hq]. apply in_map_iff. exists (s', q). split; [reflexivity|apply inits_enters; auto].
        + intros H. apply look_notin. intros K. destruct loop eqn:El.
          * rewrite map_map in K. cbn [fst] in K. apply (H (1 / inject_Z (Z.of_nat (length (map fst (inits t)))))%Q). rewrite <- finish_L. apply mo_again; auto; [apply inits_NoDup|]. intros j. rewrite <- (enters_run t j Pt), in_map_iff. split; [intros ([j' q] & <- & Hx); exists q; apply inits_enters; auto|intros [q Hq]; exists (j, q); split; [reflexivity|apply inits_enters; auto]].
          * destruct K as [<-|[]]. cbn [fst] in H. apply (H 1%Q). pose proof (mo_end objects false t a eq_refl) as Hm. rewrite finish_L in Hm. exact Hm.
    Qed.
    Lemma T_dist T a s : tT T -> s < bsize -> (sum_n bsize (T a s) == 1)%Q /\ forall s', (0 <= T a s s')%Q.
    Proof.
      intros HT Hs. assert (R : exists l, (forall s', T a s s' = look l s') /\ NoDup (map fst l) /\ (forall x, In x l -> fst x < bsize /\ (0 <= snd x)%Q) /\ (sum_over l snd == 1)%Q).
      { unfold bsize in Hs. assert (s < L \/ s = L) as [Hl | ->] by lia.
        - destruct (leaf_at s Hl) as (li & Hli & <-). destruct (next_good li Hli) as (Nd & _ & Hp & Hsum & Hb). destruct (Nat.eqb_spec a (gi li)) as [->|Na].
          + exists (li_next li). split; [intros s'; rewrite (T_leaf T li _ s' HT Hli), Nat.eqb_refl; reflexivity|]. split; [auto|]. split; [|auto]. intros x Hx. split; [apply (next_le li x Hli Hx)|]. apply Qlt_le_weak, Hp; auto.
          + exists [(li_k li, 1%Q)]. split; [intros s'; rewrite (T_leaf T li _ s' HT Hli), look_cons; destruct (Nat.eqb_spec a (gi li)); [contradiction|]; rewrite Nat.eqb_sym; reflexivity|]. split; [repeat constructor; intros []|]. split; [intros x [<-|[]]; cbn; split; [unfold bsize; lia|lra]|]. cbn. lra.
        - exists rowL. split; [intros; apply T_last; auto|]. unfold rowL. destruct loop.
          + split; [rewrite map_map; apply inits_NoDup|]. pose proof (inits_ne t Pt) as Ne. assert (Z : (0 < inject_Z (Z.of_nat (length (inits t))))%Q) by (unfold Qlt; cbn; destruct (inits t); [congruence|cbn [length]; lia]). split.
            * intros x Hx. apply in_map_iff in Hx. destruct Hx as (y & <- & Hy). apply inits_bound in Hy. cbn. split; [unfold bsize; lia|]. unfold Qdiv. rewrite Qmult_1_l. apply Qlt_le_weak, Qinv_lt_0_compat. auto.
            * rewrite sum_map. cbn [snd]. rewrite sum_const. unfold Qdiv. rewrite Qmult_1_l. apply Qmult_inv_r. lra.
          + split; [repeat constructor; intros []|]. split; [intros x [<-|[]]; cbn; split; [unfold bsize; lia|lra]|]. cbn. lra. }
      destruct R as (l & E & N & B & S). split.
      - rewrite (sum_n_ext _ (T a s) (look l)) by (intros; rewrite E; reflexivity). rewrite look_sum; auto. intros x Hx. apply (B x Hx).
      - intros s'. rewrite E. apply look_nonneg. intros x Hx. apply (B x Hx).
    Qed.

    (** *** Observations *)
    Lemma brought_iff a s x : fetches objects a x -> (existsb (fun li => (a =? gi li) && mem s (nx li)) fls = true <-> just_brought t x s).
    Proof.
      intros F. rewrite existsb_exists. split.
      - intros (li & Hli & H). apply andb_prop in H. destruct H as [H1 H2]. apply Nat.eqb_eq in H1. destruct (leaf_facts li Hli) as (y & W & F' & _). rewrite <- H1 in F'. rewrite <- (fetches_inj _ _ _ F F') in W. exists (li_k li). split; [auto|]. apply (nx_site li s Hli) in H2. destruct H2 as ([j|] & q & Ho & ->).
        + left. cbn. apply (leads_some_run t _ j Pt). eauto.
        + right. assert (Hx : exists r, run t r /\ ends_with r (li_k li)) by (apply (leads_none_run t _ Pt); eauto). destruct Hx as (r & H3 & H4). exists r. auto.
      - intros (k & W & C). destruct (leaf_wants k x W) as (li & Hli & <- & F' & _). exists li. split; [auto|]. rewrite (fetches_fun _ _ _ F F'), Nat.eqb_refl. cbn [andb]. apply (nx_site li s Hli). destruct C as [C|(r & H3 & H4 & ->)].
        + apply (leads_some_run t _ s Pt) in C. destruct C as [q Hq]. exists (Some s), q. auto.
        + assert (Hx : exists q, leads t (li_k li) None q) by (apply (leads_none_run t _ Pt); eauto). destruct Hx as [q Hq]. exists None, q. auto.
    Qed.
    Lemma brought_dec a s x : fetches objects a x -> just_brought t x s \/ ~ just_brought t x s.
    Proof. intros F. rewrite <- (brought_iff a s x F). destruct (existsb (fun li => (a =? gi li) && mem s (nx li)) fls); [left; auto|right; discriminate]. Qed.
    Lemma wants_dec s x : wants t s x \/ ~ wants t s x.
    Proof. destruct (Nat.lt_ge_cases s L) as [H|H]; [|right; intros W; apply wants_lt in W; lia]. destruct (leaf_at s H) as (li & Hli & <-). destruct (leaf_facts li Hli) as (y & W & _). destruct (string_dec x y) as [->|N]; [left; auto|right; intros W'; apply N; apply (wants_fun _ _ _ W' W)]. Qed.
    Lemma O_get O a s o x : tO O -> fetches objects a x -> (just_brought t x s -> O a s o = nth o o_maybe_good 0%Q) /\ (~ just_brought t x s -> O a s o = nth o o_err 0%Q).
    Proof.
      intros HO F. rewrite HO. pose proof (fetches_lt _ _ F) as Ha.
      assert (E1 : bring_init_O objects no_answer a s o = nth o o_err 0%Q). { unfold bring_init_O, put3, is_ask, is_get. destruct (Nat.leb_spec M a); [lia|]. cbn [andb]. destruct (Nat.ltb_spec a M); [reflexivity|lia]. }
      rewrite E1. assert (E2 : forall l v, (forall li, In li l -> In li fls) -> fold_left (fun v li => uO li a s o v) l v = fold_left (fun v li => if (a =? gi li) && mem s (nx li) then nth o o_maybe_good 0%Q else v) l v).
      { induction l as [|li l IH]; intros v H; [reflexivity|]. cbn [fold_left]. rewrite IH by (intros; apply H; right; auto). f_equal. unfold uO. destruct (leaf_facts li (H li (or_introl eq_refl))) as (y & _ & _ & A). apply asks_ge in A. destruct (Nat.eqb_spec a (ai li)); [lia|]. reflexivity. }
      rewrite E2 by auto. rewrite (fold_exists (fun li => (a =? gi li) && mem s (nx li))).
      pose proof (brought_iff a s x F) as E3.
      split; intros H; [rewrite (proj2 E3 H); reflexivity|]. destruct (existsb (fun li => (a =? gi li) && mem s (nx li)) fls); [exfalso; apply H, E3; reflexivity|reflexivity].
    Qed.
    Lemma O_ask O a s o x : tO O -> asks objects a x -> (wants t s x -> O a s o = nth o yes_vec 0%Q) /\ (~ wants t s x -> O a s o = nth o no_vec 0%Q).
    Proof.
      intros HO F. rewrite HO. pose proof (asks_ge _ _ F) as Ha.
      assert (E1 : bring_init_O objects no_answer a s o = nth o no_vec 0%Q). { unfold bring_init_O, put3, is_ask, is_get. destruct (Nat.leb_spec M a); [|lia]. cbn [andb]. destruct (Nat.ltb_spec a (M + M)); [reflexivity|lia]. }
      rewrite E1. assert (E2 : forall l v, (forall li, In li l -> In li fls) -> fold_left (fun v li => uO li a s o v) l v = fold_left (fun v li => if (a =? ai li) && (s =? li_k li) then nth o yes_vec 0%Q else v) l v).
      { induction l as [|li l IH]; intros v H; [reflexivity|]. cbn [fold_left]. rewrite IH by (intros; apply H; right; auto). f_equal. unfold uO. destruct (leaf_facts li (H li (or_introl eq_refl))) as (y & _ & A & _). apply fetches_lt in A. destruct (Nat.eqb_spec a (gi li)); [lia|]. cbn [andb]. reflexivity. }
      rewrite E2 by auto. rewrite (fold_exists (fun li => (a =? ai li) && (s =? li_k li))).
      assert (E3 : existsb (fun li => (a =? ai li) && (s =? li_k li)) fls = true <-> wants t s x).
      { rewrite existsb_exists. split.
        - intros (li & Hli & H). apply andb_prop in H. destruct H as [H1 H2]. apply Nat.eqb_eq in H1. apply Nat.eqb_eq in H2. destruct (leaf_facts li Hli) as (y & W & _ & F'). rewrite <- H1 in F'. rewrite <- (asks_inj _ _ _ F F') in W. rewrite H2. auto.
        - intros W. destruct (leaf_wants s x W) as (li & Hli & <- & _ & F'). exists li. split; [auto|]. rewrite (asks_fun _ _ _ F F'), !Nat.eqb_refl. reflexivity. }
      split; intros H; [rewrite (proj2 E3 H); reflexivity|]. destruct (existsb (fun li => (a =? ai li) && (s =? li_k li)) fls); [exfalso; apply H, E3; reflexivity|reflexivity].
    Qed.

    (** *** Costs *)
    Lemma succeeds_iff a s s' : existsb (fun li => (a =? gi li) && (s =? li_k li) && mem s' (nx li)) fls = true <-> succeeds objects t a s s'.
    Proof.
      rewrite existsb_exists. split.
        - intros (li & Hli & K). apply andb_prop in K. destruct K as [K K3]. apply andb_prop in K. destruct K as [K1 K2]. apply Nat.eqb_eq in K1. apply Nat.eqb_eq in K2. destruct (leaf_facts li Hli) as (y & W & F & _). apply (nx_site li s' Hli) in K3. destruct K3 as (o' & q & Ho & E). rewrite <- K1 in F. rewrite <- K2 in W, Ho. exists y, o', q. auto.
        - intros (x & o' & q & W & F & Ho & ->). destruct (leaf_wants s x W) as (li & Hli & <- & F' & _). exists li. split; [auto|]. rewrite (fetches_fun _ _ _ F F'), !Nat.eqb_refl. cbn [andb]. apply (nx_site li _ Hli). eauto.
    Qed.
    Lemma effort_ex a s s' : a < length (bring_actions objects) -> exists c, effort cost_com cost_get cost_err objects t a s s' c.
    Proof.
      intros Ha. destruct (action_cases a Ha) as [[x F]|[x A]]; [|eexists; eapply ef_ask; eauto]. pose proof (succeeds_iff a s s') as E. destruct (existsb (fun li => (a =? gi li) && (s =? li_k li) && mem s' (nx li)) fls).
      - eexists. eapply ef_get; eauto. apply E; auto.
      - eexists. eapply ef_err; eauto. intros K. apply E in K. discriminate.
    Qed.
    Lemma spends_ex a s s' : a < length (bring_actions objects) -> exists c, spends cost_com cost_get cost_err end_reward objects loop t a s s' c.
    Proof.
      intros Ha. destruct (effort_ex a s s' Ha) as [c Hc]. destruct loop eqn:Lo; destruct (Nat.eq_dec s (finish t)) as [Es|Es]; destruct (Nat.eq_dec s' (finish t)) as [Es'|Es'];
        eexists; first [eapply sp_loop_end; eauto; fail|eapply sp_loop; eauto; fail|eapply sp_stay; eauto; fail|eapply sp_end; eauto; fail|eapply sp_other; eauto].
    Qed.
    Lemma R_base a s s' o : a < length (bring_actions objects) -> forall c, effort cost_com cost_get cost_err objects t a s s' c -> fold_left (fun v li => uR li a s s' o v) fls (bring_init_R cost_com cost_err objects a s s' o) = c.
    Proof.
      intros Ha c H. unfold uR. rewrite (fold_exists (fun li => (a =? gi li) && (s =? li_k li) && mem s' (nx li))).
      pose proof (succeeds_iff a s s') as E3.
      assert (I : bring_init_R cost_com cost_err objects a s s' o = if a <? M then cost_err else cost_com).
      { rewrite actions_length in Ha. unfold bring_init_R, put4, is_ask, is_get. destruct (Nat.ltb_spec a M); destruct (Nat.leb_spec M a); try lia; cbn [andb]; [reflexivity|]. destruct (Nat.ltb_spec a (M + M)); [reflexivity|lia]. }
      rewrite I. destruct H as [x A|x F S|x F S].
      - pose proof (asks_ge _ _ A). destruct (existsb _ fls); [exfalso; destruct (proj1 E3 eq_refl) as (y & o' & q & _ & F & _); apply fetches_lt in F; lia|]. destruct (Nat.ltb_spec a M); [lia|reflexivity].
      - rewrite (proj2 E3 S). reflexivity.
      - apply fetches_lt in F. destruct (existsb _ fls); [exfalso; apply S, E3; reflexivity|]. destruct (Nat.ltb_spec a M); [reflexivity|lia].
    Qed.
    Lemma R_spends R a s s' o : tR R -> a < length (bring_actions objects) -> forall c, spends cost_com cost_get cost_err end_reward objects loop t a s s' c -> R a s s' o = c.
    Proof.
      intros HR Ha c H. rewrite HR. rewrite R_end_eq. replace (bsize - 1) with L by (unfold bsize; lia). pose proof finish_L as FL.
      destruct H as [Lo ->|c Lo Ns E|Lo -> ->|c Lo Ns -> E|c Lo Ns E]; rewrite Lo; rewrite ?FL in *.
      - rewrite Nat.eqb_refl. reflexivity.
      - destruct (Nat.eqb_spec s L); [contradiction|]. apply R_base; auto.
      - rewrite Nat.eqb_refl. reflexivity.
      - rewrite Nat.eqb_refl. destruct (Nat.eqb_spec s L); [contradiction|]. cbn [andb]. rewrite (R_base a s L o Ha c E). reflexivity.
      - destruct (Nat.eqb_spec s' L); [contradiction|]. rewrite andb_false_r. apply R_base; auto.
    Qed.
  End Entries.
End Core.
