(** Properties C17 to C25: hierarchical task trees. *)
From Verif Require Import PyBase PyBaseFacts HtmModel HtmSpec HtmProofs.
From Coq Require Import Sorted Factorial.

Definition ex_action (k : aclass) (name agent : string) : action nat :=
  {| a_class := k; a_name := name; a_agent := agent; a_params := Some 7 |}.
Definition ex_leaf (k : aclass) (name agent : string) (i : Z) : comb nat :=
  Leaf (ex_action k name agent) (Some i) None false.
(** Mount legs (in any order) then hand over, or wait. *)
Definition ex_tree (k : aclass) : comb nat :=
  Node Sequential
    [ex_leaf k "Get Top" "robot" 1;
     Node Parallel [ex_leaf k "Leg 1" "human" 3; ex_leaf k "Leg 2" "human" 4] (Some 2%Z) None "Legs" true None;
     Node Alternative [ex_leaf k "Hand over" "human" 6; ex_leaf k "Wait" "robot" 7] (Some 5%Z) None "End" false
       (Some [1 # 2; 1 # 2])%Q]
    (Some 0%Z) None "Stool" false None.

(** ** C17 *)
Theorem C17_export_ids : forall (P : Type) (r : comb P) (name : option string),
  exists d, task_as_dictionary (Some r) name
            = (match name with None => "Hierarchical task tree"%string | Some n => n end, Some d) /\
    shows r d /\
    map d_id (dnodes d) = map Z.of_nat (seq 0 (length (preorder r))) /\
    d_parent d = None /\
    (forall x y, In x (dnodes d) -> In y (d_children x) -> d_parent y = Some (d_id x)).
Proof.
  intros P r name. pose proof (as_dictionary_spec r None 0%Z) as H.
  unfold task_as_dictionary. destruct (as_dictionary r None 0%Z) as [d g].
  destruct H as (H1 & H2 & H3 & _ & H5). exists d. cbn [fst]. repeat split; auto.
Qed.
Print Assumptions C17_export_ids.
Theorem C17_export_empty : forall (P : Type) (name : option string),
  snd (task_as_dictionary (P := P) None name) = None.
Proof. reflexivity. Qed.
Print Assumptions C17_export_empty.
Example C17_ex : exists d, snd (task_as_dictionary (Some (ex_tree KAbstract)) None) = Some d /\
  map d_id (dnodes d) = [0; 1; 2; 3; 4; 5; 6; 7]%Z /\
  map d_parent (dnodes d) = [None; Some 0; Some 0; Some 2; Some 2; Some 0; Some 5; Some 5]%Z.
Proof. eexists; split; [reflexivity|split; reflexivity]. Qed.

(** ** C18. [children], [name] and [hl] are those of the parallel combination. *)
Theorem C18_all_orders : forall (P : Type) (children : list (comb P)) (name : string) (hl : bool),
  Forall constructed children ->
  (forall c a i p h, In c children -> In (Leaf a i p h) (preorder c) -> has_copy a) ->
  exists orders seqs,
    to_alternative children name hl
    = Ok (Node Alternative seqs None None name hl (Some (repeat (1 # Pos.of_nat (length seqs))%Q (length seqs)))) /\
    (* every order of the positions once, in lexicographic order *)
    StronglySorted lex_lt orders /\ NoDup orders /\
    (forall o, In o orders <-> Permutation o (seq 0 (length children))) /\
    length orders = fact (length children) /\ length seqs = fact (length children) /\
    (* the i-th sequence *)
    forall i s, nth_error seqs i = Some s ->
      exists o cs, nth_error orders i = Some o /\
        s = Node Sequential cs None None (name ++ " order-" ++ str_nat i)%string false None /\
        Forall2 (fun k c => exists c0, nth_error children k = Some c0 /\
                   copied copy_action (fun n => n ++ " order-" ++ str_nat i)%string c0 c) o cs.
Proof.
  intros P ch name hl Hc Hcp.
  assert (Hok : forall c x, In c ch -> In x (preorder c) -> copy_ok x).
  { intros c x Hin; rewrite Forall_forall in Hc; apply constructed_copy_ok; auto. }
  destruct (to_alternative_ok ch name hl Hok Hcp) as [seqs [E [Hl H]]].
  assert (Hs : StronglySorted lex_lt (permutations (seq 0 (length ch)))) by (apply perms_n_sorted; [auto|apply seq_sorted]).
  exists (permutations (seq 0 (length ch))), seqs. split; [exact E|]. split; [exact Hs|].
  split.
  { assert (Hirr : forall p, ~ lex_lt p p).
    { induction p as [|x p IH]; intros Hp; inversion Hp; subst; [lia|auto]. }
    clear - Hs Hirr. induction Hs as [|x t Ht IH HF]; constructor; auto.
    rewrite Forall_forall in HF. intros Hin; apply (Hirr x); auto. }
  split; [intros o; apply perms_n_In; auto|].
  split; [unfold permutations; rewrite perms_n_length; auto; apply f_equal, seq_length|]. split; auto.
Qed.
Print Assumptions C18_all_orders.

(** With CollaborativeActions of task_to_pomdp the parameters of the actions are kept... *)
Theorem C18_parameters_kept_partial : forall (P : Type) (fmt : string -> string) (c : comb P),
  constructed c ->
  (forall a i p h, In (Leaf a i p h) (preorder c) -> a_class a = KCollab) ->
  exists c', deep_copy fmt c = Ok c' /\ copied same_params fmt c c'.
Proof.
  intros P fmt c Hc Hk. destruct (deep_copy_ok fmt c) as [c' [E H]].
  - intros x Hx; eapply constructed_copy_ok; eauto.
  - intros a i p h Hin; apply Hk in Hin; split; congruence.
  - exists c'; split; auto. eapply copied_mono; [|exact H]. intros a i p h a' Hin [Ha _]; eauto.
Qed.
Print Assumptions C18_parameters_kept_partial.
(** ... and with those of supportive and bring_next_to_pomdp they are lost, whatever the tree. *)
Theorem C18_parameters_refuted : forall (P : Type) (children : list (comb P)) (name : string) (hl : bool),
  Forall constructed children ->
  (forall c a i p h, In c children -> In (Leaf a i p h) (preorder c) -> a_class a = KSupported \/ a_class a = KBring) ->
  exists alt, to_alternative children name hl = Ok alt /\
    forall a i p h, In (Leaf a i p h) (preorder alt) -> a_params a = None /\ a_class a = KAbstract.
Proof.
  intros P ch name hl Hc Hk.
  destruct (C18_all_orders P ch name hl Hc) as [orders [seqs [E [_ [_ [_ [_ [_ H]]]]]]]].
  { intros c a i p h H1 H2; destruct (Hk c a i p h H1 H2); split; congruence. }
  eexists; split; [exact E|]. intros a i p h Hin. cbn [preorder] in Hin. destruct Hin as [Hin|Hin]; [discriminate|].
  apply in_flat_map in Hin. destruct Hin as [s [Hs Hin]]. apply In_nth_error in Hs. destruct Hs as [k Hs].
  destruct (H k s Hs) as [o [cs [_ [-> HF]]]]. cbn [preorder] in Hin. destruct Hin as [Hin|Hin]; [discriminate|].
  apply in_flat_map in Hin. destruct Hin as [c [Hcs Hin]].
  assert (HX : exists c0, In c0 ch /\ copied copy_action (fun n => n ++ " order-" ++ str_nat k)%string c0 c).
  { clear - HF Hcs. induction HF as [|x y t t' [c0 [H1 H2]] Ht IH]; [destruct Hcs|]. destruct Hcs as [->|Hcs]; auto.
    exists c0; split; auto. eapply nth_error_In; eauto. }
  destruct HX as [c0 [Hc0 Hcop]].
  assert (HL : exists a0 i0 p0 h0, In (Leaf a0 i0 p0 h0) (preorder c0) /\ copy_action a0 a).
  { clear - Hcop Hin. revert c Hcop Hin. induction c0 as [a0 i0 p0 h0|k0 ch0 i0 p0 n0 h0 pr0 IH] using comb_ind'; intros c Hcop Hin.
    - inversion Hcop; subst. destruct Hin as [E|[]]; inversion E; subst. exists a0, i0, p0, h. simpl; auto.
    - inversion Hcop as [|? ? ch' ? ? ? ? ? ? HF]; subst. cbn [preorder] in Hin. destruct Hin as [Hin|Hin]; [discriminate|].
      cbn [preorder]. assert (HX : exists a0 i0 p0 h0, In (Leaf a0 i0 p0 h0) (flat_map preorder ch0) /\ copy_action a0 a).
      { clear - IH HF Hin. induction HF as [|x y t t' Hxy Ht IHF]; [destruct Hin|]. inversion IH as [|? ? I1 I2]; subst.
        cbn [flat_map] in *. apply in_app_or in Hin. destruct Hin as [Hin|Hin].
        - destruct (I1 y Hxy Hin) as [a1 [i1 [p1 [h1 [J1 J2]]]]]. exists a1, i1, p1, h1; split; auto. apply in_or_app; auto.
        - destruct (IHF I2 Hin) as [a1 [i1 [p1 [h1 [J1 J2]]]]]. exists a1, i1, p1, h1; split; auto. apply in_or_app; auto. }
      destruct HX as [a1 [i1 [p1 [h1 [J1 J2]]]]]. exists a1, i1, p1, h1; split; auto. right; auto. }
  destruct HL as [a0 [i0 [p0 [h0 [H1 [_ H2]]]]]]. destruct H2 as [H2 H3]; auto.
  destruct (Hk c0 a0 i0 p0 h0 Hc0 H1); congruence.
Qed.
Print Assumptions C18_parameters_refuted.
(** A leaf without copy method makes to_alternative fail. *)
Theorem C18_not_copyable : forall (P : Type) (children : list (comb P)) (name : string) (hl : bool) c a i p h,
  Forall constructed children -> In c children -> In (Leaf a i p h) (preorder c) -> ~ has_copy a ->
  exists e, to_alternative children name hl = Err e.
Proof.
  intros P ch name hl c a i p h Hc H1 H2 H3. eapply to_alternative_fails; eauto.
  intros c0 x Hin; rewrite Forall_forall in Hc; apply constructed_copy_ok; auto.
Qed.
Print Assumptions C18_not_copyable.
Example C18_ex : exists alt, to_alternative [ex_leaf KCollab "A" "robot" 3; ex_tree KCollab] "P" true = Ok alt /\
  length (children_of alt) = 2 /\
  map (fun s => (c_name s, map c_name (children_of s))) (children_of alt)
  = [("P order-0", ["A order-0"; "Stool order-0"]); ("P order-1", ["Stool order-1"; "A order-1"])]%string.
Proof. eexists; split; [vm_compute; reflexivity|split; vm_compute; reflexivity]. Qed.
Lemma constructed_node {P} k (ch : list (comb P)) i p n h pr :
  Forall constructed ch -> k <> Alternative -> constructed (Node k ch i p n h pr).
Proof.
  intros HF Hk. apply constructed_comb with (k := k) (ch := ch) (i := i) (p := p) (n := n) (h := h) (pr := pr); auto.
  destruct k; (reflexivity || congruence).
Qed.
Lemma constructed_alt {P} (ch : list (comb P)) i p n h :
  Forall constructed ch -> ch <> [] ->
  constructed (Node Alternative ch i p n h (Some (repeat (1 # Pos.of_nat (length ch))%Q (length ch)))).
Proof.
  intros HF Hk. apply constructed_comb with (k := Alternative) (ch := ch) (i := i) (p := p) (n := n) (h := h) (pr := None); auto.
  unfold mk_comb. rewrite alt_proba_None by (destruct ch; simpl; congruence). reflexivity.
Qed.
Lemma ex_tree_constructed k : constructed (ex_tree k).
Proof.
  apply constructed_node; [|congruence]. constructor; [constructor|constructor; [|constructor; [|constructor]]].
  - apply constructed_node; [repeat constructor|congruence].
  - apply (constructed_alt [ex_leaf k "Hand over" "human" 6; ex_leaf k "Wait" "robot" 7]); [repeat constructor|congruence].
Qed.
Example C18_ex_hyps : Forall constructed [ex_leaf KCollab "A" "robot" 3; ex_tree KCollab] /\
  forall c a i p h, In c [ex_leaf KCollab "A" "robot" 3; ex_tree KCollab] -> In (Leaf a i p h) (preorder c) -> a_class a = KCollab.
Proof.
  split; [repeat constructor; apply ex_tree_constructed|].
  intros c a i p h [<-|[<-|[]]] Hin; cbn in Hin;
    repeat (destruct Hin as [E|Hin]; [inversion E; reflexivity|]); destruct Hin.
Qed.

(** ** C19 *)
Theorem C19_deep_copy : forall (P : Type) (fmt : string -> string) (c : comb P),
  constructed c ->
  match deep_copy fmt c with
  | Ok c' => copied copy_action fmt c c' /\ forall a i p h, In (Leaf a i p h) (preorder c) -> has_copy a
  | Err e => e = EAttr /\ exists a i p h, In (Leaf a i p h) (preorder c) /\ ~ has_copy a
  end.
Proof.
  intros P fmt c Hc.
  assert (Hok : forall x, In x (preorder c) -> copy_ok x) by (intros; eapply constructed_copy_ok; eauto).
  assert (Hdec : (exists a i p h, In (Leaf a i p h) (preorder c) /\ ~ has_copy a) \/
                 (forall a i p h, In (Leaf a i p h) (preorder c) -> has_copy a)).
  { clear. induction (preorder c) as [|x t IH]; [right; intros ? ? ? ? []|].
    destruct IH as [[a [i [p [h [H1 H2]]]]]|IH]; [left; exists a, i, p, h; simpl; auto|].
    destruct x as [a i p h|k ch i p n h pr].
    - assert (Hd : has_copy a \/ ~ has_copy a).
      { unfold has_copy. destruct (a_class a); (left; split; congruence) || (right; intros [? ?]; congruence). }
      destruct Hd as [Hd|Hd]; [|left; exists a, i, p, h; simpl; auto].
      right. intros a0 i0 p0 h0 [E|Hin]; [inversion E; subst; auto|eauto].
    - right. intros a0 i0 p0 h0 [E|Hin]; [discriminate|eauto]. }
  destruct Hdec as [[a [i [p [h [H1 H2]]]]]|Hall].
  - rewrite (deep_copy_fails fmt c a i p h Hok H1 H2). split; auto. exists a, i, p, h; auto.
  - destruct (deep_copy_ok fmt c Hok Hall) as [c' [E H]]. rewrite E; auto.
Qed.
Print Assumptions C19_deep_copy.
Example C19_ex : (exists c', deep_copy (fun n => n ++ "!")%string (ex_tree KCollab) = Ok c' /\ c_name c' = "Stool!"%string) /\
  deep_copy (fun n => n) (ex_tree KAction) = Err EAttr.
Proof. split; [eexists; split; [vm_compute; reflexivity|reflexivity]|vm_compute; reflexivity]. Qed.

(** ** C20: false, the constructor forgets the probabilities it is given (and so do copies)... *)
Theorem C20_probabilities_refuted : forall (P : Type) (ch : list (comb P)) (i p : option Z) (n : string) (h : bool) (l : list Q) (c : comb P),
  mk_comb Alternative ch i p n h (Some l) = Ok c ->
  c = Node Alternative ch i p n h (Some (repeat (1 # Pos.of_nat (length ch))%Q (length ch))).
Proof.
  intros P ch i p n h l c E. destruct (mk_comb_inv _ _ _ _ _ _ _ _ E) as [_ Hne].
  unfold mk_comb in E. destruct (alt_proba (length ch) (Some l)); [|discriminate]. cbn [bind] in E.
  rewrite alt_proba_None in E by (specialize (Hne eq_refl); destruct ch; simpl; congruence). cbn [bind] in E. congruence.
Qed.
Print Assumptions C20_probabilities_refuted.
Theorem C20_copy_refuted : exists (c c' : comb nat) ch l,
  valid_proba l /\
  c = Node Alternative ch None None "alt" false (Some l) /\ constructed c /\
  deep_copy (fun n => n) c = Ok c' /\
  (exists ch', c' = Node Alternative ch' None None "alt" false (Some [1 # 2; 1 # 2]%Q)) /\ l <> [1 # 2; 1 # 2]%Q.
Proof.
  set (ch := [ex_leaf KCollab "A" "robot" 1; ex_leaf KCollab "B" "robot" 2]).
  set (c0 := Node Alternative ch None None "alt"%string false (Some (repeat (1 # 2)%Q 2))).
  exists (fst (set_proba c0 (Some [1 # 4; 3 # 4]%Q))). eexists. exists ch, [1 # 4; 3 # 4]%Q.
  split; [destruct (alt_proba_spec 2 [1 # 4; 3 # 4]%Q) as [[_ V]|[E _]]; [exact V|vm_compute in E; discriminate]|].
  split; [reflexivity|]. split.
  { apply constructed_set. apply (constructed_alt ch); [repeat constructor|discriminate]. }
  split; [vm_compute; reflexivity|]. split; [eexists; reflexivity|discriminate].
Qed.
Print Assumptions C20_copy_refuted.
(** ... what holds: invalid probabilities are rejected with ValueError by the constructor and by
    assignment, and valid ones given by assignment are used; a rejected assignment changes nothing. *)
Theorem C20_probabilities_partial : forall (P : Type) (ch : list (comb P)) (i p : option Z) (n : string) (h : bool) (old : option (list Q)) (l : list Q),
  (ch <> [] -> (valid_proba l <-> exists c, mk_comb Alternative ch i p n h (Some l) = Ok c)) /\
  (~ valid_proba l -> mk_comb Alternative ch i p n h (Some l) = Err EValue) /\
  (valid_proba l -> set_proba (Node Alternative ch i p n h old) (Some l) = (Node Alternative ch i p n h (Some l), Ok tt)) /\
  (~ valid_proba l -> set_proba (Node Alternative ch i p n h old) (Some l) = (Node Alternative ch i p n h old, Err EValue)).
Proof.
  intros P ch i p n h old l. destruct (alt_proba_spec (length ch) l) as [[E V]|[E V]];
    (split; [|split; [|split]]); unfold mk_comb; cbn [set_proba]; rewrite E; cbn [bind]; try tauto; auto.
  - intros Hne; split; auto. intros _. rewrite alt_proba_None by (destruct ch; simpl; congruence). cbn [bind]; eauto.
  - intros _; split; [tauto|intros [c Hc]; discriminate].
Qed.
Print Assumptions C20_probabilities_partial.
Example C20_ex : valid_proba [1 # 4; 3 # 4]%Q /\ ~ valid_proba [1 # 4; 1 # 4]%Q /\ ~ valid_proba [(-1) # 4; 5 # 4]%Q.
Proof.
  split; [|split].
  - destruct (alt_proba_spec 2 [1 # 4; 3 # 4]%Q) as [[_ V]|[E _]]; [exact V|vm_compute in E; discriminate].
  - destruct (alt_proba_spec 2 [1 # 4; 1 # 4]%Q) as [[E _]|[_ V]]; [vm_compute in E; discriminate|exact V].
  - destruct (alt_proba_spec 2 [(-1) # 4; 5 # 4]%Q) as [[E _]|[_ V]]; [vm_compute in E; discriminate|exact V].
Qed.

(** ** C21: false for every MetaAction that the constructor accepts... *)
Theorem C21_to_combination_refuted : forall (P : Type) (name kind : string) (actions : list (maction P)),
  meta_built (MMeta name kind actions) -> to_combination (MMeta name kind actions) = Err EKey.
Proof. intros P n k l Hb; apply meta_fails; eauto. Qed.
Print Assumptions C21_to_combination_refuted.
(** ... and true of objects whose kind attribute has been set to a key of COMBINATION_CLASSES. *)
Theorem C21_to_combination_partial : forall (P : Type) (m : maction P),
  (forall n k l, In (MMeta n k l) (m_nodes m) -> exists k', k = kind_name k' /\ (k' = Alternative -> l <> [])) ->
  exists c, to_combination m = Ok c /\ expands m c.
Proof. intros P m H; apply meta_expands; auto. Qed.
Print Assumptions C21_to_combination_partial.
Example C21_ex : (exists m : maction nat, mk_meta "sequence" [MPlain (mk_abstract "a"); MPlain (mk_abstract "b")] = Ok m /\
                    m_name m = "(a→b)"%string) /\
  exists c : comb nat, to_combination (MMeta "x" "Parallel" [MPlain (mk_abstract "a"); MMeta "y" "Alternative" [MPlain (mk_abstract "b")]]) = Ok c.
Proof. split; eexists; [split; vm_compute; reflexivity|vm_compute; reflexivity]. Qed.

(** ** C22 *)
Theorem C22_find_parent : forall (P : Type) (r : comb P) (i : option Z),
  match find_parent_node r i with
  | Some p => In p (preorder r) /\ (exists c, In c (children_of p) /\ c_idx c = i) /\
              (* with distinct ids it is the only parent *)
              (NoDup (map c_idx (descendants r)) ->
               forall p', In p' (preorder r) -> (exists c, In c (children_of p') /\ c_idx c = i) -> p' = p)
  | None => forall c, In c (descendants r) -> c_idx c <> i
  end.
Proof.
  intros P r i. rewrite find_parent_edges.
  destruct (find _ (edges r)) as [[p c]|] eqn:E; cbn [option_map fst].
  - apply find_some in E. destruct E as [Hin Hc]. apply opt_z_eqb_spec in Hc. cbn [snd] in Hc.
    assert (Hin' := Hin). apply edges_child in Hin. destruct Hin as [Hp Hch].
    split; auto. split; [eauto|]. intros Hnd p' Hp' [c' [Hc' Hi]].
    assert (Hin2 : In (p', c') (edges r)) by (apply edges_child; auto).
    rewrite <- edges_snd, map_map in Hnd.
    assert (HE : (p', c') = (p, c)).
    { clear - Hnd Hin' Hin2 Hc Hi. induction (edges r) as [|e t IH]; [destruct Hin'|]. cbn [map] in Hnd.
      inversion Hnd as [|? ? Hn Hnd']; subst.
      destruct Hin' as [->|H1], Hin2 as [->|H2]; auto.
      - exfalso; apply Hn. apply in_map_iff. exists (p', c'); split; auto.
      - exfalso; apply Hn. apply in_map_iff. exists (p, c); split; auto. }
    congruence.
  - intros c Hc Hi. rewrite <- edges_snd in Hc. apply in_map_iff in Hc. destruct Hc as [e [<- He]].
    eapply find_none in E; [|exact He]. cbn beta in E. rewrite (proj2 (opt_z_eqb_spec _ _)) in E; [discriminate|auto].
Qed.
Print Assumptions C22_find_parent.
Example C22_ex : option_map c_name (find_parent_node (ex_tree KAction) (Some 4%Z)) = Some "Legs"%string /\
  find_parent_node (ex_tree KAction) (Some 8%Z) = None /\ find_parent_node (ex_tree KAction) (Some 0%Z) = None.
Proof. repeat split; reflexivity. Qed.

(** ** C23. A human leaf other than the root with id j. *)
Definition human_leaf_with_id {P} (r c : comb P) (j : Z) : Prop :=
  In c (descendants r) /\ exists a p h, c = Leaf a (Some j) p h /\ a_agent a = "human"%string.
Theorem C23_find_next_human_action : forall (P : Type) (r : comb P) (ids : list Z) (i : Z),
  map c_idx (descendants r) = map Some ids -> StronglySorted Z.lt ids ->
  match find_next_human_action r i with
  | Ok (Some c) => exists j, human_leaf_with_id r c j /\ (i < j)%Z /\
                     forall c' j', human_leaf_with_id r c' j' -> (i < j')%Z -> (j <= j')%Z
  | Ok None => forall c' j', human_leaf_with_id r c' j' -> ~ (i < j')%Z
  | Err _ => False
  end.
Proof.
  intros P r ids i Hids Hs.
  assert (Hid : forall c, In c (descendants r) -> c_idx c <> None).
  { intros c Hc E. apply (in_map c_idx) in Hc. rewrite E, Hids in Hc. apply in_map_iff in Hc. destruct Hc as [? [? _]]; discriminate. }
  rewrite (find_next_human_spec r i Hid).
  assert (Hha : forall c j, human_leaf_with_id r c j -> (i < j)%Z -> human_after i c = true).
  { intros c j [_ [a [p [h [-> Ha]]]]] Hj. unfold human_after; cbn. rewrite Ha, String.eqb_refl.
    rewrite (proj2 (Z.ltb_lt i j) Hj). reflexivity. }
  destruct (find (human_after i) (descendants r)) as [c|] eqn:E.
  - apply find_first in E. destruct E as [bs [as_ [Ed [Hc Hb]]]].
    unfold human_after in Hc. destruct (c_idx c) as [j|] eqn:Ej; [|discriminate].
    apply andb_true_iff in Hc. destruct Hc as [Hij Hhl]. apply Z.ltb_lt in Hij.
    assert (Hin : In c (descendants r)) by (rewrite Ed; apply in_or_app; simpl; auto).
    exists j. split.
    { split; auto. destruct c as [a ix p h|]; [|discriminate]. cbn in Ej, Hhl; subst ix.
      apply String.eqb_eq in Hhl. exists a, p, h; auto. }
    split; auto. intros c' j' Hh' Hij'. assert (Hin' := proj1 Hh'). rewrite Ed in Hin'.
    apply in_app_or in Hin'. destruct Hin' as [Hin'|[<-|Hin']].
    + exfalso. apply (Hb c' Hin'). eapply Hha; eauto.
    + destruct Hh' as [_ [a [p [h [-> _]]]]]. cbn in Ej. inversion Ej; lia.
    + rewrite Ed, map_app in Hids. cbn [map] in Hids. rewrite Ej in Hids.
      destruct Hh' as [_ [a [p [h [-> _]]]]].
      assert (HX : exists p1 p2, ids = p1 ++ j :: p2 /\ map Some p2 = map c_idx as_).
      { clear - Hids. revert ids Hids. induction bs as [|b bs IH]; intros ids Hids; cbn [map app] in Hids.
        - destruct ids as [|j0 ids]; [discriminate|]. cbn [map] in Hids. inversion Hids; subst. exists [], ids; auto.
        - destruct ids as [|j0 ids]; [discriminate|]. cbn [map] in Hids. inversion Hids; subst.
          destruct (IH ids) as [p1 [p2 [-> E2]]]; auto. exists (j0 :: p1), p2; auto. }
      destruct HX as [p1 [p2 [-> E2]]].
      assert (Hj' : In j' p2).
      { apply (in_map c_idx) in Hin'. rewrite <- E2 in Hin'. apply in_map_iff in Hin'. destruct Hin' as [? [E3 ?]].
        cbn in E3; inversion E3; subst; auto. }
      clear - Hs Hj'. induction p1 as [|x p1 IH]; cbn [app] in Hs; inversion Hs as [|? ? Ht HF]; subst; auto.
      rewrite Forall_forall in HF. apply Z.lt_le_incl; auto.
  - intros c' j' Hh' Hij'. pose proof (find_none _ _ E c' (proj1 Hh')) as Hn. rewrite (Hha c' j' Hh' Hij') in Hn. discriminate.
Qed.
Print Assumptions C23_find_next_human_action.
Example C23_ex : map c_idx (descendants (ex_tree KAction)) = map Some [1; 2; 3; 4; 5; 6; 7]%Z /\
  find_next_human_action (ex_tree KAction) 3 = Ok (Some (ex_leaf KAction "Leg 2" "human" 4)) /\
  find_next_human_action (ex_tree KAction) 6 = Ok None.
Proof. repeat split; reflexivity. Qed.

(** ** C24. [lower] is str.lower. *)
Theorem C24_find_node_by_name : forall (P : Type) (lower : string -> string) (r : comb P) (name : string),
  match find_node_by_name lower r name with
  | Some c => first_such (fun c => substring_of name (lower (c_name c))) (descendants r) c
  | None => forall c, In c (descendants r) -> ~ substring_of name (lower (c_name c))
  end.
Proof.
  intros P lower r name. rewrite find_by_name_spec.
  destruct (find _ (descendants r)) as [c|] eqn:E.
  - apply find_first in E. destruct E as [b [a [E1 [E2 E3]]]]. exists b, a. split; auto. split; [apply contains_spec; auto|].
    intros y Hy Hs; apply (E3 y Hy), contains_spec, Hs.
  - intros c Hc Hs. apply contains_spec in Hs. pose proof (find_none _ _ E c Hc) as Hn. cbn beta in Hn. congruence.
Qed.
Print Assumptions C24_find_node_by_name.
Example C24_ex : option_map c_name (find_node_by_name (fun s => s) (ex_tree KAction) "eg") = Some "Legs"%string.
Proof. reflexivity. Qed.

(** ** C25: false of every task with a leaf or a highlighted node... *)
Theorem C25_round_trip_refuted : forall (P : Type) (r : comb P) (name : option string) (d : tdict),
  snd (task_as_dictionary (Some r) name) = Some d ->
  (exists x, In x (preorder r) /\ (is_leaf x \/ c_hl x = true)) ->
  exists e, build_htm (P := P) d = Err e.
Proof.
  intros P r name d Hd [x [Hx Hlx]].
  destruct (build_htm d) as [c'|e] eqn:E; [|eauto]. exfalso.
  destruct (C17_export_ids P r name) as [d' [E' [Hs _]]]. rewrite E' in Hd; cbn [snd] in Hd; inversion Hd; subst d'.
  destruct (shows_loads r d c' Hs (build_htm_loads d c' E)) as [_ Hn].
  destruct (Hn x Hx) as [H1 H2]. destruct Hlx; [auto|congruence].
Qed.
Print Assumptions C25_round_trip_refuted.
(** ... and true of the others. *)
Theorem C25_round_trip_partial : forall (P : Type) (r : comb P) (name : option string) (d : tdict),
  constructed r ->
  snd (task_as_dictionary (Some r) name) = Some d ->
  (forall x, In x (preorder r) -> ~ is_leaf x /\ c_hl x = false) ->
  exists c', build_htm (P := P) d = Ok c' /\ same_tree r c'.
Proof.
  intros P r name d Hc Hd Hn.
  destruct (C17_export_ids P r name) as [d' [E' [Hs _]]]. rewrite E' in Hd; cbn [snd] in Hd; inversion Hd; subst d'.
  destruct (shows_can_load r d Hs) as [c' [Hl _]].
  { intros x Hx; split; [eapply constructed_copy_ok; eauto|auto]. }
  destruct (loads_build_htm d c' Hl) as [c2 E]. exists c2; split; auto.
  apply (shows_loads r d c2 Hs), build_htm_loads, E.
Qed.
Print Assumptions C25_round_trip_partial.
(** What json_to_htm accepts and builds: exactly the files whose leaves name an agent in their
    attributes. *)
Theorem C25_loader_partial : forall (P : Type) (d : tdict),
  (forall c, build_htm (P := P) d = Ok c -> loads d c) /\
  ((exists c : comb P, loads d c) -> exists c, build_htm (P := P) d = Ok c /\ loads d c).
Proof.
  intros P d; split; [apply build_htm_loads|]. intros [c Hc].
  destruct (loads_build_htm d c Hc) as [c' E]; exists c'; split; auto. apply build_htm_loads; auto.
Qed.
Print Assumptions C25_loader_partial.
Definition ex_json : tdict :=
  TDict "Stool" 0 None (Some "Sequential"%string) []
    (Some [TDict "Leg" 1 (Some 0%Z) None ["human"%string] None;
           TDict "End" 2 (Some 0%Z) (Some "Parallel"%string) []
             (Some [TDict "Wait" 3 (Some 2%Z) None ["highlighted"; "robot"]%string None])]).
Example C25_ex : (exists c : comb nat, build_htm ex_json = Ok c /\ map c_name (preorder c) = ["Stool"; "Leg"; "End"; "Wait"]%string) /\
  exists (c : comb nat), constructed c /\ (forall x, In x (preorder c) -> ~ is_leaf x /\ c_hl x = false) /\ length (preorder c) = 3.
Proof.
  split; [eexists; split; [vm_compute; reflexivity|reflexivity]|].
  set (s := Node (P := nat) Sequential [] None None "b"%string false None).
  exists (Node Sequential [s; s] None None "a"%string false None). split.
  - apply constructed_node; [|congruence]. repeat constructor; apply constructed_node; (constructor || congruence).
  - split; [|reflexivity]. intros x Hx. cbn in Hx. 
    repeat (destruct Hx as [<-|Hx]; [split; [intros [? [? [? [? E]]]]; discriminate|reflexivity]|]); destruct Hx.
Qed.
