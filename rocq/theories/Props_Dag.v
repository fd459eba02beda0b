(** C26 and C27: the graph of leaves of a task. *)
From Verif Require Import PyBase PyBaseFacts HtmModel HtmSpec HtmProofs DagModel DagSpec DagProofs.
From Coq Require Import Factorial.
Import HtmSpec.

(** *** C27 *)
(** The construction succeeds exactly on tasks whose combinations all have children and whose
    leaves under parallel combinations have a copy method. *)
Theorem C27_builds_iff : forall (P : Type) ordn (c : comb P), is_order ordn -> constructed c ->
  ((exists g, htm_to_dag ordn c = Ok g) <-> expandable c).
Proof.
  intros P ordn c Ho Hc. unfold htm_to_dag. split.
  - intros [g E]. destruct (get_initial_final ordn (dag_fuel c) c empty_dag) as [r|] eqn:Eg; [|discriminate].
    eapply gif_inv; eauto.
  - intros Hex. destruct (gif_ok ordn (dag_fuel c) c empty_dag) as [[[f l] d] ->]; auto.
    + intros x Hx. eapply constructed_copy_ok; eauto.
    + cbn [bind]; eauto.
Qed.
Print Assumptions C27_builds_iff.

Theorem C27_well_formed : forall (P : Type) ordn (c : comb P) nodes succs init, is_order ordn ->
  htm_to_dag ordn c = Ok (nodes, succs, init) ->
  length nodes = expanded_leaves c /\ length succs = length nodes /\
  (forall x, In x nodes -> is_leaf x) /\
  init <> [] /\ (forall i, In i init -> i < length nodes) /\
  (forall i l j, nth_error succs i = Some l -> In j l -> i < j < length nodes) /\
  (forall i, i < length nodes -> exists w, full_walk succs i w).
Proof.
  intros P ordn c nodes succs init Ho E. unfold htm_to_dag in E.
  destruct (get_initial_final ordn (dag_fuel c) c empty_dag) as [[[f l] d]|] eqn:Eg; [|discriminate]. cbn [bind] in E.
  assert (nodes = d_nodes d) as -> by congruence. assert (succs = d_succs d) as -> by congruence. assert (init = f) as -> by congruence.
  destruct (gif_spec ordn Ho (fun _ => tt) _ _ _ _ _ _ ltac:(left; reflexivity) (eq_refl : dwf empty_dag) Eg) as (B1 & B2 & B3 & B4).
  cbn [d_nodes empty_dag length] in B3, B4. destruct B3 as (S1 & S2 & S3 & S4 & S5 & S6 & S7).
  split; [rewrite B4; lia|]. split; [symmetry; exact B1|]. split.
  { intros x Hx. apply In_nth_error in Hx. destruct Hx as [j Hj].
    destruct (S6 j) as [y [Ey Hy]]; [split; [lia|apply nth_error_Some; congruence]|]. congruence. }
  split; [auto|]. split; [intros i Hi; apply S3 in Hi; lia|]. split.
  - intros i li j Hi Hj. assert (Hlt : i < length (d_nodes d)) by (rewrite B1; apply nth_error_Some; congruence).
    destruct (S5 i) as [sj [E1 [E2 _]]]; [lia|]. rewrite Hi in E1. inversion E1; subst. auto.
  - intros i Hi. eapply walk_exists; [exact S5|reflexivity|lia].
Qed.
Print Assumptions C27_well_formed.

(** *** C26 *)
(** For every observation of actions that copies preserve. *)
Theorem C26_paths : forall (P L : Type) (lab : action P -> L) ordn (c : comb P) nodes succs init, is_order ordn ->
  (forall i a a', action_copy (order_fmt i) a = Ok a' -> lab a' = lab a) ->
  htm_to_dag ordn c = Ok (nodes, succs, init) ->
  forall word, executes lab c word <->
    exists i w, In i init /\ full_walk succs i w /\ map (node_label lab nodes) w = map Some word.
Proof.
  intros P L lab ordn c nodes succs init Ho Hlab E word. unfold htm_to_dag in E.
  destruct (get_initial_final ordn (dag_fuel c) c empty_dag) as [[[f l] d]|] eqn:Eg; [|discriminate]. cbn [bind] in E.
  assert (nodes = d_nodes d) as -> by congruence. assert (succs = d_succs d) as -> by congruence. assert (init = f) as -> by congruence.
  destruct (gif_spec ordn Ho lab _ _ _ _ _ _ (or_introl Hlab) (eq_refl : dwf empty_dag) Eg) as (B1 & B2 & B3 & B4).
  destruct B3 as (S1 & S2 & S3 & S4 & S5 & S6 & S7). symmetry. apply S7.
Qed.
Print Assumptions C26_paths.

Lemma prefix_app (s x : string) : s <> ""%string ->
  String.prefix " order-" (s ++ " order-" ++ x) = String.prefix " order-" s.
Proof.
  intros Hs. destruct s as [|c1 s]; [congruence|]. cbn [String.append String.prefix].
  repeat (match goal with |- context [Ascii.ascii_dec ?a ?b] => destruct (Ascii.ascii_dec a b); [|reflexivity] end;
          destruct s as [|? s]; cbn [String.append String.prefix]; [reflexivity|]).
  reflexivity.
Qed.

Lemma base_name_order s i : base_name (order_fmt i s) = base_name s.
Proof.
  unfold order_fmt. induction s as [|c s IH].
  { cbn. destruct (str_nat i); reflexivity. }
  assert (E := prefix_app (String c s) (str_nat i) ltac:(congruence)).
  cbn [String.append] in E |- *. cbn [base_name]. rewrite E. destruct (String.prefix " order-" (String c s)); [reflexivity|].
  f_equal. exact IH.
Qed.

(** The names of the actions, without order suffixes. *)
Theorem C26_names : forall (P : Type) ordn (c : comb P) nodes succs init, is_order ordn ->
  htm_to_dag ordn c = Ok (nodes, succs, init) ->
  let name := fun a : action P => base_name (a_name a) in
  forall word, executes name c word <->
    exists i w, In i init /\ full_walk succs i w /\ map (node_label name nodes) w = map Some word.
Proof.
  intros P ordn c nodes succs init Ho E name. apply (C26_paths P string name ordn c nodes succs init Ho); auto.
  intros i a a' Ea. unfold name. rewrite <- (base_name_order (a_name a) i).
  unfold action_copy in Ea. destruct (a_class a); inversion Ea; reflexivity.
Qed.
Print Assumptions C26_names.

(** The whole actions (name, class, parameters, agent), for tasks without parallel combinations. *)
Theorem C26_actions_without_parallel : forall (P : Type) ordn (c : comb P) nodes succs init, is_order ordn ->
  (forall ch i p n h pr, ~ In (Node Parallel ch i p n h pr) (preorder c)) ->
  htm_to_dag ordn c = Ok (nodes, succs, init) ->
  forall word, executes (fun a => a) c word <->
    exists i w, In i init /\ full_walk succs i w /\ map (node_label (fun a => a) nodes) w = map Some word.
Proof.
  intros P ordn c nodes succs init Ho Hno E word. unfold htm_to_dag in E.
  destruct (get_initial_final ordn (dag_fuel c) c empty_dag) as [[[f l] d]|] eqn:Eg; [|discriminate]. cbn [bind] in E.
  assert (nodes = d_nodes d) as -> by congruence. assert (succs = d_succs d) as -> by congruence. assert (init = f) as -> by congruence.
  destruct (gif_spec ordn Ho (fun a => a) _ _ _ _ _ _ (or_intror Hno) (eq_refl : dwf empty_dag) Eg) as (B1 & B2 & B3 & B4).
  destruct B3 as (S1 & S2 & S3 & S4 & S5 & S6 & S7). symmetry. apply S7.
Qed.
Print Assumptions C26_actions_without_parallel.

(** In parallel combinations the parameters (the conditions) of supportive actions are lost: no
    graph built from a task keeps them. *)
Theorem C26_parameters_lost : forall (P : Type) ordn (ch : list (comb P)) i p n h pr nodes succs init, is_order ordn ->
  htm_to_dag ordn (Node Parallel ch i p n h pr) = Ok (nodes, succs, init) ->
  (forall c, In c ch -> exists a i p h, c = Leaf a i p h /\ a_class a = KSupported) ->
  forall a i p h, In (Leaf a i p h) nodes -> a_params a = None.
Proof.
  intros P ordn ch i0 p0 n0 h0 pr nodes succs init Ho E Hch a i p h Hin. unfold htm_to_dag in E.
  match type of E with bind ?X _ = _ => destruct X as [[[f l] d]|] eqn:Eg; [|discriminate] end. cbn [bind] in E.
  assert (nodes = d_nodes d) as -> by congruence.
  set (Q0 := fun a : action P => a_class a = KAbstract /\ a_params a = None).
  assert (H1 : forall k a a', action_copy (order_fmt k) a = Ok a' -> Q0 a -> Q0 a').
  { intros k a0 a' Ea [Hk Hp]. unfold action_copy in Ea. rewrite Hk in Ea. inversion Ea; split; auto. }
  refine (proj2 (gif_leaves ordn Q0 _ H1 _ _ _ Eg _ _ (Leaf a i p h) Hin a i p h (or_introl eq_refl))).
  - right. split; [eauto 7|]. intros k a0 a' [i1 [p1 [h1 Hx]]] Ea. cbn [preorder] in Hx. destruct Hx as [Hx|Hx]; [discriminate|].
    apply in_flat_map in Hx. destruct Hx as [c [Hc Hx]]. destruct (Hch c Hc) as [a2 [i2 [p2 [h2 [-> Hk]]]]].
    destruct Hx as [Hx|[]]. inversion Hx; subst. unfold action_copy in Ea. rewrite Hk in Ea. inversion Ea; split; auto.
  - intros x [].
Qed.
Print Assumptions C26_parameters_lost.
Example C26_parameters_lost_ex :
  let leaf n k := Leaf {| a_class := KSupported; a_name := n; a_agent := "None"; a_params := Some k |} None None false in
  exists nodes, htm_to_dag (fun l => l) (Node Parallel [leaf "a"%string 1; leaf "b"%string 2] None None "p" false None) =
    Ok (nodes, [[1]; []; [3]; []], [0; 2]) /\ length nodes = 4.
Proof. eexists; split; [vm_compute; reflexivity|reflexivity]. Qed.

(** A sequence, an alternative and a parallel combination together. *)
Definition ex_leaf_d (n : string) : comb nat :=
  Leaf {| a_class := KAbstract; a_name := n; a_agent := "None"; a_params := None |} None None false.
Definition ex_dag_tree : comb nat :=
  Node Sequential
    [ex_leaf_d "a";
     Node Alternative [ex_leaf_d "b"; Node Parallel [ex_leaf_d "c"; ex_leaf_d "d"] None None "par" false None]
          None None "alt" false (Some [1 # 2; 1 # 2]%Q);
     ex_leaf_d "e"] None None "seq" false None.

Example C26_ex_constructed : constructed ex_dag_tree /\ expandable ex_dag_tree.
Proof.
  split.
  - apply constructed_comb with (k := Sequential) (ch := children_of ex_dag_tree) (i := None) (p := None) (n := "seq"%string) (h := false) (pr := None);
      [|reflexivity].
    constructor; [constructor|constructor; [|constructor; [constructor|constructor]]].
    eapply constructed_comb with (k := Alternative) (pr := None)
      (ch := [ex_leaf_d "b"; Node Parallel [ex_leaf_d "c"; ex_leaf_d "d"] None None "par" false None]); [|reflexivity].
    constructor; [constructor|constructor; [|constructor]].
    eapply constructed_comb with (k := Parallel); [|reflexivity]. repeat constructor.
  - split.
    + intros x Hx. cbn in Hx. repeat (destruct Hx as [<-|Hx]; [solve [left; repeat eexists|right; discriminate]|]). destruct Hx.
    + intros ch i p n h pr a i' p' h' Hp Hl. cbn in Hp.
      repeat (destruct Hp as [E|Hp]; [inversion E; subst; cbn in Hl; repeat (destruct Hl as [El|Hl]; [inversion El; subst; split; discriminate|]); destruct Hl|]).
      destruct Hp.
Qed.
Example C26_ex : exists nodes, htm_to_dag (fun l => l) ex_dag_tree =
  Ok (nodes, [[1; 2; 4]; [6]; [3]; [6]; [5]; [6]; []], [0]) /\ length nodes = 7.
Proof. eexists; split; [vm_compute; reflexivity|reflexivity]. Qed.
Example C26_ex_word : executes (fun a => base_name (a_name a)) ex_dag_tree ["a"; "d"; "c"; "e"]%string.
Proof.
  apply (exec_seq _ _ _ _ _ _ _ [["a"]; ["d"; "c"]; ["e"]]%string). repeat constructor.
  apply exec_alt with (c := Node Parallel [ex_leaf_d "c"; ex_leaf_d "d"] None None "par" false None); [simpl; auto|].
  apply (exec_par _ _ _ _ _ _ _ [ex_leaf_d "d"; ex_leaf_d "c"] [["d"]; ["c"]]%string); [apply perm_swap|].
  repeat constructor.
Qed.
