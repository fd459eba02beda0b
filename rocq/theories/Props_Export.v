(** C96: what to_dict and export_pomcp write for the trees of the search. *)
From Verif Require Import PyBase PyBaseFacts QBase PomdpModel PomdpSpec PomdpProofs BeliefModel EvalModel PolicyModel PolicyProofs PomcpModel PomcpSpec
  PomcpProofs PomcpProofs2 PomcpProofs3 Props_Pomdp Props_Belief Props_Pomcp SharedModel SharedSpec SharedProofs SharedProofs2 SharedProofs3 Props_Shared
  ExportModel ExportSpec ExportProofs ExportProofs2 ExportProofs3 ExportProofs4 ExportProofs5.
From Coq Require Import Lia.
Local Open Scope list_scope.
Local Open Scope nat_scope.

(** The searches with exact beliefs only filter for observations of the model. *)
Theorem C96_exact : forall p u r horizon exploration relative bonus rollout_it alpha, in_range (exact_search p u r horizon exploration relative bonus rollout_it alpha).
Proof. intros p u r horizon exploration relative bonus rollout_it alpha b a o b'. apply exact_range. Qed.
Print Assumptions C96_exact.

(** The dictionary of a tree, after any history of operations: read by the names of actions and observations, it has an entry for
    every node of the tree, which describes this node, and no other entry. *)
Theorem C96_values : forall X St B H (P : search X St B H) to_list b l r, trace P b l r -> in_range P -> NoDup (s_actions P) -> NoDup (s_observations P) ->
  exists d, o_dict P to_list (r_root r) = Ok d /\
    (forall h nh m, named P h nh -> PomcpSpec.find (r_root r) h = Some m -> exists d', read d nh = Some d' /\ describes P to_list d' m) /\
    (forall nh d', read d nh = Some d' -> exists h m, named P h nh /\ PomcpSpec.find (r_root r) h = Some m).
Proof.
  intros X St B H P to_list b l r T R NA NO. pose proof (trace_ready P R _ _ _ T) as [TO _]. destruct (o_dict_total P to_list _ TO) as [d Ed]. exists d. split; [auto|]. split.
  - intros h nh m Hn F. pose proof (read_find P to_list NA NO h nh Hn _ _ TO Ed) as RF. rewrite F in RF. destruct RF as (d' & Rd & Em & Tm). exists d'. split; [auto|].
    eapply dict_describes; eauto.
  - intros nh d' Rd. destruct (read_named P to_list nh _ _ _ TO Ed Rd) as (h & Hh & Fh). destruct (PomcpSpec.find (r_root r) h) as [m|] eqn:F; [|congruence]. eauto.
Qed.
Print Assumptions C96_values.

(** The file of export_pomcp: its only graph is a policy for the tree.  At each node the action is one never tried, if there
    is any, and otherwise the first of greatest value; children are those of the observations made after this action.  The
    entry "observed" of a child is its position or, with belief_as_quotient, the index of the observation in the model.
    The policy runner is the same as before, but for children without simulations. *)
Theorem C96_file : forall X St B H (P : search X St B H) to_list quotient states htm_names b l r x, trace P b l r -> in_range P -> 0 < length (s_actions P) ->
  exists r' x' e g, export_pomcp P to_list quotient states htm_names false r x = (r', x', Ok e) /\
    e_graphs e = [g] /\ policy_for P (fun i _ => i) (fun b v => v = to_list b) (r_root r) None g /\ e_states e = states /\ e_actions e = s_actions P /\
    e_exploration e = s_exploration P /\ e_relative e = s_relative P /\
    kept (r_root r) (r_root r') /\ r_history r' = r_history r /\ r_node r' = r_node r /\ r_last r' = r_last r.
Proof.
  intros X St B H P to_list quotient states htm_names b l r x T R LA. pose proof (trace_ready P R _ _ _ T) as RD. unfold export_pomcp.
  destruct (policy_total P to_list _ LA RD None x) as (root & x' & d & E). rewrite E. cbn [bind]. eexists _, x', _, d. split; [reflexivity|]. cbn. split; [auto|].
  split; [apply (policy_correct P to_list _ _ _ _ _ _ E)|]. do 4 (split; [auto|]). split; [|auto]. apply same_kept. eapply policy_kept; eauto.
Qed.
Print Assumptions C96_file.
Theorem C96_quotient : forall X St B H (P : search X St B H) to_list quotient states htm_names b l r x, trace P b l r -> in_range P -> 0 < length (s_actions P) ->
  NoDup (s_actions P) -> NoDup (s_observations P) -> (forall h m, PomcpSpec.find (r_root r) h = Some m -> exists q, quotient (to_list (o_belief m)) = Ok q) ->
  exists r' x' e g, export_pomcp P to_list quotient states htm_names true r x = (r', x', Ok e) /\
    e_graphs e = [g] /\ policy_for P (fun _ o => o) (fun b v => quotient (to_list b) = Ok v) (r_root r) None g /\ e_states e = htm_names /\ e_actions e = s_actions P /\
    e_exploration e = s_exploration P /\ e_relative e = s_relative P /\
    kept (r_root r) (r_root r') /\ r_history r' = r_history r /\ r_node r' = r_node r /\ r_last r' = r_last r.
Proof.
  intros X St B H P to_list quotient states htm_names b l r x T R LA NA NO HQ. pose proof (trace_ready P R _ _ _ T) as RD. unfold export_pomcp.
  destruct (quotient_total P to_list quotient NA LA (r_root r) (conj RD HQ) x) as (root & x' & d & E). rewrite E. cbn [bind]. eexists _, x', _, d. split; [reflexivity|]. cbn. split; [auto|].
  split; [eapply (quotient_correct P to_list quotient); eauto|]. do 4 (split; [auto|]). split; [|auto]. apply same_kept. eapply quotient_kept; eauto.
Qed.
Print Assumptions C96_quotient.

(** Exports do not change what the policy runner does next: any operations, with any draws, have the same outcomes after an
    export, even one that raises, as without it. *)
Theorem C96_unaffected : forall X St B H (P : search X St B H) to_list quotient states htm_names flag r x r' x' e,
  export_pomcp P to_list quotient states htm_names flag r x = (r', x', e) ->
  forall ops, snd (run (plain_op P) r' ops) = snd (run (plain_op P) r ops).
Proof.
  intros X St B H P to_list quotient states htm_names flag r x r' x' e E ops. apply run_alike. unfold export_pomcp in E. destruct flag.
  - destruct (o_quotient P to_list quotient (r_root r) x) as [[root y] d] eqn:Eo. match type of E with (?q, _, _) = _ => assert (r' = q) as -> by congruence end.
    split; [|auto]. cbn [r_root]. eapply quotient_kept; eauto.
  - destruct (o_policy P to_list (r_root r) None x) as [[root y] d] eqn:Eo. match type of E with (?q, _, _) = _ => assert (r' = q) as -> by congruence end.
    split; [|auto]. cbn [r_root]. eapply policy_kept; eauto.
Qed.
Print Assumptions C96_unaffected.

(** The action of the root is the one that get_action returns without simulations at the start of an episode, for the same
    draws. *)
Theorem C96_action : forall X St B H (P : search X St B H) to_list quotient states htm_names r x r' x' e g, r_node r = [] ->
  export_pomcp P to_list quotient states htm_names false r x = (r', x', Ok e) -> e_graphs e = [g] ->
  exists r2 x2, get_action P 0 0 r x = (r2, x2, Ok (p_action (pd_info g))).
Proof.
  intros X St B H P to_list quotient states htm_names r x r' x' e g Er E Eg. unfold export_pomcp in E.
  destruct (o_policy P to_list (r_root r) None x) as [[root y] d] eqn:Eo. destruct d as [d|]; [|discriminate]. cbn [bind] in E.
  match type of E with (_, _, Ok ?q) = _ => assert (e = q) as -> by congruence end. cbn in Eg. assert (g = d) as -> by congruence. clear E Eg.
  rewrite o_policy_eq in Eo. unfold get_action. cbn [simulations]. rewrite Er. cbn [at_node]. destruct (best_action P (r_root r) 0 false x) as [[a|e'] z]; cbn [bind] in Eo; [|discriminate].
  destruct (safe_child (r_root r) a) as [c|e'] eqn:Es; cbn [bind] in Eo; [|discriminate]. cbv zeta in Eo. destruct (o_info P to_list (set_kid (r_root r) a c) a None) as [info|e'] eqn:Ei; [|discriminate].
  destruct (info_informs P to_list _ _ _ _ _ Es Ei) as (_ & _ & _ & En & _). destruct (a_policy P to_list c z) as [[c' z'] [[names ds]|e']]; cbn [bind] in Eo; [|discriminate].
  assert (d = PD info true names ds) as -> by congruence. cbn [pd_info]. rewrite En. eauto.
Qed.
Print Assumptions C96_action.

(** *** Nodes shared by belief *)
(** to_dict ends although nodes can lead back to one another.  Every node that a history leads to is described completely at
    its first occurrence, in the order of the dictionary, and without its actions at the later ones. *)
Theorem C96_shared : forall X St B H (P : search X St B H) to_list same b l r fuel, (forall c, same c c = true) -> (forall c d, same c d = same d c) ->
  strace P same b l r -> in_range P -> length (sr_store r) <= fuel ->
  exists visited d refs, s_dict P to_list same fuel (sr_store r) 0 [] = (visited, Ok d) /\
    listing (new_dict P to_list (sr_store r)) (old_dict to_list (sr_store r)) [] refs (all_dicts d) /\ forall i, In i refs <-> reachable (sr_store r) i.
Proof.
  intros X St B H P to_list same b l r fuel Re Sy T R Hf. destruct (strace_closed P R same Re Sy _ _ _ T) as [C L0]. set (st := sr_store r) in *.
  destruct (s_dict_ok P to_list same Re st C (reachable st) (fun i j => reachable_edge P same st i j C) fuel 0 [] []) as (v & d & refs & n & E & (V1 & V2 & V3) & En & _ & _).
  - intros j n En. cbn. split; [discriminate|intros []].
  - auto.
  - exists []. reflexivity.
  - rewrite left_nil. auto.
  - exists v, d, (0 :: refs). split; [auto|]. split; [auto|]. intros i. split; [apply V3|]. intros [h F].
    apply (find_edges st (fun i => In i (0 :: refs))) with (h := h) (i := 0); [|simpl; auto|exact F]. intros j k Hj Hk. eapply V2; eauto.
Qed.
Print Assumptions C96_shared.

(** So does to_dict as a policy, and export_pomcp: nodes are expanded at their first occurrence only.  The action of a node is
    chosen again at each occurrence. *)
Theorem C96_shared_policy : forall X St B H (P : search X St B H) to_list quotient states htm_names same b l r fuel x, (forall c, same c c = true) -> (forall c d, same c d = same d c) ->
  strace P same b l r -> in_range P -> 0 < length (s_actions P) -> length (sr_store r) <= fuel ->
  exists r' x' e g refs, s_export_pomcp P to_list quotient states htm_names same fuel false r x = (r', x', Ok e) /\ e_graphs e = [g] /\ e_states e = states /\ e_actions e = s_actions P /\
    listing (new_policy P to_list (sr_store r)) (old_policy P to_list (sr_store r)) [] (0 :: refs) (all_pdicts g) /\ (forall i, In i refs -> reachable (sr_store r) i) /\
    p_observed (pd_info g) = None /\ store_kept (sr_store r) (sr_store r') /\ sr_history r' = sr_history r /\ sr_node r' = sr_node r /\ sr_last r' = sr_last r.
Proof.
  intros X St B H P to_list quotient states htm_names same b l r fuel x Re Sy T R LA Hf. destruct (strace_closed P R same Re Sy _ _ _ T) as [C L0]. unfold s_export_pomcp. set (st := sr_store r) in *.
  destruct (s_policy_ok P to_list same Re st C (reachable st) (fun i j => reachable_edge P same st i j C) LA fuel 0 None st [] x []) as (s' & v & x' & d & refs & n & a & E & (V1 & V2 & V3) & En & _ & Ob & K & _).
  - apply store_kept_refl.
  - intros j n En. cbn. split; [discriminate|intros []].
  - auto.
  - exists []. reflexivity.
  - rewrite left_nil. auto.
  - rewrite E. cbn [bind]. eexists _, x', _, d, refs. split; [reflexivity|]. cbn [e_graphs e_states e_actions e_file sr_store sr_history sr_node sr_last].
    do 3 (split; [auto|]). split; [auto|]. split; [intros i Hi; apply V3; simpl; auto|]. auto 10.
Qed.
Print Assumptions C96_shared_policy.

(** With belief_as_quotient there is no such check: if a node leads back to itself, the export does not return, whatever the
    depth of calls. *)
Theorem C96_cycle : forall X St B H (P : search X St B H) to_list quotient states htm_names same r, cyclic (sr_store r) ->
  forall fuel x r' x' e, s_export_pomcp P to_list quotient states htm_names same fuel true r x <> (r', x', Ok e).
Proof.
  intros X St B H P to_list quotient states htm_names same r Cy fuel x r' x' e E. unfold s_export_pomcp in E.
  destruct (s_quotient P to_list quotient fuel 0 (sr_store r, x)) as [[s y] d] eqn:Eq. destruct d as [d|]; [|discriminate].
  destruct (s_quotient_paths P to_list (sr_store r) quotient fuel 0 _ _ _ _ _ (store_kept_refl _) Eq) as [_ Pa]. destruct (cyclic_paths _ Cy fuel) as (g & j & F & Hl). apply Pa in F. lia.
Qed.
Print Assumptions C96_cycle.

(** *** Example: the tiger *)
Definition ex_tree : runner (list Q) := fst (fst (get_action ex_search 4 3 ex_start 0)).
Lemma ex_tree_trace : exists l, trace ex_search [1 # 2; 1 # 2]%Q l ex_tree.
Proof.
  exists ([] ++ [EvAction (r_last ex_tree)]). assert (E : exists x nm, get_action ex_search 4 3 ex_start 0 = (ex_tree, x, Ok nm)).
  { unfold ex_tree. assert (R : match snd (get_action ex_search 4 3 ex_start 0) with Ok _ => True | Err _ => False end) by (vm_compute; exact I).
    destruct (get_action ex_search 4 3 ex_start 0) as [[r x] [nm|e]]; [exists x, nm; reflexivity|destruct R]. }
  destruct E as (x & nm & E). exact (tr_action _ _ _ _ _ _ _ _ _ _ ex_trace E).
Qed.
Lemma ex_hypotheses : in_range ex_search /\ NoDup (s_actions ex_search) /\ NoDup (s_observations ex_search) /\ 0 < length (s_actions ex_search).
Proof.
  split; [apply C96_exact|]. split; [|split]; [| |vm_compute; lia].
  - change (NoDup (p_actions tiger)). vm_compute. repeat constructor; cbn; intuition discriminate.
  - change (NoDup (p_observations tiger)). vm_compute. repeat constructor; cbn; intuition discriminate.
Qed.
(** What the dictionary of the tree says under "right", then 1: a node simulated once, without actions.  The node under "listen",
    then 0, does not exist. *)
Example C96_ex_values : exists d d', o_dict ex_search (fun b => b) (r_root ex_tree) = Ok d /\ od_actions d = [NStr "listen"; NStr "left"; NStr "right"] /\ od_visits d = 4 /\
  read d [(NStr "right", NInt 1)] = Some d' /\ od_visits d' = 1 /\ od_actions d' = [] /\ read d [(NStr "listen", NInt 0)] = None.
Proof.
  assert (E : match o_dict ex_search (fun b => b) (r_root ex_tree) with
    | Ok d => od_actions d = [NStr "listen"; NStr "left"; NStr "right"] /\ od_visits d = 4 /\ match read d [(NStr "right", NInt 1)] with Some d' => od_visits d' = 1 /\ od_actions d' = [] | None => False end /\
        read d [(NStr "listen", NInt 0)] = None
    | Err _ => False end) by (vm_compute; repeat split; reflexivity).
  destruct (o_dict ex_search (fun b => b) (r_root ex_tree)) as [d|e]; [|destruct E]. destruct E as (E1 & E2 & E3 & E4). destruct (read d [(NStr "right", NInt 1)]) as [d'|] eqn:Er; [|destruct E3].
  exists d, d'. destruct E3. auto 10.
Qed.
(** The policy: all actions of the root are tried and "listen" has the greatest value.  The only observation made after it, 1, is at
    position 0: "observed" is 0 in one format and 1 in the other.  No action is tried in the next node: the one exported depends on
    the draw. *)
Definition pview (d : pdict) := (p_action (pd_info d), p_observed (pd_info d), p_child_visits (pd_info d), pd_observations d).
Definition eview (r : res export) := match r with Ok e => map pview (flat_map all_pdicts (e_graphs e)) | Err _ => [] end.
Example C96_ex_policy :
  let export flag r x := eview (snd (export_pomcp ex_search (fun b => b) (fun b => Ok b) [] [] flag r x)) in
  export false ex_tree 0 = [(NStr "listen", None, [1; 1; 2], [NInt 1]); (NStr "left", Some 0, [0; 0; 0], [])] /\
  export false ex_tree 1 = [(NStr "listen", None, [1; 1; 2], [NInt 1]); (NStr "right", Some 0, [0; 0; 0], [])] /\
  export true ex_tree 1 = [(NStr "listen", None, [1; 1; 2], [NInt 1]); (NStr "right", Some 1, [0; 0; 0], [])].
Proof. vm_compute. auto. Qed.
(** The tree is changed: the child made for "left". *)
Example C96_ex_changed : exists m m', PomcpSpec.find (r_root ex_tree) [(0, 1)] = Some m /\ nth_error (o_kids m) 1 = Some None /\
  PomcpSpec.find (r_root (fst (fst (export_pomcp ex_search (fun b => b) (fun b => Ok b) [] [] false ex_tree 0)))) [(0, 1)] = Some m' /\ nth_error (o_kids m') 1 = Some (Some a_new).
Proof.
  assert (E : match PomcpSpec.find (r_root ex_tree) [(0, 1)], PomcpSpec.find (r_root (fst (fst (export_pomcp ex_search (fun b => b) (fun b => Ok b) [] [] false ex_tree 0)))) [(0, 1)] with
    | Some m, Some m' => nth_error (o_kids m) 1 = Some None /\ nth_error (o_kids m') 1 = Some (Some a_new) | _, _ => False end) by (vm_compute; auto).
  destruct (PomcpSpec.find (r_root ex_tree) [(0, 1)]) as [m|]; [|destruct E].
  destruct (PomcpSpec.find (r_root (fst (fst (export_pomcp ex_search (fun b => b) (fun b => Ok b) [] [] false ex_tree 0)))) [(0, 1)]) as [m'|]; [|destruct E]. exists m, m'. destruct E. auto.
Qed.

(** Shared nodes: opening a door leads back to the start. *)
Definition ex_graph : srunner (list Q) := fst (fst (s_get_action ex_search same_array 6 3 ex_shared 0)).
Lemma ex_graph_trace : exists l, strace ex_search same_array [1 # 2; 1 # 2]%Q l ex_graph.
Proof.
  assert (E : exists x nm, s_get_action ex_search same_array 6 3 ex_shared 0 = (ex_graph, x, Ok nm)).
  { unfold ex_graph. assert (R : match snd (s_get_action ex_search same_array 6 3 ex_shared 0) with Ok _ => True | Err _ => False end) by (vm_compute; exact I).
    destruct (s_get_action ex_search same_array 6 3 ex_shared 0) as [[r x] [nm|e]]; [exists x, nm; reflexivity|destruct R]. }
  destruct E as (x & nm & E). exists ([] ++ [EvAction (sr_last ex_graph)]). eapply st_action; [apply ex_strace|exact E].
Qed.
Example C96_ex_cycle : length (sr_store ex_graph) = 3 /\ cyclic (sr_store ex_graph).
Proof. split; [vm_compute; auto|]. exists [], 0, [(1, 0)]. split; [reflexivity|]. split; [discriminate|]. vm_compute. reflexivity. Qed.
(** Its dictionary has the root four times, with its actions the first time only. *)
Example C96_ex_shared : exists d, snd (s_dict ex_search (fun b => b) same_array 3 (sr_store ex_graph) 0 []) = Ok d /\
  map (fun d => (od_visits d, length (od_actions d))) (all_dicts d) = [(11, 3); (1, 0); (1, 0); (11, 0); (11, 0); (11, 0)] /\
  eview (snd (s_export_pomcp ex_search (fun b => b) (fun b => Ok b) [] [] same_array 3 false ex_graph 0)) =
    [(NStr "listen", None, [2; 1; 5], [NInt 1; NInt 0]); (NStr "left", Some 0, [0; 0; 0], []); (NStr "right", Some 1, [0; 0; 0], [])].
Proof.
  assert (E : match snd (s_dict ex_search (fun b => b) same_array 3 (sr_store ex_graph) 0 []) with
    | Ok d => map (fun d => (od_visits d, length (od_actions d))) (all_dicts d) = [(11, 3); (1, 0); (1, 0); (11, 0); (11, 0); (11, 0)] | Err _ => False end) by (vm_compute; reflexivity).
  destruct (snd (s_dict ex_search (fun b => b) same_array 3 (sr_store ex_graph) 0 [])) as [d|e]; [|destruct E]. exists d. split; [auto|]. split; [auto|]. vm_compute. reflexivity.
Qed.
