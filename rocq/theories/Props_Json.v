(** C130: files of models, policies and trees. *)
From Coq Require Import Lia DecimalString DecimalZ.
From Verif Require Import PyBase PyBaseFacts QBase HtmModel TowerModel PomdpModel PomdpSpec PomdpProofs PolicyModel PolicySpec PolicyProofs PolicyProofs2 PolicyProofs3 PomcpModel ExportModel SaveModel SaveSpec Props_Save Props_Pomdp Props_Policy JsonModel JsonSpec.
Local Open Scope list_scope.
Local Open Scope nat_scope.

Lemma int_str z : py_int (str_int z) = Ok z.
Proof.
  unfold py_int, str_int. rewrite NilZero.isi; [rewrite of_to; reflexivity| |].
  - destruct z as [|p|p]; cbn; try discriminate. intros K. assert (X : Pos.to_uint p = Decimal.Nil) by congruence. exact (DecimalPos.Unsigned.to_uint_nonnil p X).
  - destruct z as [|p|p]; cbn; try discriminate. intros K. assert (X : Pos.to_uint p = Decimal.Nil) by congruence. exact (DecimalPos.Unsigned.to_uint_nonnil p X).
Qed.

(** *** Objects are as read from files. *)
Lemma file_name n : from_file (name_object n). Proof. destruct n; constructor. Qed.
Lemma file_names l : from_file (names_object l). Proof. constructor. apply Forall_forall. intros x H. apply in_map_iff in H. destruct H as (n & <- & _). apply file_name. Qed.
Lemma file_list {A} (f : A -> pobj) l : (forall x, In x l -> from_file (f x)) -> from_file (PList (map f l)).
Proof. intros H. constructor. apply Forall_forall. intros x K. apply in_map_iff in K. destruct K as (n & <- & K). auto. Qed.
Lemma file_floats l : from_file (floats_object l). Proof. apply file_list. intros. constructor. Qed.
Lemma file_nested : forall x, from_file (nested_object x).
Proof. fix IH 1. intros [q|l]; cbn [nested_object]; [constructor|]. constructor. induction l as [|x l IHl]; constructor; [apply IH|exact IHl]. Qed.
Lemma file_entries (l : list (string * pobj)) : NoDup (map fst l) -> Forall (fun kv => from_file (snd kv)) l -> from_file (PDict (map (fun kv => entry (fst kv) (snd kv)) l)).
Proof.
  intros N F. constructor.
  - rewrite map_map. cbn [entry fst]. rewrite <- (map_map fst KStr). apply FinFun.Injective_map_NoDup; [intros x y; congruence|exact N].
  - apply Forall_forall. intros kv H. apply in_map_iff in H. destruct H as (x & <- & H). cbn. split; [eauto|]. rewrite Forall_forall in F. auto.
Qed.
Ltac distinct := repeat constructor; cbn; intuition discriminate.
Lemma dumped ft o : from_file o -> exists j, dump ft o = Ok j /\ load j = o.
Proof. intros H. exact (proj2 (C129_again ft o H)). Qed.

(** *** Reading *)
Lemma read_names l : object_names (names_object l) = Ok l.
Proof. unfold object_names, names_object. induction l as [|[z|s] l IH]; cbn; [reflexivity|rewrite IH; reflexivity|rewrite IH; reflexivity]. Qed.
Lemma read_nested : forall x, object_nested (nested_object x) = Ok x.
Proof.
  fix IH 1. intros [q|l]; [reflexivity|]. cbn [nested_object object_nested].
  assert (K : (fix go l := match l with [] => Ok [] | x :: t => do y <- object_nested x; do r <- go t; Ok (y :: r) end) (map nested_object l) = Ok l); [|rewrite K; reflexivity].
  induction l as [|x l IHl]; [reflexivity|]. cbn [map]. rewrite IH. cbn [bind]. rewrite IHl. reflexivity.
Qed.
Lemma read_list {A} (f : A -> pobj) (g : pobj -> res A) l : (forall x, g (f x) = Ok x) -> object_list g (PList (map f l)) = Ok l.
Proof. intros H. cbn. induction l as [|x l IH]; [reflexivity|]. cbn. rewrite H. cbn [bind]. rewrite IH. reflexivity. Qed.

Lemma pomdp_file p : from_file (pomdp_object (to_dict p)).
Proof.
  unfold pomdp_object. set (d := to_dict p).
  apply (file_entries [("T", nested_object (d_T d)); ("O", nested_object (d_O d)); ("R", nested_object (d_R d)); ("start", nested_object (d_start d)); ("discount", PFloat (d_discount d)); ("states", names_object (d_states d)); ("actions", names_object (d_actions d)); ("observations", names_object (d_observations d))]%string); [distinct|].
  repeat (apply Forall_cons; [cbn [snd]; first [apply file_nested|apply file_names|constructor]|]). constructor.
Qed.
Lemma from_json_dict solver p j : load j = pomdp_object (to_dict p) -> from_json solver j = from_dict (to_dict p) solver.
Proof.
  intros E. unfold from_json. rewrite E. set (d := to_dict p). unfold pomdp_object.
  cbn [get find fst snd entry String.eqb Ascii.eqb Bool.eqb bind]. rewrite !read_nested. cbn [bind object_number]. rewrite !read_names. cbn [bind]. destruct d; reflexivity.
Qed.

(** A model that was saved is read back as the same model, if it has actions; otherwise it can be saved but not be read. *)
Theorem C130_model : forall float_text T O R start discount gs ga go values solver p, mk_pomdp T O R start discount gs ga go values solver = Ok p ->
  exists j, as_json float_text p = Ok j /\
    (0 < nA p -> exists p', from_json true j = Ok p' /\
       PomdpSpec.same_array (p_T p) (p_T p') /\ PomdpSpec.same_array (p_O p) (p_O p') /\ PomdpSpec.same_array (p_R p) (p_R p') /\ PomdpSpec.same_array (p_start p) (p_start p') /\
       p_discount p' = p_discount p /\ states p' = states p /\ p_actions p' = p_actions p /\ p_observations p' = p_observations p) /\
    (nA p = 0 -> forall s, from_json s j = Err EValue).
Proof.
  intros ft T O R start discount gs ga go values solver p E. destruct (dumped ft _ (pomdp_file p)) as (j & Ej & El). exists j. split; [exact Ej|]. split.
  - intros HA. rewrite (from_json_dict _ p _ El). eapply C44_round_trip_partial; eauto.
  - intros HA s. rewrite (from_json_dict _ p _ El). apply C44_round_trip_refuted; [|exact HA].
    destruct (proj1 (C43_accepts T O R start discount gs ga go values) solver p E) as [(A1 & A2 & A3 & A4 & A5 & _) (_ & _ & _ & ET & EO & ES & ED & ERs & _)].
    unfold well_shaped. rewrite ET, EO, ES, ERs. auto.
Qed.
Print Assumptions C130_model.

Lemma policy_file g : from_file (policy_object (policy_to_dict str_int g)).
Proof.
  unfold policy_object. set (d := policy_to_dict str_int g).
  apply (file_entries [("actions", names_object (pd_actions d)); ("observations", names_object (pd_observations d)); ("transitions", PList (map (fun r => PList (map target_object r)) (pd_trans d))); ("values", PList (map floats_object (pd_values d))); ("initial", PStr (pd_initial d))]%string); [distinct|].
  repeat (apply Forall_cons; [cbn [snd]; first [apply file_names|apply file_list; intros; apply file_list; intros y ?; destruct y; constructor|apply file_list; intros; apply file_floats|constructor]|]). constructor.
Qed.
Lemma policy_from_json_dict g j : load j = policy_object (policy_to_dict str_int g) -> policy_from_json j = policy_from_dict py_int (policy_to_dict str_int g).
Proof.
  intros E. unfold policy_from_json. rewrite E. set (d := policy_to_dict str_int g). unfold policy_object.
  cbn [get find fst snd entry String.eqb Ascii.eqb Bool.eqb bind]. rewrite !read_names. cbn [bind].
  rewrite (read_list (fun r => PList (map target_object r)) (object_list object_target)) by (intros r; apply read_list; intros [z|]; reflexivity). cbn [bind].
  rewrite (read_list floats_object (object_list object_number)) by (intros r; apply read_list; intros q; reflexivity). cbn [bind object_text]. destruct d; reflexivity.
Qed.
(** So is a policy, if its initial node is one of its nodes; otherwise reading it fails on an assertion. *)
Theorem C130_policy : forall float_text acts obs tr vals start init g, mk_policy acts obs tr vals start init = Ok g ->
  exists j, to_json float_text g = Ok j /\
    ((g_init g < Z.of_nat (length acts))%Z -> policy_from_json j = Ok g) /\ ((Z.of_nat (length acts) <= g_init g)%Z -> policy_from_json j = Err EAssert).
Proof.
  intros ft acts obs tr vals start init g E. destruct (dumped ft _ (policy_file g)) as (j & Ej & El). exists j. split; [exact Ej|]. rewrite (policy_from_json_dict _ _ El). split.
  - intros L. apply (C83_exact_partial _ _ _ _ _ _ _ _ _ int_str E). exact L.
  - intros L. apply mk_policy_ok in E. destruct E as (M1 & M2 & M3 & M4 & _). unfold policy_from_dict, policy_to_dict, mk_policy. cbn [pd_initial pd_actions pd_observations pd_trans pd_values]. rewrite int_str. cbn [bind].
    destruct (negb _); [reflexivity|]. destruct (Z.ltb_spec (g_init g) (Z.of_nat (length (g_actions g)))) as [L'|L']; [rewrite M4 in L'; lia|reflexivity].
Qed.
Print Assumptions C130_policy.

(** *** Trees *)
Lemma field_at k v l : In (k, v) l -> field (PDict (map (fun kv => entry (fst kv) (snd kv)) l)) k v.
Proof. intros H. eexists. split; [reflexivity|]. apply in_map_iff. exists (k, v). auto. Qed.
Lemma names_shown l : shows_list shows_name l (names_object l).
Proof. eexists. split; [reflexivity|]. induction l as [|[z|s] l IH]; constructor; auto; reflexivity. Qed.
Lemma list_shown {A} (f : A -> pobj) (Sh : A -> pobj -> Prop) l : (forall x, Sh x (f x)) -> shows_list Sh l (PList (map f l)).
Proof. intros H. eexists. split; [reflexivity|]. induction l; constructor; auto. Qed.
Lemma name_shown n : shows_name n (name_object n). Proof. destruct n; reflexivity. Qed.

Definition tree_entries b a n os (ch : list ttree) := [("belief", floats_object b); ("action", name_object a); ("node", PInt n); ("observations", names_object os); ("children", PList (map tree_object ch))]%string.
Lemma tree_file : forall t, from_file (tree_object t).
Proof.
  fix IH 1. intros [b a n os ch]. change (tree_object (TNode b a n os ch)) with (PDict (map (fun kv => entry (fst kv) (snd kv)) (tree_entries b a n os ch))).
  apply file_entries; [distinct|]. unfold tree_entries. do 4 (apply Forall_cons; [cbn [snd]; first [apply file_names|apply file_name|apply file_floats|constructor]|]). apply Forall_cons; [|constructor].
  cbn [snd]. constructor. induction ch as [|t ch IHch]; constructor; [apply IH|exact IHch].
Qed.
Lemma tree_shown : forall t, shows_tree t (tree_object t).
Proof.
  fix IH 1. intros [b a n os ch]. change (tree_object (TNode b a n os ch)) with (PDict (map (fun kv => entry (fst kv) (snd kv)) (tree_entries b a n os ch))).
  apply (shows_node b a n os ch _ (floats_object b) (name_object a) (names_object os) (map tree_object ch)); try (apply field_at; cbn; tauto).
  - apply list_shown. reflexivity.
  - apply name_shown.
  - apply names_shown.
  - induction ch as [|t ch IHch]; constructor; [apply IH|exact IHch].
Qed.
(** Trees of trajectories are saved whenever they can be built, and the file shows them. *)
Theorem C130_trajectories : forall float_text g p horizon r,
  (forall r' ts, trajectory_trees_from_starts g p horizon r = (r', Ok ts) ->
     exists j gs, save_trajectories float_text g p horizon r = (r', Ok j) /\ from_file (load j) /\ field (load j) "graphs" (PList gs) /\ Forall2 shows_tree ts gs) /\
  (forall r' e, trajectory_trees_from_starts g p horizon r = (r', Err e) -> save_trajectories float_text g p horizon r = (r', Err e)).
Proof.
  intros ft g p h r. unfold save_trajectories. split; intros r' x E; rewrite E; cbn [bind]; [|reflexivity].
  assert (F : from_file (PDict [entry "graphs" (PList (map tree_object x))])).
  { apply (file_entries [("graphs", PList (map tree_object x))]%string); [distinct|]. apply Forall_cons; [|constructor]. cbn [snd]. apply file_list. intros. apply tree_file. }
  destruct (dumped ft _ F) as (j & Ej & El). exists j, (map tree_object x). rewrite Ej, El. split; [reflexivity|]. split; [exact F|]. split; [eexists; split; [reflexivity|left; reflexivity]|].
  clear. induction x; constructor; auto. apply tree_shown.
Qed.
Print Assumptions C130_trajectories.

Definition graph_entries i (e : bool) os (ch : list pdict) :=
  ([("value", PFloat (p_value i)); ("visits", nat_object (p_visits i)); ("node", PNone); ("belief", floats_object (p_belief i)); ("action", name_object (p_action i)); ("observed", option_object nat_object (p_observed i));
    ("values", PList (map (option_object PFloat) (p_values i))); ("exploration_terms", PList (map (option_object PFloat) (p_terms i))); ("child_visits", PList (map nat_object (p_child_visits i)))]%string ++
   (if e then [("observations", names_object os); ("children", PList (map graph_object ch))]%string else [])).
Lemma graph_entries_ok i e os ch : graph_object (PD i e os ch) = PDict (map (fun kv => entry (fst kv) (snd kv)) (graph_entries i e os ch)).
Proof. destruct e; reflexivity. Qed.
Lemma graph_file : forall d, from_file (graph_object d).
Proof.
  fix IH 1. intros [i e os ch]. rewrite graph_entries_ok. apply file_entries; [destruct e; distinct|]. unfold graph_entries. apply Forall_app. split.
  - repeat (apply Forall_cons; [cbn [snd]; first [apply file_names|apply file_name|apply file_floats|apply file_list; intros y ?; first [constructor|destruct y; constructor]|destruct (p_observed i); constructor|constructor]|]). constructor.
  - destruct e; [|constructor]. apply Forall_cons; [apply file_names|]. apply Forall_cons; [|constructor]. cbn [snd]. constructor. induction ch as [|t ch IHch]; constructor; [apply IH|exact IHch].
Qed.
Lemma graph_shown : forall d, shows_graph d (graph_object d).
Proof.
  fix IH 1. intros [i e os ch]. rewrite graph_entries_ok.
  apply (shows_pdict i e os ch _ (floats_object (p_belief i)) (name_object (p_action i)) (option_object nat_object (p_observed i)) (PList (map (option_object PFloat) (p_values i)))
    (PList (map (option_object PFloat) (p_terms i))) (PList (map nat_object (p_child_visits i)))); try (apply field_at; unfold graph_entries; apply in_or_app; left; cbn; unfold nat_object; tauto).
  - apply list_shown. reflexivity.
  - apply name_shown.
  - destruct (p_observed i); reflexivity.
  - apply list_shown. intros [q|]; reflexivity.
  - apply list_shown. intros [q|]; reflexivity.
  - apply list_shown. reflexivity.
  - intros ->. exists (names_object os), (map graph_object ch). split; [apply field_at; unfold graph_entries; apply in_or_app; right; cbn; tauto|]. split; [apply names_shown|]. split; [apply field_at; unfold graph_entries; apply in_or_app; right; cbn; tauto|].
    induction ch as [|t ch IHch]; constructor; [apply IH|exact IHch].
  - intros ->. split; eexists; (split; [reflexivity|]); cbn; intuition discriminate.
Qed.
(** What export_pomcp returns for the file can always be written, and the file shows it. *)
Theorem C130_export : forall float_text e, exists j gs ss acts, dump float_text (export_object e) = Ok j /\ from_file (load j) /\
  field (load j) "graphs" (PList gs) /\ Forall2 shows_graph (e_graphs e) gs /\ field (load j) "states" ss /\ shows_list shows_name (e_states e) ss /\
  field (load j) "actions" acts /\ shows_list shows_name (e_actions e) acts /\ field (load j) "exploration" (PFloat (e_exploration e)) /\
  field (load j) "relative_exploration" (PBool (e_relative e)).
Proof.
  intros ft e. set (l := [("graphs", PList (map graph_object (e_graphs e))); ("states", names_object (e_states e)); ("actions", names_object (e_actions e)); ("exploration", PFloat (e_exploration e)); ("relative_exploration", PBool (e_relative e))]%string).
  assert (F : from_file (export_object e)).
  { apply (file_entries l); [distinct|]. unfold l. repeat (apply Forall_cons; [cbn [snd]; first [apply file_names|apply file_list; intros; apply graph_file|constructor]|]). constructor. }
  destruct (dumped ft _ F) as (j & Ej & El). exists j, (map graph_object (e_graphs e)), (names_object (e_states e)), (names_object (e_actions e)). rewrite El. change (export_object e) with (PDict (map (fun kv => entry (fst kv) (snd kv)) l)) at 2 3 4 5 6 7.
  split; [exact Ej|]. split; [exact F|]. split; [apply field_at; cbn; tauto|]. split; [clear; induction (e_graphs e); constructor; auto; apply graph_shown|].
  split; [apply field_at; cbn; tauto|]. split; [apply names_shown|]. split; [apply field_at; cbn; tauto|]. split; [apply names_shown|]. split; apply field_at; cbn; tauto.
Qed.
Print Assumptions C130_export.

(** The tiger problem and its policy; a policy whose initial node does not exist; two observations after which trees differ. *)
Example C130_ex : (exists j p', as_json (fun _ => ""%string) tiger = Ok j /\ from_json true j = Ok p' /\ at_ (p_O p') [0; 1; 0] = (3 # 20)%Q /\ nA p' = 3) /\
  (exists j, to_json (fun _ => ""%string) ex_policy = Ok j /\ policy_from_json j = Ok ex_policy) /\
  (exists g j, mk_policy [NStr "a"] [NInt 0] [[Some 0%Z]] [[0]; [1]]%Q (Some [1]%Q) None = Ok g /\ to_json (fun _ => ""%string) g = Ok j /\ policy_from_json j = Err EAssert) /\
  (exists r' ts, trajectory_trees_from_starts ex_policy tiger 1 ex_runner = (r', Ok ts) /\ length ts = 1).
Proof.
  split; [|split; [|split]].
  - eexists _, _. split; [vm_compute; reflexivity|]. split; [vm_compute; reflexivity|]. split; vm_compute; reflexivity.
  - eexists. split; vm_compute; reflexivity.
  - eexists _, _. split; [vm_compute; reflexivity|]. split; vm_compute; reflexivity.
  - eexists _, _. split; [vm_compute; reflexivity|reflexivity].
Qed.
