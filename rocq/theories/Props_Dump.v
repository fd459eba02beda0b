(** C113: the text written for the solver describes the model. *)
From Coq Require Import String Ascii.
From Verif Require Import PyBase QBase PomdpModel PomdpSpec PomdpProofs Props_Pomdp TowerModel NodeModel NodeSpec NodeProofs4 ConvModel ConvSpec ConvProofs3 Props_Conv DumpModel DumpSpec DumpProofs.
From Coq Require Import Lia Lqa.
Local Open Scope list_scope.
Local Open Scope nat_scope.

(** *** C113 *)
(** Whatever the numbers, the text of an accepted model is read back as a file that describes this model, when its
    names are identifiers of the format. [str_float] is the text that Python gives to the discount. *)
Theorem C113_text_partial : forall str_float T O R start discount gs ga go values solver p q,
  mk_pomdp T O R start discount gs ga go values solver = Ok p -> 0 < nA p ->
  good_names (p_s p) -> good_names (p_a p) -> good_names (p_o p) ->
  number (str_float (p_discount p)) = Some q -> (q == p_discount p)%Q ->
  exists text f, dump str_float p = Ok text /\ read_text text = Some f /\ describes p f.
Proof. intros. eapply dump_reads; eassumption. Qed.
Print Assumptions C113_text_partial.

(** With other names, a text is still written. *)
Theorem C113_written : forall str_float T O R start discount gs ga go values solver p,
  mk_pomdp T O R start discount gs ga go values solver = Ok p -> 0 < nA p -> exists text, dump str_float p = Ok text.
Proof.
  intros str_float T O R start discount gs ga go values solver p E HA. destruct (accepted_sizes _ _ _ _ _ _ _ _ _ _ _ E) as [HS HO]. specialize (HO HA).
  destruct (proj1 (C43_accepts T O R start discount gs ga go values) solver p E) as [(_ & S1 & S2 & S3 & S4 & _) (_ & _ & _ & ET & EO & ES & _ & ER & _)].
  rewrite <- ET in S2. rewrite <- EO in S3. rewrite <- ES in S1. rewrite <- ER in S4. unfold dump.
  destruct (row_written (row (p_start p) [])) as (st & sl & -> & _); [unfold row; rewrite S1; cbn [last]; fold (nS p); destruct (nS p); [lia|discriminate]|]. cbn [bind].
  destruct (block3 (p_T p) "T" (nA p) (nS p) (nS p) (map name_text (p_actions p)) S2 HS ltac:(apply map_length) eq_refl) as (tT & LT & -> & _). cbn [bind].
  destruct (block3 (p_O p) "O" (nA p) (nS p) (nO p) (map name_text (p_actions p)) S3 HO ltac:(apply map_length) eq_refl) as (tO & LO & -> & _). cbn [bind].
  destruct (block4 (p_R p) "R" (nA p) (nS p) (nS p) (nO p) (map name_text (p_actions p)) (map name_text (states p)) S4 HO ltac:(apply map_length) ltac:(apply map_length) eq_refl) as (tR & LR & -> & _). cbn [bind]. eauto.
Qed.
Print Assumptions C113_written.

(** The models made from tasks are written properly when the names of the leaves are plain. *)
Lemma radix_chars s : plain_text s = true -> name_chars (name_radix s) = true.
Proof.
  induction s as [|c s IH]; [reflexivity|]. cbn [plain_text name_radix]. intros H. apply andb_prop in H. destruct H as [H1 H2]. specialize (IH H2). 
  destruct c as [[] [] [] [] [] [] [] []]; cbn in H1; try discriminate; cbn [name_chars]; rewrite IH; reflexivity.
Qed.
Lemma name_chars_app a b : name_chars (a ++ b) = name_chars a && name_chars b.
Proof. induction a as [|c a IH]; [reflexivity|]. cbn [append name_chars]. rewrite IH. apply Bool.andb_assoc. Qed.
Lemma prefix_identifier pre s : identifier pre = true -> existsb (String.prefix pre) reserved = false -> name_chars s = true -> identifier (pre ++ s) = true.
Proof.
  intros I R N. destruct pre as [|c pre]; [discriminate|]. unfold identifier in *. cbn [append]. apply andb_prop in I. destruct I as [I _]. apply andb_prop in I. destruct I as [I1 I2]. rewrite I1, name_chars_app, I2, N. cbn [andb].
  apply Bool.negb_true_iff. apply Bool.not_true_iff_false. intros X. unfold is_reserved in X. apply existsb_exists in X. destruct X as (r & Hr & E). apply String.eqb_eq in E. subst r.
  apply Bool.not_true_iff_false in R. apply R. apply existsb_exists. eexists. split; [exact Hr|]. clear. change (String c (pre ++ s)) with (String c pre ++ s)%string. induction (String c pre) as [|d t IH]; [destruct s; reflexivity|]. cbn. destruct (ascii_dec d d); [exact IH|congruence].
Qed.
Lemma good_of x l : as_list x = map NStr l -> Forall (fun s => identifier s = true) l -> good_names x.
Proof. destruct x as [n|l']; cbn; intros E F; [exact I|]. subst l'. intros y Hy. apply in_map_iff in Hy. destruct Hy as (s & <- & Hs). exists s. split; [reflexivity|exact (proj1 (Forall_forall _ _) F s Hs)]. Qed.
Theorem C113_converted : forall str_float exp t_ask t_tell fl t_wait intr end_reward root solver p q,
  inhabited root -> task_to_pomdp exp t_ask t_tell fl t_wait intr end_reward root solver = Ok p ->
  (forall t, unfolds root t -> Forall (fun a => plain_text (a_name a) = true) (leaves t)) ->
  number (str_float 1%Q) = Some q -> (q == 1)%Q ->
  exists text f, dump str_float p = Ok text /\ read_text text = Some f /\ describes p f.
Proof.
  intros str_float exp t_ask t_tell fl t_wait intr end_reward root solver p q HI E HN Dq Q1.
  destruct (conv_inv _ _ _ _ _ _ _ _ _ _ HI E) as (t & T & O & R & S & U & Pt & At & _ & _ & _ & _ & N1 & N2 & N3 & _).
  specialize (HN t U).
  assert (D : p_discount p = 1%Q /\ exists T O R start gs ga go v, mk_pomdp T O R start 1 gs ga go v solver = Ok p).
  { assert (exists T O R start gs ga go v, mk_pomdp T O R start 1 gs ga go v solver = Ok p) as H.
    { unfold task_to_pomdp in E. destruct (from_node (fun _ => Ok tt) (levels root) root) as [n|]; cbn [bind] in E; [|discriminate]. unfold node_to_pomdp in E.
      repeat match type of E with bind ?x _ = _ => destruct x; cbn [bind] in E; [|discriminate] end. repeat eexists. exact E. }
    split; [|exact H]. destruct H as (? & ? & ? & ? & ? & ? & ? & ? & H). exact (proj1 (proj2 (proj2 (proj2 (proj2 (proj2 (proj2 (proj2 (proj1 (C43_accepts _ _ _ _ _ _ _ _ _) solver p H))))))))). }
  destruct D as [Dp (T' & O' & R' & S' & gs & ga & go & v & M)].
  apply (C113_text_partial str_float T' O' R' S' 1%Q gs ga go v solver p q M).
  - unfold nA. rewrite N2. cbn. lia.
  - apply (good_of _ _ N1). unfold state_names. apply Forall_app. split; [|destruct (reward_state fl); repeat constructor]. rewrite node_states_flat. apply Forall_flat_map. eapply Forall_impl; [|exact HN]. intros a Ha. apply radix_chars in Ha.
    cbn [leaf_states map]. repeat constructor; apply prefix_identifier; auto.
  - apply (good_of _ _ N2). unfold action_names. constructor; [reflexivity|]. rewrite node_actions_flat. apply Forall_flat_map. eapply Forall_impl; [|exact HN]. intros a Ha. apply radix_chars in Ha.
    cbn [leaf_actions map]. repeat constructor; apply prefix_identifier; auto.
  - apply (good_of _ _ N3). unfold obs_names. destruct (more fl); repeat constructor.
  - rewrite Dp. exact Dq.
  - rewrite Dp. exact Q1.
Qed.
Print Assumptions C113_converted.

(** Without the condition on names, this is false: a name with a space is two names for the solver, a state whose only
    name is a number is a number of states, a name can be a keyword, and the names 0 and "0" are the same text. *)
Definition ex_float (q : Q) : string := if Qeq_bool q 1 then "1.0" else "0.95".
Definition ex_two (l : list name) : res pomdp :=
  mk_pomdp (ex_arr (l3 [[[1; 0]; [0; 1]]]%Q)) (ex_arr (l3 [[[1]; [1]]]%Q)) {| shape := [1; 2; 2; 1]; at_ := fun _ => 0%Q |} (ex_arr (l1 [1; 0]%Q)) (95 # 100) (Some l) None None "reward" true.
Definition ex_one (x : name) : res pomdp :=
  mk_pomdp (ex_arr (l3 [[[1]]]%Q)) (ex_arr (l3 [[[1]]]%Q)) {| shape := [1; 1; 1; 1]; at_ := fun _ => 0%Q |} (ex_arr (l1 [1]%Q)) (95 # 100) (Some [x]) None None "reward" true.
Definition ex_reads (x : res pomdp) : res (option file) := do p <- x; do t <- dump ex_float p; Ok (read_text t).
Theorem C113_names_refuted :
  ~ (forall str_float T O R start discount gs ga go values solver p q,
      mk_pomdp T O R start discount gs ga go values solver = Ok p -> 0 < nA p ->
      number (str_float (p_discount p)) = Some q -> (q == p_discount p)%Q ->
      exists text f, dump str_float p = Ok text /\ read_text text = Some f /\ describes p f).
Proof.
  intros H. destruct (ex_two [NStr "open door"; NStr "closed"]) as [p|] eqn:E; [|vm_compute in E; discriminate]. unfold ex_two in E.
  destruct (H ex_float _ _ _ _ _ _ _ _ _ _ p (95 # 100)%Q E) as (text & f & D & Rd & _).
  - vm_compute in E. assert (p = match ex_two [NStr "open door"; NStr "closed"] with Ok x => x | Err _ => p end) as -> by (vm_compute; congruence). vm_compute. lia.
  - rewrite (proj1 (proj2 (proj2 (proj2 (proj2 (proj2 (proj2 (proj2 (proj1 (C43_accepts _ _ _ _ _ _ _ _ _) true p E))))))))). vm_compute. reflexivity.
  - rewrite (proj1 (proj2 (proj2 (proj2 (proj2 (proj2 (proj2 (proj2 (proj1 (C43_accepts _ _ _ _ _ _ _ _ _) true p E))))))))). reflexivity.
  - assert (X : ex_reads (ex_two [NStr "open door"; NStr "closed"]) = Ok None) by (vm_compute; reflexivity). unfold ex_reads in X. unfold ex_two in X. rewrite E in X. cbn [bind] in X. rewrite D in X. cbn [bind] in X. congruence.
Qed.
Print Assumptions C113_names_refuted.
(** The refused texts; the first is the text that the reader reads properly. *)
Example C113_ex_names :
  (exists f, ex_reads (ex_two [NStr "open"; NStr "closed"]) = Ok (Some f) /\ f_states f = Named ["open"; "closed"]%string) /\
  ex_reads (ex_two [NStr "open door"; NStr "closed"]) = Ok None /\ ex_reads (ex_one (NStr "3")) = Ok None /\ ex_reads (ex_one (NInt 2)) = Ok None /\
  ex_reads (ex_two [NStr "reset"; NStr "closed"]) = Ok None /\ ex_reads (ex_two [NInt 0; NStr "0"]) = Ok None.
Proof. split; [eexists; split; vm_compute; reflexivity|]. repeat split; vm_compute; reflexivity. Qed.
(** Nor is a state whose only name is 1 read: it is taken for one state, of number 0. *)
Example C113_ex_one : ex_reads (ex_one (NInt 1)) = Ok None.
Proof. vm_compute. reflexivity. Qed.

Definition ex_text : string := match dump ex_float tiger with Ok t => t | Err _ => EmptyString end.
Example C113_ex : good_names (p_s tiger) /\ good_names (p_a tiger) /\ good_names (p_o tiger) /\ 0 < nA tiger /\
  (exists q, number (ex_float (p_discount tiger)) = Some q /\ (q == p_discount tiger)%Q) /\
  exists f, read_text ex_text = Some f /\ f_states f = Counted 2 /\ f_actions f = Named ["listen"; "left"; "right"]%string /\ f_observations f = Counted 2 /\
    option_map (map (map Qred)) (f_O (f_tables f) 0) = Some [[17 # 20; 3 # 20]; [3 # 20; 17 # 20]]%Q /\
    option_map (map (map Qred)) (f_R (f_tables f) 2 1) = Some [[(-100); (-100)]; [(-100); (-100)]]%Q.
Proof.
  split; [exact I|]. split; [intros y Hy; cbn in Hy; destruct Hy as [<-|[<-|[<-|[]]]]; eexists; split; reflexivity|]. split; [exact I|]. split; [vm_compute; lia|]. split; [eexists; split; [vm_compute; reflexivity|vm_compute; reflexivity]|].
  eexists. split; [vm_compute; reflexivity|]. repeat split; vm_compute; reflexivity.
Qed.
(** A task of five leaves meets the condition on names. *)
Example C113_ex_converted : exists p text f, task_to_pomdp ex_exp 1 1 (ex_flags false false false false) 1 1 10 ex_task true = Ok p /\
  dump ex_float p = Ok text /\ read_text text = Some f /\ describes p f /\ declared_size (f_states f) = 16.
Proof.
  destruct ex_plain as [p E]. destruct (C113_converted ex_float _ _ _ _ _ _ _ _ _ p (10 # 10)%Q ex_task_inhabited E) as (text & f & H1 & H2 & H3).
  - intros t U. rewrite (unfolds_unique _ _ _ U ex_task_unfolds). vm_compute. repeat constructor.
  - vm_compute. reflexivity.
  - reflexivity.
  - exists p, text, f. split; [exact E|]. split; [exact H1|]. split; [exact H2|]. split; [exact H3|].
    destruct H3 as (_ & _ & D & _). destruct (C65_tables _ _ _ _ _ _ _ _ _ _ ex_task_inhabited E) as (t & U & N & _). rewrite (unfolds_unique _ _ _ U ex_task_unfolds) in N. unfold nS, states in N.
    destruct (p_s p) as [n|l]; cbn in D, N; [rewrite D; cbn; rewrite ?map_length, ?seq_length in N; exact N|]. destruct D as (ls & -> & ->). cbn. rewrite map_length in N. exact N.
Qed.
