(** Proofs for C101 to C103: the tasks of the samples. *)
From Verif Require Import PyBase PyBaseFacts QBase HtmModel HtmSpec DagModel DagSpec DagProofs SuppModel SuppSpec SuppProofs SuppProofs2 SuppProofs3 SuppProofs4 EvalModel EvalSpec RunModel RunSpec RunProofs.
From Verif Require ScriptModel ScriptSpec ScriptProofs Props_Supp Props_Dag Props_Eval.
From Coq Require Import Lia.
Import HtmSpec.
Local Open Scope list_scope.
Local Open Scope nat_scope.

(** What the leaves of the task say holds of the nodes of the model. *)
Lemma nodes_params ordn t m (G : sparams -> Prop) : mk_supportive ordn t = Ok m ->
  (forall a i p h, In (Leaf a i p h) (preorder t) -> forall q, a_params a = Some q -> G q) ->
  forall x q, In x (htm_nodes m) -> action_params x = Ok q -> G q.
Proof.
  intros E Hl x q Hx Hq. destruct (mk_built _ _ _ E) as (nodes & succs & init & ps & Ed & B). rewrite (b_nodes _ _ _ _ _ B) in Hx.
  unfold htm_to_dag in Ed. destruct (get_initial_final ordn (dag_fuel t) t empty_dag) as [[[f l] d]|] eqn:Eg; [|discriminate]. cbn [bind] in Ed. assert (nodes = d_nodes d) as -> by congruence.
  set (Q0 := fun a : action sparams => forall q, a_params a = Some q -> G q).
  assert (H1 : forall k a a', action_copy (order_fmt k) a = Ok a' -> Q0 a -> Q0 a').
  { intros k a a' Ea Ha q' Hq'. unfold action_copy in Ea. destruct (a_class a); inversion Ea; subst; cbn in Hq'; try discriminate; apply Ha; auto. }
  assert (HA : forall x, In x (d_nodes d) -> all_leaves Q0 x).
  { refine (gif_leaves ordn Q0 _ H1 _ _ _ Eg _ _); [left|intros y []]. intros a i p h Hin. exact (Hl a i p h Hin). }
  destruct x as [a i p h|]; [|discriminate]. cbn in Hq. destruct (a_class a); try discriminate. destruct (a_params a) as [q'|] eqn:Eq; [|discriminate]. injection Hq as <-.
  apply (HA _ Hx a i p h (or_introl eq_refl) q' Eq).
Qed.

(** The actions of models of tasks of legs. *)
Lemma clears m nodes succs init ps (o : string) : built m nodes succs init ps -> (exists p, In p ps /\ In (CUses, o) (sp_conditions p)) -> In ("clear " ++ o)%string (actions m).
Proof.
  intros B (p & H1 & H2). assert (Ho : In o (objects m)) by (apply (b_objs _ _ _ _ _ B); eauto). apply In_nth_error in Ho. destruct Ho as [k Hk].
  assert (Eb : nth_error (clearable m) k = Some true) by (apply (b_clear _ _ _ _ _ B); exists p, CUses, o; unfold needs_clear; auto 8).
  unfold actions. apply in_or_app. right. apply in_concat. exists [("bring " ++ o)%string; ("clear " ++ o)%string]. split; [|right; left; reflexivity]. apply in_map_iff. exists (o, true). split; [reflexivity|].
  clear - Hk Eb. revert k Hk Eb. generalize (clearable m). induction (objects m) as [|x l IH]; intros [|c cl] [|k] H1 H2; cbn in *; try discriminate; [injection H1 as <-; injection H2 as <-; left; reflexivity|right; eapply IH; eauto].
Qed.
Lemma some_params m nodes succs init ps : built m nodes succs init ps -> dag_ok nodes succs init -> exists p, In p ps.
Proof.
  intros B (_ & D2 & D3 & _). destruct init as [|i init]; [contradiction|]. assert (Hi : i < length nodes) by (apply D3; left; reflexivity).
  pose proof (params_len (b_params _ _ _ _ _ B)) as HL. destruct ps as [|p ps]; [exfalso; destruct nodes; [cbn in Hi; lia|discriminate HL]|]. exists p. left. reflexivity.
Qed.
Lemma legs_actions ordn t m : is_order ordn -> mk_supportive ordn t = Ok m ->
  (forall x q, In x (htm_nodes m) -> action_params x = Ok q -> sp_conditions q = leg_conditions) ->
  In "bring leg"%string (actions m) /\ (forall k holds, incl holds ["hold H"; "hold V"]%string -> exists s0, new_script (actions m) observations k holds = Ok s0).
Proof.
  intros Ho E Hl. destruct (mk_facts _ _ _ Ho E) as (nodes & succs & init & ps & Ed & B & D). destruct (some_params _ _ _ _ _ B D) as [p Hp].
  assert (L : sp_conditions p = leg_conditions). { destruct (params_in (b_params _ _ _ _ _ B) p Hp) as (x & X1 & X2). rewrite <- (b_nodes _ _ _ _ _ B) in X1. eauto. }
  assert (BR : forall c o, In (c, o) leg_conditions -> In ("bring " ++ o)%string (actions m)).
  { intros c o H. apply (brings m _ _ _ _ o B). apply (b_objs _ _ _ _ _ B). exists p, c. rewrite L. auto. }
  assert (CL : forall o, In (CUses, o) leg_conditions -> In ("clear " ++ o)%string (actions m)).
  { intros o H. apply (clears m _ _ _ _ o B). exists p. rewrite L. auto. }
  split; [apply (BR CConsumes); cbn; auto|]. intros k holds Hh. apply ScriptProofs.new_iff. split; [left; reflexivity|]. split; [left; reflexivity|]. split.
  - intros x Hx. apply Hh in Hx. destruct Hx as [<-|[<-|[]]]; cbn; auto.
  - intros o Ht. destruct Ht as [<-|[<-|[<-|[]]]]; (split; [apply (BR CUses)|apply CL]); cbn; auto.
Qed.

(** PolicySupportiveAlternatives(model, length) is the policy of the script with both ways to hold. *)
Lemma alternatives_new m k s : alternatives m k = Ok s <-> new_script (actions m) observations k ["hold H"; "hold V"]%string = Ok s.
Proof.
  unfold alternatives, long_sequence, new_script, script_reset. cbn [sc_actions].
  destruct (ScriptModel.index (actions m) "wait") as [w|]; cbn [bind]; [|split; discriminate]. destruct (ScriptModel.index observations "none") as [o|]; cbn [bind]; [|split; discriminate].
  cbn [mapM]. destruct (ScriptModel.index (actions m) "hold H") as [h|]; cbn [bind]; [|split; discriminate].
  destruct (ScriptModel.index (actions m) "hold V") as [v|]; cbn [bind sc_actions sc_observations sc_wait sc_next sc_n_tasks sc_history sc_to_bring sc_to_clean sc_needs_leg sc_last sc_n_done].
  - repeat match goal with |- context [ScriptModel.index (actions m) (?f (nth ?k ?l ?d))] => idtac | |- context [mapM ?f ?l] => destruct (mapM f l) as [?|?]; cbn [bind]; try (split; discriminate) end. split; auto.
  - repeat match goal with |- context [mapM ?f ?l] => destruct (mapM f l) as [?|?]; cbn [bind]; try (split; discriminate) end.
Qed.

(** Sequences of leaves. *)
Definition seq_leaves (l : list (action sparams)) : stree := Node Sequential (map leaf_of l) None None "unnamed" false None.
Lemma seq_preorder l x : In x (preorder (seq_leaves l)) -> x = seq_leaves l \/ exists a, In a l /\ x = leaf_of a.
Proof.
  cbn [seq_leaves preorder]. intros [<-|H]; [left; reflexivity|]. right. apply in_flat_map in H. destruct H as (c & H1 & H2). apply in_map_iff in H1. destruct H1 as (a & <- & Ha). exists a. split; [exact Ha|]. destruct H2 as [<-|[]]. reflexivity.
Qed.
Lemma seq_word l word : executes (fun a => a) (seq_leaves l) word -> word = l.
Proof.
  unfold seq_leaves. intros H. remember (Node _ _ _ _ _ _ _) as t eqn:Et. destruct H as [|ch i p n h pr ws F| |]; try discriminate. injection Et as Ec _ _ _ _ _. subst ch. clear -F. revert ws F. induction l as [|a l IH]; intros ws F; inversion F as [|? ? ? ? F1 F2]; subst; [reflexivity|].
  cbn [concat]. inversion F1; subst. cbn [app]. f_equal. apply IH. exact F2.
Qed.
Lemma seq_constructed l : constructed (seq_leaves l).
Proof. eapply constructed_comb with (k := Sequential); [|reflexivity]. apply Forall_forall. intros x Hx. apply in_map_iff in Hx. destruct Hx as (a & <- & _). constructor. Qed.
Lemma seq_expanded l : expanded_leaves (seq_leaves l) = length l.
Proof. cbn [seq_leaves expanded_leaves]. rewrite Nat.mul_1_l. induction l as [|a l IH]; [reflexivity|]. cbn [map fold_right length]. rewrite IH. reflexivity. Qed.

(** What is needed of the tasks of the samples: [G] holds of the parameters of their leaves, all executions have [k] leaves, and the
    model has [n] leaves. *)
Definition good_task (ordn : list nat -> list nat) (t : stree) (k n : nat) (G : sparams -> Prop) : Prop :=
  (exists m, mk_supportive ordn t = Ok m) /\
  (forall a i p h, In (Leaf a i p h) (preorder t) -> exists q, a_params a = Some q /\ G q) /\
  (forall word, executes (fun a => a) t word -> length word = k) /\ expanded_leaves t = n.
Lemma sequence_good ordn n : is_order ordn -> 1 <= n -> exists t, task_long_sequence n = Ok t /\ good_task ordn t n n (fun q => sp_conditions q = leg_conditions /\ sp_hold q = Some "h"%string).
Proof.
  intros Ho Hn. set (l := map (fun i => assemble_leg ("leg-" ++ str_nat i)%string) (seq 0 n)). exists (seq_leaves l). split; [unfold task_long_sequence, combine_as, seq_leaves, l; rewrite map_map; reflexivity|].
  assert (Hl : length l = n) by (unfold l; rewrite map_length, seq_length; reflexivity).
  assert (HG : forall a, In a l -> a_class a = KSupported /\ exists q, a_params a = Some q /\ sp_conditions q = leg_conditions /\ sp_hold q = Some "h"%string).
  { intros a Ha. apply in_map_iff in Ha. destruct Ha as (i & <- & _). split; [reflexivity|]. eexists. split; [reflexivity|]. split; reflexivity. }
  split; [|split; [|split]].
  - apply (Props_Supp.C80_builds_partial ordn _ Ho (seq_constructed l)). split; [|split].
    + intros x Hx. apply seq_preorder in Hx. destruct Hx as [-> |(a & _ & ->)]; [right; cbn; destruct l; [cbn in Hl; lia|discriminate]|left; repeat eexists].
    + intros ch i p m0 h pr Hx. apply seq_preorder in Hx. destruct Hx as [Hx|(a & _ & Hx)]; discriminate.
    + intros a i p h Hx. apply seq_preorder in Hx. destruct Hx as [Hx|(a' & Ha & Hx)]; [discriminate|]. injection Hx as -> _ _ _. destruct (HG _ Ha) as (H1 & q & H2 & _). split; [exact H1|congruence].
  - intros a i p h Hx. apply seq_preorder in Hx. destruct Hx as [Hx|(a' & Ha & Hx)]; [discriminate|]. injection Hx as -> _ _ _. apply (HG _ Ha).
  - intros word Hw. apply seq_word in Hw. congruence.
  - rewrite seq_expanded. exact Hl.
Qed.

Definition hold_leaves (w : list string) : list (action sparams) := map (fun s => custom_hold "leg" (Some s)) w.
Lemma mapM_task_seq l : mapM task_seq l = Ok (map (fun w => seq_leaves (hold_leaves w)) l).
Proof. induction l as [|w l IH]; [reflexivity|]. cbn [mapM]. unfold task_seq at 1, combine_as, mk_comb. cbn [bind]. rewrite IH. cbn [bind map]. unfold seq_leaves, hold_leaves. rewrite map_map. reflexivity. Qed.
Lemma seqs_good ordn l k : is_order ordn -> 1 <= k -> l <> [] -> (forall w, In w l -> length w = k) ->
  exists t, task_seqs l = Ok t /\ good_task ordn t k (k * length l) (fun q => sp_conditions q = leg_conditions).
Proof.
  intros Ho Hk Hne Hl. unfold task_seqs. rewrite mapM_task_seq. cbn [bind]. unfold combine_as, mk_comb. set (ch := map (fun w => seq_leaves (hold_leaves w)) l).
  assert (Hc : length ch = length l) by (unfold ch; apply map_length). assert (H0 : Nat.eqb (length ch) 0 = false) by (rewrite Hc; destruct l; [congruence|reflexivity]).
  assert (AP : alt_proba (length ch) None = Ok (repeat (1 # Pos.of_nat (length ch))%Q (length ch))) by (unfold alt_proba; rewrite H0; reflexivity).
  change (alt_proba _ None) with (alt_proba (length ch) None). rewrite AP. cbn [bind]. eexists. split; [reflexivity|]. set (pr := repeat _ _). set (t := Node Alternative ch None None "unnamed" false (Some pr)).
  assert (HC : forall c, In c ch -> exists w, In w l /\ c = seq_leaves (hold_leaves w)) by (intros c Hin; apply in_map_iff in Hin; destruct Hin as (w & <- & Hw); eauto).
  assert (HP : forall x, In x (preorder t) -> x = t \/ exists w, In w l /\ (x = seq_leaves (hold_leaves w) \/ exists s, x = leaf_of (custom_hold "leg" (Some s)))).
  { intros x [<-|Hx]; [left; reflexivity|]. right. apply in_flat_map in Hx. destruct Hx as (c & Hin & Hx). destruct (HC c Hin) as (w & Hw & ->). exists w. split; [exact Hw|]. apply seq_preorder in Hx. destruct Hx as [-> |(a & Ha & ->)]; [left; reflexivity|]. right. apply in_map_iff in Ha. destruct Ha as (s & <- & _). eauto. }
  assert (HLeaf : forall a i p h, In (Leaf a i p h) (preorder t) -> exists s, a = custom_hold "leg" (Some s)).
  { intros a i p h Hx. destruct (HP _ Hx) as [Hx'|(w & _ & [Hx'|(s & Hx')])]; try discriminate. injection Hx' as -> _ _ _. eauto. }
  split; [|split; [|split]].
  - apply (Props_Supp.C80_builds_partial ordn _ Ho).
    + apply constructed_comb with (k := Alternative) (ch := ch) (i := None) (p := None) (n := "unnamed"%string) (h := false) (pr := None); [|unfold mk_comb; change (alt_proba _ None) with (alt_proba (length ch) None); rewrite AP; cbn [bind]; reflexivity]. apply Forall_forall. intros c Hin. destruct (HC c Hin) as (w & _ & ->). apply seq_constructed.
    + split; [|split].
      * intros x Hx. destruct (HP x Hx) as [-> |(w & Hw & [-> |(s & ->)])]; [right; cbn; unfold ch; destruct l; [congruence|discriminate]|right|left; repeat eexists]. cbn. specialize (Hl w Hw). destruct w; [cbn in Hl; lia|discriminate].
      * intros c' i p m0 h pr' Hx. destruct (HP _ Hx) as [Hx'|(w & _ & [Hx'|(s & Hx')])]; discriminate.
      * intros a i p h Hx. destruct (HLeaf _ _ _ _ Hx) as (s & ->). split; [reflexivity|discriminate].
  - intros a i p h Hx. destruct (HLeaf _ _ _ _ Hx) as (s & ->). eexists. split; reflexivity.
  - intros word Hw. inversion Hw; subst. match goal with H : In ?c ch |- _ => destruct (HC _ H) as (w & Hw' & ->) end. match goal with H : executes _ (seq_leaves _) _ |- _ => apply seq_word in H; subst end. unfold hold_leaves. rewrite map_length. auto.
  - cbn [t expanded_leaves]. rewrite Nat.mul_1_l. unfold ch. clear - Hl. induction l as [|w l IH]; [rewrite Nat.mul_0_r; reflexivity|].
    cbn [map fold_right length]. rewrite IH by (intros; apply Hl; right; auto). rewrite seq_expanded. unfold hold_leaves. rewrite map_length, (Hl w (or_introl eq_refl)). lia.
Qed.
Lemma product_hv_length n : length (product_hv n) = 2 ^ n /\ forall w, In w (product_hv n) -> length w = n.
Proof.
  induction n as [|n [IH1 IH2]]; [split; [reflexivity|intros w [<-|[]]; reflexivity]|]. cbn [product_hv flat_map]. rewrite app_nil_r, app_length, !map_length, IH1. split; [cbn; lia|].
  intros w Hw. apply in_app_or in Hw. destruct Hw as [Hw|Hw]; apply in_map_iff in Hw; destruct Hw as (v & <- & Hv); cbn; f_equal; auto.
Qed.

Lemma leaves_count ordn t m : is_order ordn -> mk_supportive ordn t = Ok m -> (n_htm_states m - 2)%Z = Z.of_nat (expanded_leaves t).
Proof.
  intros Ho E. destruct (mk_facts _ _ _ Ho E) as (nodes & succs & init & ps & Ed & B & D). destruct (Props_Dag.C27_well_formed _ ordn t nodes succs init Ho Ed) as (L & _).
  change (n_htm_states m) with (Z.of_nat (length (htm_nodes m) + 2)). rewrite (f_equal (@length _) (b_nodes _ _ _ _ _ B)). unfold stree in *. rewrite L. lia.
Qed.
Lemma leaves_bound cf ordn t m : is_order ordn -> mk_supportive ordn t = Ok m -> 1 <= cf_preferences cf ->
  forall (P : Type) (pol : epolicy P) p disc d0 ds max_horizon discount rec q,
  simulate_one_evaluation (model_is_final cf m) (supportive_model cf m disc d0 ds) pol p max_horizon discount = Ok (rec, q) ->
  exists word, executes (fun a => a) t word /\ leaves_finished cf m (turns_of m rec) <= length word.
Proof.
  intros Ho E Hc P pol p disc d0 ds max_horizon discount rec q Er.
  destruct (Props_Eval.C70_record _ _ _ _ _ _ _ _ _ _ Er) as (p0 & st0 & l & R1 & R2 & R3 & R4 & R5 & R6 & R7 & R8 & R9 & R10).
  assert (HT : turns_of m rec = turns_from (actions m) observations st0 l) by (unfold turns_of; rewrite R4, R5, R6, R7; apply turns_map). rewrite HT. cbn [supportive_model em_start] in R2.
  destruct (trace_episode cf m _ _ _ _ _ _ _ _ _ R3 [] (episode_start cf m d0 st0 R2)) as (done & He & Hl). cbn [length plus] in Hl. rewrite <- Hl.
  destruct (Props_Supp.C34_episodes cf ordn t m Ho E Hc done _ He) as (word & C1 & C2 & _). exists word. split; [exact C1|].
  apply (f_equal (@length _)) in C2. rewrite !map_length, firstn_length in C2. lia.
Qed.
