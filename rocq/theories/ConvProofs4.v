(** Proofs for the POMDP of a task: its tables and the specification. *)
From Coq Require Import Lia Lqa Field.
From Verif Require Import PyBase PyBaseFacts QBase PomdpModel PomdpSpec PomdpProofs HtmModel HtmSpec HtmProofs ConvModel NodeModel NodeSpec ConvSpec NodeProofs NodeProofs2 NodeProofs3 ConvProofs ConvProofs2 ConvProofs3 NameSpec NameProofs.
Local Open Scope list_scope.
Local Open Scope nat_scope.

Lemma sum_const (l : list (nat * Q)) (c : Q) : (sum_over l (fun _ => c) == inject_Z (Z.of_nat (length l)) * c)%Q.
Proof. induction l as [|x l IH]; [cbn; ring|]. change (c + sum_over l (fun _ => c) == inject_Z (Z.of_nat (S (length l))) * c)%Q. rewrite IH, Nat2Z.inj_succ. unfold Z.succ. rewrite inject_Z_plus. ring. Qed.
Lemma sum_scale (l : list (nat * Q)) (c : Q) : (sum_over l (fun x => c * snd x) == c * sum_over l snd)%Q.
Proof. induction l as [|x l IH]; [cbn; ring|]. change (c * snd x + sum_over l (fun x => c * snd x) == c * (snd x + sum_over l snd))%Q. rewrite IH. ring. Qed.
Lemma sum_cons (x : nat * Q) l : sum_over (x :: l) snd = (snd x + sum_over l snd)%Q.
Proof. reflexivity. Qed.

Section Rows.
  Variable exp : Q -> Q.
  Variables t_wait t_ask t_tell intr end_reward : Q.
  Variable fl : flags.
  Variable t : n2p collab.
  Hypothesis Pt : proper t.
  Hypothesis At : Forall (fun a => exists p, attrs a = Ok p) (leaves t).
  Notation L := (n_leaves t).
  Notation fls := (flat t 0 [(L, 1%Q)] []).
  Notation durs := (durs t_wait t_ask t_tell t).
  Notation size := (size fl t).
  Notation n_act := (n_act t).
  Notation Goes := (goes exp t_wait t_ask t_tell fl t).

  Ltac eqs := repeat match goal with |- context [Nat.eqb ?x ?y] => let E := fresh "E" in destruct (Nat.eqb_spec x y) as [E|E]; try lia; cbn [andb] end.
  Ltac nums := unfold before_leaf, human, robot, waiting, physical, ask_intention, tell_intention, ask_finished in *.

  Lemma number_L : number t = L.
  Proof. unfold number. rewrite n_leaves_length. reflexivity. Qed.
  Lemma over_L : over t = 3 * L.
  Proof. unfold over. rewrite number_L. reflexivity. Qed.

  Lemma attrs_param a p : attrs a = Ok p <-> a_class a = KCollab /\ a_params a = Some p.
  Proof. unfold attrs. split; [|intros [-> ->]; reflexivity]. destruct (a_class a); try discriminate. destruct (a_params a); [|discriminate]. intros E. split; congruence. Qed.
  Lemma param_par li : In li fls -> param t (li_k li) (par li).
  Proof.
    intros H. pose proof (flat_action _ _ _ _ _ H) as Ha. rewrite Nat.sub_0_r in Ha. destruct (fls_attrs t At li H) as [p Hp]. exists (li_a li). split; [auto|]. apply attrs_param. unfold par. rewrite Hp. reflexivity.
  Qed.
  Lemma param_eq li p : In li fls -> param t (li_k li) p -> p = par li.
  Proof.
    intros H (a & Ha & Hp). apply attrs_param in Hp. pose proof (flat_action _ _ _ _ _ H) as Ha'. rewrite Nat.sub_0_r in Ha'. assert (li_a li = a) as E by congruence. unfold par. rewrite E, Hp. reflexivity.
  Qed.
  Lemma param_bound k p : param t k p -> k < L.
  Proof. intros (a & Ha & _). rewrite n_leaves_length. apply nth_error_Some. congruence. Qed.
  Lemma leaf_ds_length a : In a (leaves t) -> length (leaf_ds t_ask t_tell a) = 4.
  Proof. intros Ha. rewrite Forall_forall in At. destruct (At a Ha) as [p Hp]. unfold leaf_ds. rewrite Hp. reflexivity. Qed.
  Lemma durs_nth k p r : param t k p -> r < 4 -> nth (4 * k + 1 + r) durs 0%Q = nth r [t_err p; t_ask; t_tell; t_ask] 0%Q.
  Proof.
    intros (a & Ha & Hp) Hr. apply attrs_param in Hp. replace (4 * k + 1 + r) with (S (4 * k + r)) by lia. cbn [nth ConvProofs3.durs].
    pose proof (nth_error_blocks (leaf_ds t_ask t_tell) 4 (leaves t) k a r leaf_ds_length Ha Hr) as E. unfold leaf_ds at 2 in E. rewrite Hp in E.
    assert (Hn : nth_error [t_err p; t_ask; t_tell; t_ask] r = Some (nth r [t_err p; t_ask; t_tell; t_ask] 0%Q)) by (apply nth_error_nth'; cbn; auto). rewrite Hn in E. apply (nth_error_nth _ _ 0%Q) in E. exact E.
  Qed.
  Lemma leaf_of_state s : s < 3 * L -> exists li, In li fls /\ mine (li_k li) s = true.
  Proof.
    intros H. assert (s / 3 < L) as Hk by (apply Nat.div_lt_upper_bound; lia). destruct (flat_get t 0 [(L, 1%Q)] [] (s / 3) Hk) as (li & Hl & Ek). exists li. split; [auto|]. apply mine_iff. rewrite Ek. pose proof (Nat.div_mod s 3 ltac:(lia)). pose proof (Nat.mod_upper_bound s 3 ltac:(lia)). lia.
  Qed.
  Lemma leaf_of_action a : 0 < a < n_act -> exists li, In li fls /\ act (li_k li) a = true.
  Proof.
    unfold ConvProofs3.n_act. intros H. assert ((a - 1) / 4 < L) as Hk by (apply Nat.div_lt_upper_bound; lia). destruct (flat_get t 0 [(L, 1%Q)] [] ((a - 1) / 4) Hk) as (li & Hl & Ek). exists li. split; [auto|]. apply act_iff. rewrite Ek. pose proof (Nat.div_mod (a - 1) 4 ltac:(lia)). pose proof (Nat.mod_upper_bound (a - 1) 4 ltac:(lia)). lia.
  Qed.
  Lemma lasts_nth a d : lasts t_wait t_ask t_tell t a d -> a < n_act /\ d = nth a durs 0%Q.
  Proof.
    intros H. unfold ConvProofs3.n_act. destruct H as [|k p H|k p H|k p H|k p H]; nums; (split; [try (pose proof (param_bound k p H)); lia|]).
    - reflexivity.
    - rewrite <- (Nat.add_0_r (4 * k + 1)), (durs_nth k p 0 H) by lia. reflexivity.
    - replace (4 * k + 2) with (4 * k + 1 + 1) by lia. rewrite (durs_nth k p 1 H) by lia. reflexivity.
    - replace (4 * k + 3) with (4 * k + 1 + 2) by lia. rewrite (durs_nth k p 2 H) by lia. reflexivity.
    - replace (4 * k + 4) with (4 * k + 1 + 3) by lia. rewrite (durs_nth k p 3 H) by lia. reflexivity.
  Qed.
  Lemma lasts_ex a : a < n_act -> lasts t_wait t_ask t_tell t a (nth a durs 0%Q).
  Proof.
    intros H. assert (E : exists d, lasts t_wait t_ask t_tell t a d).
    { destruct a as [|a]; [eexists; apply la_wait|]. destruct (leaf_of_action (S a) ltac:(lia)) as (li & Hl & Hm). apply act_iff in Hm. pose proof (param_par li Hl) as P.
      assert (S a = physical (li_k li) \/ S a = ask_intention (li_k li) \/ S a = tell_intention (li_k li) \/ S a = ask_finished (li_k li)) as [-> | [-> | [-> | ->]]] by (nums; lia); eexists; [eapply la_phy|eapply la_ask|eapply la_tell|eapply la_finished]; eauto. }
    destruct E as [d Hd]. pose proof (proj2 (lasts_nth a d Hd)) as <-. auto.
  Qed.

  Definition spot (o : option nat) : nat := match o with Some j => j | None => L end.
  Lemma place_spot o : place t o = 3 * spot o.
  Proof. destruct o; cbn; [reflexivity|apply over_L]. Qed.
  Lemma next_leads li j q : In li fls -> (In (j, q) (li_next li) <-> exists o, leads t (li_k li) o q /\ j = spot o).
  Proof.
    intros H. rewrite (flat_leads t 0 [(L, 1%Q)] [] li (li_k li) H eq_refl). split.
    - intros [(j0 & -> & Hl)|[Hl [E|[]]]]; [exists (Some j0); auto|]. exists None. assert (j = L) as -> by congruence. assert (q = 1%Q) as -> by congruence. auto.
    - intros ([j0|] & Hl & ->); [left; exists j0; auto|]. right. pose proof (leads_none_one _ _ _ Hl) as ->. split; [auto|left; auto].
  Qed.
  Lemma next_good li : In li fls -> good_next (li_k li + 1) (li_next li).
  Proof. intros H. apply (flat_good t 0 [(L, 1%Q)] [] li Pt); auto. apply final_good. Qed.
  Lemma next_bound li x : In li fls -> In x (li_next li) -> fst x <= L.
  Proof. intros H Hx. destruct x as [j q]. apply (next_leads li j q H) in Hx. destruct Hx as ([j0|] & Hl & ->); cbn; [|lia]. pose proof (leads_bound_next t _ _ _ Hl j0 eq_refl). lia. Qed.
  (** The continuations of a leaf, and the list of the leaves that follow it. *)
  Lemma next_outcomes li l : In li fls -> NoDup l -> (forall o, In o l <-> exists q, leads t (li_k li) o q) -> length l = length (li_next li).
  Proof.
    intros H N HI. destruct (next_good li H) as (G & _). assert (HB : forall o j, In o l -> o = Some j -> j < L). { intros o j Ho ->. apply HI in Ho. destruct Ho as [q Hq]. apply (leads_bound_next t _ _ _ Hq j eq_refl). }
    assert (N' : NoDup (map spot l)). { apply NoDup_map_inj; auto. intros [x|] [y|] Hx Hy E; cbn in E; try reflexivity; [congruence|specialize (HB _ x Hx eq_refl); lia|specialize (HB _ y Hy eq_refl); lia]. }
    rewrite <- (map_length spot l), <- (map_length fst (li_next li)). apply Nat.le_antisymm; apply NoDup_incl_length; auto.
    - intros j Hj. apply in_map_iff in Hj. destruct Hj as (o & <- & Ho). apply HI in Ho. destruct Ho as [q Hq]. change (spot o) with (fst (spot o, q)). apply in_map. apply (next_leads li _ q H). eauto.
    - intros j Hj. apply in_map_iff in Hj. destruct Hj as ([j' q] & <- & Ho). apply (next_leads li _ q H) in Ho. destruct Ho as (o & Ho & ->). cbn. apply in_map. apply HI. eauto.
  Qed.
  Lemma outcomes_ex li : In li fls -> exists l, NoDup l /\ (forall o, In o l <-> exists q, leads t (li_k li) o q).
  Proof.
    intros H. destruct (next_good li H) as (G & _). exists (map (fun j => if j =? L then None else Some j) (map fst (li_next li))). split.
    - apply NoDup_map_inj; auto. intros x y _ _. destruct (Nat.eqb_spec x L); destruct (Nat.eqb_spec y L); congruence.
    - intros o. rewrite in_map_iff. split.
      + intros (j & <- & Hj). apply in_map_iff in Hj. destruct Hj as ([j' q] & <- & Hj). apply (next_leads li _ q H) in Hj. destruct Hj as (o & Ho & ->). cbn. exists q. destruct o as [j0|]; cbn; [|rewrite Nat.eqb_refl; auto]. pose proof (leads_bound_next t _ _ _ Ho j0 eq_refl). destruct (Nat.eqb_spec j0 L); [lia|auto].
      + intros [q Hq]. exists (spot o). split; [|change (spot o) with (fst (spot o, q)); apply in_map; apply (next_leads li _ q H); eauto]. destruct o as [j0|]; cbn; [|rewrite Nat.eqb_refl; auto]. pose proof (leads_bound_next t _ _ _ Hq j0 eq_refl). destruct (Nat.eqb_spec j0 L); [lia|auto].
  Qed.

  Notation Row li a s := (row exp fl (par li) (li_k li) (li_next li) durs a s).
  Lemma in_next_map li (f : Q -> Q) s' q : In li fls -> (In (s', q) (map (fun x : nat * Q => (3 * fst x, f (snd x))) (li_next li)) <-> exists o q0, leads t (li_k li) o q0 /\ s' = place t o /\ q = f q0).
  Proof.
    intros H. rewrite in_map_iff. split.
    - intros ([j q0] & E & Hx). apply (next_leads li _ q0 H) in Hx. destruct Hx as (o & Ho & ->). exists o, q0. rewrite place_spot. cbn [fst snd] in E. split; [auto|]. split; congruence.
    - intros (o & q0 & Ho & -> & ->). exists (spot o, q0). rewrite place_spot. split; [reflexivity|]. apply (next_leads li _ q0 H). eauto.
  Qed.
  Lemma row_goes li a s s' q : In li fls -> mine (li_k li) s = true -> a < n_act -> In (s', q) (Row li a s) -> Goes a s s' q.
  Proof.
    intros Hl Hm Ha. apply mine_iff in Hm. pose proof (param_par li Hl) as P. unfold row. assert (s = before_leaf (li_k li) \/ s = human (li_k li) \/ s = robot (li_k li)) as [-> | [-> | ->]] by (nums; lia).
    - unfold before_leaf at 1. rewrite Nat.eqb_refl. destruct (Nat.eqb_spec a (4 * li_k li + 2)).
      { intros [E|[E|[]]]; injection E as E1 E2; rewrite <- E1, <- E2; [apply go_yes|apply go_no]; auto. }
      destruct (Nat.eqb_spec a (4 * li_k li + 3)); intros [E|[]]; injection E as E1 E2; rewrite <- E1, <- E2; [eapply go_told|eapply go_undecided]; eauto.
    - replace (human (li_k li) =? 3 * li_k li) with false by (symmetry; apply Nat.eqb_neq; nums; lia). replace (human (li_k li) =? 3 * li_k li + 1) with true by (symmetry; apply Nat.eqb_eq; reflexivity). destruct (deterministic fl) eqn:Ed.
      + destruct (Nat.eqb_spec a (4 * li_k li + 4)).
        * intros Hi. apply (in_next_map li (fun _ => (1 / inject_Z (Z.of_nat (length (li_next li))))%Q) s' q Hl) in Hi. destruct Hi as (o & q0 & Ho & -> & ->). destruct (outcomes_ex li Hl) as (l & N & HI). rewrite <- (next_outcomes li l Hl N HI). eapply go_asked; eauto. apply HI. eauto.
        * intros [E'|[]]; injection E' as E1 E2; rewrite <- E1, <- E2. eapply go_unasked; eauto.
      + intros [E'|Hi]; [injection E' as E1 E2; rewrite <- E1, <- E2; apply go_busy; auto; apply lasts_ex; auto|].
        apply (in_next_map li (fun x => ((1 - exp (- nth a durs 0 / t_hum (par li))) * x)%Q) s' q Hl) in Hi. destruct Hi as (o & q0 & Ho & -> & ->). apply go_finished; auto. apply lasts_ex; auto.
    - replace (robot (li_k li) =? 3 * li_k li) with false by (symmetry; apply Nat.eqb_neq; nums; lia). replace (robot (li_k li) =? 3 * li_k li + 1) with false by (symmetry; apply Nat.eqb_neq; nums; lia). destruct (Nat.eqb_spec a (4 * li_k li + 1)).
      + intros [E'|Hi]; [injection E' as E1 E2; rewrite <- E1, <- E2; apply go_fail; auto|].
        apply (in_next_map li (fun x => ((1 - fail_proba (par li)) * x)%Q) s' q Hl) in Hi. destruct Hi as (o & q0 & Ho & -> & ->). apply go_success; auto.
      + intros [E'|[]]; injection E' as E1 E2; rewrite <- E1, <- E2. eapply go_idle; eauto.
  Qed.
  Lemma goes_row li a s s' q : In li fls -> mine (li_k li) s = true -> Goes a s s' q -> In (s', q) (Row li a s).
  Proof.
    intros Hl Hm. apply mine_iff in Hm. pose proof (flat_range _ _ _ _ _ Hl) as Hr. unfold row. intros H.
    destruct H as [k p P Ea|k p P Ea|k p P Ea|k p P E1 E2|k p P Ea|k p o q0 P Ea Ho|k p P E1|k p d D P La|k p d o q0 D P La Ho|k p D P Ea|k p l o D P Ea N HI Ho|Lo Re|Lo Re|Lo Re|j q0 Lo En]; try (rewrite over_L in Hm; exfalso; nums; lia);
      (assert (k = li_k li) as Ek by (nums; lia)); subst k; pose proof (param_eq li p Hl P) as Ep; subst p; nums.
    - eqs. left; reflexivity.
    - eqs. right; left; reflexivity.
    - eqs. left; reflexivity.
    - eqs. left; reflexivity.
    - eqs. left; reflexivity.
    - eqs. right. apply (in_next_map li (fun x => ((1 - fail_proba (par li)) * x)%Q) _ _ Hl). eauto.
    - eqs. left; reflexivity.
    - rewrite D. eqs. rewrite <- (proj2 (lasts_nth a d La)). left; reflexivity.
    - rewrite D. eqs. rewrite <- (proj2 (lasts_nth a d La)). right. apply (in_next_map li (fun x => ((1 - exp (- d / t_hum (par li))) * x)%Q) _ _ Hl). eauto.
    - rewrite D. eqs. left; reflexivity.
    - rewrite D. eqs. rewrite (next_outcomes li l Hl N HI). apply (in_next_map li (fun _ => (1 / inject_Z (Z.of_nat (length (li_next li))))%Q) _ _ Hl). apply HI in Ho. destruct Ho as [q0 Hq]. eauto.
  Qed.
  Lemma rowE_goes a s s' q : (loop fl = true -> reward_state fl = false) -> 3 * L <= s < size -> (In (s', q) (rowE fl t s) <-> Goes a s s' q).
  Proof.
    intros NB Hs. unfold rowE, ConvProofs3.size in *. split.
    - destruct (loop fl) eqn:El.
      + rewrite (NB eq_refl) in *. assert (s = over t) as -> by (rewrite over_L; lia). rewrite over_L. replace (3 * L =? 3 * L + 1 - 1) with true by (symmetry; apply Nat.eqb_eq; lia). rewrite <- over_L. intros H. apply in_map_iff in H. destruct H as ([j q0] & E & H). cbn in E. assert (q = 1%Q) as -> by congruence. assert (s' = before_leaf j) as -> by (unfold before_leaf; cbn; congruence). apply inits_enters in H. eapply go_again; eauto.
      + intros [E|[]]. injection E as E1 E2. rewrite <- E2. clear NB. destruct (reward_state fl) eqn:Er.
        * assert (s' = over t + 1) as -> by (rewrite over_L; lia). assert (s = over t \/ s = over t + 1) as [-> | ->] by (rewrite over_L; lia); constructor; auto.
        * assert (s' = over t) as -> by (rewrite over_L; lia). assert (s = over t) as -> by (rewrite over_L; lia). constructor; auto.
    - intros H. destruct H as [k p P Ea|k p P Ea|k p P Ea|k p P E1 E2|k p P Ea|k p o q0 P Ea Ho|k p P E1|k p d D P La|k p d o q0 D P La Ho|k p D P Ea|k p l o D P Ea N HI Ho|Lo Re|Lo Re|Lo Re|j q0 Lo En]; try (pose proof (param_bound _ _ P); exfalso; nums; lia); rewrite Lo; rewrite ?over_L; try rewrite Re.
      + left. f_equal. lia.
      + left. f_equal. lia.
      + left. f_equal. lia.
      + rewrite (NB Lo). replace (3 * L =? 3 * L + 1 - 1) with true by (symmetry; apply Nat.eqb_eq; lia). apply in_map_iff. exists (j, q0). split; [reflexivity|]. apply inits_enters. auto.
  Qed.

  (** The rows are distributions. *)
  Lemma row_nodup li a s : In li fls -> NoDup (map fst (Row li a s)).
  Proof.
    intros Hl. destruct (next_good li Hl) as (G & _ & _ & _ & B). assert (M : forall f, NoDup (map fst (map (fun x : nat * Q => (3 * fst x, f (snd x) : Q)) (li_next li)))). { intros f. rewrite map_map. cbn [fst]. rewrite <- (map_map fst (Nat.mul 3)). apply FinFun.Injective_map_NoDup; auto. intros x y; lia. }
    assert (M' : forall f y, y <= 3 * li_k li + 2 -> ~ In y (map fst (map (fun x : nat * Q => (3 * fst x, f (snd x) : Q)) (li_next li)))). { intros f y Hy K. rewrite map_map in K. apply in_map_iff in K. destruct K as (x & E & Hx). specialize (B x Hx). cbn in E. lia. }
    assert (N1 : forall (x : nat), NoDup [x]) by (intros; constructor; [intros []|constructor]). unfold row. destruct (s =? 3 * li_k li).
    - destruct (a =? 4 * li_k li + 2); [cbn; constructor; [intros [E|[]]; lia|apply N1]|]. destruct (a =? 4 * li_k li + 3); apply N1.
    - destruct (s =? 3 * li_k li + 1).
      + destruct (deterministic fl).
        * destruct (a =? 4 * li_k li + 4); [apply (M (fun _ => _))|apply N1].
        * cbn [map fst]. constructor; [apply (M' (fun q => ((1 - exp (- nth a durs 0 / t_hum (par li))) * q)%Q)); lia|apply (M (fun q => ((1 - exp (- nth a durs 0 / t_hum (par li))) * q)%Q))].
      + destruct (a =? 4 * li_k li + 1); [|apply N1]. cbn [map fst]. constructor; [apply (M' (fun q => ((1 - fail_proba (par li)) * q)%Q)); lia|apply (M (fun q => ((1 - fail_proba (par li)) * q)%Q))].
  Qed.
  Lemma row_bound li a s x : In li fls -> In x (Row li a s) -> fst x <= 3 * L.
  Proof.
    intros Hl. pose proof (flat_range _ _ _ _ _ Hl) as Hr. assert (M : forall f, In x (map (fun x : nat * Q => (3 * fst x, f (snd x) : Q)) (li_next li)) -> fst x <= 3 * L). { intros f H. apply in_map_iff in H. destruct H as (y & <- & Hy). pose proof (next_bound li y Hl Hy). cbn. lia. }
    assert (N1 : forall (y : nat) (q : Q), y <= 3 * L -> In x [(y, q)] -> fst x <= 3 * L) by (intros y q Hy [<-|[]]; auto). unfold row. destruct (s =? 3 * li_k li).
    - destruct (a =? 4 * li_k li + 2); [intros [<-|H]; [cbn; lia|revert H; apply N1; lia]|]. destruct (a =? 4 * li_k li + 3); apply N1; lia.
    - destruct (s =? 3 * li_k li + 1).
      + destruct (deterministic fl).
        * destruct (a =? 4 * li_k li + 4); [apply (M (fun _ => _))|apply N1; lia].
        * intros [<-|H]; [cbn; lia|revert H; apply (M (fun q => ((1 - exp (- nth a durs 0 / t_hum (par li))) * q)%Q))].
      + destruct (a =? 4 * li_k li + 1); [|apply N1; lia]. intros [<-|H]; [cbn; lia|revert H; apply (M (fun q => ((1 - fail_proba (par li)) * q)%Q))].
  Qed.
  Lemma row_sum li a s : In li fls -> (sum_over (Row li a s) snd == 1)%Q.
  Proof.
    intros Hl. destruct (next_good li Hl) as (_ & Ne & _ & S & _). assert (M : forall c : Q, (sum_over (map (fun x : nat * Q => ((3 * fst x)%nat, ((1 - c) * snd x)%Q)) (li_next li)) snd == 1 - c)%Q). { intros c. rewrite sum_map. cbn [snd]. rewrite (sum_scale (li_next li)), S. ring. }
    unfold row. destruct (s =? 3 * li_k li).
    - destruct (a =? 4 * li_k li + 2); [rewrite !sum_cons; cbn; ring|]. destruct (a =? 4 * li_k li + 3); reflexivity.
    - destruct (s =? 3 * li_k li + 1).
      + destruct (deterministic fl).
        * destruct (a =? 4 * li_k li + 4); [|reflexivity]. rewrite sum_map. cbn [snd]. rewrite sum_const. assert (~ inject_Z (Z.of_nat (length (li_next li))) == 0)%Q; [|field; auto]. destruct (li_next li); [congruence|]. cbn [length]. unfold Qeq, inject_Z. cbn [Qnum Qden]. lia.
        * cbn zeta. rewrite sum_cons. cbn [snd]. rewrite M. ring.
      + destruct (a =? 4 * li_k li + 1); [|reflexivity]. rewrite sum_cons. cbn [snd]. rewrite M. ring.
  Qed.
  Definition unit_interval (x : Q) : Prop := (0 <= x <= 1)%Q.
  Lemma row_nonneg li a s x : In li fls -> unit_interval (no_proba (par li)) -> unit_interval (fail_proba (par li)) -> unit_interval (exp (- nth a durs 0 / t_hum (par li))%Q) -> In x (Row li a s) -> (0 <= snd x)%Q.
  Proof.
    intros Hl [N0 N1] [F0 F1] [X0 X1]. destruct (next_good li Hl) as (_ & Ne & Po & _ & _).
    assert (M : forall f, (forall q, (0 < q)%Q -> (0 <= f q)%Q) -> In x (map (fun x : nat * Q => (3 * fst x, f (snd x) : Q)) (li_next li)) -> (0 <= snd x)%Q). { intros f Hf H. apply in_map_iff in H. destruct H as (y & <- & Hy). cbn. auto. }
    assert (O1 : forall (y : nat) (q : Q), (0 <= q)%Q -> In x [(y, q)] -> (0 <= snd x)%Q) by (intros y q Hy [<-|[]]; auto). unfold row. destruct (s =? 3 * li_k li).
    - destruct (a =? 4 * li_k li + 2); [intros [<-|H]; [cbn [snd]; lra|revert H; apply O1; lra]|]. destruct (a =? 4 * li_k li + 3); apply O1; lra.
    - destruct (s =? 3 * li_k li + 1).
      + destruct (deterministic fl).
        * destruct (a =? 4 * li_k li + 4); [|apply O1; lra]. apply (M (fun _ => (1 / inject_Z (Z.of_nat (length (li_next li))))%Q)). intros _ _. apply Qle_shift_div_l; [|lra]. destruct (li_next li); [congruence|]. unfold Qlt, inject_Z. cbn [Qnum Qden length]. lia.
        * intros [<-|H]; [cbn [snd]; lra|revert H; apply (M (fun q => ((1 - exp (- nth a durs 0 / t_hum (par li))) * q)%Q))]. intros q Hq. apply Qmult_le_0_compat; lra.
      + destruct (a =? 4 * li_k li + 1); [|apply O1; lra]. intros [<-|H]; [cbn [snd]; lra|revert H; apply (M (fun q => ((1 - fail_proba (par li)) * q)%Q))]. intros q Hq. apply Qmult_le_0_compat; lra.
  Qed.

  (** *** The whole table of transitions *)
  Section T.
    Variable T : tensor.
    Hypothesis HT : tabT exp t_wait t_ask t_tell fl t T.
    Hypothesis NB : loop fl = true -> reward_state fl = false.
    Lemma T_row a s : a < n_act -> s < size -> exists R, NoDup (map fst R) /\ (forall s', T a s s' = look R s') /\ (forall s' q, In (s', q) R <-> Goes a s s' q) /\ (forall x, In x R -> fst x < size) /\
      ((s < 3 * L /\ (sum_over R snd == 1)%Q /\ exists li, In li fls /\ mine (li_k li) s = true /\ R = Row li a s) \/ (3 * L <= s /\ R = rowE fl t s)).
    Proof.
      intros Ha Hs. destruct (le_lt_dec (3 * L) s) as [Hge|Hlt].
      - exists (rowE fl t s). split; [|split; [|split; [|split; [|right; auto]]]].
        + unfold rowE. destruct (loop fl); [|cbn; constructor; [intros []|constructor]]. destruct (s =? size - 1); [|constructor]. rewrite map_map. cbn [fst]. rewrite <- (map_map fst (Nat.mul 3)). apply FinFun.Injective_map_NoDup; [intros x y; lia|apply inits_NoDup].
        + intros s'. apply (HT a s s' Hs). auto.
        + intros s' q. apply rowE_goes; auto.
        + unfold rowE, ConvProofs3.size in *. destruct (loop fl).
          * destruct (s =? _); [|intros x []]. intros x Hx. apply in_map_iff in Hx. destruct Hx as (y & <- & Hy). apply inits_bound in Hy. cbn. lia.
          * intros x [<-|[]]. cbn. destruct (reward_state fl); lia.
      - destruct (leaf_of_state s Hlt) as (li & Hl & Hm). exists (Row li a s). split; [apply row_nodup; auto|]. split; [intros s'; apply (proj1 (HT a s s' Hs)); auto|]. split; [intros; split; [apply row_goes|apply goes_row]; auto|]. split; [|left; split; [auto|]; split; [apply row_sum; auto|eauto]].
        intros x Hx. pose proof (row_bound li a s x Hl Hx). unfold ConvProofs3.size. destruct (reward_state fl); lia.
    Qed.
    Lemma T_goes a s s' : a < n_act -> s < size -> (forall q, Goes a s s' q -> T a s s' = q) /\ ((forall q, ~ Goes a s s' q) -> T a s s' = 0%Q).
    Proof.
      intros Ha Hs. destruct (T_row a s Ha Hs) as (R & N & E & G & _). rewrite E. split.
      - intros q H. apply G in H. apply look_In; auto.
      - intros H. apply look_notin. intros K. apply in_map_iff in K. destruct K as ([j q] & <- & K). apply G in K. apply (H q). auto.
    Qed.
    Lemma T_sum a s : (loop fl = true -> length (inits t) = 1) -> a < n_act -> s < size -> (sum_n size (T a s) == 1)%Q.
    Proof.
      intros L1 Ha Hs. destruct (T_row a s Ha Hs) as (R & N & E & _ & B & C). rewrite (sum_n_ext size (T a s) (look R)) by (intros; rewrite E; reflexivity). rewrite look_sum by auto. destruct C as [(_ & S & _)|[Hge ->]]; [auto|]. unfold rowE. destruct (loop fl) eqn:El; [|reflexivity]. specialize (L1 eq_refl). specialize (NB eq_refl). unfold ConvProofs3.size in *. rewrite NB in *.
      replace (s =? 3 * L + 1 - 1) with true by (symmetry; apply Nat.eqb_eq; lia). destruct (inits t) as [|x [|y l]]; try discriminate L1. cbn. reflexivity.
    Qed.
    Lemma T_sum_loop a : loop fl = true -> a < n_act -> (sum_n size (T a (3 * L)%nat) == inject_Z (Z.of_nat (length (inits t))))%Q.
    Proof.
      intros El Ha. pose proof (NB El) as Er. assert (Hs : 3 * L < size) by (unfold ConvProofs3.size; destruct (reward_state fl); lia). destruct (T_row a _ Ha Hs) as (R & N & E & _ & B & C). rewrite (sum_n_ext size _ (look R)) by (intros; rewrite E; reflexivity). rewrite look_sum by auto. destruct C as [(K & _)|[Hge ->]]; [lia|]. unfold rowE, ConvProofs3.size. rewrite El, Er.
      replace (3 * L =? 3 * L + 1 - 1) with true by (symmetry; apply Nat.eqb_eq; lia). rewrite sum_map. cbn [snd]. rewrite sum_const. ring.
    Qed.
  End T.
  Lemma T_loop_reward T a : tabT exp t_wait t_ask t_tell fl t T -> loop fl = true -> reward_state fl = true -> (sum_n size (T a (3 * L)%nat) == 0)%Q.
  Proof.
    intros HT El Er. assert (Hs : 3 * L < size) by (unfold ConvProofs3.size; rewrite Er; lia). rewrite (sum_n_ext size _ (fun _ => 0%Q)); [generalize size; intros n; induction n as [|n IH]; [reflexivity|rewrite sum_n_S, IH; ring]|]. intros s' _. rewrite (proj2 (HT a (3 * L) s' Hs) (Nat.le_refl _)). unfold rowE, ConvProofs3.size. rewrite El, Er. destruct (Nat.eqb_spec (3 * L) (3 * L + 2 - 1)); [lia|]. reflexivity.
  Qed.
End Rows.

(** *** Observations *)
Section Obs.
  Variable fl : flags.
  Variable t : n2p collab.
  Hypothesis Pt : proper t.
  Hypothesis At : Forall (fun a => exists p, attrs a = Ok p) (leaves t).
  Notation L := (n_leaves t).
  Notation fls := (flat t 0 [(L, 1%Q)] []).
  Notation size := (size fl t).
  Notation n_act := (n_act t).
  Ltac nums := unfold before_leaf, human, robot, waiting, physical, ask_intention, tell_intention, ask_finished in *.
  Definition unit_ (o o' : nat) : Q := if Nat.eqb o' o then 1%Q else 0%Q.

  Lemma just_after_mem li s' : In li fls -> (mem s' (ix 3 (li_next li)) = true <-> just_after t (li_k li) s').
  Proof.
    intros Hl. rewrite mem_In. unfold ix. rewrite in_map_iff. split.
    - intros ([j q] & <- & H). apply (next_leads t li j q Hl) in H. destruct H as (o & Ho & ->). cbn [fst]. destruct o as [j|].
      + left. destruct (proj1 (leads_some_run t (li_k li) j Pt)) as (r & Hr & Hd); [eauto|]. exists r, j. auto.
      + right. destruct (proj1 (leads_none_run t (li_k li) Pt)) as (r & Hr & Hd); [eauto|]. exists r. rewrite over_L. auto.
    - intros [(r & j & Hr & Hd & ->)|(r & Hr & Hd & ->)].
      + destruct (proj2 (leads_some_run t (li_k li) j Pt)) as [q Hq]; [eauto|]. exists (j, q). split; [reflexivity|]. apply (next_leads t li j q Hl). exists (Some j). auto.
      + destruct (proj2 (leads_none_run t (li_k li) Pt)) as [q Hq]; [eauto|]. exists (L, q). split; [cbn [fst]; rewrite over_L; reflexivity|]. apply (next_leads t li L q Hl). exists None. auto.
  Qed.
  Lemma later_mem li s' : In li fls -> (mem s' (3 * L :: flat_map blk (li_after li)) = true <-> later t (li_k li) s').
  Proof.
    intros Hl. rewrite mem_In. cbn [In]. rewrite in_flat_map. pose proof (flat_after t 0 [(L, 1%Q)] [] li (li_k li) Pt Hl eq_refl) as A. unfold later. rewrite over_L. split.
    - intros [<-|(j & Hj & Hs)]; [right; reflexivity|]. apply A in Hj. destruct Hj as [[]|(j0 & -> & r & Hr & Hb)]. left. exists r, j0. split; [auto|]. split; [auto|]. unfold blk in Hs. nums. cbn in Hs. lia.
    - intros [(r & j & Hr & Hb & Hs)| ->]; [|left; reflexivity]. right. exists j. split; [apply A; right; exists j; eauto|]. unfold blk. nums. cbn. lia.
  Qed.
  Lemma unit_none o' : nth o' o_none 0%Q = unit_ none o'.
  Proof. do 4 (destruct o'; [reflexivity|]). destruct o'; reflexivity. Qed.
  Lemma unit_yes o' : nth o' o_yes 0%Q = unit_ yes o'.
  Proof. do 4 (destruct o'; [reflexivity|]). destruct o'; reflexivity. Qed.
  Lemma unit_no o' : nth o' o_no 0%Q = unit_ no o'.
  Proof. do 4 (destruct o'; [reflexivity|]). destruct o'; reflexivity. Qed.
  Lemma unit_err o' : nth o' o_err 0%Q = unit_ error o'.
  Proof. do 4 (destruct o'; [reflexivity|]). destruct o'; reflexivity. Qed.
  Lemma unit_done o' : nth o' [0; 0; 0; 0; 1]%Q 0%Q = unit_ done o'.
  Proof. do 5 (destruct o'; [reflexivity|]). destruct o'; reflexivity. Qed.
  Lemma unit_end o' : nth o' [1; 0; 0; 0; 0]%Q 0%Q = unit_ none o'.
  Proof. do 5 (destruct o'; [reflexivity|]). destruct o'; reflexivity. Qed.

  Notation Ovec li a s := (ovec fl (li_k li) (li_next li) (3 * L :: flat_map blk (li_after li)) a s).
  Ltac eqs := repeat match goal with |- context [Nat.eqb ?x ?y] => let E := fresh "E" in destruct (Nat.eqb_spec x y) as [E|E]; try lia; cbn [andb] end.
  Lemma answer_ex li a s' : In li fls -> act (li_k li) a = true -> exists o, o < 4 /\ answer fl t (li_k li) a s' o.
  Proof.
    intros Hl Ha. apply act_iff in Ha. assert (DJ : just_after t (li_k li) s' \/ ~ just_after t (li_k li) s'). { rewrite <- (just_after_mem li s' Hl). destruct (mem s' (ix 3 (li_next li))); auto. }
    assert (DL : later t (li_k li) s' \/ ~ later t (li_k li) s'). { rewrite <- (later_mem li s' Hl). destruct (mem s' _); auto. }
    assert (a = physical (li_k li) \/ a = ask_intention (li_k li) \/ a = tell_intention (li_k li) \/ a = ask_finished (li_k li)) as [-> | [-> | [-> | ->]]] by (nums; lia).
    - destruct DJ; [exists none|exists error]; (split; [unfold none, error; lia|]); [apply an_good|apply an_bad]; auto.
    - destruct (Nat.eq_dec s' (human (li_k li))); [exists yes|destruct (Nat.eq_dec s' (robot (li_k li))); [exists no|exists none]]; (split; [unfold none, yes, no; lia|]); [apply an_human|apply an_robot|apply an_nothing]; auto.
    - exists none. split; [unfold none; lia|apply an_told; auto].
    - destruct (deterministic fl) eqn:Ed.
      + destruct DJ; [exists yes; split; [unfold yes; lia|apply an_det_yes; auto]|]. destruct (Nat.eq_dec s' (human (li_k li))); [exists no|exists error]; (split; [unfold no, error; lia|]); [apply an_det_no|apply an_det_error]; auto.
      + destruct DL; [exists yes|exists no]; (split; [unfold no, yes; lia|]); [apply an_finished|apply an_unfinished]; auto.
  Qed.
  Lemma answer_ovec li a s' o o' : In li fls -> act (li_k li) a = true -> answer fl t (li_k li) a s' o -> nth o' (Ovec li a s') 0%Q = unit_ o o'.
  Proof.
    intros Hl Ha H. apply act_iff in Ha. unfold ovec. pose proof (flat_range _ _ _ _ _ Hl) as Hr. destruct (next_good t Pt li Hl) as (_ & _ & _ & _ & GB).
    assert (NJ : ~ just_after t (li_k li) s' -> mem s' (ix 3 (li_next li)) = false). { intros N. destruct (mem s' _) eqn:E; [|auto]. exfalso. apply N. apply (just_after_mem li s' Hl). auto. }
    assert (NL : ~ later t (li_k li) s' -> mem s' (3 * L :: flat_map blk (li_after li)) = false). { intros N. apply not_true_iff_false. intros E. apply N. apply (proj1 (later_mem li s' Hl)). exact E. }
    destruct H as [Ea J|Ea J|Ea Es|Ea Es|Ea E1 E2|Ea|D Ea J|D Ea J|D Ea J|D Ea J|D Ea J J']; nums.
    - apply (just_after_mem li s' Hl) in J. eqs. rewrite J. apply unit_none.
    - eqs. rewrite (NJ J). apply unit_err.
    - eqs. apply unit_yes.
    - eqs. apply unit_no.
    - eqs. apply unit_none.
    - eqs. apply unit_none.
    - rewrite D. apply (later_mem li s' Hl) in J. rewrite J. eqs. apply unit_yes.
    - rewrite D, (NL J). eqs. apply unit_no.
    - rewrite D. apply (just_after_mem li s' Hl) in J. rewrite J. eqs. apply unit_yes.
    - rewrite D. assert (mem s' (ix 3 (li_next li)) = false) as ->; [|eqs; apply unit_no]. apply mem_not_In. unfold ix. intros K. apply in_map_iff in K. destruct K as (x & E & Hx). specialize (GB x Hx). lia.
    - rewrite D, (NJ J). eqs. apply unit_err.
  Qed.
  Lemma answer_leaf k a s' o : answer fl t k a s' o -> act k a = true.
  Proof. intros H. apply act_iff. destruct H; nums; lia. Qed.

  Variable O : tensor.
  Hypothesis HO : tabO fl t O.
  Lemma leaf_number k : k < number t -> exists li, In li fls /\ li_k li = k.
  Proof. rewrite number_L. intros H. destruct (flat_get t 0 [(L, 1%Q)] [] k H) as (li & Hl & E). eauto. Qed.
  Lemma O_sees a s' o o' : a < n_act -> s' < size -> sees fl t a s' o -> O a s' o' = unit_ o o'.
  Proof.
    intros Ha Hs H. pose proof (HO a s' o' Ha Hs) as E. unfold vecE, more in E. destruct H as [B ->|Er ->|C Ea|k o C Hk H].
    - rewrite over_L in *. rewrite Nat.eqb_refl in E. replace (loop fl || reward_state fl) with true in E by (symmetry; apply orb_true_iff; auto). rewrite E. apply unit_done.
    - rewrite over_L in *. rewrite Er, orb_true_r, Nat.eqb_refl in E. destruct (Nat.eqb_spec (3 * L + 1) (3 * L)); [lia|]. rewrite E. apply unit_end.
    - assert (V : (if loop fl || reward_state fl then if s' =? 3 * L then Some [0; 0; 0; 0; 1]%Q else if s' =? 3 * L + 1 then Some [1; 0; 0; 0; 0]%Q else None else None) = None).
      { rewrite over_L in C. destruct C as [C|(-> & -> & _)]; [|reflexivity]. destruct (Nat.eqb_spec s' (3 * L)); [lia|]. destruct (Nat.eqb_spec s' (3 * L + 1)); [lia|]. destruct (loop fl || reward_state fl); reflexivity. }
      rewrite V in E. destruct E as [E _]. rewrite E by exact Ea. apply unit_none.
    - assert (V : (if loop fl || reward_state fl then if s' =? 3 * L then Some [0; 0; 0; 0; 1]%Q else if s' =? 3 * L + 1 then Some [1; 0; 0; 0; 0]%Q else None else None) = None).
      { rewrite over_L in C. destruct C as [C|(-> & -> & _)]; [|reflexivity]. destruct (Nat.eqb_spec s' (3 * L)); [lia|]. destruct (Nat.eqb_spec s' (3 * L + 1)); [lia|]. destruct (loop fl || reward_state fl); reflexivity. }
      rewrite V in E. destruct E as [_ E]. destruct (leaf_number k Hk) as (li & Hl & <-). pose proof (answer_leaf _ _ _ _ H) as Hact. rewrite (E li Hl Hact). apply answer_ovec; auto.
  Qed.
  Lemma sees_ex a s' : a < n_act -> s' < size -> exists o, o < n_obs fl /\ sees fl t a s' o.
  Proof.
    unfold n_obs, more. intros Ha Hs. assert (C : s' < over t \/ (loop fl = false /\ reward_state fl = false /\ s' = over t) \/ ((loop fl = true \/ reward_state fl = true) /\ s' = over t) \/ (reward_state fl = true /\ s' = over t + 1)).
    { unfold ConvProofs3.size in Hs. rewrite over_L. destruct (loop fl); destruct (reward_state fl); destruct (lt_eq_lt_dec s' (3 * L)) as [[]|]; auto; try lia; right; right; right; split; auto; lia. }
    assert (Z : s' < over t \/ (loop fl = false /\ reward_state fl = false /\ s' = over t) -> exists o, o < 4 /\ sees fl t a s' o).
    { intros Z. destruct (Nat.eq_dec a 0) as [->|Na]; [exists none; split; [unfold none; lia|apply se_wait; auto]|]. destruct (leaf_of_action t a ltac:(lia)) as (li & Hl & Hact). destruct (answer_ex li a s' Hl Hact) as (o & Ho & H). exists o. split; [auto|]. apply (se_leaf fl t a s' (li_k li)); auto. rewrite number_L. apply (flat_range _ _ _ _ _ Hl). }
    destruct C as [C|[C|[[C ->]|[C ->]]]].
    - destruct (Z (or_introl C)) as (o & Ho & H). exists o. split; [destruct (loop fl || reward_state fl); lia|auto].
    - destruct (Z (or_intror C)) as (o & Ho & H). exists o. split; [destruct (loop fl || reward_state fl); lia|auto].
    - exists done. split; [replace (loop fl || reward_state fl) with true by (symmetry; apply orb_true_iff; auto); unfold done; lia|]. apply se_done; auto.
    - exists none. split; [destruct (loop fl || reward_state fl); unfold none; lia|]. apply se_end; auto.
  Qed.
  Lemma unit_sum n o : o < n -> (sum_n n (unit_ o) == 1)%Q.
  Proof.
    induction n as [|n IH]; intros H; [lia|]. rewrite sum_n_S. unfold unit_ at 2. destruct (Nat.eqb_spec n o) as [->|Ne].
    - assert (Z : (sum_n o (unit_ o) == 0)%Q); [|rewrite Z; ring]. rewrite (sum_n_ext o (unit_ o) (fun _ => 0%Q)); [clear; induction o as [|o IH]; [reflexivity|rewrite sum_n_S, IH; ring]|]. intros i Hi. unfold unit_. destruct (Nat.eqb_spec i o); [lia|reflexivity].
    - rewrite IH by lia. ring.
  Qed.
  Lemma O_sum a s' : a < n_act -> s' < size -> (sum_n (n_obs fl) (O a s') == 1)%Q /\ forall o, (0 <= O a s' o)%Q.
  Proof.
    intros Ha Hs. destruct (sees_ex a s' Ha Hs) as (o & Ho & H). split.
    - rewrite (sum_n_ext (n_obs fl) (O a s') (unit_ o)); [apply unit_sum; auto|]. intros o' _. rewrite (O_sees a s' o o' Ha Hs H). reflexivity.
    - intros o'. rewrite (O_sees a s' o o' Ha Hs H). unfold unit_. destruct (o' =? o); lra.
  Qed.
End Obs.

(** *** Costs and names *)
Section Costs.
  Variables t_wait t_ask t_tell intr end_reward : Q.
  Variable fl : flags.
  Variable t : n2p collab.
  Hypothesis At : Forall (fun a => exists p, attrs a = Ok p) (leaves t).
  Notation L := (n_leaves t).
  Notation fls := (flat t 0 [(L, 1%Q)] []).
  Notation size := (size fl t).
  Notation n_act := (n_act t).
  Notation durs := (durs t_wait t_ask t_tell t).
  Notation Costs := (costs t_wait t_ask t_tell intr end_reward fl t).
  Ltac nums := unfold before_leaf, human, robot, waiting, physical, ask_intention, tell_intention, ask_finished in *.
  Lemma of_leaf_mine k s : of_leaf k s <-> mine k s = true.
  Proof. rewrite mine_iff. unfold of_leaf. nums. lia. Qed.
  Lemma bonus_cost k s' b x : bonus fl k s' b -> ((match subtask_reward fl with Some r => if mine k s' then x else x - r | None => x end) == x - b)%Q.
  Proof.
    unfold bonus. destruct (subtask_reward fl) as [r|]; [|intros ->; ring]. intros [[H ->]|[H ->]]; [apply of_leaf_mine in H; rewrite H; ring|]. destruct (mine k s') eqn:E; [exfalso; apply H; apply of_leaf_mine; auto|]. reflexivity.
  Qed.
  Lemma bonus_ex k s' : exists b, bonus fl k s' b.
  Proof. unfold bonus. destruct (subtask_reward fl) as [r|]; [|eauto]. destruct (mine k s') eqn:E; [exists 0%Q; left|exists r; right]; (split; [|reflexivity]); rewrite of_leaf_mine; auto. congruence. Qed.
  Variable R : tensor4.
  Hypothesis HR : tabR t_wait t_ask t_tell intr end_reward fl t R.
  Lemma leaf_of k p : param t k p -> exists li, In li fls /\ li_k li = k /\ p = par li.
  Proof. intros H. pose proof (param_bound _ _ _ H) as Hk. destruct (flat_get t 0 [(L, 1%Q)] [] k Hk) as (li & Hl & E). cbn in E. exists li. split; [auto|]. split; [auto|]. apply (param_eq t li p Hl). rewrite E. auto. Qed.
  Lemma R_costs a s s' o c : s < size -> Costs a s s' c -> (R a s s' o == c)%Q.
  Proof.
    intros Hs H. destruct (HR a s s' o Hs) as (H1 & H2 & H3). destruct H as [k p d b P Hk Ne La B|k p b P -> -> B| -> -> | -> Ne|Er -> -> |Er -> Ne].
    - destruct (leaf_of k p P) as (li & Hl & E & ->). rewrite <- E in *. apply of_leaf_mine in Hk. rewrite (H1 li Hl Hk). unfold rcost. rewrite (bonus_cost _ _ _ _ B). assert ((a =? 4 * li_k li + 1) && (s =? 3 * li_k li + 2) = false) as ->.
      { apply not_true_iff_false. intros K. apply andb_prop in K. destruct K as [K1 K2]. apply Nat.eqb_eq in K1, K2. apply Ne. nums. auto. }
      rewrite (proj2 (lasts_nth t_wait t_ask t_tell t At a d La)). unfold intrinsic. nums. destruct a; cbn [Nat.leb Nat.eqb]; ring.
    - destruct (leaf_of k p P) as (li & Hl & E & ->). rewrite <- E in *. assert (Hm : mine (li_k li) (robot (li_k li)) = true) by (apply mine_iff; nums; lia). rewrite (H1 li Hl Hm). unfold rcost. rewrite (bonus_cost _ _ _ _ B). nums. rewrite !Nat.eqb_refl. cbn [andb]. reflexivity.
    - rewrite over_L in *. rewrite H2 by auto. reflexivity.
    - rewrite over_L in *. rewrite H2 by auto. nums. destruct (Nat.eqb_spec a 0); [lia|reflexivity].
    - rewrite over_L in *. rewrite H3 by auto. reflexivity.
    - rewrite over_L in *. rewrite H3 by auto. nums. destruct (Nat.eqb_spec a 0); [lia|reflexivity].
  Qed.
  Lemma costs_ex a s s' : a < n_act -> s < size -> exists c, Costs a s s' c.
  Proof.
    intros Ha Hs. destruct (le_lt_dec (3 * L) s) as [Hge|Hlt].
    - unfold ConvProofs3.size in Hs. assert (s = over t \/ (reward_state fl = true /\ s = over t + 1)) as [E|[Er E]] by (rewrite over_L; destruct (reward_state fl); [assert (s = 3 * L \/ s = 3 * L + 1) as [->| ->] by lia; auto|left; lia]); destruct (Nat.eq_dec a waiting); eexists; [apply co_reward|apply co_over|apply co_end_wait|apply co_end]; auto.
    - destruct (leaf_of_state t s Hlt) as (li & Hl & Hm). apply of_leaf_mine in Hm. pose proof (param_par t At li Hl) as P. destruct (bonus_ex (li_k li) s') as [b B].
      destruct (Nat.eq_dec a (physical (li_k li))) as [Ea|Ea]; [destruct (Nat.eq_dec s (robot (li_k li))) as [Es|Es]|].
      + eexists. eapply co_physical; eauto.
      + eexists. eapply co_time; [eauto|eauto|tauto|apply lasts_ex; auto; auto|eauto].
      + eexists. eapply co_time; [eauto|eauto|tauto|apply lasts_ex; auto; auto|eauto].
  Qed.
  Lemma state_name_nth s n : state_name fl t s n -> nth_error (state_names fl t) s = Some n.
  Proof.
    unfold state_names. pose proof (node_states_length t) as E. intros [(k & a & Ha & H)|[[-> ->]|(Er & -> & ->)]].
    - assert (Hk : k < L) by (rewrite n_leaves_length; apply nth_error_Some; congruence). rewrite nth_error_app1 by (rewrite E; nums; destruct H as [[-> _]|[[-> _]|[-> _]]]; lia). rewrite !dashed_radix in H. rewrite node_states_flat. nums. destruct H as [[-> ->]|[[-> ->]|[-> ->]]].
      + rewrite <- (Nat.add_0_r (3 * k)), (nth_error_blocks leaf_states 3 (leaves t) k a 0); auto; lia.
      + rewrite (nth_error_blocks leaf_states 3 (leaves t) k a 1); auto; lia.
      + rewrite (nth_error_blocks leaf_states 3 (leaves t) k a 2); auto; lia.
    - rewrite nth_error_app2, E, over_L, Nat.sub_diag by (rewrite over_L; lia). destruct (reward_state fl); reflexivity.
    - rewrite nth_error_app2, E, over_L by (rewrite over_L; lia). replace (3 * L + 1 - 3 * L) with 1 by lia. rewrite Er. reflexivity.
  Qed.
  Lemma action_name_nth i n : action_name t i n -> nth_error (action_names t) i = Some n.
  Proof.
    unfold action_names. intros [[-> ->]|(k & a & Ha & H)]; [reflexivity|]. assert (X : forall r, 4 * k + S r = S (4 * k + r)) by (intros; lia). rewrite !dashed_radix in H. rewrite node_actions_flat. nums.
    destruct H as [[-> ->]|[[-> ->]|[[-> ->]|[-> ->]]]]; rewrite X; cbn [nth_error].
    - rewrite (nth_error_blocks leaf_actions 4 (leaves t) k a 0); auto; lia.
    - rewrite (nth_error_blocks leaf_actions 4 (leaves t) k a 1); auto; lia.
    - rewrite (nth_error_blocks leaf_actions 4 (leaves t) k a 2); auto; lia.
    - rewrite (nth_error_blocks leaf_actions 4 (leaves t) k a 3); auto; lia.
  Qed.
End Costs.
