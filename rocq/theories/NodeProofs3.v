(** Proofs about the trees of converters: runs. *)
From Coq Require Import Lia.
From Verif Require Import PyBase PyBaseFacts QBase HtmModel HtmSpec HtmProofs NodeModel NodeSpec NodeProofs NodeProofs2.
Local Open Scope list_scope.
Local Open Scope nat_scope.

Lemma directly_app a b i j : directly (a ++ b) i j <-> directly a i j \/ directly b i j \/ (ends_with a i /\ starts_with b j).
Proof.
  split.
  - revert b. induction a as [|x a IH]; intros b (r1 & r2 & E); cbn in E; [right; left; exists r1, r2; auto|]. destruct r1 as [|y r1]; cbn in E.
    + destruct a as [|z a]; cbn in E; [right; right; split; [exists []; cbn; congruence|exists r2; congruence]|]. left. exists [], a. cbn. congruence.
    + assert (directly (a ++ b) i j) as H by (exists r1, r2; congruence). apply IH in H. destruct H as [(s1 & s2 & ->)|[H|[(s & ->) H]]]; [left; exists (x :: s1), s2; auto|auto|]. right; right. split; auto. exists (x :: s). auto.
  - intros [(r1 & r2 & ->)|[(r1 & r2 & ->)|[(r1 & ->) (r2 & ->)]]].
    + exists r1, (r2 ++ b). rewrite <- app_assoc. reflexivity.
    + exists (a ++ r1), r2. rewrite <- app_assoc. reflexivity.
    + exists r1, r2. rewrite <- app_assoc. reflexivity.
Qed.
Lemma before_app a b i j : before (a ++ b) i j <-> before a i j \/ before b i j \/ (In i a /\ In j b).
Proof.
  split.
  - induction a as [|x a IH]; intros (r1 & r2 & E & Hj); cbn in E; [right; left; exists r1, r2; auto|]. destruct r1 as [|y r1]; cbn in E.
    + assert (x = i) as -> by congruence. assert (r2 = a ++ b) as -> by congruence. apply in_app_iff in Hj. destruct Hj as [Hj|Hj]; [left; exists [], a; auto|right; right; split; [left; auto|auto]].
    + assert (before (a ++ b) i j) as H by (exists r1, r2; split; [congruence|auto]). apply IH in H. destruct H as [(s1 & s2 & -> & H)|[H|[H H']]]; [left; exists (x :: s1), s2; auto|auto|]. right; right. split; [right|]; auto.
  - intros [(r1 & r2 & -> & H)|[(r1 & r2 & -> & H)|[H H']]].
    + exists r1, (r2 ++ b). rewrite <- app_assoc. split; [reflexivity|]. apply in_app_iff; auto.
    + exists (a ++ r1), r2. rewrite <- app_assoc. auto.
    + apply in_split in H. destruct H as (r1 & r2 & ->). exists r1, (r2 ++ b). rewrite <- app_assoc. split; [reflexivity|]. apply in_app_iff; auto.
Qed.
Lemma map_eq_app_inv {A B} (f : A -> B) l l1 l2 : map f l = l1 ++ l2 -> exists k1 k2, l = k1 ++ k2 /\ map f k1 = l1 /\ map f k2 = l2.
Proof.
  revert l1. induction l as [|x l IH]; intros [|y l1] E; cbn in E; try (exists [], []; cbn; split; [reflexivity|split; [reflexivity|congruence]]); try discriminate.
  - exists [], (x :: l). auto.
  - destruct (IH l1 ltac:(congruence)) as (k1 & k2 & -> & A1 & A2). exists (x :: k1), k2. cbn. split; [auto|split; [congruence|auto]].
Qed.
Lemma map_eq_cons_inv {A B} (f : A -> B) l y l' : map f l = y :: l' -> exists x t, l = x :: t /\ f x = y /\ map f t = l'.
Proof. destruct l as [|x t]; cbn; intros E; [discriminate|]. exists x, t. repeat split; congruence. Qed.
Lemma directly_map c r i j : directly (map (Nat.add c) r) i j <-> exists i0 j0, i = c + i0 /\ j = c + j0 /\ directly r i0 j0.
Proof.
  split.
  - intros (r1 & r2 & E). apply map_eq_app_inv in E. destruct E as (k1 & k2 & -> & E1 & E2). apply map_eq_cons_inv in E2. destruct E2 as (x & t & -> & <- & E2). apply map_eq_cons_inv in E2. destruct E2 as (y & t' & -> & <- & E2). exists x, y. repeat split. exists k1, t'. auto.
  - intros (i0 & j0 & -> & -> & r1 & r2 & ->). exists (map (Nat.add c) r1), (map (Nat.add c) r2). rewrite map_app. reflexivity.
Qed.
Lemma before_map c r i j : before (map (Nat.add c) r) i j <-> exists i0 j0, i = c + i0 /\ j = c + j0 /\ before r i0 j0.
Proof.
  split.
  - intros (r1 & r2 & E & Hj). apply map_eq_app_inv in E. destruct E as (k1 & k2 & -> & E1 & E2). apply map_eq_cons_inv in E2. destruct E2 as (x & t & -> & <- & <-). apply in_map_iff in Hj. destruct Hj as (y & <- & Hy). exists x, y. repeat split. exists k1, t. auto.
  - intros (i0 & j0 & -> & -> & r1 & r2 & -> & H). exists (map (Nat.add c) r1), (map (Nat.add c) r2). rewrite map_app. split; [reflexivity|]. apply in_map. auto.
Qed.
Lemma starts_map c r i : starts_with (map (Nat.add c) r) i <-> exists i0, i = c + i0 /\ starts_with r i0.
Proof.
  split.
  - intros (r' & E). apply map_eq_cons_inv in E. destruct E as (x & t & -> & <- & _). exists x. split; auto. exists t. auto.
  - intros (i0 & -> & r' & ->). exists (map (Nat.add c) r'). reflexivity.
Qed.
Lemma ends_map c r i : ends_with (map (Nat.add c) r) i <-> exists i0, i = c + i0 /\ ends_with r i0.
Proof.
  split.
  - intros (r' & E). apply map_eq_app_inv in E. destruct E as (k1 & k2 & -> & _ & E2). apply map_eq_cons_inv in E2. destruct E2 as (x & t & -> & <- & E2). destruct t; [|discriminate]. exists x. split; auto. exists k1. auto.
  - intros (i0 & -> & r' & ->). exists (map (Nat.add c) r'). rewrite map_app. reflexivity.
Qed.
Lemma ends_app a b i : b <> [] -> ends_with (a ++ b) i -> ends_with b i.
Proof.
  intros Hb (r & E). destruct (exists_last Hb) as (b' & x & ->). exists b'. rewrite app_assoc in E. apply app_inj_tail in E. destruct E as [_ ->]. reflexivity.
Qed.

Section Runs.
  Context {P : Type}.
  Scheme run_mut := Minimality for run Sort Prop with run_seq_mut := Minimality for run_seq Sort Prop.
  Combined Scheme run_both from run_mut, run_seq_mut.

  Lemma run_bound_both : (forall (t : n2p P) r, run t r -> forall i, In i r -> i < n_leaves t) /\ (forall (l : list (n2p P)) r, run_seq l r -> forall i, In i r -> i < total l).
  Proof.
    apply run_both.
    - intros a i [<-|[]]. cbn. lia.
    - intros l r _ IH i Hi. cbn. fold (total l). auto.
    - intros l1 t l2 r _ IH i Hi. apply in_map_iff in Hi. destruct Hi as (x & <- & Hx). specialize (IH x Hx). cbn. fold (total (l1 ++ t :: l2)). rewrite total_app, count_total. cbn. lia.
    - intros i [].
    - intros t l r r' _ IH _ IH' i Hi. apply in_app_iff in Hi. cbn. fold (total l). destruct Hi as [Hi|Hi]; [specialize (IH i Hi); lia|]. apply in_map_iff in Hi. destruct Hi as (x & <- & Hx). specialize (IH' x Hx). rewrite count_total. cbn. lia.
  Qed.
  Lemma run_bound (t : n2p P) r i : run t r -> In i r -> i < n_leaves t.
  Proof. intros H. revert i. apply (proj1 run_bound_both); auto. Qed.

  Lemma run_seq_app (l1 l2 : list (n2p P)) r : run_seq (l1 ++ l2) r <-> exists r1 r2, run_seq l1 r1 /\ run_seq l2 r2 /\ r = r1 ++ map (Nat.add (total l1)) r2.
  Proof.
    revert r. induction l1 as [|c l1 IH]; intros r; cbn [app].
    - split; [intros H; exists [], r; split; [constructor|split; [auto|]]; cbn; symmetry; apply map_id|]. intros (r1 & r2 & H1 & H2 & ->). inversion H1; subst. cbn [app]. replace (map (Nat.add (total [])) r2) with r2 by (symmetry; apply map_id). auto.
    - split.
      + intros H. inversion H as [|t l r0 r' H0 H']; subst. apply IH in H'. destruct H' as (r1 & r2 & H1 & H2 & ->). exists (r0 ++ map (Nat.add (count [c])) r1), r2. split; [constructor; auto|split; [auto|]]. rewrite map_app, map_map, <- app_assoc. do 2 f_equal. apply map_ext. intros x. rewrite count_total. cbn. fold (total l1). lia.
      + intros (r1 & r2 & H1 & H2 & ->). inversion H1 as [|t l r0 r' H0 H']; subst. rewrite <- app_assoc. replace (map (Nat.add (total (c :: l1))) r2) with (map (Nat.add (count [c])) (map (Nat.add (total l1)) r2)).
        * rewrite <- map_app. constructor; auto. apply IH. exists r', r2. auto.
        * rewrite map_map. apply map_ext. intros x. rewrite count_total. cbn. fold (total l1). lia.
  Qed.
  Lemma run_seq_one (t : n2p P) r : run_seq [t] r <-> run t r.
  Proof.
    split; [intros H; inversion H as [|t' l r0 r' H0 H']; subst; inversion H'; subst; cbn; rewrite app_nil_r; auto|]. intros H. rewrite <- (app_nil_r r). change (@nil nat) with (map (Nat.add (count [t])) []). constructor; [auto|constructor].
  Qed.
  Lemma run_seq_split (l1 : list (n2p P)) t l2 r : run_seq (l1 ++ t :: l2) r <->
    exists r1 r0 r2, run_seq l1 r1 /\ run t r0 /\ run_seq l2 r2 /\ r = r1 ++ map (Nat.add (total l1)) r0 ++ map (Nat.add (total l1 + n_leaves t)) r2.
  Proof.
    assert (E : forall r2, map (Nat.add (total l1)) (map (Nat.add (count [t])) r2) = map (Nat.add (total l1 + n_leaves t)) r2) by (intros r2; rewrite map_map; apply map_ext; intros x; rewrite count_total; cbn; lia).
    rewrite run_seq_app. split.
    - intros (r1 & r2 & H1 & H2 & ->). inversion H2 as [|t' l r0 r' H0 H']; subst. exists r1, r0, r'. rewrite map_app, E. auto.
    - intros (r1 & r0 & r2 & H1 & H0 & H2 & ->). exists r1, (r0 ++ map (Nat.add (count [t])) r2). split; [auto|]. split; [constructor; auto|]. rewrite map_app, E. reflexivity.
  Qed.

  Lemma run_ex (t : n2p P) : proper t -> (forall i, i < n_leaves t -> exists r, run t r /\ In i r) /\ exists r, run t r.
  Proof.
    induction t as [a|l IH|l IH] using n2p_ind'; intros Pt; inversion Pt as [|l0 Hne HF|l0 Hne HF]; subst.
    - split; [|exists [0]; constructor]. intros i Hi. cbn in Hi. exists [0]. split; [constructor|]. left. lia.
    - assert (SX : forall l' : list (n2p P), Forall (fun t => proper t -> (forall i, i < n_leaves t -> exists r, run t r /\ In i r) /\ exists r, run t r) l' -> Forall proper l' -> exists r, run_seq l' r).
      { intros l'. induction l' as [|c l' IHl]; intros A B; [exists []; constructor|]. inversion A; inversion B; subst. destruct IHl as [r' Hr']; auto. destruct (H1 H5) as [_ [r Hr]]. eexists. constructor; eauto. }
      split.
      + clear Hne Pt. assert (G : forall i, i < total l -> exists r, run_seq l r /\ In i r).
        { induction l as [|c l IHl]; intros i Hi; [cbn in Hi; lia|]. inversion IH; inversion HF; subst. cbn in Hi. fold (total l) in Hi. destruct (H1 H5) as [Ha [r Hr]]. destruct (lt_dec i (n_leaves c)).
          - destruct (Ha i) as (r0 & Hr0 & Hi0); auto. destruct (SX l H2 H6) as [r' Hr']. eexists. split; [constructor; eauto|]. apply in_app_iff; auto.
          - destruct (IHl H2 H6 (i - n_leaves c)) as (r' & Hr' & Hi'); [lia|]. eexists. split; [constructor; eauto|]. apply in_app_iff. right. apply in_map_iff. exists (i - n_leaves c). split; auto. rewrite count_total. cbn. lia. }
        intros i Hi. destruct (G i Hi) as (r & A & B). exists r. split; [constructor; auto|auto].
      + destruct (SX l IH HF) as [r Hr]. exists r. constructor. auto.
    - rewrite Forall_forall in IH, HF. split.
      + intros i Hi. cbn in Hi. fold (total l) in Hi. assert (G : forall (l' : list (n2p P)) i, i < total l' -> exists l1 t l2 i0, l' = l1 ++ t :: l2 /\ i = total l1 + i0 /\ i0 < n_leaves t).
        { clear. induction l' as [|c l' IHl]; intros i Hi; [cbn in Hi; lia|]. cbn in Hi. fold (total l') in Hi. destruct (lt_dec i (n_leaves c)); [exists [], c, l', i; cbn; repeat split; auto|]. destruct (IHl (i - n_leaves c)) as (l1 & t & l2 & i0 & -> & E & H); [lia|]. exists (c :: l1), t, l2, i0. cbn. fold (total l1). repeat split; auto. lia. }
        destruct (G l i Hi) as (l1 & t & l2 & i0 & -> & -> & H0). destruct (IH t ltac:(apply in_elt) ltac:(apply HF, in_elt)) as [A _]. destruct (A i0 H0) as (r & Hr & Hir). exists (map (Nat.add (count l1)) r). split; [constructor; auto|]. rewrite count_total. apply in_map. auto.
      + destruct l as [|t l]; [congruence|]. destruct (IH t (or_introl eq_refl) (HF t (or_introl eq_refl))) as [_ [r Hr]]. exists (map (Nat.add (count (@nil (n2p P)))) r). apply (ru_alt [] t l r). auto.
  Qed.
  Lemma run_seq_ex (l : list (n2p P)) : Forall proper l -> exists r, run_seq l r.
  Proof. induction 1 as [|t l Pt F [r Hr]]; [exists []; constructor|]. destruct (run_ex t Pt) as [_ [r0 H0]]. eexists. constructor; eauto. Qed.
  Lemma run_ne (t : n2p P) r : proper t -> run t r -> r <> [].
  Proof.
    revert r. induction t as [a|l IH|l IH] using n2p_ind'; intros r Pt H; inversion Pt as [|l0 Hne HF|l0 Hne HF]; subst; inversion H as [|l' r' H1|l1 t l2 r' H1]; subst.
    - discriminate.
    - destruct l as [|c l]; [congruence|]. inversion H1 as [|t' l' r0 r2 H0 H2]; subst. inversion IH as [|x1 x2 IHc IHr]; inversion HF as [|x3 x4 Pc Fl]; subst. specialize (IHc r0 Pc H0). destruct r0; [congruence|discriminate].
    - rewrite Forall_forall in IH, HF. specialize (IH t ltac:(apply in_elt) r' ltac:(apply HF, in_elt) H1). destruct r'; [congruence|discriminate].
  Qed.

  Lemma enters_run (t : n2p P) j : proper t -> ((exists q, enters t j q) <-> exists r, run t r /\ starts_with r j).
  Proof.
    revert j. induction t as [a|l IH|l IH] using n2p_ind'; intros j Pt; inversion Pt as [|l0 Hne HF|l0 Hne HF]; subst.
    - split; [intros [q H]; inversion H; subst; exists [0]; split; [constructor|exists []; auto]|]. intros (r & H & r' & E). inversion H; subst. assert (j = 0) as -> by congruence. eexists. constructor.
    - destruct l as [|c l]; [congruence|]. inversion IH as [|x1 x2 IHc _]; inversion HF as [|x3 x4 Pc Fl]; subst. split.
      + intros [q H]. inversion H; subst. destruct (proj1 (IHc j Pc)) as (r & Hr & r' & ->); [eauto|]. destruct (run_seq_ex l Fl) as [r2 H2]. eexists. split; [constructor; constructor; eauto|]. eexists. reflexivity.
      + intros (r & H & Hs). inversion H as [|l' r' H1|]; subst. inversion H1 as [|t' l' r0 r2 H0 H2]; subst. pose proof (run_ne _ _ Pc H0). destruct r0 as [|x r0]; [congruence|]. destruct Hs as [r' E]. cbn in E. assert (x = j) as -> by congruence. destruct (proj2 (IHc j Pc)) as [q Hq]; [exists (j :: r0); split; [auto|eexists; reflexivity]|]. exists q. constructor. auto.
    - rewrite Forall_forall in IH, HF. split.
      + intros [q H]. inversion H as [| |l1 t l2 i q0 H1]; subst. destruct (proj1 (IH t ltac:(apply in_elt) i ltac:(apply HF, in_elt))) as (r & Hr & Hs); [eauto|]. eexists. split; [constructor; eauto|]. apply starts_map. eauto.
      + intros (r & H & Hs). inversion H as [| |l1 t l2 r' H1]; subst. apply starts_map in Hs. destruct Hs as (i & -> & Hs). destruct (proj2 (IH t ltac:(apply in_elt) i ltac:(apply HF, in_elt))) as [q Hq]; [eauto|]. eexists. constructor. eauto.
  Qed.
  Lemma leads_none_run (t : n2p P) i : proper t -> ((exists q, leads t i None q) <-> exists r, run t r /\ ends_with r i).
  Proof.
    revert i. induction t as [a|l IH|l IH] using n2p_ind'; intros i Pt; inversion Pt as [|l0 Hne HF|l0 Hne HF]; subst.
    - split; [intros [q H]; inversion H; subst; exists [0]; split; [constructor|exists []; auto]|]. intros (r & H & Hs). inversion H; subst. destruct Hs as (r' & E). assert (i = 0) as ->. { destruct r' as [|x r']; cbn in E; [congruence|]. destruct r'; discriminate. } eexists. constructor.
    - rewrite Forall_forall in IH. split.
      + intros [q H]. inversion H as [| | | |l1 t i' q' H1]; subst. rewrite Forall_forall in HF. destruct (proj1 (IH t ltac:(apply in_elt) i' ltac:(apply HF, in_elt))) as (r & Hr & Hs); [eauto|].
        destruct (run_seq_ex l1) as [r1 H1']; [apply Forall_forall; intros x Hx; apply HF; apply in_app_iff; auto|]. exists (r1 ++ map (Nat.add (total l1)) r ++ map (Nat.add (total l1 + n_leaves t)) []). split; [constructor; apply run_seq_split; exists r1, r, []; repeat split; auto; constructor|]. cbn. rewrite app_nil_r.
        destruct Hs as (r' & ->). exists (r1 ++ map (Nat.add (total l1)) r'). rewrite map_app, app_assoc, count_total. reflexivity.
      + intros (r & H & Hs). inversion H as [|l' r' H1|]; subst. destruct (exists_last Hne) as (l1 & t & ->). apply run_seq_split in H1. destruct H1 as (r1 & r0 & r2 & H1 & H0 & H2 & ->). inversion H2; subst. cbn in Hs. rewrite app_nil_r in Hs. rewrite Forall_forall in HF.
        pose proof (run_ne t r0 ltac:(apply HF, in_elt) H0) as N0. apply ends_app in Hs; [|destruct r0; [congruence|discriminate]]. apply ends_map in Hs. destruct Hs as (i0 & -> & Hs). destruct (proj2 (IH t ltac:(apply in_elt) i0 ltac:(apply HF, in_elt))) as [q Hq]; [eauto|]. exists q. rewrite <- count_total. constructor. auto.
    - rewrite Forall_forall in IH, HF. split.
      + intros [q H]. inversion H as [|l1 t l2 i' o q' H1 E1 E2 E3| | |]; subst. destruct o; [discriminate|]. destruct (proj1 (IH t ltac:(apply in_elt) i' ltac:(apply HF, in_elt))) as (r & Hr & Hs); [eauto|]. eexists. split; [constructor; eauto|]. apply ends_map. eauto.
      + intros (r & H & Hs). inversion H as [| |l1 t l2 r' H1]; subst. apply ends_map in Hs. destruct Hs as (i0 & -> & Hs). destruct (proj2 (IH t ltac:(apply in_elt) i0 ltac:(apply HF, in_elt))) as [q Hq]; [eauto|]. exists q. apply (le_alt l1 t l2 i0 None). auto.
  Qed.
  Lemma leads_some_run (t : n2p P) i j : proper t -> ((exists q, leads t i (Some j) q) <-> exists r, run t r /\ directly r i j).
  Proof.
    revert i j. induction t as [a|l IH|l IH] using n2p_ind'; intros i j Pt; inversion Pt as [|l0 Hne HF|l0 Hne HF]; subst.
    - split; [intros [q H]; inversion H|]. intros (r & H & Hd). inversion H; subst. destruct Hd as (r1 & r2 & E). destruct r1 as [|x [|y r1]]; discriminate.
    - split.
      + rewrite Forall_forall in IH, HF. intros [q H]. inversion H as [| |l1 t l2 i' j' q' H1|l1 t t' l2 i' j' q1 q2 H1 He|]; subst.
        * destruct (proj1 (IH t ltac:(apply in_elt) i' j' ltac:(apply HF, in_elt))) as (r & Hr & Hs); [eauto|]. destruct (run_seq_ex l1) as [r1 H1']; [apply Forall_forall; intros x Hx; apply HF; apply in_app_iff; auto|]. destruct (run_seq_ex l2) as [r2 H2']; [apply Forall_forall; intros x Hx; apply HF; apply in_app_iff; right; right; auto|].
          eexists. split; [constructor; apply run_seq_split; exists r1, r, r2; repeat split; eauto|]. apply directly_app. right. left. apply directly_app. left. apply directly_map. exists i', j'. rewrite count_total. auto.
        * destruct (proj1 (leads_none_run t i' ltac:(apply HF, in_elt))) as (r & Hr & Hs); [eauto|]. assert (Pt' : proper t') by (apply HF, in_app_iff; right; right; left; auto). destruct (proj1 (enters_run t' j' Pt')) as (r' & Hr' & Hs'); [eauto|].
          destruct (run_seq_ex l1) as [r1 H1']; [apply Forall_forall; intros x Hx; apply HF; apply in_app_iff; auto|]. destruct (run_seq_ex l2) as [r2 H2']; [apply Forall_forall; intros x Hx; apply HF; apply in_app_iff; right; right; right; auto|].
          eexists. split; [constructor; apply run_seq_split; exists r1, r, (r' ++ map (Nat.add (count [t'])) r2); repeat split; [auto|auto|constructor; auto]|]. apply directly_app. right. left. apply directly_app. right. right. split.
          -- apply ends_map. exists i'. rewrite count_total. auto.
          -- destruct Hs' as (r0 & ->). replace (count (l1 ++ [t]) + j') with (total l1 + n_leaves t + j') by (rewrite count_total, total_app; cbn; lia). eexists. reflexivity.
      + intros (r & H & Hd). inversion H as [|l' r' H1|]; subst. clear H Hne Pt.
        assert (G : forall l1 i j r, run_seq l r -> directly r i j -> exists q, leads (NSeq (l1 ++ l)) (total l1 + i) (Some (total l1 + j)) q).
        { clear - IH HF. induction l as [|c l IHl]; intros l1 i j r H Hd; inversion H as [|t' l' r0 r' H0 H']; subst; [destruct Hd as ([|] & r2 & E); discriminate|]. inversion IH as [|x1 x2 IHc IHr]; inversion HF as [|x3 x4 Pc Fl]; subst. apply directly_app in Hd. destruct Hd as [Hd|[Hd|[He Hs]]].
          - destruct (proj2 (IHc i j Pc)) as [q Hq]; [eauto|]. exists q. rewrite <- count_total. apply le_inside. auto.
          - apply directly_map in Hd. destruct Hd as (i0 & j0 & -> & -> & Hd). destruct (IHl IHr Fl (l1 ++ [c]) i0 j0 r' H' Hd) as [q Hq]. exists q. rewrite <- app_assoc in Hq. cbn [app] in Hq. rewrite total_app in Hq. rewrite count_total. rewrite !Nat.add_assoc. auto.
          - apply starts_map in Hs. destruct Hs as (j0 & -> & Hs). destruct Hs as [r'' ->]. inversion H' as [|d l' r1 r2 H1 H2]; subst. inversion Fl as [|x5 x6 Pd Fl']; subst. pose proof (run_ne d r1 Pd H1) as N. destruct r1 as [|y r1]; [congruence|]. assert (y = j0) as -> by (cbn in *; congruence).
            destruct (proj2 (enters_run d j0 Pd)) as [q2 Hq2]; [exists (j0 :: r1); split; [auto|eexists; reflexivity]|]. destruct (proj2 (leads_none_run c i Pc)) as [q1 Hq1]; [eauto|]. exists (q1 * q2)%Q. pose proof (le_next l1 c d l' i j0 q1 q2 Hq1 Hq2) as L. rewrite !count_total, total_app in L. rewrite count_total. rewrite !Nat.add_assoc. auto. }
        apply (G [] i j r H1 Hd).
    - rewrite Forall_forall in IH, HF. split.
      + intros [q H]. inversion H as [|l1 t l2 i' o q' H1 E1 E2 E3| | |]; subst. destruct o as [j'|]; [|discriminate]. cbn in E3. assert (j = count l1 + j') as -> by congruence. destruct (proj1 (IH t ltac:(apply in_elt) i' j' ltac:(apply HF, in_elt))) as (r & Hr & Hs); [eauto|]. eexists. split; [constructor; eauto|]. apply directly_map. eauto.
      + intros (r & H & Hs). inversion H as [| |l1 t l2 r' H1]; subst. apply directly_map in Hs. destruct Hs as (i0 & j0 & -> & -> & Hs). destruct (proj2 (IH t ltac:(apply in_elt) i0 j0 ltac:(apply HF, in_elt))) as [q Hq]; [eauto|]. exists q. apply (le_alt l1 t l2 i0 (Some j0)). auto.
  Qed.
  Lemma flat_after (t : n2p P) : forall k next after li i, proper t -> In li (flat t k next after) -> li_k li = k + i ->
    forall j, In j (li_after li) <-> In j after \/ exists j0, j = k + j0 /\ exists r, run t r /\ before r i j0.
  Proof.
    induction t as [a|l IH|l IH] using n2p_ind'; intros k next after li i Pt H Ek j; cbn [flat] in H; inversion Pt as [|l0 Hne HF|l0 Hne HF]; subst.
    - destruct H as [<-|[]]. cbn. split; [auto|]. intros [H|(j0 & _ & r & H & Hb)]; [auto|]. inversion H; subst. destruct Hb as (r1 & r2 & E & Hj). destruct r1 as [|x r1]; [|destruct r1; discriminate]. cbn in E; assert (r2 = []) as -> by congruence. destruct Hj.
    - apply flat_seq_In in H. destruct H as (l1 & t & l2 & -> & H). rewrite Forall_forall in IH, HF. specialize (IH t ltac:(apply in_elt)). pose proof (flat_range _ _ _ _ _ H) as HR. assert (Pt0 : proper t) by (apply HF, in_elt).
      specialize (IH _ _ _ _ (li_k li - (k + total l1)) Pt0 H ltac:(lia) j). set (i0 := li_k li - (k + total l1)) in *. assert (i = total l1 + i0) as -> by lia. assert (Hi0 : i0 < n_leaves t) by lia. clearbody i0. rewrite IH, in_app_iff, in_seq. clear IH.
      assert (F1 : Forall proper l1) by (apply Forall_forall; intros x Hx; apply HF; apply in_app_iff; auto). assert (F2 : Forall proper l2) by (apply Forall_forall; intros x Hx; apply HF; apply in_app_iff; right; right; auto).
      destruct (run_seq_ex l1 F1) as [r1 H1]. destruct (run_seq_ex l2 F2) as [r2 H2]. split.
      + intros [[Ha|Hs]|(j0 & -> & r & Hr & Hb)]; [auto| |].
        * right. set (j2 := j - (k + total l1 + n_leaves t)). assert (Hj2 : j2 < total l2) by lia. destruct (run_ex t Pt0) as [A _]. destruct (A i0 Hi0) as (r0 & Hr0 & Hi).
          assert (proper (NSeq l2)) as P2 by (constructor; [intros ->; cbn in Hj2; lia|auto]). destruct (run_ex _ P2) as [B _]. destruct (B j2 Hj2) as (r3 & Hr3 & Hj). inversion Hr3 as [|x1 x2 Hr4|]; subst. exists (total l1 + n_leaves t + j2). split; [lia|].
          eexists. split; [constructor; apply run_seq_split; exists r1, r0, r3; repeat split; eauto|]. apply before_app. right. left. apply before_app. right. right. split; apply in_map; auto.
        * right. exists (total l1 + j0). split; [lia|]. eexists. split; [constructor; apply run_seq_split; exists r1, r, r2; repeat split; eauto|]. apply before_app. right. left. apply before_app. left. apply before_map. eauto.
      + intros [Ha|(j0 & -> & r & Hr & Hb)]; [auto|]. inversion Hr as [|l' r' Hs|]; subst. apply run_seq_split in Hs. destruct Hs as (s1 & s0 & s2 & Hs1 & Hs0 & Hs2 & ->).
        assert (B1 : forall x, In x s1 -> x < total l1) by (apply (proj2 run_bound_both); auto). assert (B2 : forall x, In x s2 -> x < total l2) by (apply (proj2 run_bound_both); auto).
        assert (NI : ~ In (total l1 + i0) s1) by (intros K; apply B1 in K; lia). apply before_app in Hb. destruct Hb as [(a1 & a2 & -> & _)|[Hb|[K _]]]; [exfalso; apply NI, in_elt| |contradiction].
        apply before_app in Hb. destruct Hb as [Hb|[Hb|[_ Hj]]].
        * apply before_map in Hb. destruct Hb as (i1 & j1 & E & -> & Hb). right. exists j1. split; [lia|]. exists s0. split; auto. assert (i1 = i0) as -> by lia. auto.
        * apply before_map in Hb. destruct Hb as (i1 & j1 & E & _). lia.
        * apply in_map_iff in Hj. destruct Hj as (j1 & <- & Hj). apply B2 in Hj. left. right. lia.
    - apply flat_alt_In in H. destruct H as (l1 & t & l2 & -> & H). rewrite Forall_forall in IH, HF. specialize (IH t ltac:(apply in_elt)). pose proof (flat_range _ _ _ _ _ H) as HR. assert (Pt0 : proper t) by (apply HF, in_elt).
      specialize (IH _ _ _ _ (li_k li - (k + total l1)) Pt0 H ltac:(lia) j). set (i0 := li_k li - (k + total l1)) in *. assert (i = total l1 + i0) as -> by lia. assert (Hi0 : i0 < n_leaves t) by lia. clearbody i0. rewrite IH. clear IH. split.
      + intros [Ha|(j0 & -> & r & Hr & Hb)]; [auto|]. right. exists (total l1 + j0). split; [lia|]. eexists. split; [constructor; eauto|]. apply before_map. exists i0, j0. rewrite count_total. auto.
      + intros [Ha|(j0 & -> & r & Hr & Hb)]; [auto|]. inversion Hr as [| |l1' t' l2' r' Hs E1]; subst. apply before_map in Hb. destruct Hb as (i1 & j1 & E & -> & Hb). rewrite count_total in *.
        assert (i1 < n_leaves t') as Hi1. { apply (run_bound t' r'); auto. destruct Hb as (a1 & a2 & -> & _). apply in_elt. }
        destruct (split_unique l1' t' l2' l1 t l2 i1 i0 E1 ltac:(lia) Hi1 Hi0) as (-> & -> & -> & ->). right. exists j1. split; [lia|]. eauto.
  Qed.
End Runs.
