(** Proofs for C117 and C118: the runs of a task are the sequences of leaves that follow each other. *)
From Coq Require Import Lia Lqa Field.
From Verif Require Import PyBase PyBaseFacts QBase HtmModel HtmSpec PomdpModel PomdpSpec NodeModel NodeSpec ConvSpec NodeProofs NodeProofs2 NodeProofs3 NodeProofs4 EpiSpec.
Local Open Scope list_scope.
Local Open Scope nat_scope.

Section Runs.
  Context {P : Type}.
  Notation n2p := (n2p P).

  Scheme run_mind := Induction for run Sort Prop with run_seq_mind := Induction for run_seq Sort Prop.
  Scheme chance_mind := Induction for chance Sort Prop with chance_seq_mind := Induction for chance_seq Sort Prop.

  Lemma leads_lt (t : n2p) i o q : leads t i o q -> forall j, o = Some j -> i < j.
  Proof.
    induction 1 as [a|l1 t l2 i o q H IH|l1 t l2 i j q H IH|l1 t t' l2 i j q q' H IH He|l1 t i q H IH]; intros j0 E; try discriminate.
    - destruct o as [j|]; [|discriminate]. cbn in E. specialize (IH j eq_refl). assert (j0 = count l1 + j) by congruence. lia.
    - specialize (IH j eq_refl). assert (j0 = count l1 + j) by congruence. lia.
    - apply leads_bound in H. rewrite !count_total, total_app in *. cbn in E. assert (j0 = total l1 + (n_leaves t + 0) + j) by congruence. lia.
  Qed.

  (** Sequences of leaves from leaf i to the end, with the product of the probabilities. *)
  Inductive from (t : n2p) : nat -> list nat -> Q -> Prop :=
  | fr_last i q : leads t i None q -> from t i [i] q
  | fr_step i j r q q' : leads t i (Some j) q -> from t j r q' -> from t i (i :: r) (q * q').

  (** *** Parts of sequences *)
  Lemma leads_seq_inv (t : n2p) l i o q : leads (NSeq (t :: l)) i o q ->
    (i < n_leaves t /\ exists j, o = Some j /\ j < n_leaves t /\ leads t i (Some j) q) \/
    (i < n_leaves t /\ exists q0, leads t i None q0 /\ match l with [] => o = None | _ => exists j q', o = Some (n_leaves t + j) /\ enters (NSeq l) j q' end) \/
    (exists i0 o0, i = n_leaves t + i0 /\ o = option_map (Nat.add (n_leaves t)) o0 /\ leads (NSeq l) i0 o0 q).
  Proof.
    intros H. inversion H as [|l1 c l2 i0 o0 q0 H0|l1 c l2 i0 j q0 H0 Hl|l1 c c' l2 i0 j q0 q' H0 He Hl|l1 c i0 q0 H0 Hl]; subst.
    - destruct l1 as [|d l1]; cbn [app] in Hl.
      + assert (c = t /\ l2 = l) as [-> ->] by (split; congruence). left. cbn. split; [eapply leads_bound; eauto|]. exists j. split; [auto|]. split; [eapply leads_bound_next; eauto|auto].
      + assert (d = t /\ l1 ++ c :: l2 = l) as [-> <-] by (split; congruence). right. right. rewrite !count_total. cbn [total fold_right]. fold (total l1). exists (total l1 + i0), (Some (total l1 + j)). split; [lia|]. split; [cbn; f_equal; lia|]. rewrite <- count_total. constructor. auto.
    - destruct l1 as [|d l1]; cbn [app] in Hl.
      + assert (c = t /\ c' :: l2 = l) as [-> <-] by (split; congruence). right. left. rewrite !count_total. cbn. split; [eapply leads_bound; eauto|]. exists q0. split; [auto|]. exists j, q'. split; [f_equal; lia|constructor; auto].
      + assert (d = t /\ l1 ++ c :: c' :: l2 = l) as [-> <-] by (split; congruence). right. right. exists (count l1 + i0), (Some (count (l1 ++ [c]) + j)). rewrite !count_total, !total_app. cbn [total fold_right app]. fold (total l1). split; [lia|]. split; [cbn; f_equal; lia|]. pose proof (le_next l1 c c' l2 i0 j q0 q' H0 He) as K. rewrite !count_total, total_app in K. exact K.
    - destruct l1 as [|d l1]; cbn [app] in Hl.
      + assert (c = t /\ l = []) as [-> ->] by (split; congruence). right. left. cbn. split; [eapply leads_bound; eauto|]. exists q. auto.
      + assert (d = t /\ l1 ++ [c] = l) as [-> <-] by (split; congruence). right. right. exists (count l1 + i0), None. rewrite !count_total. cbn [total fold_right]. fold (total l1). split; [lia|]. split; [auto|]. rewrite <- count_total. constructor. auto.
  Qed.
  Lemma from_shift (t : n2p) l : forall i r q, from (NSeq (t :: l)) i r q -> forall i0, i = n_leaves t + i0 -> exists r0 q0, r = map (Nat.add (n_leaves t)) r0 /\ from (NSeq l) i0 r0 q0.
  Proof.
    induction 1 as [i q H|i j r q q' H Hr IH]; intros i0 E; destruct (leads_seq_inv _ _ _ _ _ H) as [(A & _)|[(A & _)|(i1 & o0 & A & B & C)]]; try lia; assert (i1 = i0) as -> by lia.
    - destruct o0; [discriminate|]. exists [i0], q. split; [cbn; congruence|constructor; auto].
    - destruct o0 as [j0|]; [|discriminate]. cbn in B. destruct (IH j0) as (r0 & q0 & -> & F); [congruence|]. exists (i0 :: r0), (q * q0)%Q. split; [cbn; congruence|econstructor; eauto].
  Qed.
  Lemma from_split (t : n2p) l : forall i r q, from (NSeq (t :: l)) i r q -> i < n_leaves t ->
    exists r1 r2 q1, r = r1 ++ map (Nat.add (n_leaves t)) r2 /\ from t i r1 q1 /\
      ((l = [] /\ r2 = []) \/ exists j q0 q2, enters (NSeq l) j q0 /\ from (NSeq l) j r2 q2).
  Proof.
    induction 1 as [i q H|i j r q q' H Hr IH]; intros Hi; destruct (leads_seq_inv _ _ _ _ _ H) as [(_ & j1 & A & B & C)|[(_ & q0 & A & B)|(i1 & o0 & A & B & C)]]; try lia.
    - discriminate.
    - destruct l as [|c l]; [|destruct B as (? & ? & ? & _); discriminate]. exists [i], [], q0. split; [reflexivity|]. split; [constructor; auto|auto].
    - assert (j1 = j) as -> by congruence. destruct (IH B) as (r1 & r2 & q1 & -> & F & G). exists (i :: r1), r2, (q * q1)%Q. split; [reflexivity|]. split; [econstructor; eauto|auto].
    - destruct l as [|c l]; [discriminate|]. destruct B as (j1 & q1 & B & E). assert (j = n_leaves t + j1) as -> by congruence. destruct (from_shift _ _ _ _ _ Hr j1 eq_refl) as (r2 & q2 & -> & F). exists [i], r2, q0. split; [reflexivity|]. split; [constructor; auto|]. right. exists j1, q1, q2. auto.
  Qed.
  Lemma from_bound (t : n2p) i r q : from t i r q -> i < n_leaves t.
  Proof. intros H. inversion H; subst; eapply leads_bound; eauto. Qed.
  Lemma leads_alt_inv l i o q : leads (NAlt l : n2p) i o q -> exists l1 t l2 i0 o0, l = l1 ++ t :: l2 /\ i = total l1 + i0 /\ o = option_map (Nat.add (total l1)) o0 /\ leads t i0 o0 q.
  Proof. intros H. inversion H; subst. rewrite !count_total. eauto 10. Qed.
  Lemma from_alt l1 (t : n2p) l2 : forall i r q, from (NAlt (l1 ++ t :: l2)) i r q -> forall i0, i = total l1 + i0 -> i0 < n_leaves t -> exists r0, r = map (Nat.add (total l1)) r0 /\ from t i0 r0 q.
  Proof.
    induction 1 as [i q H|i j r q q' H Hr IH]; intros i0 E Hi; destruct (leads_alt_inv _ _ _ _ H) as (l1' & t' & l2' & i1 & o1 & A & B & C & D); (destruct (split_unique l1 t l2 l1' t' l2' i0 i1 A) as (-> & -> & -> & ->); [lia|lia|eapply leads_bound; eauto|]).
    - destruct o1; [discriminate|]. exists [i1]. split; [cbn; congruence|constructor; auto].
    - destruct o1 as [j1|]; [|discriminate]. cbn in C. destruct (IH j1) as (r0 & -> & F); [congruence|eapply leads_bound_next; eauto|]. exists (i1 :: r0). split; [cbn; congruence|econstructor; eauto].
  Qed.

  (** *** Following the leaves gives a run *)
  Lemma from_run (t : n2p) : proper t -> forall j q0 r q, enters t j q0 -> from t j r q -> run t r.
  Proof.
    induction t as [a|l IH|l IH] using n2p_ind'; intros Pt j q0 r q He Hf.
    - inversion Hf as [? ? H|? ? ? ? ? H]; subst; inversion H; subst. constructor.
    - constructor. inversion Pt as [|? _ Pl|]; subst. clear Pt.
      assert (Hg : (exists j q0 q, enters (NSeq l) j q0 /\ from (NSeq l) j r q) \/ (l = [] /\ r = [])) by (left; eauto 6). clear j q0 q He Hf. revert r Hg.
      induction l as [|c l IHl]; intros r Hg.
      + destruct Hg as [(j & q0 & q & He & _)|[_ ->]]; [inversion He|constructor].
      + destruct Hg as [(j & q0 & q & He & Hf)|[E _]]; [|discriminate]. inversion He as [|? ? ? ? Hc|]; subst. inversion IH as [|? ? IHc IHr]; subst. inversion Pl as [|? ? Pc Pr]; subst.
        destruct (from_split _ _ _ _ _ Hf) as (r1 & r2 & q1 & -> & F & G); [eapply enters_bound; eauto|].
        replace (n_leaves c) with (count [c]) by (rewrite count_total; cbn; lia). constructor; [eapply IHc; eauto|]. apply IHl; auto. destruct G as [[-> ->]|(j2 & q2 & q3 & G1 & G2)]; [auto|left; eauto 6].
    - inversion He as [| |l1 c l2 j0 q1 Hc]; subst. rewrite count_total in *. destruct (from_alt l1 c l2 _ _ _ Hf j0 eq_refl) as (r0 & -> & F); [eapply enters_bound; eauto|]. rewrite <- count_total. constructor.
      rewrite Forall_forall in IH. inversion Pt as [| |? _ Pl]; subst. rewrite Forall_forall in Pl. assert (Hin : In c (l1 ++ c :: l2)) by (apply in_or_app; right; left; auto). eapply (IH c Hin (Pl c Hin)); eauto.
  Qed.

  (** *** A run is such a sequence, and its chance is the product of the probabilities *)
  Lemma from_inside l1 (t : n2p) : forall i r q, from t i r q -> from (NSeq (l1 ++ [t])) (total l1 + i) (map (Nat.add (total l1)) r) q.
  Proof. rewrite <- count_total. induction 1; cbn; [constructor; constructor; auto|econstructor; [constructor; eauto|auto]]. Qed.
  Lemma from_alt_in l1 (t : n2p) l2 : forall i r q, from t i r q -> from (NAlt (l1 ++ t :: l2)) (total l1 + i) (map (Nat.add (total l1)) r) q.
  Proof. rewrite <- count_total. induction 1 as [i q H|i j r q q' H Hr IH]; cbn; [constructor; apply (le_alt l1 t l2 i None); auto|econstructor; [apply (le_alt l1 t l2 i (Some j)); eauto|auto]]. Qed.
  Lemma leads_seq_cons (c : n2p) l : forall i o q, leads (NSeq l) i o q -> leads (NSeq (c :: l)) (n_leaves c + i) (option_map (Nat.add (n_leaves c)) o) q.
  Proof.
    intros i o q H. assert (Cc : forall l1, n_leaves c + count l1 = count (c :: l1)) by (intros; rewrite !count_total; reflexivity). inversion H as [|l1 t l2 i0 o0 q0 H0|l1 t l2 i0 j q0 H0 Hl|l1 t t' l2 i0 j q0 q' H0 He Hl|l1 t i0 q0 H0 Hl]; subst; cbn [option_map]; rewrite !Nat.add_assoc, !Cc.
    - apply (le_inside (c :: l1)); auto.
    - rewrite app_comm_cons. apply (le_next (c :: l1)); auto.
    - apply (le_last (c :: l1)); auto.
  Qed.
  Lemma from_seq_cons (c : n2p) l : forall i r q, from (NSeq l) i r q -> from (NSeq (c :: l)) (n_leaves c + i) (map (Nat.add (n_leaves c)) r) q.
  Proof. induction 1 as [i q H|i j r q q' H Hr IH]; cbn; [constructor; apply (leads_seq_cons c l i None); auto|econstructor; [apply (leads_seq_cons c l i (Some j)); eauto|auto]]. Qed.
  Lemma from_seq_join (c d : n2p) l : forall i r1 q1, from c i r1 q1 -> forall j q0 r2 q2, enters d j q0 -> from (NSeq (d :: l)) j r2 q2 ->
    exists q, from (NSeq (c :: d :: l)) i (r1 ++ map (Nat.add (n_leaves c)) r2) q /\ (q == q1 * (q0 * q2))%Q.
  Proof.
    induction 1 as [i q H|i j r q q' H Hr IH]; intros j' q0 r2 q2 He Hf.
    - exists (q * q0 * q2)%Q. split; [|ring]. cbn [app]. econstructor; [|apply from_seq_cons; eauto]. pose proof (le_next [] c d l i j' q q0 H He) as K. rewrite !count_total in K. cbn in K. rewrite Nat.add_0_r in K. exact K.
    - destruct (IH j' q0 r2 q2 He Hf) as (q3 & F & E). exists (q * q3)%Q. split; [|rewrite E; ring]. cbn [app]. econstructor; [|eauto]. apply (le_inside [] c (d :: l) i j q H).
  Qed.
  Lemma chance_from_both :
    (forall (t : n2p) r q, chance t r q -> proper t -> exists j q0 q1, enters t j q0 /\ from t j r q1 /\ (q == q0 * q1)%Q) /\
    (forall (l : list n2p) r q, chance_seq l r q -> Forall proper l -> l <> [] -> exists j q0 q1, enters (NSeq l) j q0 /\ from (NSeq l) j r q1 /\ (q == q0 * q1)%Q).
  Proof.
    assert (H : forall (t : n2p) r q, chance t r q -> proper t -> exists j q0 q1, enters t j q0 /\ from t j r q1 /\ (q == q0 * q1)%Q).
    { refine (chance_mind P (fun t r q _ => proper t -> exists j q0 q1, enters t j q0 /\ from t j r q1 /\ (q == q0 * q1)%Q)
        (fun l r q _ => Forall proper l -> l <> [] -> exists j q0 q1, enters (NSeq l) j q0 /\ from (NSeq l) j r q1 /\ (q == q0 * q1)%Q) _ _ _ _ _).
      - intros a _. exists 0, 1%Q, 1%Q. split; [constructor|]. split; [constructor; constructor|ring].
      - intros l r q _ IH Pt. inversion Pt; subst. auto.
      - intros l1 t l2 r q _ IH Pt. inversion Pt as [| |? _ Pl]; subst. rewrite Forall_forall in Pl. destruct (IH (Pl t ltac:(apply in_or_app; right; left; auto))) as (j & q0 & q1 & A & B & C). eexists _, _, q1. split; [constructor; eauto|]. split; [rewrite count_total; apply from_alt_in; auto|]. rewrite C. unfold Qdiv. ring.
      - intros _ E. congruence.
      - intros t l r r' q q' _ IH Hs IHs Pl _. inversion Pl as [|? ? Pt Pr]; subst. destruct (IH Pt) as (j & q0 & q1 & A & B & C). destruct l as [|d l].
        + inversion Hs; subst. cbn [map]. rewrite app_nil_r. exists j, q0, q1. split; [constructor; auto|]. split; [|rewrite C; ring]. pose proof (from_inside [] t j r q1 B) as K. cbn in K. rewrite map_id in K. exact K.
        + destruct (IHs Pr ltac:(discriminate)) as (j' & q2 & q3 & A' & B' & C'). inversion A' as [|? ? ? ? A2|]; subst. destruct (from_seq_join t d l j r q1 B j' q2 r' q3 A2 B') as (q4 & F & E). exists j, q0, q4. split; [constructor; auto|]. split; [replace (count [t]) with (n_leaves t) by (rewrite count_total; cbn; lia); auto|rewrite C, C', E; ring]. }
    split; [exact H|]. intros l r q Hc Pl Hn. apply (H (NSeq l)); [constructor; auto|constructor; auto].
  Qed.
  Lemma run_chance (t : n2p) r : run t r -> exists q, chance t r q.
  Proof.
    revert t r. refine (run_mind P (fun t r _ => exists q, chance t r q) (fun l r _ => exists q, chance_seq l r q) _ _ _ _ _).
    - intros a. exists 1%Q. constructor.
    - intros l r _ [q H]. exists q. constructor. auto.
    - intros l1 t l2 r _ [q H]. eexists. constructor. eauto.
    - exists 1%Q. constructor.
    - intros t l r r' _ [q H] _ [q' H']. eexists. constructor; eauto.
  Qed.
  Lemma chance_run (t : n2p) r q : chance t r q -> run t r.
  Proof.
    revert t r q. refine (chance_mind P (fun t r _ _ => run t r) (fun l r _ _ => run_seq l r) _ _ _ _ _); intros; constructor; auto.
  Qed.
  Lemma run_from (t : n2p) r : proper t -> run t r -> exists j q0 q1, enters t j q0 /\ from t j r q1.
  Proof. intros Pt H. destruct (run_chance t r H) as [q Hq]. destruct (proj1 chance_from_both t r q Hq Pt) as (j & q0 & q1 & A & B & _). eauto. Qed.
  Lemma from_suffix (t : n2p) : forall i r q, from t i r q -> forall k, In k r -> exists r' q', from t k r' q'.
  Proof. induction 1 as [i q H|i j r q q' H Hr IH]; intros k [<-|Hk]; [eexists _, _; constructor; eauto|destruct Hk|eexists _, _; eapply fr_step; eauto|apply IH; exact Hk]. Qed.
  Lemma from_ex (t : n2p) i : proper t -> i < n_leaves t -> exists r q, from t i r q.
  Proof. intros Pt Hi. destruct (proj1 (run_ex t Pt) i Hi) as (r & Hr & Hin). destruct (run_from t r Pt Hr) as (j & q0 & q1 & _ & F). eapply from_suffix; eauto. Qed.

  (** Sequences from the start. *)
  Inductive upto (t : n2p) : list nat -> Prop :=
  | up_start j q : enters t j q -> upto t [j]
  | up_next ks i j q : upto t (ks ++ [i]) -> leads t i (Some j) q -> upto t (ks ++ [i; j]).
  Lemma upto_from (t : n2p) ks : upto t ks -> forall ks' i r q, ks = ks' ++ [i] -> from t i r q -> exists j q0 q1, enters t j q0 /\ from t j (ks' ++ r) q1.
  Proof.
    induction 1 as [j q He|ks i j q Hu IH Hl]; intros ks' i' r q' E Hf.
    - destruct ks' as [|x ks']; [|destruct ks'; discriminate]. assert (j = i') as -> by (cbn in E; congruence). cbn. eauto.
    - assert (E' : ks' = ks ++ [i] /\ j = i'). { change (ks ++ [i; j]) with (ks ++ [i] ++ [j]) in E. rewrite app_assoc in E. apply app_inj_tail in E. intuition. } destruct E' as [-> ->].
      rewrite <- app_assoc. cbn [app]. eapply IH; [reflexivity|econstructor; eauto].
  Qed.
  Lemma upto_run (t : n2p) ks i : proper t -> upto t (ks ++ [i]) -> i < n_leaves t -> exists r, run t (ks ++ [i] ++ r).
  Proof.
    intros Pt Hu Hi. destruct (from_ex t i Pt Hi) as (r & q & F). destruct (upto_from t _ Hu ks i r q eq_refl F) as (j & q0 & q1 & A & B). apply (from_run t Pt _ _ _ _ A) in B. inversion F; subst; [exists []; exact B|eexists; exact B].
  Qed.
  Lemma upto_end (t : n2p) ks i q : proper t -> upto t (ks ++ [i]) -> leads t i None q -> run t (ks ++ [i]).
  Proof. intros Pt Hu Hl. destruct (upto_from t _ Hu ks i [i] q eq_refl) as (j & q0 & q1 & A & B); [constructor; auto|]. eapply from_run; eauto. Qed.

  (** *** Chances add up to one *)
  Definition sumc (L : list (list nat * Q)) : Q := fold_right (fun x s => snd x + s)%Q 0%Q L.
  Lemma sumc_cons x L : sumc (x :: L) = (snd x + sumc L)%Q.
  Proof. reflexivity. Qed.
  Lemma sumc_app L L' : (sumc (L ++ L') == sumc L + sumc L')%Q.
  Proof. induction L as [|x L IH]; [change (sumc L' == 0 + sumc L')%Q; ring|]. cbn [app]. rewrite !sumc_cons, IH. ring. Qed.
  Lemma sumc_map (f : list nat * Q -> list nat * Q) c L : (forall x, In x L -> (snd (f x) == snd x * c)%Q) -> (sumc (map f L) == sumc L * c)%Q.
  Proof. induction L as [|x L IH]; intros H; [change (0 == 0 * c)%Q; ring|]. cbn [map]. rewrite !sumc_cons, IH by (intros; apply H; right; auto). rewrite (H x (or_introl eq_refl)). ring. Qed.
  Lemma shift_inj n r r' : map (Nat.add n) r = map (Nat.add n) r' -> r = r'.
  Proof. revert r'. induction r as [|x r IH]; intros [|y r'] E; try discriminate; [reflexivity|]. cbn in E. assert (n + x = n + y) by congruence. assert (map (Nat.add n) r = map (Nat.add n) r') as E2 by congruence. f_equal; [lia|auto]. Qed.
  Lemma app_shift_inj n r : forall s r' s', (forall i, In i r -> i < n) -> (forall i, In i s -> i < n) -> r ++ map (Nat.add n) r' = s ++ map (Nat.add n) s' -> r = s /\ r' = s'.
  Proof.
    induction r as [|x r IH]; intros [|y s] r' s' Hr Hs E; cbn [app] in E.
    - split; [auto|]. eapply shift_inj; eauto.
    - exfalso. destruct r' as [|z r']; [discriminate|]. cbn in E. assert (n + z = y) by congruence. specialize (Hs y (or_introl eq_refl)). lia.
    - exfalso. destruct s' as [|z s']; [discriminate|]. cbn in E. assert (x = n + z) by congruence. specialize (Hr x (or_introl eq_refl)). lia.
    - destruct (IH s r' s') as [-> ->]; [intros; apply Hr; right; auto|intros; apply Hs; right; auto|congruence|]. split; [f_equal; congruence|auto].
  Qed.
  Definition all_runs (t : n2p) (L : list (list nat * Q)) : Prop :=
    NoDup (map fst L) /\ (forall r q, In (r, q) L -> chance t r q) /\ (forall r, run t r -> In r (map fst L)) /\ (sumc L == 1)%Q.
  Definition all_seqs (l : list n2p) (L : list (list nat * Q)) : Prop :=
    NoDup (map fst L) /\ (forall r q, In (r, q) L -> chance_seq l r q) /\ (forall r, run_seq l r -> In r (map fst L)) /\ (sumc L == 1)%Q.
  Lemma NoDup_app_intro {A} (l l' : list A) : NoDup l -> NoDup l' -> (forall x, In x l -> ~ In x l') -> NoDup (l ++ l').
  Proof. induction 1 as [|x l Hx Hl IH]; intros H' D; [auto|]. cbn. constructor; [|apply IH; auto; intros; apply D; right; auto]. intros K. apply in_app_or in K. destruct K as [K|K]; [auto|]. apply (D x); [left; auto|auto]. Qed.
  Lemma all_seqs_cons (t : n2p) l L1 L2 : all_runs t L1 -> all_seqs l L2 -> exists L, all_seqs (t :: l) L.
  Proof.
    intros (A1 & A2 & A3 & A4) (B1 & B2 & B3 & B4). set (n := count [t]).
    exists (flat_map (fun x => map (fun y => (fst x ++ map (Nat.add n) (fst y), snd x * snd y)%Q) L2) L1).
    assert (Bd : forall x i, In x L1 -> In i (fst x) -> i < n). { intros [r q] i Hx Hi. cbn in Hi. unfold n. rewrite count_total. cbn. rewrite Nat.add_0_r. eapply run_bound; eauto. eapply chance_run; eauto. }
    split; [|split; [|split]].
    - assert (Hk : forall K, incl K L1 -> NoDup (map fst K) -> NoDup (map fst (flat_map (fun x => map (fun y => (fst x ++ map (Nat.add n) (fst y), snd x * snd y)%Q) L2) K))).
      { induction K as [|x K IH]; intros HI HN; [constructor|]. cbn [flat_map]. rewrite map_app. cbn [map] in HN. inversion HN as [|? ? N1 N2]; subst. apply NoDup_app_intro.
        - rewrite map_map. cbn [fst]. rewrite <- (map_map fst (fun r => fst x ++ map (Nat.add n) r)). apply FinFun.Injective_map_NoDup; [|auto]. intros r r' E. apply app_inv_head in E. eapply shift_inj; eauto.
        - apply IH; auto. intros y Hy. apply HI. right. auto.
        - intros r H1 H2. apply N1. rewrite map_map in H1. apply in_map_iff in H1. destruct H1 as (y & <- & Hy). apply in_map_iff in H2. destruct H2 as (z & Ez & Hz). apply in_flat_map in Hz. destruct Hz as (x' & Hx' & Hz). apply in_map_iff in Hz. destruct Hz as (y' & <- & Hy'). cbn [fst] in Ez.
          destruct (app_shift_inj n (fst x') (fst x) (fst y') (fst y)) as [E _]; auto; [intros; eapply Bd; eauto; apply HI; right; auto|intros; eapply Bd; eauto; apply HI; left; auto|]. rewrite <- E. apply in_map. auto. }
      apply Hk; auto. apply incl_refl.
    - intros r q H. apply in_flat_map in H. destruct H as ([r1 q1] & H1 & H). apply in_map_iff in H. destruct H as ([r2 q2] & E & H2). cbn [fst snd] in E. assert (r = r1 ++ map (Nat.add n) r2) as -> by congruence. assert (q = (q1 * q2)%Q) as -> by congruence. constructor; auto.
    - intros r H. inversion H as [|? ? r1 r2 H1 H2]; subst. apply A3 in H1. apply B3 in H2. apply in_map_iff in H1. destruct H1 as ([r1' q1] & E1 & H1). apply in_map_iff in H2. destruct H2 as ([r2' q2] & E2 & H2). cbn in E1, E2. subst. apply in_map_iff. exists (r1 ++ map (Nat.add n) r2, (q1 * q2)%Q). split; [reflexivity|]. apply in_flat_map. exists (r1, q1). split; [auto|]. apply in_map_iff. exists (r2, q2). auto.
    - rewrite <- A4. clear - B4. induction L1 as [|x L1 IH]; [reflexivity|]. cbn [flat_map]. rewrite sumc_app, sumc_cons, IH. rewrite (sumc_map (fun y => (fst x ++ map (Nat.add n) (fst y), (snd x * snd y)%Q)) (snd x)) by (intros; cbn [snd]; ring). rewrite B4. ring.
  Qed.
  Lemma all_alts (l : list n2p) : Forall (fun t => proper t /\ exists L, all_runs t L) l -> forall l1, exists L,
    NoDup (map fst L) /\ (forall r q, In (r, q) L -> chance (NAlt (l1 ++ l)) r q) /\ (forall r q, In (r, q) L -> exists i r', r = i :: r' /\ total l1 <= i) /\
    (forall k1 t k2 r, l = k1 ++ t :: k2 -> run t r -> In (map (Nat.add (count (l1 ++ k1))) r) (map fst L)) /\
    (sumc L == inject_Z (Z.of_nat (length l)) / inject_Z (Z.of_nat (length (l1 ++ l))))%Q.
  Proof.
    induction 1 as [|c l [Pc [Lc (A1 & A2 & A3 & A4)]] Hl IH]; intros l1.
    - exists []. split; [constructor|]. split; [intros ? ? []|]. split; [intros ? ? []|]. split; [intros [|? ?] ? ? ? E; discriminate|]. cbn. unfold Qdiv. ring.
    - destruct (IH (l1 ++ [c])) as (L & B1 & B2 & B3 & B4 & B5). rewrite <- app_assoc in *. cbn [app] in *. set (n := inject_Z (Z.of_nat (length (l1 ++ c :: l)))) in *.
      exists (map (fun x => (map (Nat.add (count l1)) (fst x), snd x / n)%Q) Lc ++ L). split; [|split; [|split; [|split]]].
      + rewrite map_app, map_map. cbn [fst]. apply NoDup_app_intro; auto.
        * rewrite <- (map_map fst (map (Nat.add (count l1)))). apply FinFun.Injective_map_NoDup; [|auto]. intros r r' E. eapply shift_inj; eauto.
        * intros r H1 H2. apply in_map_iff in H1. destruct H1 as ([r0 q0] & <- & H1). apply in_map_iff in H2. destruct H2 as ([r1 q1] & E & H2). cbn [fst] in E. destruct (B3 _ _ H2) as (i & r' & -> & Hi). destruct r0 as [|i0 r0]; [discriminate|]. cbn in E. apply A2, chance_run in H1. pose proof (run_bound c (i0 :: r0) i0 H1 (or_introl eq_refl)) as Hb. rewrite total_app in Hi. cbn in Hi. rewrite count_total in E. assert (i = total l1 + i0) by congruence. lia.
      + intros r q H. apply in_app_or in H. destruct H as [H|H]; [|auto]. apply in_map_iff in H. destruct H as ([r0 q0] & E & H). cbn [fst snd] in E. assert (r = map (Nat.add (count l1)) r0) as -> by congruence. assert (q = (q0 / n)%Q) as -> by congruence. constructor. auto.
      + intros r q H. apply in_app_or in H. destruct H as [H|H].
        * apply in_map_iff in H. destruct H as ([r0 q0] & E & H). cbn [fst snd] in E. assert (r = map (Nat.add (count l1)) r0) as -> by congruence. apply A2, chance_run in H. pose proof (run_ne c r0 Pc H) as Hn. destruct r0 as [|i r0]; [congruence|]. cbn. rewrite count_total. eexists _, _. split; [reflexivity|lia].
        * destruct (B3 _ _ H) as (i & r' & -> & Hi). rewrite total_app in Hi. eexists _, _. split; [reflexivity|lia].
      + intros k1 t k2 r E Hr. rewrite map_app. apply in_or_app. destruct k1 as [|d k1].
        * left. assert (c = t) as -> by (cbn in E; congruence). rewrite app_nil_r, map_map. cbn [fst]. rewrite <- (map_map fst (map (Nat.add (count l1)))). apply in_map. auto.
        * right. assert (d = c) as -> by (cbn in E; congruence). specialize (B4 k1 t k2 r ltac:(cbn in E; congruence) Hr). rewrite <- app_assoc in B4. exact B4.
      + rewrite sumc_app, B5. rewrite (sumc_map _ (1 / n)%Q) by (intros; cbn [snd]; unfold Qdiv; ring). rewrite A4. cbn [length]. rewrite Nat2Z.inj_succ. unfold Z.succ. rewrite inject_Z_plus. unfold Qdiv. ring.
  Qed.
  Lemma all_runs_ex (t : n2p) : proper t -> exists L, all_runs t L.
  Proof.
    induction t as [a|l IH|l IH] using n2p_ind'; intros Pt.
    - exists [([0], 1%Q)]. split; [repeat constructor; cbn; tauto|]. split; [intros r q [E|[]]; assert (r = [0] /\ q = 1%Q) as [-> ->] by (split; congruence); constructor|]. split; [intros r H; inversion H; subst; left; reflexivity|reflexivity].
    - inversion Pt as [|? _ Pl|]; subst. assert (HS : exists L, all_seqs l L).
      { clear Pt. induction l as [|c l IHl]; [exists [([], 1%Q)]; split; [repeat constructor; cbn; tauto|]; split; [intros r q [E|[]]; assert (r = [] /\ q = 1%Q) as [-> ->] by (split; congruence); constructor|]; split; [intros r H; inversion H; subst; left; reflexivity|reflexivity]|].
        inversion IH as [|? ? IHc IHr]; subst. inversion Pl as [|? ? Pc Pr]; subst. destruct (IHc Pc) as [L1 H1]. destruct (IHl IHr Pr) as [L2 H2]. eapply all_seqs_cons; eauto. }
      destruct HS as (L & A & B & C & D). exists L. split; [auto|]. split; [intros; constructor; auto|]. split; [intros r H; inversion H; subst; auto|auto].
    - inversion Pt as [| |? Nl Pl]; subst. destruct (all_alts l) with (l1 := @nil n2p) as (L & A & B & _ & C & D). { rewrite Forall_forall in *. auto. }
      exists L. split; [auto|]. split; [auto|]. split.
      + intros r H. inversion H as [| |l1 c l2 r0 H0]; subst. apply (C l1 c l2 r0 eq_refl H0).
      + rewrite D. cbn [app]. unfold Qdiv. apply Qmult_inv_r. destruct l; [congruence|]. cbn [length]. intros K. unfold Qeq in K. cbn in K. lia.
  Qed.
End Runs.
