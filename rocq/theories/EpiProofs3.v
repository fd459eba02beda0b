(** Proofs for C117 and C118: paths in the tables and their probabilities. *)
From Coq Require Import Lia Lqa.
From Verif Require Import PyBase PyBaseFacts QBase HtmModel HtmSpec HtmProofs DagModel DagSpec DagProofs PomdpModel PomdpSpec ConvModel NodeModel NodeSpec ConvSpec NodeProofs NodeProofs2 NodeProofs3 NodeProofs4 EpiSpec EpiProofs EpiProofs2.
Local Open Scope list_scope.
Local Open Scope nat_scope.

Section Positive.
  Context {P : Type}.
  Lemma share_pos (l1 : list (n2p P)) t l2 : (0 < 1 / inject_Z (Z.of_nat (length (l1 ++ t :: l2))))%Q.
  Proof. apply Qlt_shift_div_l; [|lra]. rewrite app_length. cbn [length]. change 0%Q with (inject_Z 0). rewrite <- Zlt_Qlt. lia. Qed.
  Lemma enters_pos (t : n2p P) j q : enters t j q -> (0 < q)%Q.
  Proof. induction 1 as [a|t l j q H IH|l1 t l2 j q H IH]; [reflexivity|auto|]. apply Qmult_lt_0_compat; [auto|apply share_pos]. Qed.
  Lemma leads_pos (t : n2p P) i o q : leads t i o q -> (0 < q)%Q.
  Proof. induction 1 as [a|l1 t l2 i o q H IH|l1 t l2 i j q H IH|l1 t t' l2 i j q q' H IH He|l1 t i q H IH]; auto; [reflexivity|]. apply Qmult_lt_0_compat; [auto|eapply enters_pos; eauto]. Qed.
  Lemma from_head (t : n2p P) i r q : from t i r q -> exists r', r = i :: r'.
  Proof. intros H. inversion H; eauto. Qed.
  Lemma all_runs_sum (t : n2p P) : proper t -> exists L, NoDup (map fst L) /\ (forall r, In r (map fst L) <-> run t r) /\ (forall r q, In (r, q) L -> chance t r q) /\ (sumQ (map snd L) == 1)%Q.
  Proof.
    intros Pt. destruct (all_runs_ex t Pt) as (L & A & B & C & D). exists L. split; [auto|]. split; [|split; [auto|]].
    - intros r. split; [|auto]. intros H. apply in_map_iff in H. destruct H as ([r' q] & <- & H). eapply chance_run; eauto.
    - rewrite <- D. clear. induction L as [|x L IH]; [reflexivity|]. change (snd x + sumQ (map snd L) == snd x + sumc L)%Q. rewrite IH. reflexivity.
  Qed.
End Positive.

Lemma continues_app p s l s' : continues p s l s' -> forall l' s'', continues p s' l' s'' -> continues p s (l ++ l') s''.
Proof. induction 1 as [s|s a s1 l s' Ha Hs Hn H IH]; intros l' s'' H'; [auto|]. cbn [app]. eapply co_move; eauto. Qed.
Lemma continues_episode p s l s' : continues p s l s' -> forall l0, episode p (l0 ++ [s]) -> episode p (l0 ++ s :: l).
Proof.
  induction 1 as [s|s a s1 l s' Ha Hs Hn H IH]; intros l0 He; [auto|]. specialize (IH (l0 ++ [s])). rewrite <- !app_assoc in IH. cbn [app] in IH. apply IH. eapply ep_move; eauto.
Qed.

(** *** Collaborative tasks *)
Section Collab.
  Variable t : n2p collab.
  Variable p : pomdp.
  Hypothesis Pt : proper t.
  Hypothesis HP : forall k, k < n_leaves t -> exists q, param t k q.
  Hypothesis Fail : forall k q, param t k q -> Tr p (physical k) (robot k) (robot k) = fail_proba q.
  Hypothesis Success : forall k q o q0, param t k q -> leads t k o q0 -> Tr p (physical k) (robot k) (place t o) = ((1 - fail_proba q) * q0)%Q.

  Lemma straight_from j r q : from t j r q -> (straight p (over t) r == q * succeeds p r)%Q.
  Proof.
    induction 1 as [i q H|i j r q q' H Hr IH].
    - destruct (HP i (leads_bound _ _ _ _ H)) as [x Hx]. cbn [straight succeeds]. change (over t) with (place t None). rewrite (Success i x None q Hx H), (Fail i x Hx). ring.
    - destruct (HP i (leads_bound _ _ _ _ H)) as [x Hx]. destruct (from_head _ _ _ _ Hr) as [r' ->]. set (rr := j :: r') in *. cbn [straight succeeds]. unfold rr at 1. change (before_leaf j) with (place t (Some j)). rewrite (Success i x (Some j) q Hx H), (Fail i x Hx), IH. ring.
  Qed.

  Hypothesis Size : over t < nS p.
  Hypothesis Acts : nA p = 4 * number t + 1.
  Variable unsure : collab -> Prop.
  Hypothesis Told : forall k, k < n_leaves t -> Tr p (tell_intention k) (before_leaf k) (robot k) = 1%Q.
  Hypothesis Yes : forall k q, param t k q -> Tr p (ask_intention k) (before_leaf k) (human k) = (1 - no_proba q)%Q.
  Hypothesis Finish : forall k q o q0, param t k q -> ~ unsure q -> leads t k o q0 -> ~ (Tr p (ask_finished k) (human k) (place t o) == 0)%Q.

  Lemma place_lt k o q : leads t k o q -> place t o < nS p.
  Proof. intros H. destruct o as [j|]; cbn [place]; [|auto]. pose proof (leads_bound_next t _ _ _ H j eq_refl) as B. rewrite n_leaves_length in B. unfold over, number in Size. unfold before_leaf. lia. Qed.
  Lemma done_next (who : nat -> bool) k q o q0 : param t k q -> leads t k o q0 -> (if who k then ~ (fail_proba q == 1)%Q else ~ unsure q) -> exists a, a < nA p /\ ~ (Tr p a (if who k then robot k else human k) (place t o) == 0)%Q.
  Proof.
    intros Hq Hl C. pose proof (leads_bound _ _ _ _ Hl) as B. rewrite n_leaves_length in B. unfold number in Acts. destruct (who k).
    - exists (physical k). split; [unfold physical; lia|]. rewrite (Success k q o q0 Hq Hl). intros Z. apply Qmult_integral in Z. pose proof (leads_pos _ _ _ _ Hl). destruct Z as [Z|Z]; [apply C|]; lra.
    - exists (ask_finished k). split; [unfold ask_finished; lia|]. eapply Finish; eauto.
  Qed.
  Lemma done_first (who : nat -> bool) k q : k < n_leaves t -> param t k q -> (if who k then True else ~ (no_proba q == 1)%Q) -> exists a, a < nA p /\ (if who k then robot k else human k) < nS p /\ ~ (Tr p a (before_leaf k) (if who k then robot k else human k) == 0)%Q.
  Proof.
    intros B Hq C. pose proof (Told k B) as Ht. rewrite n_leaves_length in B. unfold number, over in *. unfold number in *. destruct (who k).
    - exists (tell_intention k). split; [unfold tell_intention; lia|]. split; [unfold robot; lia|]. rewrite Ht. discriminate.
    - exists (ask_intention k). split; [unfold ask_intention; lia|]. split; [unfold human; lia|]. rewrite (Yes k q Hq). intros Z. apply C. lra.
  Qed.
  Definition fine (who : nat -> bool) (k : nat) (q : collab) : Prop := if who k then ~ (fail_proba q == 1)%Q else ~ (no_proba q == 1)%Q /\ ~ unsure q.
  Lemma who_continues who j r q : from t j r q -> (forall k q, In k r -> param t k q -> fine who k q) ->
    exists l, flat_map (done_by who) r ++ [over t] = before_leaf j :: l /\ continues p (before_leaf j) l (over t).
  Proof.
    induction 1 as [i q H|i j r q q' H Hr IH]; intros C.
    - destruct (HP i (leads_bound _ _ _ _ H)) as [x Hx]. specialize (C i x (or_introl eq_refl) Hx). unfold fine in C. exists [if who i then robot i else human i; over t]. split; [reflexivity|].
      destruct (done_first who i x (leads_bound _ _ _ _ H) Hx) as (a & Ha & Hs & Hn); [destruct (who i); tauto|]. destruct (done_next who i x None q Hx H) as (b & Hb & Hm); [destruct (who i); tauto|].
      eapply (co_move p _ a); [exact Ha|exact Hs|exact Hn|]. eapply (co_move p _ b); [exact Hb|exact Size|exact Hm|constructor].
    - destruct (HP i (leads_bound _ _ _ _ H)) as [x Hx]. pose proof (C i x (or_introl eq_refl) Hx) as C0. unfold fine in C0. destruct IH as (l & E & K); [intros; eapply C; eauto; right; auto|]. exists ((if who i then robot i else human i) :: before_leaf j :: l). split; [cbn [flat_map done_by app]; rewrite E; reflexivity|].
      destruct (done_first who i x (leads_bound _ _ _ _ H) Hx) as (a & Ha & Hs & Hn); [destruct (who i); tauto|]. destruct (done_next who i x (Some j) q Hx H) as (b & Hb & Hm); [destruct (who i); tauto|].
      eapply (co_move p _ a); [exact Ha|exact Hs|exact Hn|]. eapply (co_move p _ b); [exact Hb|apply (place_lt _ _ _ H)|exact Hm|exact K].
  Qed.
  Lemma completes s : (forall k q, param t k q -> ~ (fail_proba q == 1)%Q /\ ~ unsure q) -> s <= over t -> exists l, continues p s l (over t).
  Proof.
    intros C Hs. destruct (Nat.eq_dec s (over t)) as [->|Hne]; [exists []; constructor|]. unfold over, number in Hs, Hne. rewrite <- n_leaves_length in Hs, Hne.
    pose proof (Nat.div_mod s 3 ltac:(lia)) as D. pose proof (Nat.mod_upper_bound s 3 ltac:(lia)) as M. set (k := s / 3) in *. assert (Hk : k < n_leaves t) by lia. destruct (HP k Hk) as [x Hx]. destruct (C k x Hx) as [C1 C2]. destruct (from_ex t k Pt Hk) as (r & q & F).
    assert (A : forall j q0 r, from t j r q0 -> exists l, continues p (before_leaf j) l (over t)). { intros j q0 r0 F0. destruct (who_continues (fun _ => true) j r0 q0 F0) as (l & _ & K); [intros k0 q1 _ H1; unfold fine; apply (C k0 q1 H1)|eauto]. }
    assert (B : forall w : bool, exists l, continues p (if w then robot k else human k) l (over t)).
    { intros w. inversion F as [i q0 H|i j r0 q0 q1 H Hr]; subst.
      - destruct (done_next (fun _ => w) k x None q Hx H) as (a & Ha & Hn); [destruct w; auto|]. exists [over t]. eapply (co_move p _ a); [exact Ha|exact Size|exact Hn|constructor].
      - destruct (done_next (fun _ => w) k x (Some j) q0 Hx H) as (a & Ha & Hn); [destruct w; auto|]. destruct (A _ _ _ Hr) as [l K]. exists (before_leaf j :: l). eapply (co_move p _ a); [exact Ha|apply (place_lt _ _ _ H)|exact Hn|exact K]. }
    assert (s = before_leaf k \/ s = human k \/ s = robot k) as [E|[E|E]] by (unfold before_leaf, human, robot; lia); rewrite E; [eapply A; eauto|apply (B false)|apply (B true)].
  Qed.
End Collab.

(** *** Tasks that bring objects *)
Section Bring.
  Variable t : n2p string.
  Variable p : pomdp.
  Variable fin : nat.
  Variable right : nat -> nat -> Prop.
  Notation at_ o := (match o with Some j => j | None => fin end).
  Hypothesis Move : forall k a o q, right k a -> leads t k o q -> Tr p a k (at_ o) = q.
  Lemma along_from j r q : from t j r q -> forall l, Forall2 right r l -> (along p fin r l == q)%Q.
  Proof.
    induction 1 as [i q H|i j r q q' H Hr IH]; intros l F; inversion F as [|? a ? l' Ha Fl]; subst.
    - inversion Fl; subst. cbn [along]. pose proof (Move i a None q Ha H) as E0. cbv iota in E0. rewrite E0. ring.
    - destruct (from_head _ _ _ _ Hr) as [r' ->]. set (rr := j :: r') in *. cbn [along]. unfold rr at 1. pose proof (Move i a (Some j) q Ha H) as E0. cbv iota in E0. rewrite E0, (IH l' Fl). reflexivity.
  Qed.
  Hypothesis Some_right : forall k, k < n_leaves t -> exists a, a < nA p /\ right k a.
  Hypothesis Size : fin < nS p.
  Hypothesis Fin : fin = n_leaves t.
  Lemma bring_continues j r q : from t j r q -> exists l, r ++ [fin] = j :: l /\ continues p j l fin.
  Proof.
    induction 1 as [i q H|i j r q q' H Hr IH]; destruct (Some_right i (leads_bound _ _ _ _ H)) as (a & Ha & R).
    - exists [fin]. split; [reflexivity|]. eapply co_move; [eauto|auto| |constructor]. pose proof (Move i a None q R H) as E0. cbv iota in E0. rewrite E0. pose proof (leads_pos _ _ _ _ H). lra.
    - destruct IH as (l & E & K). exists (j :: l). split; [cbn; rewrite E; reflexivity|]. pose proof (leads_bound_next _ _ _ _ H j eq_refl) as B. eapply co_move; [eauto|lia| |exact K]. pose proof (Move i a (Some j) q R H) as E0. cbv iota in E0. rewrite E0. pose proof (leads_pos _ _ _ _ H). lra.
  Qed.
End Bring.
