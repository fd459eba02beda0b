(** Proofs about the trees of converters: first leaves, next leaves and runs. *)
From Coq Require Import Lia Field.
From Verif Require Import PyBase PyBaseFacts QBase HtmModel HtmSpec HtmProofs NodeModel NodeSpec NodeProofs.
Local Open Scope list_scope.
Local Open Scope nat_scope.

Lemma Qmult_1_l_eq (q : Q) : (1 * q)%Q = q.
Proof. destruct q as [[|n|n] d]; reflexivity. Qed.

Lemma start_indices_cons w {P} (m : nat) (c : n2p P) l :
  start_indices_from (w * m) (map (n_states w) (c :: l)) = w * m :: start_indices_from (w * (m + n_leaves c)) (map (n_states w) l).
Proof. cbn. unfold n_states. rewrite Nat.mul_add_distr_l. reflexivity. Qed.
Lemma start_indices_0 w {P} (l : list (n2p P)) : start_indices (map (n_states w) l) = start_indices_from (w * 0) (map (n_states w) l).
Proof. rewrite Nat.mul_0_r. reflexivity. Qed.

Section Inits.
  Context {P : Type}.

  (** The first leaves with their probabilities. *)
  Definition shift (k : nat) (l : list (nat * Q)) : list (nat * Q) := map (fun x => (k + fst x, snd x)) l.
  Section AltInits.
    Variable f : n2p P -> list (nat * Q).
    Variable q : Q.
    Fixpoint alt_inits (k : nat) (l : list (n2p P)) : list (nat * Q) :=
      match l with [] => [] | c :: l => map (fun x => (k + fst x, (snd x * q)%Q)) (f c) ++ alt_inits (k + n_leaves c) l end.
  End AltInits.
  Fixpoint inits (t : n2p P) : list (nat * Q) :=
    match t with
    | NLeaf _ => [(0, 1%Q)]
    | NSeq [] => []
    | NSeq (c :: _) => inits c
    | NAlt l => alt_inits inits (1 / inject_Z (Z.of_nat (length l)))%Q 0 l
    end.

  Lemma init_ok w t : proper t -> init w t = Ok (map (fun x => w * fst x) (inits t)).
  Proof.
    induction t as [a|l IH|l IH] using n2p_ind'; intros Pt; inversion Pt as [|l0 Hne HF|l0 Hne HF]; subst; cbn [init inits].
    - cbn. rewrite Nat.mul_0_r. reflexivity.
    - destruct l as [|c l]; [congruence|]. inversion IH; inversion HF; subst; auto.
    - rewrite start_indices_0. generalize (1 / inject_Z (Z.of_nat (length l)))%Q as q. clear Hne Pt. generalize 0 as m.
      induction l as [|c l IHl]; intros m q; [reflexivity|]. inversion IH; inversion HF; subst. specialize (IHl H2 H6 (m + n_leaves c) q). rewrite start_indices_cons. rewrite (H1 H5). cbn [bind].
      match goal with IHl : (do ls <- ?g; _) = _ |- _ => destruct g as [ls|]; cbn [bind] in *; [|discriminate] end.
      assert (concat ls = map (fun x => w * fst x) (alt_inits inits q (m + n_leaves c) l)) as Ec by congruence. cbn [concat alt_inits]. rewrite Ec, map_app, !map_map. do 2 f_equal. apply map_ext. intros x. cbn. lia.
  Qed.
  Lemma start_ok t : proper t -> start t = Ok (map snd (inits t)).
  Proof.
    induction t as [a|l IH|l IH] using n2p_ind'; intros Pt; inversion Pt as [|l0 Hne HF|l0 Hne HF]; subst; cbn [start inits].
    - reflexivity.
    - destruct l as [|c l]; [congruence|]. inversion IH; inversion HF; subst; auto.
    - unfold uniform. generalize (1 / inject_Z (Z.of_nat (length l)))%Q as q. clear Hne Pt. generalize 0 as m.
      induction l as [|c l IHl]; intros m q; [reflexivity|]. inversion IH; inversion HF; subst. specialize (IHl H2 H6 (m + n_leaves c) q). cbn [length repeat]. rewrite (H1 H5). cbn [bind].
      match goal with IHl : (do ls <- ?g; _) = _ |- _ => destruct g as [ls|]; cbn [bind] in *; [|discriminate] end.
      assert (concat ls = map snd (alt_inits inits q (m + n_leaves c) l)) as Ec by congruence. cbn [concat alt_inits]. rewrite Ec, map_app, !map_map. reflexivity.
  Qed.
  Lemma alt_inits_In f q k l j p : In (j, p) (alt_inits f q k l) <-> exists l1 t l2 i p0, l = l1 ++ t :: l2 /\ In (i, p0) (f t) /\ j = k + total l1 + i /\ p = (p0 * q)%Q.
  Proof.
    revert k. induction l as [|c l IH]; intros k; cbn [alt_inits].
    - split; [intros []|]. intros (l1 & t & l2 & i & p0 & E & _). destruct l1; discriminate.
    - rewrite in_app_iff, IH, in_map_iff. split.
      + intros [([i p0] & E & H)|(l1 & t & l2 & i & p0 & -> & H1 & -> & ->)].
        * cbn in E. exists [], c, l, i, p0. cbn. repeat split; auto; [|congruence]. assert (j = k + i) by congruence. lia.
        * exists (c :: l1), t, l2, i, p0. cbn. fold (total l1). repeat split; auto. lia.
      + intros ([|d l1] & t & l2 & i & p0 & E & H1 & -> & ->); cbn in E.
        * left. exists (i, p0). cbn. assert (c = t) as -> by congruence. split; [f_equal; lia|auto].
        * right. assert (c = d) as -> by congruence. assert (l = l1 ++ t :: l2) as -> by congruence. exists l1, t, l2, i, p0. repeat split; auto. cbn. fold (total l1). lia.
  Qed.
  Lemma inits_enters t j q : In (j, q) (inits t) <-> enters t j q.
  Proof.
    revert j q. induction t as [a|l IH|l IH] using n2p_ind'; intros j q; cbn [inits].
    - split; [intros [E|[]]; assert (j = 0) as -> by congruence; assert (q = 1%Q) as -> by congruence; constructor|]. intros H; inversion H; cbn; auto.
    - destruct l as [|c l]; [split; [intros []|intros H; inversion H]|]. inversion IH; subst. rewrite H1. split; [intros; constructor; auto|]. intros H; inversion H; subst; auto.
    - rewrite alt_inits_In. rewrite Forall_forall in IH. split.
      + intros (l1 & t & l2 & i & p0 & -> & H1 & -> & ->). cbn [Nat.add]. rewrite <- count_total. apply en_alt. apply IH in H1; auto. apply in_elt.
      + intros H. inversion H as [| |l1 t l2 i p0 H1]; subst. exists l1, t, l2, i, p0. rewrite count_total. repeat split; auto. apply IH; auto. apply in_elt.
  Qed.
  Lemma inits_bound t x : In x (inits t) -> fst x < n_leaves t.
  Proof.
    revert x. induction t as [a|l IH|l IH] using n2p_ind'; intros [j q] Hx; cbn [inits n_leaves] in *.
    - destruct Hx as [E|[]]. inversion E. cbn. lia.
    - destruct l as [|c l]; [destruct Hx|]. inversion IH; subst. cbn. specialize (H1 _ Hx). cbn in H1. lia.
    - apply alt_inits_In in Hx. destruct Hx as (l1 & t & l2 & i & p0 & -> & H1 & -> & ->). fold (total (l1 ++ t :: l2)). rewrite total_app. cbn. fold (total l2). rewrite Forall_forall in IH. specialize (IH t ltac:(apply in_elt) _ H1). cbn in IH. lia.
  Qed.
  Lemma NoDup_app_disj {A} (l l' : list A) : NoDup l -> NoDup l' -> (forall x, In x l -> ~ In x l') -> NoDup (l ++ l').
  Proof. induction 1 as [|x l H N IH]; cbn; intros H' D; [auto|]. constructor; [rewrite in_app_iff; intros [K|K]; [auto|apply (D x); auto]|]. apply IH; auto. Qed.
  Lemma inits_NoDup t : NoDup (map fst (inits t)).
  Proof.
    induction t as [a|l IH|l IH] using n2p_ind'; cbn [inits].
    - repeat constructor; auto.
    - destruct l as [|c l]; [constructor|]. inversion IH; auto.
    - generalize (1 / inject_Z (Z.of_nat (length l)))%Q as q. generalize 0 as k. induction l as [|c l IHl]; intros k q; [constructor|]. inversion IH; subst. cbn [alt_inits]. rewrite map_app, map_map. cbn [fst]. apply NoDup_app_disj; auto.
      + rewrite <- (map_map fst (Nat.add k)). apply FinFun.Injective_map_NoDup; auto. intros x y; lia.
      + intros x Hx Hx'. apply in_map_iff in Hx. destruct Hx as ([i p] & <- & Hi). apply inits_bound in Hi. apply in_map_iff in Hx'. destruct Hx' as ([j q'] & E & Hj). apply alt_inits_In in Hj. destruct Hj as (l1 & t & l2 & i' & p0 & _ & _ & -> & _). cbn in *. lia.
  Qed.
  Lemma inits_ne t : proper t -> inits t <> [].
  Proof.
    induction t as [a|l IH|l IH] using n2p_ind'; intros Pt; inversion Pt as [|l0 Hne HF|l0 Hne HF]; subst; cbn [inits]; [discriminate| |].
    - destruct l as [|c l]; [congruence|]. inversion IH; inversion HF; subst; auto.
    - destruct l as [|c l]; [congruence|]. inversion IH; inversion HF; subst. cbn [alt_inits]. specialize (H1 H5). destruct (inits c); [congruence|discriminate].
  Qed.
  Lemma inits_pos t x : In x (inits t) -> (0 < snd x)%Q.
  Proof.
    revert x. induction t as [a|l IH|l IH] using n2p_ind'; intros [j q] Hx; cbn [inits] in *.
    - destruct Hx as [E|[]]. inversion E. reflexivity.
    - destruct l as [|c l]; [destruct Hx|]. inversion IH; subst; auto.
    - apply alt_inits_In in Hx. destruct Hx as (l1 & t & l2 & i & p0 & E & H1 & -> & ->). rewrite Forall_forall in IH. assert (Ht : In t l) by (rewrite E; apply in_elt). specialize (IH t Ht _ H1). cbn in IH |- *.
      assert (0 < inject_Z (Z.of_nat (length l)))%Q. { unfold Qlt; cbn. destruct l; [destruct Ht|]. cbn [length]. lia. }
      apply Qmult_lt_0_compat; auto. unfold Qdiv. rewrite Qmult_1_l. apply Qinv_lt_0_compat; auto.
  Qed.
  Lemma sum_map {A B} (f : A -> B) (g : B -> Q) l : sum_over (map f l) g = sum_over l (fun x => g (f x)).
  Proof. unfold sum_over. induction l; cbn; [reflexivity|]. rewrite IHl. reflexivity. Qed.
  Lemma inits_sum t : proper t -> (sum_over (inits t) snd == 1)%Q.
  Proof.
    induction t as [a|l IH|l IH] using n2p_ind'; intros Pt; inversion Pt as [|l0 Hne HF|l0 Hne HF]; subst; cbn [inits].
    - cbn. reflexivity.
    - destruct l as [|c l]; [congruence|]. inversion IH; inversion HF; subst; auto.
    - assert (G : forall q k, (sum_over (alt_inits inits q k l) snd == inject_Z (Z.of_nat (length l)) * q)%Q).
      { intros q. clear Hne Pt. induction l as [|c l IHl]; intros k; [cbn; ring|]. inversion IH; inversion HF; subst. cbn [alt_inits]. rewrite sum_app, sum_map. cbn [snd]. rewrite sum_scale_r, (H1 H5), IHl by auto.
        cbn [length]. rewrite Nat2Z.inj_succ, <- Z.add_1_r, inject_Z_plus. ring. }
      rewrite G. field. intros E. destruct l; [congruence|]. unfold Qeq in E; cbn in E. lia.
  Qed.

  Lemma shift_In k l j q : In (j, q) (shift k l) <-> exists i, j = k + i /\ In (i, q) l.
  Proof.
    unfold shift. rewrite in_map_iff. split.
    - intros ([i p] & E & H). cbn in E. exists i. split; congruence.
    - intros (i & -> & H). exists (i, q). auto.
  Qed.

  (** *** The leaves with what follows them *)
  Record linfo := { li_a : action P; li_k : nat; li_next : list (nat * Q); li_after : list nat }.
  Definition next_of (l : list (n2p P)) (k : nat) (next : list (nat * Q)) : list (nat * Q) := match l with [] => next | d :: _ => shift k (inits d) end.
  Section Lists.
    Variable f : n2p P -> nat -> list (nat * Q) -> list nat -> list linfo.
    Fixpoint flat_seq (l : list (n2p P)) (k : nat) (next : list (nat * Q)) (after : list nat) : list linfo :=
      match l with
      | [] => []
      | c :: l => f c k (next_of l (k + n_leaves c) next) (after ++ seq (k + n_leaves c) (total l)) ++ flat_seq l (k + n_leaves c) next after
      end.
    Fixpoint flat_alt (l : list (n2p P)) (k : nat) (next : list (nat * Q)) (after : list nat) : list linfo :=
      match l with [] => [] | c :: l => f c k next after ++ flat_alt l (k + n_leaves c) next after end.
    Lemma flat_alt_In li l k next after : In li (flat_alt l k next after) <-> exists l1 t l2, l = l1 ++ t :: l2 /\ In li (f t (k + total l1) next after).
    Proof.
      revert k. induction l as [|c l IH]; intros k; cbn [flat_alt]; [split; [intros []|intros ([|] & t & l2 & E & _); discriminate]|]. rewrite in_app_iff, IH. split.
      - intros [H|(l1 & t & l2 & -> & H)]; [exists [], c, l; cbn; rewrite Nat.add_0_r; auto|]. exists (c :: l1), t, l2. cbn. fold (total l1). rewrite Nat.add_assoc. auto.
      - intros ([|d l1] & t & l2 & E & H); cbn in E; [left; assert (c = t) as -> by congruence; cbn in H; rewrite Nat.add_0_r in H; auto|]. right. assert (c = d) as -> by congruence. assert (l = l1 ++ t :: l2) as -> by congruence.
        exists l1, t, l2. cbn in H. fold (total l1) in H. rewrite Nat.add_assoc in H. auto.
    Qed.
    Lemma flat_seq_In li l k next after : In li (flat_seq l k next after) <->
      exists l1 t l2, l = l1 ++ t :: l2 /\ In li (f t (k + total l1) (next_of l2 (k + total l1 + n_leaves t) next) (after ++ seq (k + total l1 + n_leaves t) (total l2))).
    Proof.
      revert k. induction l as [|c l IH]; intros k; cbn [flat_seq]; [split; [intros []|intros ([|] & t & l2 & E & _); discriminate]|]. rewrite in_app_iff, IH. split.
      - intros [H|(l1 & t & l2 & -> & H)]; [exists [], c, l; cbn; rewrite Nat.add_0_r; auto|]. exists (c :: l1), t, l2. cbn. fold (total l1). rewrite !Nat.add_assoc. auto.
      - intros ([|d l1] & t & l2 & E & H); cbn in E; [left; assert (c = t) as -> by congruence; cbn in H; rewrite Nat.add_0_r in H; assert (l = l2) as -> by congruence; auto|]. right. assert (c = d) as -> by congruence. assert (l = l1 ++ t :: l2) as -> by congruence.
        exists l1, t, l2. cbn in H. fold (total l1) in H. rewrite !Nat.add_assoc in H. auto.
    Qed.
  End Lists.
  Fixpoint flat (t : n2p P) (k : nat) (next : list (nat * Q)) (after : list nat) : list linfo :=
    match t with
    | NLeaf a => [{| li_a := a; li_k := k; li_next := next; li_after := after |}]
    | NSeq l => flat_seq flat l k next after
    | NAlt l => flat_alt flat l k next after
    end.

  Lemma flat_k t : forall k next after, map li_k (flat t k next after) = seq k (n_leaves t).
  Proof.
    induction t as [a|l IH|l IH] using n2p_ind'; cbn [flat n_leaves]; [reflexivity| |]; induction IH as [|c l H _ IHl]; intros k next after; [reflexivity| |reflexivity|];
      cbn [flat_seq flat_alt fold_right]; rewrite map_app, H, IHl, seq_app; reflexivity.
  Qed.
  Lemma flat_a t : forall k next after, map li_a (flat t k next after) = leaves t.
  Proof.
    induction t as [a|l IH|l IH] using n2p_ind'; cbn [flat leaves]; [reflexivity| |]; induction IH as [|c l H _ IHl]; intros k next after; [reflexivity| |reflexivity|];
      cbn [flat_seq flat_alt flat_map]; rewrite map_app, H, IHl; reflexivity.
  Qed.
  Lemma flat_range t k next after li : In li (flat t k next after) -> k <= li_k li < k + n_leaves t.
  Proof. intros H. apply (in_map li_k) in H. rewrite flat_k in H. apply in_seq in H. lia. Qed.
  Lemma flat_get t k next after i : i < n_leaves t -> exists li, In li (flat t k next after) /\ li_k li = k + i.
  Proof. intros H. assert (In (k + i) (map li_k (flat t k next after))) as Hi by (rewrite flat_k; apply in_seq; lia). apply in_map_iff in Hi. destruct Hi as (li & E & H'). eauto. Qed.
  Lemma flat_unique t k next after li li' : In li (flat t k next after) -> In li' (flat t k next after) -> li_k li = li_k li' -> li = li'.
  Proof.
    pose proof (seq_NoDup (n_leaves t) k) as N. rewrite <- (flat_k t k next after) in N. revert N. generalize (flat t k next after) as l. clear. induction l as [|x l IH]; cbn; [tauto|]. intros N H H' E. inversion N as [|y l0 N1 N2]; subst.
    destruct H as [->|H]; destruct H' as [->|H']; auto; exfalso; apply N1; [rewrite E|rewrite <- E]; apply in_map; auto.
  Qed.
  Lemma flat_action t k next after li : In li (flat t k next after) -> nth_error (leaves t) (li_k li - k) = Some (li_a li).
  Proof.
    intros H. rewrite <- (flat_a t k next after). pose proof (flat_k t k next after) as E. apply In_nth_error in H. destruct H as [i Hi]. rewrite nth_error_map.
    assert (li_k li - k = i) as ->; [|rewrite Hi; reflexivity]. assert (nth_error (map li_k (flat t k next after)) i = Some (li_k li)) as Ek by (rewrite nth_error_map, Hi; reflexivity).
    rewrite E in Ek. assert (i < n_leaves t) as Hl by (rewrite <- (seq_length (n_leaves t) k); apply nth_error_Some; congruence). apply (nth_error_nth _ _ 0) in Ek. rewrite seq_nth in Ek by auto. lia.
  Qed.

  (** Whatever holds of the first leaves and of what follows the task holds of what follows each leaf. *)
  Lemma flat_next (X : nat -> list (nat * Q) -> Prop) t k next after li : proper t ->
    (forall d m, proper d -> X m (shift m (inits d))) -> (forall m m' l, m' <= m -> X m l -> X m' l) -> X (k + n_leaves t) next -> In li (flat t k next after) -> X (li_k li + 1) (li_next li).
  Proof.
    intros Pt HX Hmono. revert k next after li. induction t as [a|l IH|l IH] using n2p_ind'; intros k next after li Hn H; inversion Pt as [|l0 Hne HF|l0 Hne HF]; subst; cbn [flat] in H.
    - destruct H as [<-|[]]. cbn in *. auto.
    - apply flat_seq_In in H. destruct H as (l1 & t & l2 & -> & H). rewrite Forall_forall in IH, HF. apply IH in H; auto; try (apply in_elt); [apply HF, in_elt|].
      destruct l2 as [|d l2]; cbn [next_of].
      + eapply Hmono; [|exact Hn]. cbn [n_leaves]. fold (total (l1 ++ [t])). rewrite total_app. cbn. lia.
      + apply HX. apply HF. apply in_app_iff. right. right. left. auto.
    - apply flat_alt_In in H. destruct H as (l1 & t & l2 & -> & H). rewrite Forall_forall in IH, HF. apply IH in H; auto; try (apply in_elt); [apply HF, in_elt|].
      eapply Hmono; [|exact Hn]. cbn [n_leaves]. fold (total (l1 ++ t :: l2)). rewrite total_app. cbn. lia.
  Qed.
  Definition good_next (m : nat) (next : list (nat * Q)) : Prop :=
    NoDup (map fst next) /\ next <> [] /\ (forall x, In x next -> (0 < snd x)%Q) /\ (sum_over next snd == 1)%Q /\ (forall x, In x next -> m <= fst x).
  Lemma flat_good t k next after li : proper t -> good_next (k + n_leaves t) next -> In li (flat t k next after) -> good_next (li_k li + 1) (li_next li).
  Proof.
    intros Pt Hn H. refine (flat_next good_next t k next after li Pt _ _ Hn H).
    - intros d m Pd. unfold good_next, shift. rewrite map_map, sum_map. cbn [fst snd]. repeat split.
      + rewrite <- (map_map fst (Nat.add m)). apply FinFun.Injective_map_NoDup; [intros x y; lia|apply inits_NoDup].
      + pose proof (inits_ne d Pd). destruct (inits d); cbn; congruence.
      + intros x Hx. apply in_map_iff in Hx. destruct Hx as (y & <- & Hy). cbn. eapply inits_pos; eauto.
      + apply inits_sum; auto.
      + intros x Hx. apply in_map_iff in Hx. destruct Hx as (y & <- & Hy). cbn. lia.
    - intros m m' l Hm (A & B & C & D & E). repeat split; auto. intros x Hx. specialize (E x Hx). lia.
  Qed.

  (** *** leads *)
  Lemma leads_bound (t : n2p P) i o q : leads t i o q -> i < n_leaves t.
  Proof.
    induction 1; rewrite ?count_total; cbn [n_leaves]; try (fold (total (l1 ++ t :: l2))); try (fold (total (l1 ++ t :: t' :: l2))); try (fold (total (l1 ++ [t]))); rewrite ?total_app; cbn; lia.
  Qed.
  Lemma enters_bound (t : n2p P) j q : enters t j q -> j < n_leaves t.
  Proof. intros H. apply inits_enters in H. apply inits_bound in H. auto. Qed.
  Lemma leads_bound_next (t : n2p P) i o q : leads t i o q -> forall j, o = Some j -> j < n_leaves t.
  Proof.
    induction 1 as [a|l1 t l2 i o q H IH|l1 t l2 i j q H IH|l1 t t' l2 i j q q' H IH He|l1 t i q H IH]; intros j0 E; rewrite ?count_total in *; cbn [n_leaves]; try discriminate.
    - destruct o as [j|]; [|discriminate]. cbn in E. specialize (IH j eq_refl). fold (total (l1 ++ t :: l2)). rewrite total_app. cbn. assert (j0 = total l1 + j) by congruence. lia.
    - specialize (IH j eq_refl). fold (total (l1 ++ t :: l2)). rewrite total_app. cbn. assert (j0 = total l1 + j) by congruence. lia.
    - apply enters_bound in He. fold (total (l1 ++ t :: t' :: l2)). rewrite total_app in *. cbn in *. assert (j0 = total l1 + (n_leaves t + 0) + j) by congruence. lia.
  Qed.
  Lemma leads_none_one (t : n2p P) i q : leads t i None q -> q = 1%Q.
  Proof. intros H. remember None as o eqn:E. induction H as [a|l1 t l2 i o q H IH|l1 t l2 i j q H IH|l1 t t' l2 i j q q' H IH He|l1 t i q H IH]; try discriminate; auto. apply IH. destruct o; [discriminate|auto]. Qed.
  Lemma split_unique (l1 : list (n2p P)) : forall t l2 l1' t' l2' i i', l1 ++ t :: l2 = l1' ++ t' :: l2' -> total l1 + i = total l1' + i' -> i < n_leaves t -> i' < n_leaves t' -> l1 = l1' /\ t = t' /\ l2 = l2' /\ i = i'.
  Proof.
    induction l1 as [|c l1 IH]; intros t l2 [|d l1'] t' l2' i i' E Ei Hi Hi'; cbn in E.
    - cbn in Ei. repeat split; congruence.
    - exfalso. assert (t = d) as -> by congruence. cbn in Ei. lia.
    - exfalso. assert (c = t') as -> by congruence. cbn in Ei. lia.
    - assert (c = d) as -> by congruence. cbn in Ei. fold (total l1) (total l1') in Ei. destruct (IH t l2 l1' t' l2' i i') as (-> & -> & -> & ->); auto; [congruence|lia].
  Qed.
  Lemma flat_leads t : forall k next after li i, In li (flat t k next after) -> li_k li = k + i ->
    forall j q, In (j, q) (li_next li) <-> (exists j0, j = k + j0 /\ leads t i (Some j0) q) \/ (leads t i None 1 /\ In (j, q) next).
  Proof.
    induction t as [a|l IH|l IH] using n2p_ind'; intros k next after li i H Ek j q; cbn [flat] in H.
    - destruct H as [<-|[]]. cbn in *. assert (i = 0) as -> by lia. split; [intros; right; split; [constructor|auto]|]. intros [(j0 & _ & Hl)|[_ Hj]]; [inversion Hl|auto].
    - apply flat_seq_In in H. destruct H as (l1 & t & l2 & -> & H). rewrite Forall_forall in IH. specialize (IH t ltac:(apply in_elt)). pose proof (flat_range _ _ _ _ _ H) as HR.
      specialize (IH _ _ _ _ (li_k li - (k + total l1)) H ltac:(lia) j q). set (i0 := li_k li - (k + total l1)) in *. assert (i = total l1 + i0) as -> by lia. assert (Hi0 : i0 < n_leaves t) by lia. clearbody i0. rewrite IH. clear IH. split.
      + intros [(j0 & -> & Hl)|[Hl Hj]].
        * left. exists (total l1 + j0). split; [lia|]. rewrite <- count_total. apply le_inside. auto.
        * destruct l2 as [|d l2]; cbn [next_of] in Hj; [right; split; [rewrite <- count_total; apply le_last; auto|auto]|].
          apply shift_In in Hj. destruct Hj as (j1 & -> & Hj1). left. exists (total (l1 ++ [t]) + j1). split; [rewrite total_app; cbn; lia|]. apply inits_enters in Hj1. pose proof (le_next l1 t d l2 i0 j1 1 q Hl Hj1) as L. rewrite !count_total, Qmult_1_l_eq in L. auto.
      + intros [(j0 & -> & Hl)|[Hl Hj]].
        * inversion Hl as [| |l1' t' l2' i' j' q' Hl' E1 E2|l1' t' t2' l2' i' j' q1 q2 Hl' He E1 E2|]; subst; rewrite ?count_total in *.
          -- destruct (split_unique l1' t' l2' l1 t l2 i' i0 E1 E2 (leads_bound _ _ _ _ Hl') Hi0) as (-> & -> & -> & ->). left. exists j'. split; [lia|auto].
          -- destruct (split_unique l1' t' (t2' :: l2') l1 t l2 i' i0 E1 E2 (leads_bound _ _ _ _ Hl') Hi0) as (-> & -> & <- & ->). right. pose proof (leads_none_one _ _ _ Hl') as ->. split; auto. cbn [next_of]. apply shift_In. exists j'. rewrite Qmult_1_l_eq. rewrite total_app. cbn. split; [lia|]. apply inits_enters. auto.
        * inversion Hl as [| | | |l1' t' i' q' Hl' E1 E2]; subst; rewrite ?count_total in *. change (l1' ++ [t']) with (l1' ++ t' :: []) in E1. destruct (split_unique l1' t' [] l1 t l2 i' i0 E1 E2 (leads_bound _ _ _ _ Hl') Hi0) as (-> & -> & <- & ->). right. auto.
    - apply flat_alt_In in H. destruct H as (l1 & t & l2 & -> & H). rewrite Forall_forall in IH. specialize (IH t ltac:(apply in_elt)). pose proof (flat_range _ _ _ _ _ H) as HR.
      specialize (IH _ _ _ _ (li_k li - (k + total l1)) H ltac:(lia) j q). set (i0 := li_k li - (k + total l1)) in *. assert (i = total l1 + i0) as -> by lia. assert (Hi0 : i0 < n_leaves t) by lia. clearbody i0. rewrite IH. clear IH. split.
      + intros [(j0 & -> & Hl)|[Hl Hj]].
        * left. exists (total l1 + j0). split; [lia|]. rewrite <- count_total. apply (le_alt l1 t l2 i0 (Some j0)); auto.
        * right. split; auto. rewrite <- count_total. apply (le_alt l1 t l2 i0 None); auto.
      + intros [(j0 & -> & Hl)|[Hl Hj]].
        * inversion Hl as [|l1' t' l2' i' o' q' Hl' E1 E2| | |]; subst. rewrite ?count_total in *. destruct (split_unique l1' t' l2' l1 t l2 i' i0 E1 E2 (leads_bound _ _ _ _ Hl') Hi0) as (-> & -> & -> & ->). destruct o' as [j'|]; [|discriminate]. left. exists j'. cbn in *. assert (j0 = total l1 + j') by congruence. split; [lia|auto].
        * inversion Hl as [|l1' t' l2' i' o' q' Hl' E1 E2| | |]; subst. rewrite ?count_total in *. destruct (split_unique l1' t' l2' l1 t l2 i' i0 E1 E2 (leads_bound _ _ _ _ Hl') Hi0) as (-> & -> & -> & ->). destruct o' as [j'|]; [discriminate|]. right. auto.
  Qed.
End Inits.
