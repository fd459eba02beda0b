(** Proofs for the POMDP of a task: tables as updates of one leaf after the other. *)
From Coq Require Import Lia Field.
From Verif Require Import PyBase PyBaseFacts QBase HtmModel HtmSpec HtmProofs ConvModel NodeModel NodeSpec NodeProofs NodeProofs2 NodeProofs3.
Local Open Scope list_scope.
Local Open Scope nat_scope.

Lemma foldM_app {A S} (f : S -> A -> res S) l l' s : foldM f (l ++ l') s = do s' <- foldM f l s; foldM f l' s'.
Proof. revert s. induction l as [|x l IH]; intros s; cbn [app foldM]; [reflexivity|]. destruct (f s x); cbn [bind]; auto. Qed.
Lemma bind_assoc {A B C} (r : res A) (f : A -> res B) (g : B -> res C) : (do y <- (do x <- r; f x); g y) = do x <- r; do y <- f x; g y.
Proof. destruct r; reflexivity. Qed.

Section Flat.
  Context {P : Type}.
  Definition ix (w : nat) (next : list (nat * Q)) : list nat := map (fun x => w * fst x) next.
  Fixpoint nexts_tl (l : list (n2p P)) (m : nat) (next : list (nat * Q)) : list (list (nat * Q)) :=
    match l with [] => [next] | d :: l => shift m (inits d) :: nexts_tl l (m + n_leaves d) next end.
  Lemma nexts_tl_head l m next : exists r, nexts_tl l m next = next_of l m next :: r.
  Proof. destruct l; cbn; eauto. Qed.
  Definition nexts (l : list (n2p P)) (k : nat) (next : list (nat * Q)) : list (list (nat * Q)) :=
    match l with [] => [next] | c :: l => nexts_tl l (k + n_leaves c) next end.
  Lemma next_init_ok w (l : list (n2p P)) k next : Forall proper l -> next_init_children w l (w * k) (ix w next) = Ok (map (ix w) (nexts l k next)).
  Proof.
    intros F. unfold next_init_children. destruct l as [|c l]; [reflexivity|]. cbn [tl nexts]. rewrite start_indices_0, start_indices_cons. cbn [tl]. rewrite Nat.add_0_l. inversion F as [|x1 x2 _ Fl]; subst. clear F. generalize (n_leaves c) as m. clear c.
    induction l as [|c l IH]; intros m; [reflexivity|]. inversion Fl as [|x3 x4 Pc Fl']; subst. specialize (IH Fl' (m + n_leaves c)). rewrite start_indices_cons. cbn [combine mapM fst snd]. rewrite (init_ok w c Pc). cbn [bind].
    match goal with IH : (do l0 <- ?g; _) = _ |- _ => destruct g as [ls|]; cbn [bind] in *; [|discriminate] end. cbn [nexts_tl map app]. rewrite <- Nat.add_assoc. assert (ls ++ [ix w next] = map (ix w) (nexts_tl l (k + (m + n_leaves c)) next)) as <- by congruence. do 2 f_equal. unfold ix, shift. rewrite !map_map. apply map_ext. intros x. cbn. lia.
  Qed.
  Lemma next_probas_ok (l : list (n2p P)) k next : Forall proper l -> next_probas l (map snd next) = Ok (map (map snd) (nexts l k next)).
  Proof.
    intros F. unfold next_probas. destruct l as [|c l]; [reflexivity|]. cbn [tl nexts]. inversion F as [|x1 x2 _ Fl]; subst. clear F. generalize (k + n_leaves c) as m. clear c.
    induction l as [|c l IH]; intros m; [reflexivity|]. inversion Fl as [|x3 x4 Pc Fl']; subst. specialize (IH Fl' (m + n_leaves c)). cbn [mapM]. rewrite (start_ok c Pc). cbn [bind].
    destruct (mapM start l) as [ls|]; cbn [bind] in *; [|discriminate]. cbn [nexts_tl map app]. assert (ls ++ [map snd next] = map (map snd) (nexts_tl l (m + n_leaves c) next)) as <- by congruence. do 2 f_equal. unfold shift. rewrite !map_map. reflexivity.
  Qed.
End Flat.

Lemma start_indices_z w {P} (l : list (n2p P)) m : m = 0 -> start_indices (map (n_states w) l) = start_indices_from (w * m) (map (n_states w) l).
Proof. intros ->. apply start_indices_0. Qed.
Ltac zero m Hm := assert (exists m, m = 0) as [m Hm] by eauto.

Section Updates.
  Variable exp : Q -> Q.
  Variables t_ask t_tell : Q.
  Variable fl : flags.
  Notation uT := (update_T exp fl). Notation uO := (update_O fl). Notation uR := (update_R fl).

  Definition stepT (n_a : nat) (ds : list Q) (T : tensor) (li : linfo) : res tensor :=
    leaf_update_T exp fl (li_a li) n_a T (4 * li_k li + 1) (3 * li_k li) (ix 3 (li_next li)) (map snd (li_next li)) ds.
  Lemma update_T_flat n_a ds t : proper t -> forall k next after T, uT t n_a T (4 * k + 1) (3 * k) (ix 3 next) (map snd next) ds = foldM (stepT n_a ds) (flat t k next after) T.
  Proof.
    induction t as [a|l IH|l IH] using n2p_ind'; intros Pt k next after T; inversion Pt as [|l0 Hne HF|l0 Hne HF]; subst.
    - cbn [update_T flat foldM]. unfold stepT. cbn [li_a li_k li_next]. destruct (leaf_update_T _ _ _ _ _ _ _ _ _ _); reflexivity.
    - cbn [update_T flat]. rewrite (next_init_ok 3 l k next HF), (next_probas_ok l k next HF). cbn [bind]. unfold s_indices, a_indices. zero m Hm. rewrite !(start_indices_z _ _ m Hm).
      clear Pt Hne. replace (nexts l k next) with (nexts l (k + m) next) by (rewrite Hm, Nat.add_0_r; reflexivity). replace (flat_seq flat l k next after) with (flat_seq flat l (k + m) next after) by (rewrite Hm, Nat.add_0_r; reflexivity).
      clear Hm. revert m T. induction l as [|c l IHl]; intros m T; [reflexivity|]. inversion IH as [|x1 x2 IHc IHr]; inversion HF as [|x3 x4 Pc Fl]; subst. rewrite !start_indices_cons. cbn [flat_seq nexts]. rewrite foldM_app. destruct (nexts_tl_head l (k + m + n_leaves c) next) as [r Er]. rewrite Er. cbn [map].
      replace (4 * k + 1 + 4 * m) with (4 * (k + m) + 1) by lia. replace (3 * k + 3 * m) with (3 * (k + m)) by lia. rewrite (IHc Pc (k + m) _ (after ++ seq (k + m + n_leaves c) (total l))).
      destruct (foldM (stepT n_a ds) (flat c (k + m) (next_of l (k + m + n_leaves c) next) (after ++ seq (k + m + n_leaves c) (total l))) T) as [T'|]; cbn [bind]; [|reflexivity].
      specialize (IHl IHr Fl (m + n_leaves c) T'). rewrite Nat.add_assoc in IHl. rewrite <- IHl. destruct l as [|d l]; [reflexivity|]. cbn [nexts nexts_tl next_of] in *. assert (r = nexts_tl l (k + m + n_leaves c + n_leaves d) next) as -> by congruence. reflexivity.
    - cbn [update_T flat]. unfold s_indices, a_indices. zero m Hm. rewrite !(start_indices_z _ _ m Hm). clear Pt Hne. replace (flat_alt flat l k next after) with (flat_alt flat l (k + m) next after) by (rewrite Hm, Nat.add_0_r; reflexivity).
      clear Hm. revert m T. induction l as [|c l IHl]; intros m T; [reflexivity|]. inversion IH as [|x1 x2 IHc IHr]; inversion HF as [|x3 x4 Pc Fl]; subst. rewrite !start_indices_cons. cbn [flat_alt]. rewrite foldM_app.
      replace (4 * k + 1 + 4 * m) with (4 * (k + m) + 1) by lia. replace (3 * k + 3 * m) with (3 * (k + m)) by lia. rewrite (IHc Pc (k + m) next after). destruct (foldM (stepT n_a ds) (flat c (k + m) next after) T) as [T'|]; cbn [bind]; [|reflexivity].
      specialize (IHl IHr Fl (m + n_leaves c) T'). rewrite Nat.add_assoc in IHl. exact IHl.
  Qed.

  Definition blk (j : nat) : list nat := [3 * j; 3 * j + 1; 3 * j + 2].
  Lemma blk_seq k n : map (fun j => 3 * k + j) (seq 0 (3 * n)) = flat_map blk (seq k n).
  Proof.
    revert k. induction n as [|n IH]; intros k; [reflexivity|]. replace (3 * S n) with (3 + 3 * n) by lia. rewrite seq_app, map_app. cbn [seq flat_map app map Nat.add]. rewrite <- IH. unfold blk. cbn [app]. rewrite Nat.add_0_r.
    do 3 f_equal. clear. generalize (3 * n) as m. intros m.
    assert (G : forall m b, map (fun j => 3 * k + j) (seq (3 + b) m) = map (fun j => 3 * S k + j) (seq b m)) by (clear; induction m; intros b; cbn [seq map]; [reflexivity|]; f_equal; [lia|]; apply IHm). apply (G m 0).
  Qed.
  Lemma states_skip (l1 : list (n2p collab)) c l k : concat (skipn (length l1 + 1) (states_indices (l1 ++ c :: l) (3 * k))) = flat_map blk (seq (k + total l1 + n_leaves c) (total l)).
  Proof.
    unfold states_indices, s_indices. rewrite start_indices_0.
    assert (G : forall l m, concat (map (fun so_c : nat * n2p collab => map (fun j => 3 * k + fst so_c + j) (seq 0 (n_states 3 (snd so_c)))) (combine (start_indices_from (3 * m) (map (n_states 3) l)) l)) = flat_map blk (seq (k + m) (total l))).
    { clear. induction l as [|c l IH]; intros m; [reflexivity|]. rewrite start_indices_cons. cbn [combine map concat fst snd total fold_right]. fold (total l). rewrite IH, seq_app, flat_map_app, Nat.add_assoc. f_equal. rewrite <- blk_seq. unfold n_states. apply map_ext. intros x. lia. }
    assert (S : forall l1 m, skipn (length l1 + 1) (map (fun so_c : nat * n2p collab => map (fun j => 3 * k + fst so_c + j) (seq 0 (n_states 3 (snd so_c)))) (combine (start_indices_from (3 * m) (map (n_states 3) (l1 ++ c :: l))) (l1 ++ c :: l))) =
                       map (fun so_c : nat * n2p collab => map (fun j => 3 * k + fst so_c + j) (seq 0 (n_states 3 (snd so_c)))) (combine (start_indices_from (3 * (m + total l1 + n_leaves c)) (map (n_states 3) l)) l)).
    { clear. induction l1 as [|d l1 IH]; intros m.
      - cbn [app length Nat.add]. rewrite start_indices_cons. cbn [combine map skipn total fold_right]. rewrite Nat.add_0_r. reflexivity.
      - cbn [app length Nat.add]. rewrite start_indices_cons. cbn [combine map skipn total fold_right]. fold (total l1). rewrite IH. do 3 f_equal. lia. }
    rewrite S, G. do 2 f_equal. lia.
  Qed.
  Definition stepO (base : list nat) (O : tensor) (li : linfo (P := collab)) : res tensor :=
    Ok (leaf_update_O fl O (4 * li_k li + 1) (3 * li_k li) (ix 3 (li_next li)) (base ++ flat_map blk (li_after li))).
  Lemma update_O_flat base t : proper t -> forall k next after T, uO t T (4 * k + 1) (3 * k) (ix 3 next) (base ++ flat_map blk after) = foldM (stepO base) (flat t k next after) T.
  Proof.
    induction t as [a|l IH|l IH] using n2p_ind'; intros Pt k next after T; inversion Pt as [|l0 Hne HF|l0 Hne HF]; subst.
    - reflexivity.
    - cbn [update_O flat]. rewrite (next_init_ok 3 l k next HF). cbn [bind]. unfold s_indices, a_indices. zero m Hm. rewrite !(start_indices_z _ _ m Hm).
      clear Pt Hne. replace (nexts l k next) with (nexts l (k + m) next) by (rewrite Hm, Nat.add_0_r; reflexivity). replace (flat_seq flat l k next after) with (flat_seq flat l (k + m) next after) by (rewrite Hm, Nat.add_0_r; reflexivity).
      rewrite Hm. clear m Hm. revert T. assert (G : forall l1 T, (fix go (i : nat) (l0 : list (n2p collab)) (ai si : list nat) (ni : list (list nat)) (O : tensor) {struct l0} : res tensor :=
           match l0, ai, si, ni with
           | [], _, _, _ => Ok O
           | c :: l0, ao :: ai, so :: si, nx :: ni =>
               do Ot <- uO c O (4 * k + 1 + ao) (3 * k + so) nx ((base ++ flat_map blk after) ++ concat (skipn (i + 1) (states_indices (l1 ++ l) (3 * k)))); go (S i) l0 ai si ni Ot
           | _, _, _, _ => Err EIndex
           end) (length l1) l (start_indices_from (4 * total l1) (map (n_states 4) l)) (start_indices_from (3 * total l1) (map (n_states 3) l)) (map (ix 3) (nexts l (k + total l1) next)) T = foldM (stepO base) (flat_seq flat l (k + total l1) next after) T); [|apply (G [])].
      induction l as [|c l IHl]; intros l1 T; [reflexivity|]. inversion IH as [|x1 x2 IHc IHr]; inversion HF as [|x3 x4 Pc Fl]; subst. rewrite !start_indices_cons. cbn [flat_seq nexts]. rewrite foldM_app. destruct (nexts_tl_head l (k + total l1 + n_leaves c) next) as [r Er]. rewrite Er. cbn [map].
      replace (4 * k + 1 + 4 * total l1) with (4 * (k + total l1) + 1) by lia. replace (3 * k + 3 * total l1) with (3 * (k + total l1)) by lia. rewrite states_skip, <- app_assoc, <- flat_map_app. rewrite (IHc Pc (k + total l1) _ (after ++ seq (k + total l1 + n_leaves c) (total l))).
      destruct (foldM (stepO base) (flat c (k + total l1) (next_of l (k + total l1 + n_leaves c) next) (after ++ seq (k + total l1 + n_leaves c) (total l))) T) as [T'|]; cbn [bind]; [|reflexivity].
      specialize (IHl IHr Fl (l1 ++ [c]) T'). rewrite app_length, total_app in IHl. cbn [length total fold_right] in IHl. rewrite Nat.add_0_r, (Nat.add_1_r (length l1)), Nat.add_assoc, <- app_assoc in IHl. cbn [app] in IHl. rewrite <- IHl. destruct l as [|d l]; [reflexivity|]. cbn [nexts nexts_tl next_of] in *. assert (r = nexts_tl l (k + total l1 + n_leaves c + n_leaves d) next) as -> by congruence. reflexivity.
    - cbn [update_O flat]. unfold s_indices, a_indices. zero m Hm. rewrite !(start_indices_z _ _ m Hm). clear Pt Hne. replace (flat_alt flat l k next after) with (flat_alt flat l (k + m) next after) by (rewrite Hm, Nat.add_0_r; reflexivity).
      clear Hm. revert m T. induction l as [|c l IHl]; intros m T; [reflexivity|]. inversion IH as [|x1 x2 IHc IHr]; inversion HF as [|x3 x4 Pc Fl]; subst. rewrite !start_indices_cons. cbn [flat_alt]. rewrite foldM_app.
      replace (4 * k + 1 + 4 * m) with (4 * (k + m) + 1) by lia. replace (3 * k + 3 * m) with (3 * (k + m)) by lia. rewrite (IHc Pc (k + m) next after). destruct (foldM (stepO base) (flat c (k + m) next after) T) as [T'|]; cbn [bind]; [|reflexivity].
      specialize (IHl IHr Fl (m + n_leaves c) T'). rewrite Nat.add_assoc in IHl. exact IHl.
  Qed.

  Definition stepR (ds : list Q) (ic : Q) (R : tensor4) (li : linfo) : res tensor4 := leaf_update_R fl (li_a li) R 0 (4 * li_k li + 1) (3 * li_k li) ds ic.
  Lemma update_R_flat ds ic t : forall k next after R, uR t R 0 (4 * k + 1) (3 * k) ds ic = foldM (stepR ds ic) (flat t k next after) R.
  Proof.
    induction t as [a|l IH|l IH] using n2p_ind'; intros k next after R.
    - cbn [update_R flat foldM]. unfold stepR. cbn [li_a li_k]. destruct (leaf_update_R _ _ _ _ _ _ _ _); reflexivity.
    - cbn [update_R flat]. unfold s_indices, a_indices. zero m Hm. rewrite !(start_indices_z _ _ m Hm). replace (flat_seq flat l k next after) with (flat_seq flat l (k + m) next after) by (rewrite Hm, Nat.add_0_r; reflexivity).
      clear Hm. revert m R. induction l as [|c l IHl]; intros m R; [reflexivity|]. inversion IH as [|x1 x2 IHc IHr]; subst. rewrite !start_indices_cons. cbn [flat_seq]. rewrite foldM_app.
      replace (4 * k + 1 + 4 * m) with (4 * (k + m) + 1) by lia. replace (3 * k + 3 * m) with (3 * (k + m)) by lia. rewrite (IHc (k + m) (next_of l (k + m + n_leaves c) next) (after ++ seq (k + m + n_leaves c) (total l))). match goal with |- (do R <- ?g; _) = _ => destruct g as [R'|] end; cbn [bind]; [|reflexivity].
      specialize (IHl IHr (m + n_leaves c) R'). rewrite Nat.add_assoc in IHl. exact IHl.
    - cbn [update_R flat]. unfold s_indices, a_indices. zero m Hm. rewrite !(start_indices_z _ _ m Hm). replace (flat_alt flat l k next after) with (flat_alt flat l (k + m) next after) by (rewrite Hm, Nat.add_0_r; reflexivity).
      clear Hm. revert m R. induction l as [|c l IHl]; intros m R; [reflexivity|]. inversion IH as [|x1 x2 IHc IHr]; subst. rewrite !start_indices_cons. cbn [flat_alt]. rewrite foldM_app.
      replace (4 * k + 1 + 4 * m) with (4 * (k + m) + 1) by lia. replace (3 * k + 3 * m) with (3 * (k + m)) by lia. rewrite (IHc (k + m) next after). match goal with |- (do R <- ?g; _) = _ => destruct g as [R'|] end; cbn [bind]; [|reflexivity].
      specialize (IHl IHr (m + n_leaves c) R'). rewrite Nat.add_assoc in IHl. exact IHl.
  Qed.
End Updates.
