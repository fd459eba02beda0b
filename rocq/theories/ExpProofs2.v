(** Proofs for C105: running experiments. *)
From Verif Require Import PyBase EvalModel ExpModel ExpSpec ExpProofs.
From Coq Require Import Lia.
Local Open Scope list_scope.
Local Open Scope nat_scope.

Lemma all_some_lookup {X} (l : list (string * option X)) r k : all_some l = Some r -> lookup r k = match lookup l k with Some (Some x) => Some x | _ => None end.
Proof.
  revert r. induction l as [|[a [x|]] l IH]; intros r E; cbn in *; try discriminate; [injection E as <-; reflexivity|]. destruct (all_some l) as [r'|]; [|discriminate]. injection E as <-. cbn. destruct (String.eqb a k); auto.
Qed.
Lemma all_some_none {X} (l : list (string * option X)) : all_some l = None <-> exists k, In (k, None) l.
Proof.
  induction l as [|[a [x|]] l IH]; cbn.
  - split; [discriminate|intros (k & [])].
  - destruct (all_some l) as [r'|].
    + split; [discriminate|]. intros (k & [[=]|K]). destruct IH as [_ IH]. discriminate (IH (ex_intro _ k K)).
    + destruct IH as [IH _]. destruct (IH eq_refl) as (k & K). split; eauto.
  - split; eauto.
Qed.
Lemma all_some_keys {X} (l : list (string * option X)) r : all_some l = Some r -> map fst r = map fst l.
Proof.
  revert r. induction l as [|[a [x|]] l IH]; intros r E; cbn in *; try discriminate; [injection E as <-; reflexivity|]. destruct (all_some l) as [r'|]; [|discriminate]. injection E as <-. cbn. f_equal. auto.
Qed.

Lemma flat_json w d : flat d -> NoDup (keys d) -> forall n,
  match all_some (map (fun kv => (fst kv, json_of w n (snd kv))) d) with
  | Some D => (forall k, option_map VJson (lookup D k) = lookup d k) /\ forall k, lookup d k <> Some VObject
  | None => exists k, lookup d k = Some VObject
  end.
Proof.
  intros F N n. destruct (all_some _) as [D|] eqn:E.
  - assert (W : forall k, lookup d k <> Some VObject).
    { intros k K. apply lookup_in in K. apply (in_map (fun kv => (fst kv, json_of w n (snd kv)))) in K. cbn [fst snd] in K. replace (json_of w n VObject) with (@None json) in K by (destruct n; reflexivity).
      assert (Q : all_some (map (fun kv => (fst kv, json_of w n (snd kv))) d) = None) by (apply all_some_none; eauto). congruence. }
    split; [|exact W]. intros k. rewrite (all_some_lookup _ _ k E), lookup_map. destruct (lookup d k) as [v|] eqn:K; cbn [option_map]; [|reflexivity]. destruct (F k v K) as [->|[j ->]]; [exfalso; exact (W k K)|]. destruct n; reflexivity.
  - apply all_some_none in E as (k & K). apply in_map_iff in K as ([k' v] & [= -> Q] & K). exists k. apply in_lookup in K; auto. destruct (F k v K) as [->|[j ->]]; [exact K|]. destruct n; discriminate.
Qed.

Section Run.
  Context {S : Type}.
  Variable opens : string -> bool.
  Variable hk : hooks S.
  Variable w : world.
  Variable e : nat.
  Variable x : experiment.
  Variable debug : bool.
  Hypothesis I : Inv w.
  Hypothesis E : nth_error (exps w) e = Some x.
  Definition w1 : world := if debug then set_debug w x else w.
  Definition w2 : world := item w1 (e_results x) "parameters" (VDict (e_params x)).
  Definition w3 (t : Q) : world := item w2 (e_results x) "t_warmup" (VJson (JNum t)).
  Definition w4 (t : Q) (l : list evaluation) : world := item (w3 t) (e_results x) "evaluations" (VEvals l).
  Lemma x_in : In x (exps w).
  Proof. eapply nth_error_In; eauto. Qed.
  Lemma x_lt : e_params x < length (heap w) /\ e_results x < length (heap w) /\ e_params x <> e_results x.
  Proof. destruct (owned_exp w x x_in) as [O1 O2]. split; [apply (i_owned _ I), O1|]. split; [apply (i_owned _ I), O2|]. apply (nodup_exps w x x (i_nodup _ I) x_in x_in). Qed.
  Lemma w1_edits : edits debug x w w1.
  Proof. unfold w1. destruct debug; [apply debug_edits|apply ed_same]. Qed.
  Lemma w2_edits : edits debug x w w2.
  Proof. apply ed_result; [apply w1_edits|left; auto]. Qed.
  Lemma w3_edits t : edits debug x w (w3 t).
  Proof. apply ed_result; [apply w2_edits|right; left; eauto]. Qed.
  Lemma w4_edits t l : edits debug x w (w4 t l).
  Proof. apply ed_result; [apply w3_edits|right; right; eauto]. Qed.
  Lemma lens t l : length (heap w1) = length (heap w) /\ length (heap w2) = length (heap w) /\ length (heap (w3 t)) = length (heap w) /\ length (heap (w4 t l)) = length (heap w).
  Proof. split; [apply (edits_facts _ _ _ _ w1_edits)|]. split; [apply (edits_facts _ _ _ _ w2_edits)|]. split; [apply (edits_facts _ _ _ _ (w3_edits t))|apply (edits_facts _ _ _ _ (w4_edits t l))]. Qed.
  Definition q : pdict := at_ w1 (e_params x).
  Lemma p2 : at_ w2 (e_params x) = q.
  Proof. destruct x_lt as (L1 & L2 & N). destruct (lens 0 []) as (A & _). unfold w2. rewrite at_item by lia. destruct (e_params x =? e_results x) eqn:K; [apply Nat.eqb_eq in K; tauto|reflexivity]. Qed.
  Lemma p3 t : at_ (w3 t) (e_params x) = q.
  Proof. destruct x_lt as (L1 & L2 & N). destruct (lens 0 []) as (_ & A & _). unfold w3. rewrite at_item by lia. destruct (e_params x =? e_results x) eqn:K; [apply Nat.eqb_eq in K; tauto|apply p2]. Qed.
  Lemma p4 t l : at_ (w4 t l) (e_params x) = q.
  Proof. destruct x_lt as (L1 & L2 & N). destruct (lens t []) as (_ & _ & A & _). unfold w4. rewrite at_item by lia. destruct (e_params x =? e_results x) eqn:K; [apply Nat.eqb_eq in K; tauto|apply p3]. Qed.
  Lemma r4 t l k : lookup (at_ (w4 t l) (e_results x)) k =
    if String.eqb k "parameters" then Some (VDict (e_params x)) else if String.eqb k "t_warmup" then Some (VJson (JNum t)) else if String.eqb k "evaluations" then Some (VEvals l) else None.
  Proof.
    destruct x_lt as (L1 & L2 & N). destruct (lens t []) as (A1 & A2 & A3 & _).
    pose proof (edits_inv _ _ _ _ (w4_edits t l) x_in I) as I4. assert (X4 : In x (exps (w4 t l))) by (destruct (edits_facts _ _ _ _ (w4_edits t l)) as (_ & _ & -> & _); apply x_in).
    destruct (lookup (at_ (w4 t l) (e_results x)) k) as [v|] eqn:K.
    - pose proof (i_results _ I4 x X4 k v K) as G. revert K. unfold w4, w3, w2. rewrite !at_item by (rewrite ?heap_item; lia). rewrite Nat.eqb_refl, !lookup_assign.
      destruct G as [(-> & ->)|[(-> & t' & ->)|(-> & l' & ->)]]; cbn; congruence.
    - revert K. unfold w4, w3, w2. rewrite !at_item by (rewrite ?heap_item; lia). rewrite Nat.eqb_refl, !lookup_assign, !(String.eqb_sym _ k). destruct (String.eqb k "evaluations"), (String.eqb k "t_warmup"), (String.eqb k "parameters"); congruence.
  Qed.

  (** The run, stage by stage *)
  Lemma run_stages : run opens hk w x debug =
    match h_init hk q with
    | Err er => (w2, Some (Raises er))
    | Ok s => match lookup q "n_warmup" with
      | None => (w2, Some (Raises EKey))
      | Some n => match h_warmup hk s n with
        | Err er => (w2, Some (Raises er))
        | Ok (s1, t) => match lookup q "n_evaluations" with
          | None => (w3 t, Some (Raises EKey))
          | Some m => match h_evaluate hk s1 m with
            | Err er => (w3 t, Some (Raises er))
            | Ok l => match h_finish hk s1 l with
              | Err er => (w4 t l, Some (Raises er))
              | Ok _ => match e_path x with Some p => write_result opens (w4 t l) x p | None => (w4 t l, None) end
              end end end end end end.
  Proof.
    unfold run. fold w1. fold w2. rewrite p2. destruct (h_init hk q); [|reflexivity]. destruct (lookup q "n_warmup"); [|reflexivity]. destruct (h_warmup hk a p) as [[s1 t]|]; [|reflexivity]. fold (w3 t). rewrite p3. reflexivity.
  Qed.
  Lemma files_same t l : files w2 = files w /\ files (w3 t) = files w /\ files (w4 t l) = files w.
  Proof. unfold w4, w3, w2, w1. destruct debug; repeat split; reflexivity. Qed.
  Lemma q_flat : flat q /\ NoDup (keys q).
  Proof.
    pose proof (edits_inv _ _ _ _ w1_edits x_in I) as I1. assert (X1 : In x (exps w1)) by (destruct (edits_facts _ _ _ _ w1_edits) as (_ & _ & -> & _); apply x_in). split; [|apply I1]. apply (i_flat _ I1). right. right. eauto.
  Qed.
  (** What is written *)
  Lemma written_json t l : match json_of (w4 t l) 2 (VDict (e_results x)) with
    | Some j => exists D P, j = JDict D /\ lookup D "parameters" = Some (JDict P) /\ lookup D "t_warmup" = Some (JNum t) /\ lookup D "evaluations" = Some (JList (map json_of_evaluation l)) /\
                (forall k, option_map VJson (lookup P k) = lookup q k) /\ forall k, lookup q k <> Some VObject
    | None => exists k, lookup q k = Some VObject
    end.
  Proof.
    destruct q_flat as [F N]. pose proof (edits_inv _ _ _ _ (w4_edits t l) x_in I) as I4.
    assert (V1 : json_of (w4 t l) 1 (VDict (e_params x)) = match all_some (map (fun kv => (fst kv, json_of (w4 t l) 0 (snd kv))) q) with Some d => Some (JDict d) | None => None end) by (rewrite <- (p4 t l); reflexivity).
    pose proof (flat_json (w4 t l) q F N 0) as FJ.
    change (json_of (w4 t l) 2 (VDict (e_results x))) with (match all_some (map (fun kv => (fst kv, json_of (w4 t l) 1 (snd kv))) (at_ (w4 t l) (e_results x))) with Some d => Some (JDict d) | None => None end).
    destruct (all_some (map (fun kv => (fst kv, json_of (w4 t l) 1 (snd kv))) (at_ (w4 t l) (e_results x)))) as [D|] eqn:A.
    - assert (LK : forall k, lookup D k = match lookup (at_ (w4 t l) (e_results x)) k with Some v => json_of (w4 t l) 1 v | None => None end).
      { intros k. rewrite (all_some_lookup _ _ k A), lookup_map. destruct (lookup (at_ (w4 t l) (e_results x)) k); cbn [option_map]; [|reflexivity]. destruct (json_of (w4 t l) 1 p); reflexivity. }
      assert (LP := LK "parameters"%string). rewrite r4 in LP. cbn [String.eqb Ascii.eqb Bool.eqb] in LP. rewrite V1 in LP.
      destruct (all_some (map (fun kv => (fst kv, json_of (w4 t l) 0 (snd kv))) q)) as [P|] eqn:AP.
      + exists D, P. destruct FJ as [FJ1 FJ2]. split; [reflexivity|]. split; [exact LP|]. split; [rewrite LK, r4; reflexivity|]. split; [rewrite LK, r4; reflexivity|]. auto.
      + exfalso. assert (Q : all_some (map (fun kv => (fst kv, json_of (w4 t l) 1 (snd kv))) (at_ (w4 t l) (e_results x))) = None).
        { apply all_some_none. exists "parameters"%string. apply in_map_iff. exists ("parameters"%string, VDict (e_params x)). cbn [fst snd]. rewrite V1. split; [reflexivity|]. apply lookup_in. rewrite r4. reflexivity. }
        congruence.
    - apply all_some_none in A as (k & K). apply in_map_iff in K as ([k' v] & Q & K). assert (Q1 := f_equal fst Q). assert (Q2 := f_equal snd Q). cbn [fst snd] in Q1, Q2. subst k'. apply in_lookup in K; [|apply I4]. rewrite r4 in K.
      destruct (String.eqb k "parameters"); [injection K as <-; rewrite V1 in Q2; destruct (all_some (map (fun kv => (fst kv, json_of (w4 t l) 0 (snd kv))) q)); [discriminate|exact FJ]|].
      destruct (String.eqb k "t_warmup"); [injection K as <-; discriminate|]. destruct (String.eqb k "evaluations"); [injection K as <-; discriminate|discriminate].
  Qed.
End Run.
