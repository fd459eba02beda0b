(** Proofs for C56: the graph over beliefs built by visit. *)
From Verif Require Import PyBase PyBaseFacts QBase PomdpModel PomdpSpec PomdpProofs PomdpProofs2 SuppModel PolicyModel PolicySpec Props_Pomdp PolicyProofs PolicyProofs2.
From Coq Require Import Lia Lqa.
Local Open Scope list_scope.
Local Open Scope nat_scope.

Section Visit.
  Variables (g : graph_policy) (p : pomdp).
  Hypothesis PF : policy_for g p.
  Hypothesis St : stochastic p.
  Hypothesis NA : NoDup (p_actions p).
  Hypothesis NO : NoDup (p_observations p).

  Definition node (nodes : list (list Q)) i := nth i nodes [].
  Definition entry (tr : list (list (option Z))) i io : option Z := nth io (nth i tr []) None.

  Record inv (nodes : list (list Q)) (tr : list (list (option Z))) (acts : list name) (k io0 : nat) : Prop := {
    i_tr : length tr = length nodes;
    i_acts : length acts = length nodes;
    i_rows : forall row, In row tr -> length row = nO p;
    i_dist : forall b, In b nodes -> distribution p b;
    i_act : forall i, i < length nodes -> exists n nm, best (g_values g) (node nodes i) n /\ nth_error (g_actions g) n = Some nm /\ nth_error acts i = Some nm;
    i_good : forall i io z, i < length nodes -> io < nO p -> entry tr i io = Some z ->
       exists a j nb, action_for g p (node nodes i) a /\ z = Z.of_nat j /\ j < length nodes /\ ~ (prob_obs p (node nodes i) a io == 0)%Q /\
         posterior p (node nodes i) a io nb /\ (distance2 (node nodes j) nb < tol2)%Q;
    i_comp : forall i io, i < length nodes -> io < nO p -> i < k \/ (i = k /\ io < io0) -> entry tr i io = None ->
       exists a, action_for g p (node nodes i) a /\ (prob_obs p (node nodes i) a io == 0)%Q;
    i_apart : forall i j, i < j < length nodes -> (tol2 <= distance2 (node nodes i) (node nodes j))%Q;
    i_first : length nodes = 0 \/ node nodes 0 = start_list p }.
  Definition inv_x (x : aux) (k io0 q : nat) : Prop :=
    inv (x_nodes x) (x_trans x) (x_actions x) k io0 /\ q <= length (x_nodes x) /\ x_queue x = seq q (length (x_nodes x) - q).

  Lemma distance_self b : (distance2 b b == 0)%Q.
  Proof. unfold distance2, sum_n. rewrite (sum_ext _ _ (fun _ => 0%Q)); [apply sum_zero; intros; reflexivity|]. intros; ring. Qed.

  Lemma closest_spec nodes b : (forall u, In u nodes -> length u = length b) ->
    match closest nodes b with
    | None => nodes = []
    | Some (i, d) => i < length nodes /\ (d == distance2 (node nodes i) b)%Q /\ forall j, j < length nodes -> (d <= distance2 (node nodes j) b)%Q
    end.
  Proof.
    intros HL. unfold closest. destruct (map (fun n => sq_dist n b) nodes) as [|x t] eqn:E; [apply map_eq_nil in E; auto|].
    assert (HD : forall m, m < length nodes -> (nth m (x :: t) 0 == distance2 (node nodes m) b)%Q).
    { intros m Hm. rewrite <- E. rewrite (nth_indep _ _ (sq_dist [] b)) by (rewrite map_length; auto). rewrite (map_nth (fun n => sq_dist n b)).
      apply sq_dist_distance. apply HL. apply nth_In. auto. }
    assert (HN : length (x :: t) = length nodes) by (rewrite <- E; apply map_length).
    destruct (argminQ_from_spec t 1 0 x [x]) as [K1 K2]; auto; [intros m Hm; replace m with 0 by lia; cbn; lra|].
    cbv zeta in K1, K2. cbn [app] in K1, K2. rewrite HN in K1, K2. split; [auto|]. split; [apply HD; auto|]. intros j Hj. rewrite <- (HD j Hj). apply K2. auto.
  Qed.

  Lemma node_app_old nodes b i : i < length nodes -> node (nodes ++ [b]) i = node nodes i.
  Proof. intros H. unfold node. apply app_nth1. auto. Qed.
  Lemma node_app_new nodes b : node (nodes ++ [b]) (length nodes) = b.
  Proof. unfold node. rewrite app_nth2, Nat.sub_diag by lia. reflexivity. Qed.
  Lemma entry_app tr row i io : i < length tr -> entry (tr ++ [row]) i io = entry tr i io.
  Proof. intros H. unfold entry. rewrite app_nth1 by auto. reflexivity. Qed.
  Lemma entry_new tr n io : entry (tr ++ [repeat None n]) (length tr) io = None.
  Proof. unfold entry. rewrite app_nth2, Nat.sub_diag by lia. cbn [nth]. clear. revert io. induction n; intros [|io]; cbn; auto. Qed.

  Lemma index_spec x k io0 q b : inv_x x k io0 q -> distribution p b -> (x_nodes x = [] -> b = start_list p) -> (k < length (x_nodes x) \/ k = 0 /\ io0 = 0) ->
    exists x' i, aux_index g (nO p) b x = (x', Ok i) /\ inv_x x' k io0 q /\ i < length (x_nodes x') /\ (distance2 (node (x_nodes x') i) b < tol2)%Q /\
      (x_nodes x' = x_nodes x \/ x_nodes x' = x_nodes x ++ [b]) /\
      (forall j jo, j < length (x_nodes x) -> entry (x_trans x') j jo = entry (x_trans x) j jo).
  Proof.
    intros (I & Hq & Eq) Db Hst Hk. unfold aux_index.
    pose proof (closest_spec (x_nodes x) b) as HC.
    set (old := match closest (x_nodes x) b with Some (i, d) => if negb (Qle_bool tol2 d) then Some i else None | None => None end).
    assert (HO : match old with Some i => i < length (x_nodes x) /\ (distance2 (node (x_nodes x) i) b < tol2)%Q
                 | None => forall j, j < length (x_nodes x) -> (tol2 <= distance2 (node (x_nodes x) j) b)%Q end).
    { assert (HL : forall u, In u (x_nodes x) -> length u = length b).
      { intros u Hu. destruct (i_dist _ _ _ _ _ I u Hu) as [H _]. destruct Db as [H' _]. lia. }
      specialize (HC HL). unfold old. destruct (closest (x_nodes x) b) as [[i d]|]; [|rewrite HC; cbn; intros; lia].
      destruct HC as (C1 & C2 & C3). destruct (Qle_bool tol2 d) eqn:E; cbn [negb].
      - apply Qle_bool_iff in E. intros j Hj. specialize (C3 j Hj). lra.
      - assert (Hd : (d < tol2)%Q) by (destruct (Qlt_le_dec d tol2) as [|H]; [auto|]; apply Qle_bool_iff in H; congruence). split; [auto|lra]. }
    clearbody old. clear HC. destruct old as [i|].
    - destruct HO as [O1 O2]. exists x, i. split; [reflexivity|]. split; [split; auto|]. auto.
    - rename HO into Hap.
        destruct (reset_ok g p PF b (x_runner x)) as (n & Bn & Er); [apply Db|]. rewrite Er.
        destruct (action_ok g p PF b {| b_belief := b; b_node := Some (Z.of_nat n) |}) as (n' & nm & a & Bn' & Hn' & En' & Ea & El & Ep & Ha).
        { split; [reflexivity|]. exists n. auto. }
        rewrite Ea. eexists _, _. split; [reflexivity|]. cbn [x_nodes x_trans x_queue x_actions x_runner]. split.
        { unfold inv_x. cbn [x_nodes x_trans x_queue x_actions]. split; [|split].
          - destruct I as [J1 J2 J3 J4 J5 J6 J7 J8 J9]. constructor; rewrite ?app_length; cbn [length].
            + lia.
            + lia.
            + intros row H. apply in_app_or in H. destruct H as [H|[<-|[]]]; [auto|apply repeat_length].
            + intros u H. apply in_app_or in H. destruct H as [H|[<-|[]]]; auto.
            + intros i Hi. destruct (Nat.eq_dec i (length (x_nodes x))) as [->|Hne].
              * exists n', nm. rewrite node_app_new. split; [auto|]. split; [auto|]. rewrite nth_error_app2 by lia. rewrite J2, Nat.sub_diag. reflexivity.
              * destruct (J5 i) as (m & nm' & K1 & K2 & K3); [lia|]. exists m, nm'. rewrite node_app_old by lia. rewrite nth_error_app1 by lia. auto.
            + intros i io z Hi Hio Ez. destruct (Nat.eq_dec i (length (x_nodes x))) as [->|Hne].
              * rewrite <- J1, entry_new in Ez. discriminate.
              * rewrite entry_app in Ez by lia. destruct (J6 i io z) as (a' & j & nb & K1 & K2 & K3 & K4 & K5 & K6); [lia|auto|auto|].
                exists a', j, nb. rewrite !node_app_old by lia. do 2 (split; [auto|]). split; [lia|]. auto.
            + intros i io Hi Hio Hp Ez. assert (i < length (x_nodes x)).
              { destruct Hk as [Hk|[-> ->]]; [|lia]. lia. }
              rewrite entry_app in Ez by lia. rewrite node_app_old by lia. apply J7; auto.
            + intros i j Hij. destruct (Nat.eq_dec j (length (x_nodes x))) as [->|Hne].
              * rewrite node_app_new, node_app_old by lia. apply Hap. lia.
              * rewrite !node_app_old by lia. apply J8. lia.
            + right. destruct J9 as [J9|J9]; [|destruct (x_nodes x); [|rewrite node_app_old by (cbn; lia); auto]].
              * apply length_zero_iff_nil in J9. rewrite J9. unfold node. cbn. auto.
              * unfold node. cbn. auto.
          - rewrite app_length. lia.
          - rewrite app_length. cbn [length]. rewrite Eq. replace (length (x_nodes x) + 1 - q) with (S (length (x_nodes x) - q)) by lia.
            rewrite seq_S. do 2 f_equal. lia. }
        split; [rewrite app_length; cbn; lia|]. split; [rewrite node_app_new, distance_self; reflexivity|]. split; [auto|].
        intros j jo Hj. apply entry_app. rewrite (i_tr _ _ _ _ _ I). auto.
  Qed.

  Lemma skipn_cons {A} (l : list A) : forall n o rest, skipn n l = o :: rest -> nth_error l n = Some o /\ skipn (S n) l = rest.
  Proof. induction l as [|x t IH]; intros [|n] o rest E; cbn in *; try discriminate; [split; congruence|]. apply IH. auto. Qed.

  Lemma obs_spec : forall rest io x k q, inv_x x k io q -> k < length (x_nodes x) -> skipn io (p_observations p) = rest -> io <= nO p ->
    exists x', visit_obs g p k io rest x = (x', Ok tt) /\ inv_x x' k (nO p) q /\ length (x_nodes x) <= length (x_nodes x') <= length (x_nodes x) + length rest.
  Proof.
    induction rest as [|o rest IH]; intros io x k q I Hk Er Hio; cbn [visit_obs].
    - exists x. assert (io = nO p) as ->.
      { assert (H : length (skipn io (p_observations p)) = 0) by (rewrite Er; reflexivity). rewrite skipn_length in H. unfold nO in *. lia. }
      split; [reflexivity|]. split; [auto|cbn; lia].
    - destruct (skipn_cons _ _ _ _ Er) as [Eo Er']. assert (Hio' : io < nO p) by (apply nth_error_Some; congruence).
      pose proof I as (J & Hq & Eq). set (b := nth k (x_nodes x) []).
      assert (Db : distribution p b) by (apply (i_dist _ _ _ _ _ J); apply nth_In; auto).
      destruct (reset_ok g p PF b (x_runner x)) as (n & Bn & Es); [apply Db|]. rewrite Es.
      destruct (step_spec g p PF St b {| b_belief := b; b_node := Some (Z.of_nat n) |} o Db) as (a & Aa & Ha & H).
      { split; [reflexivity|]. exists n. auto. }
      rewrite (list_index_nth _ _ _ NO Eo) in H. destruct H as [[Ez Ek]|(Ez & nb & r' & Pn & Dn & Ek & Ab)]; rewrite Ek.
      + destruct (IH (S io) {| x_runner := {| b_belief := b; b_node := Some (Z.of_nat n) |}; x_nodes := x_nodes x; x_queue := x_queue x; x_trans := x_trans x; x_actions := x_actions x |} k q) as (x' & E' & I' & L'); auto.
        * split; [|split; [exact Hq|exact Eq]]. cbn [x_nodes x_trans x_actions]. destruct J as [J1 J2 J3 J4 J5 J6 J7 J8 J9]. constructor; auto.
          intros i jo Hi Hjo Hp Et. destruct Hp as [Hp|[-> Hp]]; [apply J7; auto|]. destruct (Nat.eq_dec jo io) as [->|Hne]; [exists a; auto|]. apply J7; auto. right. lia.
        * exists x'. split; [exact E'|]. split; [auto|]. cbn [x_nodes length] in *. lia.
      + destruct Ab as [Ab _]. rewrite Ab.
        set (x1 := {| x_runner := r'; x_nodes := x_nodes x; x_queue := x_queue x; x_trans := x_trans x; x_actions := x_actions x |}).
        destruct (index_spec x1 k io q nb) as (x2 & i & E2 & I2 & Hi & Hd & Hn & He); auto.
        { unfold x1. cbn [x_nodes]. intros E. rewrite E in Hk. cbn in Hk. lia. }
        change (length (p_observations p)) with (nO p). rewrite E2.
        set (x3 := {| x_runner := x_runner x2; x_nodes := x_nodes x2; x_queue := x_queue x2; x_trans := set_entry (x_trans x2) k io (Z.of_nat i); x_actions := x_actions x2 |}).
        assert (Hk2 : k < length (x_nodes x2)) by (destruct Hn as [->| ->]; rewrite ?app_length; unfold x1; cbn [x_nodes]; lia).
        assert (Hb2 : node (x_nodes x2) k = b) by (destruct Hn as [->| ->]; rewrite ?node_app_old by auto; reflexivity).
        destruct (IH (S io) x3 k q) as (x' & E' & I' & L'); auto.
        * destruct I2 as (J2' & Hq2 & Eq2). split; [|split; [exact Hq2|exact Eq2]]. unfold x3. cbn [x_nodes x_trans x_actions]. destruct J2' as [J1 J2 J3 J4 J5 J6 J7 J8 J9].
          assert (HE : forall i' jo, i' < length (x_nodes x2) -> jo < nO p -> entry (set_entry (x_trans x2) k io (Z.of_nat i)) i' jo = if (Nat.eqb i' k && Nat.eqb jo io)%bool then Some (Z.of_nat i) else entry (x_trans x2) i' jo).
          { intros i' jo Hi' Hjo. unfold entry. destruct (nth_error (x_trans x2) i') as [row|] eqn:Erow; [|apply nth_error_None in Erow; lia].
            rewrite (nth_error_nth _ _ [] Erow). pose proof (set_entry_nth (x_trans x2) k io (Z.of_nat i) i') as HS. rewrite Erow in HS. cbn [option_map] in HS. rewrite (nth_error_nth _ _ [] HS).
            destruct (Nat.eqb i' k); cbn [andb]; [|reflexivity]. assert (Hrow : length row = nO p) by (apply J3; eapply nth_error_In; eauto).
            destruct (nth_error row jo) as [t|] eqn:Et; [|apply nth_error_None in Et; lia]. pose proof (set_row_nth row io (Z.of_nat i) jo) as HR. rewrite Et in HR. cbn [option_map] in HR.
            rewrite (nth_error_nth _ _ None HR), (nth_error_nth _ _ None Et). reflexivity. }
          constructor; auto.
          -- rewrite set_entry_length. auto.
          -- intros row Hr. apply set_entry_In in Hr. destruct Hr as (r0 & R0 & [->| ->]); [auto|]. rewrite set_row_length. auto.
          -- intros i' jo z Hi' Hjo Ee. rewrite HE in Ee by auto. destruct (Nat.eqb_spec i' k) as [->|Hne]; cbn [andb] in Ee; [|apply J6; auto].
             destruct (Nat.eqb_spec jo io) as [->|Hne]; [|apply J6; auto]. exists a, i, nb. rewrite Hb2. split; [auto|]. split; [congruence|]. auto.
          -- intros i' jo Hi' Hjo Hp Ee. rewrite HE in Ee by auto. destruct (Nat.eqb_spec i' k) as [->|Hne]; cbn [andb] in Ee; [|apply J7; auto; lia].
             destruct (Nat.eqb_spec jo io) as [->|Hne]; [discriminate|]. apply J7; auto. lia.
        * exists x'. split; [exact E'|]. split; [auto|]. assert (HL : length (x_nodes x) <= length (x_nodes x3) <= S (length (x_nodes x))).
          { unfold x3. cbn [x_nodes]. destruct Hn as [->| ->]; rewrite ?app_length; unfold x1; cbn [x_nodes length]; lia. }
          cbn [length]. lia.
  Qed.

  Lemma loop_spec m : forall fuel x q, inv_x x q 0 q -> 0 < length (x_nodes x) -> (Z.of_nat fuel + Z.of_nat q > m)%Z ->
    exists x' q', visit_loop fuel g p m x = (x', Ok tt) /\ inv_x x' q' 0 q' /\ 0 < length (x_nodes x') /\
      (q' = length (x_nodes x') \/ (m < Z.of_nat (length (x_nodes x')))%Z) /\
      (Z.of_nat (length (x_nodes x')) <= Z.max (Z.of_nat (length (x_nodes x))) (m + Z.of_nat (nO p)))%Z.
  Proof.
    induction fuel as [|fuel IH]; intros x q I Hp Hf; cbn [visit_loop]; pose proof I as (J & Hq & Eq).
    - destruct (x_queue x) as [|ib rest] eqn:E.
      + exists x, q. split; [auto|]. split; [auto|]. split; [auto|]. split; [left|lia].
        assert (length (x_nodes x) - q = 0) by (rewrite <- (seq_length (length (x_nodes x) - q) q), <- Eq; reflexivity). lia.
      + destruct (Z.ltb_spec m (Z.of_nat (length (x_nodes x)))) as [Hm|Hm]; [|exfalso; lia].
        exists x, q. split; [auto|]. split; [auto|]. split; [auto|]. split; [auto|lia].
    - destruct (x_queue x) as [|ib rest] eqn:E.
      + exists x, q. split; [auto|]. split; [auto|]. split; [auto|]. split; [left|lia].
        assert (length (x_nodes x) - q = 0) by (rewrite <- (seq_length (length (x_nodes x) - q) q), <- Eq; reflexivity). lia.
      + destruct (Z.ltb_spec m (Z.of_nat (length (x_nodes x)))) as [Hm|Hm].
        * exists x, q. split; [auto|]. split; [auto|]. split; [auto|]. split; [auto|lia].
        * destruct (length (x_nodes x) - q) as [|d] eqn:Ed; [discriminate|]. cbn [seq] in Eq. assert (ib = q /\ rest = seq (S q) d) as [-> ->] by (split; congruence).
          destruct (obs_spec (p_observations p) 0 {| x_runner := x_runner x; x_nodes := x_nodes x; x_queue := seq (S q) d; x_trans := x_trans x; x_actions := x_actions x |} q (S q)) as (x' & E' & I' & L'); cbn [x_nodes]; [|lia|reflexivity|lia|].
          { split; [exact J|]. cbn [x_nodes x_queue]. split; [lia|]. f_equal. lia. }
          rewrite E'. cbn [x_nodes] in L'. destruct I' as (J' & Hq' & Eq').
          destruct (IH x' (S q)) as (x2 & q2 & E2 & I2 & P2 & C2 & B2); [|lia|lia|].
          { split; [|split; auto]. destruct J' as [J1 J2 J3 J4 J5 J6 J7 J8 J9]. constructor; auto. intros i io Hi Hio Hc Ee. apply J7; auto. lia. }
          exists x2, q2. split; [auto|]. split; [auto|]. split; [auto|]. split; [auto|]. unfold nO in *. lia.
  Qed.

  Lemma visit_spec m r : distribution p (start_list p) -> exists x q, visit g p m r = (x_runner x, mk_policy (x_actions x) (p_observations p) (x_trans x) (x_nodes x) None (Some 0%Z)) /\
    inv_x x q 0 q /\ 0 < length (x_nodes x) /\ (q = length (x_nodes x) \/ (m < Z.of_nat (length (x_nodes x)))%Z) /\
    (Z.of_nat (length (x_nodes x)) <= Z.max 1 (m + Z.of_nat (nO p)))%Z.
  Proof.
    intros Ds. unfold visit. set (x0 := {| x_runner := r; x_nodes := []; x_queue := []; x_trans := []; x_actions := [] |}).
    destruct (index_spec x0 0 0 0 (start_list p)) as (x1 & i & E1 & I1 & Hi & Hd & Hn & He); auto.
    { split; [|split; [cbn; lia|reflexivity]]. cbn. constructor; cbn; auto; intros; try lia; try contradiction. }
    change (length (p_observations p)) with (nO p). rewrite E1.
    assert (H1 : length (x_nodes x1) = 1) by (destruct Hn as [Hn|Hn]; rewrite Hn in *; cbn in *; lia).
    destruct (loop_spec m (S (Z.to_nat m + nO p)) x1 0 I1) as (x2 & q & E2 & I2 & P2 & C2 & B2); [lia|lia|]. rewrite E2.
    exists x2, q. split; [reflexivity|]. split; [auto|]. split; [auto|]. split; [auto|]. lia.
  Qed.
End Visit.
