(** Proofs for the POMDP of a task: entries of the tables. *)
From Coq Require Import Lia Lqa Field.
From Verif Require Import PyBase PyBaseFacts QBase PomdpModel PomdpSpec PomdpProofs HtmModel HtmSpec HtmProofs ConvModel NodeModel NodeSpec NodeProofs NodeProofs2 NodeProofs3 ConvProofs.
Local Open Scope list_scope.
Local Open Scope nat_scope.

(** *** Sparse rows *)
Definition look (l : list (nat * Q)) (j : nat) : Q := match find (fun x => fst x =? j) l with Some x => snd x | None => 0%Q end.
Lemma look_In l j q : NoDup (map fst l) -> In (j, q) l -> look l j = q.
Proof.
  intros N H. unfold look. induction l as [|[i p] l IH]; [destruct H|]. cbn. inversion N as [|x y N1 N2]; subst. destruct (Nat.eqb_spec i j) as [->|Ne].
  - destruct H as [E|H]; [cbn; congruence|]. exfalso. apply N1. apply (in_map fst) in H. auto.
  - apply IH; auto. destruct H as [E|H]; [congruence|auto].
Qed.
Lemma look_notin l j : ~ In j (map fst l) -> look l j = 0%Q.
Proof. intros H. unfold look. destruct (find (fun x => fst x =? j) l) as [[i p]|] eqn:E; [|auto]. apply find_some in E. destruct E as [E1 E2]. cbn in E2. apply Nat.eqb_eq in E2. subst i. exfalso. apply H. apply (in_map fst) in E1. auto. Qed.
Lemma look_cases l j : (exists q, In (j, q) l /\ look l j = q) \/ (~ In j (map fst l) /\ look l j = 0%Q).
Proof.
  unfold look. destruct (find (fun x => fst x =? j) l) as [[i p]|] eqn:E.
  - apply find_some in E. destruct E as [E1 E2]. cbn in E2. apply Nat.eqb_eq in E2. subst i. left. eauto.
  - right. split; [|auto]. intros H. apply in_map_iff in H. destruct H as ([i p] & <- & H). apply (find_none _ _ E) in H. cbn in H. rewrite Nat.eqb_refl in H. discriminate.
Qed.
Lemma look_nonneg l j : (forall x, In x l -> (0 <= snd x)%Q) -> (0 <= look l j)%Q.
Proof. intros H. destruct (look_cases l j) as [(q & Hq & ->)|[_ ->]]; [apply (H _ Hq)|lra]. Qed.
Lemma look_sum l n : NoDup (map fst l) -> (forall x, In x l -> fst x < n) -> (sum_n n (look l) == sum_over l snd)%Q.
Proof.
  intros N B. induction l as [|[i p] l IH].
  - unfold sum_n. rewrite (sum_zero _ _ (fun x _ => Qeq_refl 0)). reflexivity.
  - inversion N as [|x y N1 N2]; subst. rewrite sum_cons, <- IH by (auto; intros; apply B; right; auto). cbn [snd].
    transitivity (sum_n n (fun j => (if Nat.eqb i j then p else 0) + look l j))%Q.
    + apply sum_n_ext. intros j _. destruct (Nat.eqb_spec i j) as [<-|Ne]; unfold look; cbn; [rewrite Nat.eqb_refl; cbn; fold (look l i); rewrite (look_notin l i) by auto; ring|]. destruct (Nat.eqb_spec i j); [congruence|]. fold (look l j). ring.
    + unfold sum_n. rewrite sum_plus. apply Qplus_comp; [|reflexivity]. rewrite (sum_single _ _ i).
      * rewrite Nat.eqb_refl. reflexivity.
      * apply seq_NoDup.
      * apply in_seq. specialize (B (i, p) (or_introl eq_refl)). cbn in B. lia.
      * intros j _ Hj. destruct (Nat.eqb_spec i j); [congruence|reflexivity].
Qed.
Lemma look_map (f : Q -> Q) w l j : 0 < w -> In j (map (fun x : nat * Q => w * fst x) l) -> NoDup (map fst l) ->
  exists i q, j = w * i /\ In (i, q) l /\ look (map (fun x => (w * fst x, f (snd x))) l) j = f q /\ assigned (map (fun x => w * fst x) l) (map snd l) j = q.
Proof.
  intros Hw H N. apply in_map_iff in H. destruct H as ([i q] & <- & Hi). exists i, q. cbn [fst]. repeat split; auto.
  - apply look_In; [|apply in_map_iff; exists (i, q); auto]. rewrite map_map. cbn [fst]. rewrite <- (map_map fst (Nat.mul w)). apply FinFun.Injective_map_NoDup; auto. intros x y. nia.
  - unfold assigned. assert (G : forall acc, ((exists q', In (i, q') l) -> True) -> fold_left (fun acc (kv : nat * Q) => if fst kv =? w * i then snd kv else acc) (combine (map (fun x : nat * Q => w * fst x) l) (map snd l)) acc = match find (fun x => fst x =? i) l with Some x => snd x | None => acc end).
    { clear Hi. induction l as [|[i0 q0] l IH]; intros acc _; [reflexivity|]. inversion N as [|x y N1 N2]; subst. cbn [map combine fold_left find fst snd]. rewrite IH by auto. destruct (Nat.eqb_spec (w * i0) (w * i)) as [E|E].
      - assert (i0 = i) as -> by nia. rewrite Nat.eqb_refl. destruct (find (fun x => fst x =? i) l) as [[i1 q1]|] eqn:F; [|auto]. exfalso. apply find_some in F. destruct F as [F1 F2]. cbn in F2. apply Nat.eqb_eq in F2. subst i1. apply N1. apply (in_map fst) in F1. auto.
      - destruct (Nat.eqb_spec i0 i); [congruence|]. reflexivity. }
    rewrite G by auto. pose proof (look_In l i q N Hi) as L. unfold look in L. destruct (find (fun x => fst x =? i) l) as [x|] eqn:F; [auto|]. exfalso. apply (find_none _ _ F) in Hi. cbn in Hi. rewrite Nat.eqb_refl in Hi. discriminate.
Qed.
Lemma look_map_notin (f : Q -> Q) w l j : ~ In j (map (fun x : nat * Q => w * fst x) l) -> look (map (fun x => (w * fst x, f (snd x))) l) j = 0%Q.
Proof. intros H. apply look_notin. rewrite map_map. auto. Qed.
Lemma assigned_notin l v j : ~ In j l -> assigned l v j = 0%Q.
Proof.
  intros H. unfold assigned. assert (G : forall acc, fold_left (fun acc (kv : nat * Q) => if fst kv =? j then snd kv else acc) (combine l v) acc = acc).
  { revert v. induction l as [|x l IH]; intros [|y v] acc; try reflexivity. cbn. destruct (Nat.eqb_spec x j); [subst; exfalso; apply H; left; auto|]. apply IH. intros K. apply H. right. auto. }
  apply G.
Qed.
Lemma assigned_repeat l c j n : n = length l -> In j l -> assigned l (repeat c n) j = c.
Proof.
  intros -> H. unfold assigned. assert (G : forall acc, acc = c \/ In j l -> fold_left (fun acc (kv : nat * Q) => if fst kv =? j then snd kv else acc) (combine l (repeat c (length l))) acc = c); [|apply G; auto].
  clear H. induction l as [|x l IH]; intros acc [E|H]; cbn [length repeat combine fold_left fst snd]; auto; try (destruct H); apply IH; destruct (Nat.eqb_spec x j); auto. congruence.
Qed.
Lemma look_cons i p l j : look ((i, p) :: l) j = if Nat.eqb i j then p else look l j.
Proof. unfold look. cbn. destruct (Nat.eqb i j); reflexivity. Qed.

Section Tables.
  Variable exp : Q -> Q.
  Variable fl : flags.

  (** Row of state s of leaf k under action a. *)
  Definition row (p : collab) (k : nat) (next : list (nat * Q)) (ds : list Q) (a s : nat) : list (nat * Q) :=
    if s =? 3 * k then
      if a =? 4 * k + 2 then [(3 * k + 1, (1 - no_proba p)%Q); (3 * k + 2, no_proba p)]
      else if a =? 4 * k + 3 then [(3 * k + 2, 1%Q)] else [(3 * k, 1%Q)]
    else if s =? 3 * k + 1 then
      if deterministic fl then
        if a =? 4 * k + 4 then map (fun x => (3 * fst x, (1 / inject_Z (Z.of_nat (length next)))%Q)) next else [(3 * k + 1, 1%Q)]
      else let e := exp (- nth a ds 0 / t_hum p)%Q in (3 * k + 1, e) :: map (fun x => (3 * fst x, ((1 - e) * snd x)%Q)) next
    else if a =? 4 * k + 1 then (3 * k + 2, fail_proba p) :: map (fun x => (3 * fst x, ((1 - fail_proba p) * snd x)%Q)) next
    else [(3 * k + 2, 1%Q)].
  Definition mine (k s : nat) : bool := (3 * k <=? s) && (s <? 3 * k + 3).
  Lemma mine_cases k s : mine k s = true -> s = 3 * k \/ s = 3 * k + 1 \/ s = 3 * k + 2.
  Proof. unfold mine. intros H. apply andb_prop in H. destruct H as [H1 H2]. apply Nat.leb_le in H1. apply Nat.ltb_lt in H2. lia. Qed.
  Lemma mine_iff k s : mine k s = true <-> 3 * k <= s < 3 * k + 3.
  Proof. unfold mine. rewrite andb_true_iff, Nat.leb_le, Nat.ltb_lt. tauto. Qed.

  Ltac eqs := repeat match goal with |- context [Nat.eqb ?x ?y] => let E := fresh "E" in destruct (Nat.eqb_spec x y) as [E|E]; try lia; cbn [andb] end.

  Lemma leaf_T a n_a T k next ds p : attrs a = Ok p -> n_a = length ds -> good_next (k + 1) next ->
    exists T', leaf_update_T exp fl a n_a T (4 * k + 1) (3 * k) (ix 3 next) (map snd next) ds = Ok T' /\
      forall a s s', (mine k s = true -> T a s s' = 0%Q -> T' a s s' = look (row p k next ds a s) s') /\ (mine k s = false -> T' a s s' = T a s s').
  Proof.
    intros Ea El (GN & _ & _ & _ & GB). unfold leaf_update_T. rewrite (proj2 (Nat.eqb_eq _ _) El). cbn [negb]. rewrite Ea. cbn [bind]. unfold same_length, ix. rewrite !map_length, Nat.eqb_refl. cbn [bind].
    assert (NB : forall j, In j (map (fun x : nat * Q => 3 * fst x) next) -> 3 * k + 3 <= j). { intros j Hj. apply in_map_iff in Hj. destruct Hj as (x & <- & Hx). specialize (GB x Hx). lia. }
    destruct (deterministic fl) eqn:Ed; (eexists; split; [reflexivity|]); intros b s s'; (split; [intros Hm T0; apply mine_cases in Hm; unfold row; rewrite Ed|intros Hm; assert (~ (3 * k <= s < 3 * k + 3)) by (rewrite <- mine_iff; congruence); unfold put3; eqs; reflexivity]).
    - destruct Hm as [->|[->| ->]]; unfold put3.
      + rewrite Nat.eqb_refl. eqs; rewrite ?look_cons; eqs; auto.
      + eqs; rewrite ?look_cons; eqs; auto; destruct (mem s' (map (fun x : nat * Q => 3 * fst x) next)) eqn:M; cbn [andb].
        * apply mem_In in M. unfold uniform. rewrite (assigned_repeat _ _ _ _ (eq_sym (map_length _ _)) M). destruct (look_map (fun _ => (1 / inject_Z (Z.of_nat (length next)))%Q) 3 next s' ltac:(lia) M GN) as (i & q & _ & _ & L & _). rewrite L. reflexivity.
        * rewrite (look_map_notin (fun _ => (1 / inject_Z (Z.of_nat (length next)))%Q) 3) by (apply mem_not_In; auto). reflexivity.
        * apply mem_In in M. unfold uniform. rewrite (assigned_repeat _ _ _ _ (eq_sym (map_length _ _)) M). destruct (look_map (fun _ => (1 / inject_Z (Z.of_nat (length next)))%Q) 3 next s' ltac:(lia) M GN) as (i & q & _ & _ & L & _). rewrite L. reflexivity.
        * rewrite (look_map_notin (fun _ => (1 / inject_Z (Z.of_nat (length next)))%Q) 3) by (apply mem_not_In; auto). auto.
      + eqs; rewrite ?look_cons; eqs; auto; destruct (mem s' (map (fun x : nat * Q => 3 * fst x) next)) eqn:M; cbn [andb]; auto.
        * apply mem_In, NB in M. lia.
        * apply mem_In in M. destruct (look_map (fun q => ((1 - fail_proba p) * q)%Q) 3 next s' ltac:(lia) M GN) as (i & q & _ & _ & L & ->). rewrite L. reflexivity.
        * rewrite (look_map_notin (fun q => ((1 - fail_proba p) * q)%Q) 3) by (apply mem_not_In; auto). auto.
    - destruct Hm as [->|[->| ->]]; unfold put3.
      + rewrite Nat.eqb_refl. eqs; rewrite ?look_cons; eqs; auto.
      + eqs; rewrite ?look_cons; eqs; auto; destruct (mem s' (map (fun x : nat * Q => 3 * fst x) next)) eqn:M; cbn [andb]; auto;
          solve [apply mem_In, NB in M; lia
                |apply mem_In in M; destruct (look_map (fun q => ((1 - exp (- nth b ds 0 / t_hum p)) * q)%Q) 3 next s' ltac:(lia) M GN) as (i & q & _ & _ & L & ->); rewrite L; reflexivity
                |rewrite (look_map_notin (fun q => ((1 - exp (- nth b ds 0 / t_hum p)) * q)%Q) 3) by (apply mem_not_In; auto); auto].
      + eqs; rewrite ?look_cons; eqs; auto; destruct (mem s' (map (fun x : nat * Q => 3 * fst x) next)) eqn:M; cbn [andb]; auto;
          solve [apply mem_In, NB in M; lia
                |apply mem_In in M; destruct (look_map (fun q => ((1 - fail_proba p) * q)%Q) 3 next s' ltac:(lia) M GN) as (i & q & _ & _ & L & ->); rewrite L; reflexivity
                |rewrite (look_map_notin (fun q => ((1 - fail_proba p) * q)%Q) 3) by (apply mem_not_In; auto); auto].
  Qed.

  (** Observations of the actions of leaf k. *)
  Definition ovec (k : nat) (next : list (nat * Q)) (after : list nat) (a s : nat) : list Q :=
    if a =? 4 * k + 1 then if mem s (ix 3 next) then o_none else o_err
    else if a =? 4 * k + 2 then if s =? 3 * k + 2 then o_no else if s =? 3 * k + 1 then o_yes else o_none
    else if a =? 4 * k + 3 then o_none
    else if deterministic fl then if mem s (ix 3 next) then o_yes else if s =? 3 * k + 1 then o_no else o_err
    else if mem s after then o_yes else o_no.
  Definition act (k a : nat) : bool := (4 * k + 1 <=? a) && (a <? 4 * k + 5).
  Lemma act_iff k a : act k a = true <-> 4 * k + 1 <= a < 4 * k + 5.
  Proof. unfold act. rewrite andb_true_iff, Nat.leb_le, Nat.ltb_lt. tauto. Qed.
  Lemma leaf_O O k next after : structured fl = false -> forall a s o,
    (act k a = true -> leaf_update_O fl O (4 * k + 1) (3 * k) (ix 3 next) after a s o = nth o (ovec k next after a s) 0%Q) /\
    (act k a = false -> leaf_update_O fl O (4 * k + 1) (3 * k) (ix 3 next) after a s o = O a s o).
  Proof.
    intros Es a s o. unfold leaf_update_O. rewrite Es. unfold ovec. split; intros H.
    - apply act_iff in H. destruct (deterministic fl); unfold put3, vec; eqs; destruct (mem s (ix 3 next)); destruct (mem s after); reflexivity.
    - assert (~ (4 * k + 1 <= a < 4 * k + 5)) by (rewrite <- act_iff; congruence). destruct (deterministic fl); unfold put3, vec; eqs; reflexivity.
  Qed.

  (** Costs in the states of leaf k. *)
  Definition rcost (p : collab) (k : nat) (ds : list Q) (ic : Q) (a s s' : nat) : Q :=
    let b := if (a =? 4 * k + 1) && (s =? 3 * k + 2) then (t_rob p + ic)%Q else if 1 <=? a then (nth a ds 0 + ic)%Q else nth a ds 0%Q in
    match subtask_reward fl with Some r => if mine k s' then b else (b - r)%Q | None => b end.
  Lemma leaf_R a R k ds ic p : attrs a = Ok p -> structured fl = false ->
    exists R', leaf_update_R fl a R 0 (4 * k + 1) (3 * k) ds ic = Ok R' /\
      forall a s s' o, (mine k s = true -> R' a s s' o = rcost p k ds ic a s s') /\ (mine k s = false -> R' a s s' o = R a s s' o).
  Proof.
    intros Ea Es. unfold leaf_update_R. rewrite Ea, Es. cbn [bind]. unfold rcost. assert (Hlt : forall a, a <? 0 = false) by (intros; apply Nat.ltb_ge; lia).
    destruct (subtask_reward fl) as [r|]; (eexists; split; [reflexivity|]); intros b s s' o; unfold put4; rewrite ?Hlt, ?Nat.add_0_l; fold (mine k s) (mine k s'); (split; intros H; rewrite ?H; cbn [andb]).
    - pose proof (proj1 (mine_iff _ _) H) as HM. assert (K : mine k s' = negb ((s' <? 3 * k) || (3 * k + 3 <=? s'))). { unfold mine. destruct (Nat.leb_spec (3 * k) s'); destruct (Nat.ltb_spec s' (3 * k + 3)); destruct (Nat.ltb_spec s' (3 * k)); destruct (Nat.leb_spec (3 * k + 3) s'); try lia; reflexivity. }
      rewrite K. destruct (Nat.ltb_spec s' (3 * k)); destruct (Nat.leb_spec (3 * k + 3) s'); cbn [orb negb]; try lia; destruct ((b =? 4 * k + 1) && (s =? 3 * k + 2)); try reflexivity; destruct (1 <=? b); reflexivity.
    - assert (s <> 3 * k + 2) by (intros ->; assert (mine k (3 * k + 2) = true) by (apply mine_iff; lia); congruence). eqs; rewrite ?andb_false_r; reflexivity.
    - destruct ((b =? 4 * k + 1) && (s =? 3 * k + 2)); try reflexivity; destruct (1 <=? b); reflexivity.
    - assert (s <> 3 * k + 2) by (intros ->; assert (mine k (3 * k + 2) = true) by (apply mine_iff; lia); congruence). eqs; rewrite ?andb_false_r; reflexivity.
  Qed.
End Tables.

(** *** Filling block after block *)
Lemma fold_blocks {St I V L} (get : St -> I -> V) (step : St -> L -> res St) (dom : L -> I -> bool) (val : L -> I -> V) (pre : V -> Prop) (key : L -> nat) (l : list L) :
  (forall li st, In li l -> exists st', step st li = Ok st' /\ forall i, (dom li i = true -> pre (get st i) -> get st' i = val li i) /\ (dom li i = false -> get st' i = get st i)) ->
  (forall x y i, In x l -> In y l -> dom x i = true -> dom y i = true -> key x = key y) -> NoDup (map key l) ->
  forall st, (forall li i, In li l -> dom li i = true -> pre (get st i)) ->
  exists st', foldM step l st = Ok st' /\ (forall li i, In li l -> dom li i = true -> get st' i = val li i) /\ (forall i, (forall li, In li l -> dom li i = false) -> get st' i = get st i).
Proof.
  intros HS HK. induction l as [|x l IH]; intros N st HP; [exists st; cbn; repeat split; auto; intros li i []|]. inversion N as [|y z N1 N2]; subst.
  destruct (HS x st (or_introl eq_refl)) as (st1 & E1 & H1). cbn [foldM]. rewrite E1. cbn [bind].
  assert (D : forall li i, In li l -> dom li i = true -> dom x i = false).
  { intros li i Hl Hd. destruct (dom x i) eqn:Ex; [|auto]. exfalso. apply N1. rewrite (HK x li i); cbn; auto. apply in_map; auto. }
  destruct (IH ltac:(intros; apply HS; right; auto) ltac:(intros x' y' i' Hx' Hy'; apply HK; right; auto) N2 st1) as (st2 & E2 & A & B).
  { intros li i Hl Hd. rewrite (proj2 (H1 i) (D li i Hl Hd)). apply (HP li); [right|]; auto. }
  exists st2. split; [auto|]. split.
  - intros li i [<-|Hl] Hd; [|apply A; auto]. rewrite B; [apply (proj1 (H1 i)); auto; apply (HP x); [left|]; auto|]. intros li Hl. destruct (dom li i) eqn:El; [|auto]. rewrite (D li i Hl El) in Hd. discriminate.
  - intros i Hi. rewrite B by (intros; apply Hi; right; auto). apply (proj2 (H1 i)). apply Hi. left; auto.
Qed.

Section Fill.
  Variable exp : Q -> Q.
  Variable fl : flags.
  Variable t : n2p collab.
  Hypothesis Pt : proper t.
  Hypothesis At : Forall (fun a => exists p, attrs a = Ok p) (leaves t).
  Let L := n_leaves t.
  Let fls := flat t 0 [(L, 1%Q)] [].

  Lemma final_good : good_next (0 + n_leaves t) [(L, 1%Q)].
  Proof. split; [apply NoDup_cons; [intros []|apply NoDup_nil]|]. split; [discriminate|]. split; [intros x [<-|[]]; reflexivity|]. split; [reflexivity|]. intros x [<-|[]]. cbn. unfold L. lia. Qed.
  Lemma fls_attrs li : In li fls -> exists p, attrs (li_a li) = Ok p.
  Proof. intros H. rewrite Forall_forall in At. apply At. rewrite <- (flat_a t 0 [(L, 1%Q)] []). apply in_map. auto. Qed.
  Lemma fls_nodup : NoDup (map li_k fls).
  Proof. unfold fls. rewrite flat_k. apply seq_NoDup. Qed.
  Definition par (li : linfo (P := collab)) : collab := match attrs (li_a li) with Ok p => p | Err _ => {| t_hum := 0; t_rob := 0; t_err := 0; no_proba := 0; fail_proba := 0 |} end.

  Lemma fill_T n_a ds : n_a = length ds -> exists T, update_T exp fl t n_a (fun _ _ _ => 0%Q) 1 0 [3 * L] [1%Q] ds = Ok T /\
    (forall li a s s', In li fls -> mine (li_k li) s = true -> T a s s' = look (row exp fl (par li) (li_k li) (li_next li) ds a s) s') /\
    (forall a s s', (3 * L <= s) -> T a s s' = 0%Q).
  Proof.
    intros Hn. assert (E := update_T_flat exp fl n_a ds t Pt 0 [(L, 1%Q)] [] (fun _ _ _ => 0%Q)). unfold ix in E. cbn [map fst snd] in E. change (4 * 0 + 1) with 1 in E. change (3 * 0) with 0 in E. rewrite E. clear E. fold fls.
    destruct (fold_blocks (fun (T : tensor) (i : nat * nat * nat) => T (fst (fst i)) (snd (fst i)) (snd i)) (stepT exp fl n_a ds) (fun li i => mine (li_k li) (snd (fst i))) (fun li i => look (row exp fl (par li) (li_k li) (li_next li) ds (fst (fst i)) (snd (fst i))) (snd i)) (fun v => v = 0%Q) li_k fls) with (st := fun (_ _ _ : nat) => 0%Q) as (T & ET & A & B).
    - intros li T Hl. destruct (fls_attrs li Hl) as [p Hp]. destruct (leaf_T exp fl (li_a li) n_a T (li_k li) (li_next li) ds p Hp Hn) as (T' & E' & H').
      + apply (flat_good t 0 [(L, 1%Q)] [] li Pt final_good Hl).
      + exists T'. split; [exact E'|]. intros [[a s] s']. cbn [fst snd]. unfold par. rewrite Hp. apply H'.
    - intros x y [[a s] s'] _ _. cbn [fst snd]. rewrite !mine_iff. lia.
    - apply fls_nodup.
    - auto.
    - exists T. split; [exact ET|]. split.
      + intros li a s s' Hl Hm. apply (A li (a, s, s') Hl Hm).
      + intros a s s' Hs. apply (B (a, s, s')). intros li Hl. cbn [fst snd]. apply flat_range in Hl. destruct (mine (li_k li) s) eqn:M; [|auto]. apply mine_iff in M. unfold L in Hs. lia.
  Qed.
  Lemma fill_O : structured fl = false -> exists O, update_O fl t (fun _ _ _ => 0%Q) 1 0 [3 * L] [3 * L] = Ok O /\
    (forall li a s o, In li fls -> act (li_k li) a = true -> O a s o = nth o (ovec fl (li_k li) (li_next li) (3 * L :: flat_map blk (li_after li)) a s) 0%Q).
  Proof.
    intros Hs. assert (E := update_O_flat fl [3 * L] t Pt 0 [(L, 1%Q)] [] (fun _ _ _ => 0%Q)). unfold ix in E. cbn [map fst snd flat_map app] in E. change (4 * 0 + 1) with 1 in E. change (3 * 0) with 0 in E. rewrite E. clear E. fold fls.
    destruct (fold_blocks (fun (T : tensor) (i : nat * nat * nat) => T (fst (fst i)) (snd (fst i)) (snd i)) (stepO fl [3 * L]) (fun li i => act (li_k li) (fst (fst i))) (fun li i => nth (snd i) (ovec fl (li_k li) (li_next li) (3 * L :: flat_map blk (li_after li)) (fst (fst i)) (snd (fst i))) 0%Q) (fun v => True) li_k fls) with (st := fun (_ _ _ : nat) => 0%Q) as (T & ET & A & B).
    - intros li T Hl. eexists. split; [reflexivity|]. intros [[a s] o]. cbn [fst snd app]. destruct (leaf_O fl T (li_k li) (li_next li) (3 * L :: flat_map blk (li_after li)) Hs a s o) as [H1 H2]. auto.
    - intros x y [[a s] s'] _ _. cbn [fst snd]. rewrite !act_iff. lia.
    - apply fls_nodup.
    - auto.
    - exists T. split; [exact ET|]. intros li a s o Hl Hm. apply (A li (a, s, o) Hl Hm).
  Qed.
  Lemma fill_O_some : exists O, update_O fl t (fun _ _ _ => 0%Q) 1 0 [3 * L] [3 * L] = Ok O.
  Proof.
    assert (E := update_O_flat fl [3 * L] t Pt 0 [(L, 1%Q)] [] (fun _ _ _ => 0%Q)). unfold ix in E. cbn [map fst snd flat_map app] in E. change (4 * 0 + 1) with 1 in E. change (3 * 0) with 0 in E. rewrite E. clear E. fold fls. generalize (fun (_ _ _ : nat) => 0%Q) as O0. induction fls as [|li l IH]; intros O0; [eexists; reflexivity|]. cbn [foldM]. unfold stepO at 1. cbn [bind]. apply IH.
  Qed.
  Lemma fill_R ds ic : structured fl = false -> exists R, update_R fl t (fun _ _ _ _ => 0%Q) 0 1 0 ds ic = Ok R /\
    (forall li a s s' o, In li fls -> mine (li_k li) s = true -> R a s s' o = rcost fl (par li) (li_k li) ds ic a s s').
  Proof.
    intros Hs. assert (E := update_R_flat fl ds ic t 0 [(L, 1%Q)] [] (fun _ _ _ _ => 0%Q)). change (4 * 0 + 1) with 1 in E. change (3 * 0) with 0 in E. rewrite E. clear E. fold fls.
    destruct (fold_blocks (fun (T : tensor4) (i : nat * nat * nat * nat) => T (fst (fst (fst i))) (snd (fst (fst i))) (snd (fst i)) (snd i)) (stepR fl ds ic) (fun li i => mine (li_k li) (snd (fst (fst i)))) (fun li i => rcost fl (par li) (li_k li) ds ic (fst (fst (fst i))) (snd (fst (fst i))) (snd (fst i))) (fun v => True) li_k fls) with (st := fun (_ _ _ _ : nat) => 0%Q) as (T & ET & A & B).
    - intros li T Hl. destruct (fls_attrs li Hl) as [p Hp]. destruct (leaf_R fl (li_a li) T (li_k li) ds ic p Hp Hs) as (T' & E' & H').
      exists T'. split; [exact E'|]. intros [[[a s] s'] o]. cbn [fst snd]. unfold par. rewrite Hp. destruct (H' a s s' o). auto.
    - intros x y [[[a s] s'] o] _ _. cbn [fst snd]. rewrite !mine_iff. lia.
    - apply fls_nodup.
    - auto.
    - exists T. split; [exact ET|]. intros li a s s' o Hl Hm. apply (A li (a, s, s', o) Hl Hm).
  Qed.
  (** With structured, costs raise AttributeError as soon as there is a leaf. *)
  Lemma fill_R_structured ds ic : structured fl = true -> update_R fl t (fun _ _ _ _ => 0%Q) 0 1 0 ds ic = Err EAttr.
  Proof.
    intros Hs. assert (E := update_R_flat fl ds ic t 0 [(L, 1%Q)] [] (fun _ _ _ _ => 0%Q)). change (4 * 0 + 1) with 1 in E. change (3 * 0) with 0 in E. rewrite E. clear E. fold fls. assert (N : fls <> []).
    { pose proof (inits_ne t Pt). destruct (inits t) as [|x r] eqn:Ei; [congruence|]. assert (Hx : fst x < n_leaves t) by (apply inits_bound; rewrite Ei; left; auto). intros F. pose proof (flat_k t 0 [(L, 1%Q)] []) as K. fold fls in K. rewrite F in K. destruct (n_leaves t); [lia|discriminate]. }
    destruct fls as [|li l] eqn:F; [congruence|]. cbn [foldM]. unfold stepR at 1, leaf_update_R. destruct (fls_attrs li) as [p ->]; [rewrite F; left; auto|]. cbn [bind]. rewrite Hs. reflexivity.
  Qed.
End Fill.
