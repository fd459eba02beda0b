(** Proofs for C41 and C42. *)
From Verif Require Import QBase PyBase PyBaseFacts PomdpModel PomdpSpec PomdpProofs PomdpProofs2 BeliefModel BeliefSpec.
From Coq Require Import Lia Lqa Field.
Local Open Scope nat_scope.

Lemma nth_error_firstn_lt {A} (l : list A) : forall i n, i < n -> nth_error (firstn n l) i = nth_error l i.
Proof. induction l as [|x t IH]; intros [|i] [|n] H; try lia; cbn; auto. apply IH. lia. Qed.

Section S.
  Context {X : Type}.
  Variable rand : X -> nat * X.

  Lemma fill_spec (smp : X -> res nat * X) : forall k parts x parts' r x', fill k (fun _ => smp) parts x = (parts', r, x') ->
    exists l y, calls smp x l y /\ parts' = parts ++ l /\
      match r with Ok _ => length l = k /\ y = x' | Err e => length l < k /\ smp y = (Err e, x') end.
  Proof.
    induction k as [|k IH]; intros parts x parts' r x' E; cbn [fill] in E.
    - inversion E; subst. exists [], x'. rewrite app_nil_r. split; [constructor|]. auto.
    - destruct (smp x) as [[s|e] y] eqn:Es.
      + destruct (IH _ _ _ _ _ E) as (l & z & C & -> & H). exists (s :: l), z. split; [econstructor; eauto|]. split; [rewrite <- app_assoc; reflexivity|].
        destruct r; cbn [length]; intuition lia.
      + inversion E; subst. exists [], x. rewrite app_nil_r. split; [constructor|]. split; [auto|]. cbn. split; [lia|auto].
  Qed.
  Lemma fill_self n_part : 0 < n_part -> forall k parts x, n_part <= length parts ->
    exists l x', fill k (fun parts => particle_sample rand parts n_part) parts x = (parts ++ l, Ok tt, x') /\ length l = k /\ incl l (firstn n_part parts).
  Proof.
    intros Hn. induction k as [|k IH]; intros parts x Hp; cbn [fill].
    - exists [], x. rewrite app_nil_r. split; [auto|]. split; [auto|]. intros z [].
    - unfold particle_sample at 1, choice. destruct (rand x) as [r y]. destruct n_part as [|m]; [lia|]. set (n_part := S m) in *.
      assert (Hr : r mod n_part < n_part) by (apply Nat.mod_upper_bound; lia).
      destruct (nth_error parts (r mod n_part)) as [s|] eqn:Es; [|apply nth_error_None in Es; lia].
      destruct (IH (parts ++ [s]) y) as (l & x' & E & L & I); [rewrite app_length; lia|].
      exists (s :: l), x'. rewrite E, <- app_assoc. split; [reflexivity|]. split; [cbn; lia|].
      rewrite firstn_app in I. replace (n_part - length parts) with 0 in I by lia. rewrite firstn_O, app_nil_r in I.
      intros z [<-|Hz]; [|auto]. apply (nth_error_In _ (r mod n_part)). rewrite <- Es.
      apply nth_error_firstn_lt; exact Hr.
  Qed.

  Lemma populate_spec n smp x parts r x' : populate rand n smp x = (parts, r, x') ->
    exists l y, calls smp x l y /\ incl l parts /\
      match r with
      | Ok _ => length parts = n /\
          ((l = parts /\ y = x') \/ (0 < length l < n /\ (exists y', smp y = (Err EMaxSamples, y')) /\ exists l2, parts = l ++ l2 /\ incl l2 l))
      | Err e => length l < n /\ smp y = (Err e, x') /\ (e = EMaxSamples -> l = [])
      end.
  Proof.
    unfold populate. destruct (fill n _ [] x) as [[parts1 r1] x1] eqn:E1. intros E.
    destruct (fill_spec _ _ _ _ _ _ _ E1) as (l & y & C & P & H). cbn [app] in P. subst parts1.
    destruct r1 as [[]|e].
    - inversion E; subst. exists parts, y. split; [auto|]. split; [intros z Hz; auto|]. destruct H as [H ->]. auto.
    - destruct H as [HL HE]. destruct (match e with EMaxSamples => true | _ => false end) eqn:Ee.
      + destruct e; try discriminate. destruct (Nat.ltb_spec 0 (length l)) as [Hl|Hl].
        * destruct (fill_self (length l) Hl (n - length l) l x1 (le_n _)) as (l2 & x2 & E2 & L2 & I2). rewrite E2 in E. rewrite firstn_all in I2.
          inversion E; subst. exists l, y. split; [auto|]. split; [intros z Hz; apply in_or_app; auto|]. rewrite app_length. split; [lia|]. right.
          split; [lia|]. split; eauto.
        * inversion E; subst. exists parts, y. split; [auto|]. split; [intros z Hz; auto|]. destruct parts; [|cbn in Hl; lia]. auto.
      + assert (E' : (l, Err e : res unit, x1) = (parts, r, x')) by (destruct e; try discriminate; exact E). inversion E'; subst.
        exists parts, y. split; [auto|]. split; [intros z Hz; auto|]. split; [auto|]. split; [auto|]. intros ->. discriminate.
  Qed.
  Lemma calls_In smp x l y : @calls X smp x l y -> forall s, In s l -> exists z z', smp z = (Ok s, z').
  Proof. induction 1 as [x|x s y l z E C IH]; intros t Ht; [destruct Ht|]. destruct Ht as [<-|Ht]; eauto. Qed.
End S.

Section Successor.
  Context {X : Type}.
  Variable rand : X -> nat * X.
  Variable step : Z -> nat -> X -> res (nat * Z * Q) * X.
  Variable cost : X -> nat.
  Hypothesis cost_rand : forall x r x', rand x = (r, x') -> cost x' = cost x.
  Hypothesis cost_step : forall a s x r x', step a s x = (r, x') -> cost x' = S (cost x).

  Lemma sample_cost n parts x r x' : particle_sample rand parts n x = (r, x') -> cost x' = cost x.
  Proof.
    unfold particle_sample, choice. destruct (rand x) as [k y] eqn:E. apply cost_rand in E. destruct n; [intros H; inversion H; subst; auto|].
    destruct (nth_error _ _); intros H; inversion H; subst; auto.
  Qed.
  Lemma sample_In n parts x s x' : particle_sample rand parts n x = (Ok s, x') -> In s parts.
  Proof.
    unfold particle_sample, choice. destruct (rand x) as [k y]. destruct n; [discriminate|].
    destruct (nth_error _ _) eqn:E; [|discriminate]. intros H; inversion H; subst. eapply nth_error_In; eauto.
  Qed.
  Lemma sample_ok n parts x : 0 < n <= length parts -> exists s x', particle_sample rand parts n x = (Ok s, x').
  Proof.
    intros Hn. unfold particle_sample, choice. destruct (rand x) as [k y]. destruct n; [lia|].
    destruct (nth_error parts (k mod S n)) eqn:E; [eauto|]. apply nth_error_None in E. pose proof (Nat.mod_upper_bound k (S n)). lia.
  Qed.

  Lemma call_spec n parts a o M : 0 < n <= length parts -> forall fuel m x r m' x', M - m < fuel -> m <= M ->
    successor_call rand step fuel n parts a o M m x = (r, m', x') ->
    m <= m' <= S M /\
    match r with
    | Ok s' => m' <= M /\ cost x' + m = cost x + m' /\ exists s y q y', In s parts /\ step a s y = (Ok (s', o, q), y')
    | Err e => (e = EMaxSamples /\ m' = S M /\ cost x' + m = cost x + M) \/
               (m' <= M /\ cost x' + m = cost x + m' /\ exists s y y', In s parts /\ step a s y = (Err e, y'))
    end.
  Proof.
    intros Hn. induction fuel as [|fuel IH]; intros m x r m' x' Hf Hm E; [lia|]. cbn [successor_call] in E.
    destruct (Nat.ltb_spec M (S m)).
    - inversion E; subst. assert (m = M) by lia. subst. split; [lia|]. left. auto.
    - destruct (sample_ok n parts x Hn) as (s & y & Es). rewrite Es in E. pose proof (sample_cost _ _ _ _ _ Es) as C1. pose proof (sample_In _ _ _ _ _ Es) as I1.
      destruct (step a s y) as [t z] eqn:Et. pose proof (cost_step _ _ _ _ _ Et) as C2. destruct t as [[[s' o'] q]|e].
      + destruct (Z.eqb_spec o' o) as [->|Ho].
        * inversion E; subst. split; [lia|]. split; [lia|]. split; [lia|]. eauto 7.
        * destruct (IH (S m) z r m' x') as [G1 G2]; [lia|lia|auto|]. split; [lia|]. destruct r as [s2|e2].
          -- destruct G2 as (G2 & G3 & G4). split; [auto|]. split; [lia|auto].
          -- destruct G2 as [(G2 & G3 & G4)|(G2 & G3 & G4)]; [left|right]; (split; [auto|]); split; auto; lia.
      + inversion E; subst. split; [lia|]. right. split; [lia|]. split; [lia|]. eauto 6.
  Qed.

  Definition rand2 (nx : nat * X) : nat * (nat * X) := let (r, x) := rand (snd nx) in (r, (fst nx, x)).
  Definition smp2 n parts a o (nx : nat * X) : res nat * (nat * X) :=
    let '(r, m, x) := successor_call rand step (S (100 * n)) n parts a o (100 * n) (fst nx) (snd nx) in (r, (m, x)).

  Lemma smp2_spec n parts a o m x r m' x' : 0 < n <= length parts -> m <= 100 * n -> smp2 n parts a o (m, x) = (r, (m', x')) ->
    m <= m' <= S (100 * n) /\
    match r with
    | Ok s' => m' <= 100 * n /\ cost x' + m = cost x + m' /\ exists s y q y', In s parts /\ step a s y = (Ok (s', o, q), y')
    | Err e => (e = EMaxSamples /\ m' = S (100 * n) /\ cost x' + m = cost x + 100 * n) \/
               (m' <= 100 * n /\ cost x' + m = cost x + m' /\ exists s y y', In s parts /\ step a s y = (Err e, y'))
    end.
  Proof.
    intros Hn Hm E. unfold smp2 in E. cbn [fst snd] in E.
    destruct (successor_call rand step (S (100 * n)) n parts a o (100 * n) m x) as [[r1 m1] x1] eqn:E1.
    assert (r = r1 /\ m' = m1 /\ x' = x1) as (-> & -> & ->) by (inversion E; auto).
    apply (call_spec n parts a o (100 * n) Hn _ _ _ _ _ _ (le_n_S _ _ (Nat.le_sub_l _ _)) Hm E1).
  Qed.
  Lemma smp2_calls n parts a o : 0 < n <= length parts -> forall nx l ny, calls (smp2 n parts a o) nx l ny -> fst nx <= 100 * n ->
    fst nx <= fst ny <= 100 * n /\ cost (snd ny) + fst nx = cost (snd nx) + fst ny /\
    forall s', In s' l -> exists s y q y', In s parts /\ step a s y = (Ok (s', o, q), y').
  Proof.
    intros Hn. induction 1 as [[m x]|[m x] s [m1 x1] l [m2 x2] E C IH]; intros Hm; cbn [fst snd] in *; [split; [lia|split; [lia|intros ? []]]|].
    destruct (smp2_spec _ _ _ _ _ _ _ _ _ Hn Hm E) as (G1 & G2 & G3 & G4). destruct IH as (H1 & H2 & H3); [lia|]. split; [lia|]. split; [lia|].
    intros s' [<-|Hs]; auto.
  Qed.
  Lemma fill_cost (smp : list nat -> nat * X -> res nat * (nat * X)) :
    (forall parts nx r ny, smp parts nx = (r, ny) -> cost (snd ny) = cost (snd nx)) ->
    forall k parts nx parts' r ny, fill k smp parts nx = (parts', r, ny) -> cost (snd ny) = cost (snd nx).
  Proof.
    intros H. induction k as [|k IH]; intros parts nx parts' r ny E; cbn [fill] in E; [inversion E; auto|].
    destruct (smp parts nx) as [[s|e] nz] eqn:Es; apply H in Es; [apply IH in E; congruence|inversion E; subst; auto].
  Qed.
  Lemma sample2_cost n parts nx r ny : particle_sample rand2 parts n nx = (r, ny) -> cost (snd ny) = cost (snd nx).
  Proof.
    unfold particle_sample, choice, rand2. destruct (rand (snd nx)) as [k y] eqn:E. apply cost_rand in E. destruct n; [intros H; inversion H; subst; auto|].
    destruct (nth_error _ _); intros H; inversion H; subst; auto.
  Qed.

  Theorem successor_spec n parts a o x r x' : length parts = n -> 0 < n -> successor rand step n parts a o x = (r, x') ->
    cost x' <= cost x + 100 * n /\
    match r with
    | Ok parts' => length parts' = n /\ forall s', In s' parts' -> exists s y q y', In s parts /\ step a s y = (Ok (s', o, q), y')
    | Err e => (e = EMaxSamples /\ cost x' = cost x + 100 * n) \/ exists s y y', In s parts /\ step a s y = (Err e, y')
    end.
  Proof.
    intros HL Hn0 E. assert (Hn : 0 < n <= length parts) by lia. unfold successor in E. fold rand2 in E. fold (smp2 n parts a o) in E. unfold particle_belief in E.
    destruct (populate rand2 n (smp2 n parts a o) (0, x)) as [[parts1 r1] nx1] eqn:E1.
    assert (HC : cost (snd nx1) <= cost x + 100 * n).
    { unfold populate in E1. destruct (fill n (fun _ => smp2 n parts a o) [] (0, x)) as [[l2 r2] nx2] eqn:E2.
      destruct (fill_spec rand2 _ _ _ _ _ _ _ E2) as (l & ny & C & P & H).
      assert (G := smp2_calls n parts a o Hn _ _ _ C (Nat.le_0_l _)). cbn [fst snd] in G. destruct G as (G1 & G2 & G3).
      assert (C2 : cost (snd nx2) <= cost x + 100 * n).
      { destruct r2 as [|e]; [destruct H as [_ ->]; lia|]. destruct H as [_ H]. destruct ny as [m y], nx2 as [m2 x2]. cbn [fst snd] in *.
        assert (G0 := smp2_spec n parts a o m y _ _ _ Hn ltac:(lia) H). destruct G0 as [G0 [(_ & _ & G5)|(G4 & G5 & _)]]; lia. }
      destruct r2 as [u|e]; [inversion E1; subst; exact C2|].
      destruct (match e with EMaxSamples => true | _ => false end) eqn:Ee.
      - destruct e; try discriminate. destruct (0 <? length l2); [|inversion E1; subst; exact C2].
        apply (fill_cost (fun parts => particle_sample rand2 parts (length l2))) in E1; [lia|]. intros. eapply sample2_cost; eauto.
      - assert (E' : (l2, Err e : res unit, nx2) = (parts1, r1, nx1)) by (destruct e; try discriminate; exact E1). inversion E'; subst. exact C2. }
    destruct (populate_spec rand2 n (smp2 n parts a o) (0, x) _ _ _ E1) as (l & ny & C & I & H).
    assert (G := smp2_calls n parts a o Hn _ _ _ C (Nat.le_0_l _)). cbn [fst snd] in G. destruct G as (G1 & G2 & G3).
    destruct r1 as [[]|e]; inversion E; subst r x'; (split; [exact HC|]).
    - destruct H as [H1 H2]. split; [auto|]. intros s' Hs'. apply G3. destruct H2 as [[-> _]|(_ & _ & l2 & -> & I2)]; [auto|].
      apply in_app_or in Hs'. destruct Hs'; auto.
    - destruct H as (H1 & H2 & H3). destruct ny as [m y], nx1 as [m2 x2]. cbn [fst snd] in *.
      assert (Hm : m <= 100 * n) by lia. destruct (smp2_spec _ _ _ _ _ _ _ _ _ Hn Hm H2) as [G0 [(-> & _ & G5)|(_ & G5 & G6)]]; [left|right; auto].
      split; [auto|]. rewrite (H3 eq_refl) in C. inversion C; subst. lia.
  Qed.
End Successor.

(** *** arrays *)
Lemma count_sum parts n : Forall (fun i => i < n) parts ->
  (sumQ (map (fun s => inject_Z (Z.of_nat (count_occ Nat.eq_dec parts s))) (seq 0 n)) == inject_Z (Z.of_nat (length parts)))%Q.
Proof.
  intros H. unfold sumQ. rewrite sum_map. induction H as [|i t Hi Ht IH].
  - apply sum_zero. intros; reflexivity.
  - rewrite (sum_ext _ _ (fun s => (if Nat.eq_dec i s then 1 else 0) + inject_Z (Z.of_nat (count_occ Nat.eq_dec t s)))%Q).
    2:{ intros s _. cbn [count_occ]. destruct (Nat.eq_dec i s); [rewrite Nat2Z.inj_succ, <- Z.add_1_l, inject_Z_plus; reflexivity|ring]. }
    rewrite sum_plus, IH. cbn [length]. rewrite Nat2Z.inj_succ, <- Z.add_1_l, inject_Z_plus. apply Qplus_inj_r.
    assert (G : forall a k, (sum_over (seq a k) (fun s => if Nat.eq_dec i s then 1 else 0) == if (a <=? i) && (i <? a + k) then 1 else 0)%Q).
    { intros a k. revert a. induction k as [|k IHk]; intros a; cbn [seq].
      - destruct (Nat.leb_spec a i), (Nat.ltb_spec i (a + 0)); cbn; try lia; reflexivity.
      - rewrite sum_cons, IHk. destruct (Nat.eq_dec i a); destruct (Nat.leb_spec a i), (Nat.leb_spec (S a) i), (Nat.ltb_spec i (a + S k)), (Nat.ltb_spec i (S a + k)); cbn; try lia; reflexivity. }
    rewrite G. cbn [Nat.leb plus andb]. apply Nat.ltb_lt in Hi. rewrite Hi. reflexivity.
Qed.
