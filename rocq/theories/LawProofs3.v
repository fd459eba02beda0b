(** Particle beliefs: expected values over independent draws. *)
From Verif Require Import QBase PyBase PyBaseFacts PomdpModel PomdpSpec PomdpProofs PomdpProofs2 BeliefModel BeliefSpec BeliefProofs Props_Pomdp Props_Belief LawSpec LawProofs LawProofs2.
From Coq Require Import Lia Lqa Field.
Local Open Scope list_scope.
Local Open Scope nat_scope.

Section Rejection.
  Context {W : Type}.
  Variables (sp : space W) (idx : W -> nat) (out : Z -> nat -> W -> res (nat * Z * Q)) (ns n : nat) (parts : list nat) (a o : Z).
  Hypothesis Sp : is_space sp.
  Hypothesis Fi : fair sp idx n.
  Hypothesis Hn : 0 < n.
  Hypothesis Hp : length parts = n.
  Hypothesis Ho : forall q w s, In (q, w) sp -> In s parts -> exists s2 o2 r, out a s w = Ok (s2, o2, r) /\ s2 < ns.
  Notation M N f := (mean (tapes sp N) f).
  Notation Qn k := (inject_Z (Z.of_nat k)).
  Definition L (s s2 : nat) : Q := prob sp (fun w => goes s2 o (out a s w)).
  Definition J (s2 : nat) : Q := (sum_over parts (fun s => L s s2) / Qn n)%Q.
  Definition alpha : Q := sum_n ns J.
  Notation rand := (next_index idx).
  Notation step := (next_step out).
  Notation max := (100 * n).
  Notation call := (fun fuel cnt x => successor_call rand step fuel n parts a o max cnt x).

  Lemma J_nonneg s2 : (0 <= J s2)%Q.
  Proof. unfold J. apply Qle_shift_div_l; [apply inject_pos; auto|]. rewrite Qmult_0_l. apply sum_nonneg. intros s _. apply prob_bounds; auto. Qed.
  Lemma alpha_nonneg : (0 <= alpha)%Q.
  Proof. apply sum_n_nonneg. intros. apply J_nonneg. Qed.

  Lemma sum_goes r s2 (A : nat -> Q) : s2 < ns -> forall o2, (sum_n ns (fun s => (if goes s o (Ok (s2, o2, r) : res (nat * Z * Q)) then 1 else 0) * A s) == if Z.eqb o2 o then A s2 else 0)%Q.
  Proof.
    intros Hs o2. unfold goes. destruct (Z.eqb o2 o).
    - unfold sum_n. rewrite (sum_single _ _ s2).
      + rewrite Nat.eqb_refl. cbn. ring.
      + apply seq_NoDup.
      + apply in_seq. lia.
      + intros y _ Ny. destruct (Nat.eqb_spec s2 y); [congruence|]. cbn. ring.
    - apply sum_zero. intros y _. rewrite Bool.andb_false_r. ring.
  Qed.

  (** One attempt *)
  Lemma attempt K cnt fuel N : cnt < max ->
    (M (S (S N)) (fun x => K (call (S fuel) cnt x)) ==
     sum_n ns (fun s2 => J s2 * M N (fun x => K (Ok s2, S cnt, x))) + (1 - alpha) * M N (fun x => K (call fuel (S cnt) x)))%Q.
  Proof.
    intros Hc. set (A := fun s2 => M N (fun x => K (Ok s2, S cnt, x))). set (B := M N (fun x => K (call fuel (S cnt) x))).
    set (G := fun s => mean sp (fun w => M N (fun t => K (match out a s w with
      | Err e => (Err e, S cnt, t)
      | Ok (s', o', _) => if Z.eqb o' o then (Ok s', S cnt, t) else call fuel (S cnt) t
      end)))).
    transitivity (mean sp (fun w1 => G (nth (idx w1 mod length parts) parts 0))).
    { rewrite mean_tapes. apply mean_ext. intros q1 w1 _. rewrite mean_tapes. unfold G. apply mean_ext. intros q2 w2 _. apply mean_ext. intros q t _.
      cbn [successor_call]. destruct (Nat.ltb_spec max (S cnt)) as [X|X]; [lia|]. unfold particle_sample, choice. cbn [next_index]. destruct n as [|m] eqn:En; [lia|]. rewrite <- En in *. rewrite Hp.
      rewrite (nth_error_nth' parts 0) by (rewrite Hp; apply Nat.mod_upper_bound; lia). cbn [next_step]. destruct (out a (nth (idx w1 mod n) parts 0) w2) as [[[s' o'] r]|e]; [|reflexivity].
      destruct (Z.eqb o' o); reflexivity. }
    rewrite (mean_fair sp idx n parts G Sp Fi) by lia. rewrite Hp.
    assert (EG : forall s, In s parts -> (G s == sum_n ns (fun s2 => L s s2 * A s2) + (1 - sum_n ns (fun s2 => L s s2)) * B)%Q).
    { intros s Hs. unfold G.
      transitivity (mean sp (fun w => sum_n ns (fun s2 => (if goes s2 o (out a s w) then 1 else 0) * A s2) + (1 - sum_n ns (fun s2 => (if goes s2 o (out a s w) then 1 else 0))) * B))%Q.
      - apply mean_ext. intros q w Hq. destruct (Ho q w s Hq Hs) as (s2 & o2 & r & E & Ls). rewrite E. rewrite sum_goes by auto.
        pose proof (sum_goes r s2 (fun _ => 1%Q) Ls o2) as S1. assert (S2 : (sum_n ns (fun s0 => if goes s0 o (Ok (s2, o2, r) : res (nat * Z * Q)) then 1 else 0) == if Z.eqb o2 o then 1 else 0)%Q).
        { rewrite <- S1. apply sum_n_ext. intros i _. ring. }
        rewrite S2. destruct (Z.eqb o2 o); fold (A s2) B; ring.
      - rewrite mean_plus, mean_scale_r, mean_minus, mean_const by auto. unfold sum_n. rewrite !mean_sum. apply Qplus_comp; [|apply Qmult_comp; [|reflexivity]].
        + apply sum_ext. intros s2 _. rewrite mean_scale_r. reflexivity.
        + reflexivity. }
    rewrite (sum_ext parts G _ EG). rewrite sum_plus, sum_scale_r, sum_minus, sum_const, Hp. unfold sum_n. rewrite !(sum_swap parts).
    pose proof (inject_pos n Hn) as P.
    assert (E1 : (sum_over (seq 0 ns) (fun y => sum_over parts (fun x => L x y * A y)) / Qn n == sum_over (seq 0 ns) (fun s2 => J s2 * A s2))%Q).
    { rewrite <- sum_div. apply sum_ext. intros y _. rewrite sum_scale_r. unfold J. field. lra. }
    assert (E2 : (sum_over (seq 0 ns) (fun y => sum_over parts (fun x => L x y)) / Qn n == alpha)%Q).
    { unfold alpha, sum_n. rewrite <- sum_div. reflexivity. }
    assert (E0 : (sum_n ns (fun s2 => J s2 * A s2) + (1 - alpha) * B == sum_over (seq 0 ns) (fun y => sum_over parts (fun x => L x y * A y)) / Qn n + (1 - sum_over (seq 0 ns) (fun y => sum_over parts (fun x => L x y)) / Qn n) * B)%Q) by (rewrite E1, E2; reflexivity).
    change (sum_over (seq 0 ns) (fun s2 => J s2 * M N (fun x => K (Ok s2, S cnt, x)))%Q) with (sum_n ns (fun s2 => J s2 * A s2)%Q). rewrite E0. field. lra.
  Qed.
  Lemma attempt_none K cnt fuel N : max <= cnt -> (M N (fun x => K (call (S fuel) cnt x)) == M N (fun x => K (Err EMaxSamples, S cnt, x)))%Q.
  Proof. intros Hc. apply mean_ext. intros q t _. cbn [successor_call]. destruct (Nat.ltb_spec max (S cnt)); [reflexivity|lia]. Qed.

  (** The second pass *)
  Definition rand2 (nx : nat * list W) := let (r, x) := rand (snd nx) in (r, (fst nx, x)).
  Definition cnt_of (s : nat) (l : list nat) : Q := Qn (count_occ Nat.eq_dec l s).
  Definition result_of (s : nat) (r : list nat * res unit * (nat * list W)) : Q := match r with (l, Ok _, _) => cnt_of s l | (_, Err _, _) => 0 end.
  Definition failure_of (r : list nat * res unit * (nat * list W)) : Q := match r with (_, Ok _, _) => 0 | (_, Err _, _) => 1 end.

  Lemma cnt_app s l l' : (cnt_of s (l ++ l') == cnt_of s l + cnt_of s l')%Q.
  Proof. unfold cnt_of. rewrite count_occ_app, Nat2Z.inj_add, inject_Z_plus. reflexivity. Qed.
  Lemma cnt_one s x : (cnt_of s [x] == if Nat.eqb x s then 1 else 0)%Q.
  Proof. unfold cnt_of. cbn. destruct (Nat.eq_dec x s), (Nat.eqb_spec x s); try congruence; reflexivity. Qed.
  Lemma cnt_sum s l : (cnt_of s l == sum_over l (fun x => if Nat.eqb x s then 1 else 0))%Q.
  Proof. induction l as [|x t IH]; [reflexivity|]. rewrite sum_cons, <- IH, <- cnt_one, <- cnt_app. reflexivity. Qed.

  Lemma sample_tape l j cnt w t : 0 < j <= length l -> particle_sample rand2 l j (cnt, w :: t) = (Ok (nth (idx w mod j) l 0), (cnt, t)).
  Proof.
    intros H. unfold particle_sample, choice, rand2. cbn [snd next_index fst]. destruct j as [|j]; [lia|].
    rewrite (nth_error_nth' l 0) by (pose proof (Nat.mod_upper_bound (idx w) (S j)); lia). reflexivity.
  Qed.
  Lemma refill s found : forall k rest cnt N, found <> [] -> length found <= n -> k <= N ->
    (M N (fun x => result_of s (fill k (fun l => particle_sample rand2 l (length found)) (found ++ rest) (cnt, x))) ==
     cnt_of s (found ++ rest) + Qn k * (cnt_of s found / Qn (length found)))%Q.
  Proof.
    induction k as [|k IH]; intros rest cnt N Hf Hl Hk.
    - cbn [fill result_of]. rewrite mean_const by (apply tapes_space; auto). change (Qn 0) with 0%Q. ring.
    - destruct N as [|N]; [lia|]. rewrite mean_tapes.
      assert (Lf : 0 < length found) by (destruct found; [congruence|cbn; lia]).
      set (g := fun y => (cnt_of s (found ++ rest) + (if Nat.eqb y s then 1 else 0) + Qn k * (cnt_of s found / Qn (length found)))%Q).
      transitivity (mean sp (fun w => g (nth (idx w mod length found) found 0))).
      { apply mean_ext. intros q w _. unfold g. set (y := nth (idx w mod length found) found 0). rewrite <- cnt_one, <- cnt_app, <- app_assoc.
        rewrite <- (IH (rest ++ [y]) cnt N) by (auto; lia). apply mean_ext. intros q' t _. cbn [fill]. rewrite sample_tape by (rewrite app_length; lia).
        rewrite app_nth1 by (apply Nat.mod_upper_bound; lia). fold y. rewrite <- app_assoc. reflexivity. }
      rewrite (mean_fair sp idx n found g Sp Fi) by lia. unfold g. rewrite !sum_plus, <- cnt_sum, !sum_const. rewrite Nat2Z.inj_succ, <- Z.add_1_r, inject_Z_plus.
      pose proof (inject_pos _ Lf). change (inject_Z 1) with 1%Q. field. lra.
  Qed.
  Lemma refill_ok found : forall k rest cnt N, found <> [] -> length found <= n -> k <= N ->
    (M N (fun x => failure_of (fill k (fun l => particle_sample rand2 l (length found)) (found ++ rest) (cnt, x))) == 0)%Q.
  Proof.
    induction k as [|k IH]; intros rest cnt N Hf Hl Hk.
    - cbn [fill failure_of]. apply mean_const, tapes_space; auto.
    - destruct N as [|N]; [lia|]. rewrite mean_tapes.
      assert (Lf : 0 < length found) by (destruct found; [congruence|cbn; lia]).
      rewrite <- (mean_const sp 0 Sp). apply mean_ext. intros q w _. set (y := nth (idx w mod length found) found 0).
      rewrite <- (IH (rest ++ [y]) cnt N) by (auto; lia). apply mean_ext. intros q' t _. cbn [fill]. rewrite sample_tape by (rewrite app_length; lia).
      rewrite app_nth1 by (apply Nat.mod_upper_bound; lia). fold y. rewrite <- app_assoc. reflexivity.
  Qed.

  (** Both passes, from k particles still to draw *)
  Definition smp (nx : nat * list W) := let '(r, m, x) := call (S max) (fst nx) (snd nx) in (r, (m, x)).
  Definition after (r : list nat * res unit * (nat * list W)) : list nat * res unit * (nat * list W) :=
    let '(l, r, x) := r in
    match r with
    | Err EMaxSamples => if 0 <? length l then fill (n - length l) (fun p => particle_sample rand2 p (length l)) l x else (l, Err EMaxSamples, x)
    | _ => (l, r, x)
    end.
  Definition pass (k : nat) (found : list nat) (nx : nat * list W) := after (fill k (fun _ => smp) found nx).
  (** the same, inside a call *)
  Definition cont (k : nat) (found : list nat) (c : res nat * nat * list W) : list nat * res unit * (nat * list W) :=
    let '(r, m, x) := c in match r with Ok s => pass k (found ++ [s]) (m, x) | Err e => after (found, Err e, (m, x)) end.
  Lemma pass_S k found cnt x : pass (S k) found (cnt, x) = cont k found (call (S max) cnt x).
  Proof. unfold pass, cont. cbn [fill]. unfold smp at 1. cbn [fst snd]. destruct (successor_call _ _ _ _ _ _ _ _ _ _) as [[r m] y]. destruct r; reflexivity. Qed.

  Lemma cont_failure : forall m k found cnt fuel N, cnt + m = max -> m < fuel -> 2 * m + n <= N -> length found + S k = n ->
    (M N (fun x => failure_of (cont k found (call fuel cnt x))) == match found with [] => pow (1 - alpha) m | _ => 0 end)%Q.
  Proof.
    induction m as [|m IH]; intros k found cnt fuel N Hc Hf HN Hk; (destruct fuel as [|fuel]; [lia|]).
    - rewrite (attempt_none (fun c => failure_of (cont k found c))) by lia. unfold cont, after. destruct found as [|x t] eqn:Ef.
      + cbn [length Nat.ltb Nat.leb failure_of]. rewrite mean_const by (apply tapes_space; auto). reflexivity.
      + rewrite <- Ef in *. assert (Hne : found <> []) by (rewrite Ef; discriminate). assert (Lf : 0 < length found) by (rewrite Ef; cbn; lia).
        destruct (Nat.ltb_spec 0 (length found)) as [_|X]; [|lia].
        transitivity (M N (fun x0 => failure_of (fill (n - length found) (fun p => particle_sample rand2 p (length found)) (found ++ []) (S cnt, x0)))); [rewrite app_nil_r; reflexivity|].
        apply refill_ok; auto; lia.
    - replace N with (S (S (N - 2))) by lia. rewrite (attempt (fun c => failure_of (cont k found c))) by lia. rewrite (IH k found (S cnt) fuel (N - 2)) by lia.
      assert (EA : forall s2, (M (N - 2) (fun x => failure_of (cont k found (Ok s2, S cnt, x))) == 0)%Q).
      { intros s2. unfold cont. destruct k as [|k].
        - unfold pass. cbn [fill after failure_of]. apply mean_const, tapes_space; auto.
        - transitivity (M (N - 2) (fun x => failure_of (cont k (found ++ [s2]) (call (S max) (S cnt) x)))); [apply mean_ext; intros q x _; rewrite pass_S; reflexivity|].
          rewrite (IH k (found ++ [s2]) (S cnt) (S max) (N - 2)) by (rewrite ?app_length; cbn [length]; lia). destruct found; reflexivity. }
      rewrite (sum_n_ext ns _ (fun s2 => 0)%Q) by (intros i _; rewrite EA; ring). unfold sum_n. rewrite sum_zero by reflexivity.
      destruct found; cbn [pow]; ring.
  Qed.
  (** The weight of the particles found so far *)
  Fixpoint weight (m k l : nat) : Q :=
    match k with
    | O => 1
    | S k => match m with
             | O => Qn n / Qn l
             | S m => alpha * weight m k (S l) + (1 - alpha) * weight m (S k) l
             end
    end%Q.
  Variable s : nat.
  Hypothesis Hs : s < ns.
  Definition post : Q := (J s / alpha)%Q.
  Lemma post_J : (alpha * post == J s)%Q.
  Proof.
    unfold post. destruct (Qeq_dec alpha 0) as [E|E]; [|field; auto]. rewrite E, Qmult_0_l. symmetry.
    apply (sum_n_zero_inv ns J); auto. intros. apply J_nonneg.
  Qed.
  Definition value (m k : nat) (found : list nat) : Q :=
    match found with
    | [] => Qn n * (1 - pow (1 - alpha) m) * post
    | _ => weight m k (length found) * cnt_of s found + (Qn n - weight m k (length found) * Qn (length found)) * post
    end%Q.
  Lemma value_cons m k found : found <> [] -> value m k found = (weight m k (length found) * cnt_of s found + (Qn n - weight m k (length found) * Qn (length found)) * post)%Q.
  Proof. destruct found; [congruence|reflexivity]. Qed.
  Lemma cont_value : forall m k found cnt fuel N, cnt + m = max -> m < fuel -> 2 * m + n <= N -> length found + S k = n ->
    (M N (fun x => result_of s (cont k found (call fuel cnt x))) == value m (S k) found)%Q.
  Proof.
    induction m as [|m IH]; intros k found cnt fuel N Hc Hf HN Hk; (destruct fuel as [|fuel]; [lia|]).
    - rewrite (attempt_none (fun c => result_of s (cont k found c))) by lia. unfold cont, after. destruct found as [|x t] eqn:Ef.
      + cbn [length Nat.ltb Nat.leb result_of value]. rewrite mean_const by (apply tapes_space; auto). cbn. ring.
      + rewrite <- Ef in *. assert (Hne : found <> []) by (rewrite Ef; discriminate). assert (Lf : 0 < length found) by (rewrite Ef; cbn; lia).
        destruct (Nat.ltb_spec 0 (length found)) as [_|X]; [|lia]. rewrite value_cons by auto.
        transitivity (M N (fun x0 => result_of s (fill (n - length found) (fun p => particle_sample rand2 p (length found)) (found ++ []) (S cnt, x0)))); [rewrite app_nil_r; reflexivity|].
        rewrite refill by (auto; lia). rewrite app_nil_r. replace (n - length found) with (S k) by lia. cbn [weight]. assert (En : (Qn n == Qn (length found) + Qn (S k))%Q) by (rewrite <- inject_Z_plus, <- Nat2Z.inj_add, Hk; reflexivity).
        rewrite En. pose proof (inject_pos _ Lf). field. lra.
    - replace N with (S (S (N - 2))) by lia. rewrite (attempt (fun c => result_of s (cont k found c))) by lia. rewrite (IH k found (S cnt) fuel (N - 2)) by lia.
      assert (EA : forall s2, (M (N - 2) (fun x => result_of s (cont k found (Ok s2, S cnt, x))) == value m k (found ++ [s2]))%Q).
      { intros s2. unfold cont. destruct k as [|k].
        - unfold pass. cbn [fill after result_of]. rewrite mean_const by (apply tapes_space; auto). rewrite value_cons by (intros X; apply app_eq_nil in X; destruct X; discriminate).
          rewrite app_length. cbn [length]. rewrite Hk. destruct m; cbn [weight]; ring.
        - rewrite <- (IH k (found ++ [s2]) (S cnt) (S max) (N - 2)) by (rewrite ?app_length; cbn [length]; lia). apply mean_ext. intros q x _. rewrite pass_S. reflexivity. }
      rewrite (sum_n_ext ns _ (fun s2 => J s2 * value m k (found ++ [s2]))%Q) by (intros i _; rewrite EA; reflexivity).
      set (A := weight m k (S (length found))).
      rewrite (sum_n_ext ns _ (fun s2 => J s2 * (A * cnt_of s found + (Qn n - A * Qn (S (length found))) * post) + (J s2 * (if Nat.eqb s2 s then 1 else 0)) * A)%Q).
      2:{ intros i _. rewrite value_cons by (intros X; apply app_eq_nil in X; destruct X; discriminate). rewrite app_length. cbn [length]. rewrite Nat.add_1_r. fold A. rewrite cnt_app, cnt_one. ring. }
      unfold sum_n. rewrite sum_plus, !sum_scale_r. fold (sum_n ns J). fold alpha.
      assert (E0 : (sum_over (seq 0 ns) (fun x => J x * (if Nat.eqb x s then 1 else 0)) == J s)%Q).
      { rewrite (sum_single _ _ s).
        - rewrite Nat.eqb_refl. ring.
        - apply seq_NoDup.
        - apply in_seq. lia.
        - intros y _ Ny. destruct (Nat.eqb_spec y s); [congruence|ring]. }
      rewrite E0, <- post_J.
      assert (E1 : (Qn (S (length found)) == Qn (length found) + 1)%Q) by (rewrite Nat2Z.inj_succ, <- Z.add_1_r, inject_Z_plus; reflexivity). rewrite E1.
      assert (Cs : found = [] \/ found <> []) by (destruct found; [left; reflexivity|right; discriminate]). destruct Cs as [Ef|Hne].
      + subst found. cbn [value length pow]. change (Qn 0) with 0%Q. change (cnt_of s []) with 0%Q. ring.
      + rewrite !value_cons by auto. cbn [weight]. fold A. ring.
  Qed.
End Rejection.

Section Successor.
  Context {W : Type}.
  Variables (sp : space W) (idx : W -> nat) (out : Z -> nat -> W -> res (nat * Z * Q)) (ns : nat) (parts : list nat) (a o : Z) (N : nat).
  Hypothesis Sp : is_space sp.
  Hypothesis Fi : fair sp idx (length parts).
  Hypothesis Hne : parts <> [].
  Hypothesis Si : simulates sp out ns parts a.
  Hypothesis HN : 201 * length parts <= N.
  Notation n := (length parts).
  Notation alpha := (chance_obs sp out ns parts a o).
  Notation outcome x := (fst (successor (next_index idx) (next_step out) n parts a o x)).

  Lemma successor_pass x : outcome x = match pass idx out n parts a o n [] (0, x) with (l, Ok _, _) => Ok l | (_, Err e, _) => Err e end.
  Proof.
    unfold successor, particle_belief, pass. change (populate _ n _ (0, x)) with (after idx n (fill n (fun _ => smp idx out n parts a o) [] (0, x))).
    destruct (after idx n (fill n (fun _ => smp idx out n parts a o) [] (0, x))) as [[l [[]|e]] y]; reflexivity.
  Qed.
  Lemma n_S : exists k, n = S k /\ 0 < n.
  Proof. destruct parts as [|x t]; [congruence|]. exists (length t). cbn. lia. Qed.
  Lemma successor_length x l : outcome x = Ok l -> length l = n.
  Proof.
    intros E. unfold successor in E. match type of E with fst (let (_, _) := ?t in _) = _ => destruct t as [r nx] eqn:Eb end. cbn [fst] in E. subst r.
    exact (proj1 (C41_full _ _ _ _ _ _ _ Eb)).
  Qed.
  Lemma successor_mean s : s < ns -> (mean (tapes sp N) (fun x => match outcome x with Ok l => frequency l s | Err _ => 0 end) * alpha ==
    chance sp out parts a o s * (1 - pow (1 - alpha) (100 * n)))%Q.
  Proof.
    intros Hs. destruct n_S as (k & Ek & P). pose proof (inject_pos n P) as HP.
    assert (E1 : (mean (tapes sp N) (fun x => result_of s (cont idx out n parts a o k [] (successor_call (next_index idx) (next_step out) (S (100 * n)) n parts a o (100 * n) 0 x))) ==
      value sp out ns n parts a o s (100 * n) (S k) [])%Q).
    { apply (cont_value sp idx out ns n parts a o Sp Fi P eq_refl Si s Hs); cbn [length]; lia. }
    assert (E2 : (mean (tapes sp N) (fun x => match outcome x with Ok l => frequency l s | Err _ => 0 end) ==
      mean (tapes sp N) (fun x => result_of s (cont idx out n parts a o k [] (successor_call (next_index idx) (next_step out) (S (100 * n)) n parts a o (100 * n) 0 x)) / inject_Z (Z.of_nat n)))%Q).
    { apply mean_ext. intros q x _. rewrite <- pass_S, <- Ek. pose proof (successor_length x) as HL. rewrite successor_pass in *.
      destruct (pass idx out n parts a o n [] (0, x)) as [[l [[]|e]] y]; cbn [result_of].
      - unfold frequency. rewrite (HL l eq_refl). reflexivity.
      - unfold Qdiv. ring. }
    rewrite E2. unfold Qdiv. rewrite mean_scale_r, E1. cbn [value]. pose proof (post_J sp out ns n parts a o Sp P s Hs) as PJ.
    change (LawProofs3.alpha sp out ns n parts a o) with alpha in *. change (J sp out n parts a o s) with (chance sp out parts a o s) in PJ. rewrite <- PJ. field. lra.
  Qed.
  Lemma successor_fails : (prob (tapes sp N) (fun x => match outcome x with Ok _ => false | Err _ => true end) == pow (1 - alpha) (100 * n))%Q.
  Proof.
    destruct n_S as (k & Ek & P).
    transitivity (mean (tapes sp N) (fun x => failure_of (cont idx out n parts a o k [] (successor_call (next_index idx) (next_step out) (S (100 * n)) n parts a o (100 * n) 0 x)))).
    - apply mean_ext. intros q x _. rewrite <- pass_S, <- Ek. rewrite successor_pass. destruct (pass idx out n parts a o n [] (0, x)) as [[l [[]|e]] y]; reflexivity.
    - exact (cont_failure sp idx out ns n parts a o Sp Fi P eq_refl Si (100 * n) k [] 0 (S (100 * n)) N ltac:(lia) ltac:(lia) ltac:(lia) ltac:(cbn [length]; lia)).
  Qed.
End Successor.

(** The first belief *)
Section Initial.
  Context {W : Type}.
  Variables (sp : space W) (start : W -> nat) (rand : list W -> nat * list W).
  Hypothesis Sp : is_space sp.
  Lemma initial_pass n : forall found x, n <= length x -> fill n (fun _ => next_start start) found x = (found ++ map start (firstn n x), Ok tt, skipn n x).
  Proof.
    induction n as [|n IH]; intros found x Hx; [cbn; rewrite app_nil_r; reflexivity|]. destruct x as [|w t]; [cbn in Hx; lia|]. cbn [fill next_start firstn map skipn].
    rewrite IH by (cbn in Hx; lia). rewrite <- app_assoc. reflexivity.
  Qed.
  Lemma initial_parts n x : n <= length x -> fst (particle_belief rand n (next_start start) x) = Ok (map start (firstn n x)).
  Proof. intros H. unfold particle_belief, populate. rewrite initial_pass by auto. reflexivity. Qed.
  Lemma initial_joint l : forall N, length l <= N ->
    (prob (tapes sp N) (fun x => if list_eq_dec Nat.eq_dec (map start (firstn (length l) x)) l then true else false) == product l (fun s => prob sp (fun w => Nat.eqb (start w) s)))%Q.
  Proof.
    induction l as [|s t IH]; intros N HN.
    - cbn [length firstn map product fold_right]. unfold prob. rewrite <- (mean_const (tapes sp N) 1) by (apply tapes_space; auto). apply mean_ext. intros. reflexivity.
    - destruct N as [|N]; [cbn in HN; lia|]. unfold prob. rewrite mean_tapes. cbn [length] in *. cbn [product fold_right]. fold (product t (fun s => prob sp (fun w => Nat.eqb (start w) s))).
      rewrite <- (IH N) by lia. unfold prob. rewrite <- mean_scale_r. apply mean_ext. intros q w _. rewrite <- mean_scale. apply mean_ext. intros q' x _. cbn [firstn map].
      destruct (list_eq_dec Nat.eq_dec (start w :: map start (firstn (length t) x)) (s :: t)) as [E|E];
      destruct (list_eq_dec Nat.eq_dec (map start (firstn (length t) x)) t) as [E1|E1]; destruct (Nat.eqb_spec (start w) s) as [E2|E2]; try ring; exfalso; try congruence.
  Qed.
End Initial.
