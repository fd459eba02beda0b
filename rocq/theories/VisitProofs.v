(** Proofs for C116: the loop of node_search, on any nodes. *)
From Coq Require Import Lia Ascii String Permutation.
From Verif Require Import PyBase PyBaseFacts QBase PomdpModel PomdpProofs PomcpModel PomcpSpec SharedModel SharedSpec ExportModel VisitModel VisitSpec.
Local Open Scope list_scope.
Local Open Scope nat_scope.

(** *** Orders *)
Lemma lex_irrefl {T} (lt : T -> T -> Prop) : (forall x, ~ lt x x) -> forall l, ~ lex lt l l.
Proof. intros Hi l. induction l as [|x l IH]; intros E; inversion E; subst; [eapply Hi; eauto|auto]. Qed.
Lemma lex_trans {T} (lt : T -> T -> Prop) : (forall x y z, lt x y -> lt y z -> lt x z) -> forall l m k, lex lt l m -> lex lt m k -> lex lt l k.
Proof.
  intros Ht l m k E. revert k. induction E as [y m|x y l m Exy|x l m E IH]; intros k F; inversion F; subst;
    solve [apply lex_nil | apply lex_head; eauto | apply lex_tail; eauto].
Qed.
Lemma name_before_irrefl a : ~ name_before a a.
Proof. destruct a; cbn; [lia|]. apply lex_irrefl. intros x. lia. Qed.
Lemma name_before_trans a b c : name_before a b -> name_before b c -> name_before a c.
Proof. destruct a, b, c; cbn; try tauto; [lia|]. apply lex_trans. intros x y z. lia. Qed.
Lemma ascii_compare_lt c d : Ascii.compare c d = Lt <-> nat_of_ascii c < nat_of_ascii d.
Proof. unfold Ascii.compare, nat_of_ascii. rewrite N.compare_lt_iff. lia. Qed.
Lemma string_ltb_iff s : forall t, String.ltb s t = true <-> lex (fun c d => nat_of_ascii c < nat_of_ascii d) (list_ascii_of_string s) (list_ascii_of_string t).
Proof.
  unfold String.ltb. induction s as [|c s IH]; intros [|d t]; cbn.
  - split; [discriminate|intros E; inversion E].
  - split; [constructor|reflexivity].
  - split; [discriminate|intros E; inversion E].
  - destruct (Ascii.compare c d) eqn:E.
    + apply Ascii.compare_eq_iff in E. subst d. rewrite IH. split; [apply lex_tail|]. intros F. inversion F; subst; [lia|auto].
    + split; [intros _; constructor; apply ascii_compare_lt; auto|reflexivity].
    + split; [discriminate|]. intros F. exfalso. inversion F; subst.
      * apply ascii_compare_lt in H0. congruence.
      * unfold Ascii.compare in E. rewrite N.compare_refl in E. discriminate.
Qed.
Lemma name_ltb_iff a b : name_ltb a b = true <-> name_before a b.
Proof. destruct a, b; cbn; try (split; [discriminate|tauto]); [apply Z.ltb_lt|apply string_ltb_iff]. Qed.
Lemma hist_ltb_iff h : forall k, hist_ltb h k = true <-> lex name_before h k.
Proof.
  induction h as [|a h IH]; intros [|b k]; cbn.
  - split; [discriminate|intros E; inversion E].
  - split; [constructor|reflexivity].
  - split; [discriminate|intros E; inversion E].
  - destruct (name_eqb a b) eqn:E.
    + apply name_eqb_iff in E. subst b. rewrite IH. split; [apply lex_tail|]. intros F. inversion F; subst; [|auto]. exfalso. eapply name_before_irrefl; eauto.
    + rewrite name_ltb_iff. split; [apply lex_head|]. intros F. inversion F; subst; [auto|]. exfalso. assert (name_eqb b b = true) by (apply name_eqb_iff; auto). congruence.
Qed.

Section Best.
  Context {N : Type}.
  Notation item := (Q * (list name * N))%type.
  (** The order of the heap *)
  Definition is_ahead (x y : item) : Prop := (fst y < fst x)%Q \/ ((fst x == fst y)%Q /\ lex name_before (fst (snd x)) (fst (snd y))).
  Lemma ahead_iff x y : ahead x y = true <-> is_ahead x y.
  Proof.
    unfold ahead, is_ahead. destruct (Qeq_bool (fst x) (fst y)) eqn:E.
    - apply Qeq_bool_iff in E. rewrite hist_ltb_iff. split; [auto|]. intros [F|[_ F]]; [|auto]. rewrite E in F. exfalso. eapply Qlt_irrefl; eauto.
    - apply Qeq_bool_neq in E. destruct (Qle_bool (fst x) (fst y)) eqn:L; cbn.
      + apply Qle_bool_iff in L. split; [discriminate|]. intros [F|[F _]]; [exfalso; eapply Qlt_not_le; eauto|tauto].
      + split; [|auto]. intros _. left. apply Qnot_le_lt. intros F. apply Qle_bool_iff in F. congruence.
  Qed.
  Lemma is_ahead_irrefl x : ~ is_ahead x x.
  Proof. intros [E|[_ E]]; [eapply Qlt_irrefl; eauto|]. eapply lex_irrefl; [apply name_before_irrefl|exact E]. Qed.
  Lemma is_ahead_trans x y z : is_ahead x y -> is_ahead y z -> is_ahead x z.
  Proof.
    intros [E|[E El]] [F|[F Fl]].
    - left. eapply Qlt_trans; eauto.
    - left. rewrite <- F. auto.
    - left. rewrite E. auto.
    - right. split; [eapply Qeq_trans; eauto|]. eapply lex_trans; eauto using name_before_trans.
  Qed.
  Lemma least_spec l : forall x b r, least x l = (b, r) -> Permutation (x :: l) (b :: r) /\ (b = x \/ is_ahead b x) /\ forall y, In y (x :: l) -> ~ is_ahead y b.
  Proof.
    induction l as [|y l IH]; intros x b r E; cbn [least] in E.
    - inversion E; subst. split; [auto|]. split; [auto|]. intros y [->|[]]. apply is_ahead_irrefl.
    - destruct (ahead y x) eqn:A.
      + apply ahead_iff in A. destruct (least y l) as [b' r'] eqn:L. inversion E; subst. destruct (IH _ _ _ L) as (Pm & D & F). split; [|split].
        * rewrite Pm. apply perm_swap.
        * right. destruct D as [->|D]; [auto|eapply is_ahead_trans; eauto].
        * intros z [->|Hz]; [|auto]. intros Hzb. apply (F y); [simpl; auto|]. eapply is_ahead_trans; eauto.
      + destruct (least x l) as [b' r'] eqn:L. inversion E; subst. destruct (IH _ _ _ L) as (Pm & D & F). split; [|split; [auto|]].
        * rewrite perm_swap, Pm. apply perm_swap.
        * intros z [->|[->|Hz]]; [apply F; simpl; auto| |apply F; simpl; auto]. intros Hzb.
          assert (is_ahead z x) as Hzx by (destruct D as [->|D]; [auto|eapply is_ahead_trans; eauto]). apply ahead_iff in Hzx. congruence.
  Qed.
End Best.

Lemma nodup_app {A} (l l' : list A) : NoDup l -> NoDup l' -> (forall x, In x l -> ~ In x l') -> NoDup (l ++ l').
Proof.
  induction 1 as [|x l Hx _ IH]; intros N' D; cbn; [auto|]. constructor; [|apply IH; auto; intros y Hy; apply D; right; auto].
  intros E. apply in_app_iff in E. destruct E as [E|E]; [auto|]. apply (D x); [left|]; auto.
Qed.

Section Loop.
  Context {N A : Type}.
  Variables actions observations : list name.
  Variable value : N -> Q.
  Variable children : N -> list (option A).
  Variable observed : A -> list (nat * N).
  Notation entry := (list name * N)%type.
  Notation item := (Q * (list name * N))%type.
  Notation visit := (visit actions observations value children observed).
  Variable next : entry -> list entry.
  Variable ok : N -> Prop.
  Definition tag (x : entry) : item := (value (snd x), x).
  Hypothesis pushed_next : forall h n, ok n -> pushed actions observations value children observed h n = Ok (map tag (next (h, n))).
  Hypothesis next_ok : forall h n h' m, ok n -> In (h', m) (next (h, n)) -> ok m /\ exists a o, h' = h ++ [a; o].
  Hypothesis next_once : forall h n, ok n -> NoDup (map fst (next (h, n))).

  Lemma entry_once x : ok (snd x) -> NoDup (map fst (next x)).
  Proof. destruct x as [h n]. apply next_once. Qed.

  (** *** The loop without exceptions: what is left in the queue and the nodes found after some iterations *)
  Fixpoint go (k : nat) (ord : order) (queue : list item) (found : list entry) : list item * list entry :=
    match k, queue with
    | S k, x :: q => let (y, q) := pop ord x q in go k ord (q ++ map tag (next (snd y))) (found ++ [snd y])
    | _, _ => (queue, found)
    end.
  Definition good (queue : list item) : Prop := Forall (fun it => it = tag (snd it) /\ ok (snd (snd it))) queue.

  Lemma last_removelast (x : item) l : Permutation (x :: l) (last (x :: l) x :: removelast (x :: l)).
  Proof. rewrite (app_removelast_last x (l := x :: l)) at 1 by discriminate. symmetry. apply Permutation_cons_append. Qed.
  Lemma pop_perm ord (x : item) l y q : pop ord x l = (y, q) -> Permutation (x :: l) (y :: q).
  Proof.
    destruct ord; cbn [pop]; intros E.
    - inversion E; subst. auto.
    - inversion E; subst. apply last_removelast.
    - apply least_spec in E. apply E.
  Qed.
  Lemma next_good h n : ok n -> good (map tag (next (h, n))).
  Proof. intros Hn. apply Forall_forall. intros it Hit. apply in_map_iff in Hit. destruct Hit as ([h' m] & <- & Hx). split; [reflexivity|]. eapply next_ok; eauto. Qed.
  Lemma pop_good ord (x : item) l y q : good (x :: l) -> pop ord x l = (y, q) -> y = tag (snd y) /\ ok (snd (snd y)) /\ good (q ++ map tag (next (snd y))).
  Proof.
    intros G E. apply pop_perm in E. unfold good in G. rewrite E in G. inversion G; subst. destruct H1 as [Ht Ho]. split; [auto|]. split; [auto|].
    apply Forall_app. split; [auto|]. destruct y as [v [h n]]. apply next_good. auto.
  Qed.

  Lemma go_0 ord queue found : go 0 ord queue found = (queue, found).
  Proof. destruct queue; reflexivity. Qed.
  Lemma go_add ord : forall j k queue found, go (j + k) ord queue found = let (q, f) := go j ord queue found in go k ord q f.
  Proof.
    induction j as [|j IH]; intros k queue found; [rewrite go_0; reflexivity|]. destruct queue as [|x q]; cbn [go Nat.add].
    - destruct k; reflexivity.
    - destruct (pop ord x q) as [y q']. apply IH.
  Qed.
  Lemma go_found ord : forall k queue found, exists l, snd (go k ord queue found) = found ++ l /\ length l <= k /\ (length l < k -> fst (go k ord queue found) = []).
  Proof.
    induction k as [|k IH]; intros queue found.
    - rewrite go_0. exists []. rewrite app_nil_r. cbn. repeat split; lia.
    - destruct queue as [|x q]; cbn [go].
      + exists []. rewrite app_nil_r. cbn. repeat split; lia.
      + destruct (pop ord x q) as [y q']. destruct (IH (q' ++ map tag (next (snd y))) (found ++ [snd y])) as (l & E & L & F). exists (snd y :: l). rewrite E, <- app_assoc. cbn. split; [auto|].
        split; [lia|]. intros Hl. apply F. lia.
  Qed.
  Lemma go_nil k ord found : go k ord [] found = ([], found).
  Proof. destruct k; reflexivity. Qed.
  Lemma go_firstn ord j k queue found : j <= k -> snd (go j ord queue found) = firstn (length found + j) (snd (go k ord queue found)).
  Proof.
    intros Hjk. replace k with (j + (k - j)) by lia. rewrite go_add. destruct (go_found ord j queue found) as (l & E & L & F).
    destruct (go j ord queue found) as [q f] eqn:G. cbn [fst snd] in *. subst f. destruct (Nat.eq_dec (length l) j) as [Hl|Hl].
    - destruct (go_found ord (k - j) q (found ++ l)) as (l' & E' & _). rewrite E'. rewrite <- Hl, <- app_length. rewrite firstn_app, Nat.sub_diag, firstn_all. cbn. rewrite app_nil_r. auto.
    - rewrite F by lia. rewrite go_nil. cbn [snd]. rewrite firstn_all2; [auto|]. rewrite app_length. lia.
  Qed.

  Lemma visit_limit ord m : forall k fuel queue found, good queue -> k <= fuel -> (k = Z.to_nat (m - Z.of_nat (length found))) ->
    visit fuel ord (Some m) queue found = Ok (snd (go k ord queue found)).
  Proof.
    induction k as [|k IH]; intros fuel queue found G Hf Hk.
    - rewrite go_0. destruct fuel, queue as [|x q]; cbn [VisitModel.visit snd]; auto; unfold more; destruct (Z.ltb_spec (Z.of_nat (length found)) m); auto; lia.
    - destruct fuel as [|fuel]; [lia|]. destruct queue as [|x q]; cbn [VisitModel.visit go snd]; auto.
      unfold more. destruct (Z.ltb_spec (Z.of_nat (length found)) m) as [Hm|]; [|lia]. destruct (pop ord x q) as [y q'] eqn:Ep. destruct (pop_good _ _ _ _ _ G Ep) as (_ & Ho & G').
      destruct y as [v [h n]]. cbn [fst snd] in *. rewrite pushed_next by auto. cbn [bind]. apply IH; [auto|lia|]. rewrite app_length. cbn. lia.
  Qed.
  Lemma visit_all ord : forall fuel queue found, good queue -> fst (go fuel ord queue found) = [] -> visit fuel ord None queue found = Ok (snd (go fuel ord queue found)).
  Proof.
    induction fuel as [|fuel IH]; intros queue found G E.
    - rewrite go_0 in *. cbn [fst] in E. subst. reflexivity.
    - destruct queue as [|x q]; cbn [VisitModel.visit go snd] in *; auto. cbn [more]. destruct (pop ord x q) as [y q'] eqn:Ep. destruct (pop_good _ _ _ _ _ G Ep) as (_ & Ho & G').
      destruct y as [v [h n]]. cbn [fst snd] in *. rewrite pushed_next by auto. cbn [bind]. apply IH; auto.
  Qed.
  Lemma visit_not ord : forall fuel queue found, good queue -> fst (go fuel ord queue found) <> [] -> visit fuel ord None queue found = Err EFuel.
  Proof.
    induction fuel as [|fuel IH]; intros queue found G E.
    - rewrite go_0 in *. cbn [fst] in E. destruct queue; [congruence|reflexivity].
    - destruct queue as [|x q]; cbn [VisitModel.visit go fst snd] in *; [congruence|]. cbn [more]. destruct (pop ord x q) as [y q'] eqn:Ep. destruct (pop_good _ _ _ _ _ G Ep) as (_ & Ho & G').
      destruct y as [v [h n]]. cbn [fst snd] in *. rewrite pushed_next by auto. cbn [bind]. apply IH; auto.
  Qed.

  (** *** What is found *)
  Variable root : N.
  Hypothesis root_ok : ok root.
  Notation start := ([tag ([], root)] : list item).
  Inductive place : entry -> Prop :=
  | place_root : place ([], root)
  | place_next x y : place x -> In y (next x) -> place y.
  Lemma place_ok x : place x -> ok (snd x).
  Proof. induction 1 as [|[h n] [h' m] _ IH Hy]; [auto|]. eapply next_ok; eauto. Qed.

  (** Nodes found, in order, and the queue *)
  Definition follows (l : list entry) : Prop := forall l1 x l2, l = l1 ++ x :: l2 -> (l1 = [] /\ x = ([], root)) \/ exists z, In z l1 /\ In x (next z).
  Record inv (queue : list item) (found : list entry) : Prop := {
    i_good : good queue;
    i_place : forall x, In x (found ++ map snd queue) -> place x;
    i_once : NoDup (map fst (found ++ map snd queue));
    i_follows : follows found;
    i_parent : forall x, In x (found ++ map snd queue) -> (x = ([], root) /\ (found = [] \/ In x found)) \/ exists z, In z found /\ In x (next z);
    i_closed : forall z x, In z found -> In x (next z) -> In x (found ++ map snd queue);
    i_root : In ([], root) (found ++ map snd queue) }.

  Lemma inv_start : inv start [].
  Proof.
    split; cbn.
    - repeat constructor; auto.
    - intros x [<-|[]]. constructor.
    - repeat constructor; auto.
    - intros l1 x l2 E. destruct l1; discriminate.
    - intros x [<-|[]]. auto.
    - intros z x [].
    - auto.
  Qed.
  Lemma snoc2_inj (h k : list name) a b c d : h ++ [a; b] = k ++ [c; d] -> h = k.
  Proof.
    intros E. change [a; b] with ([a] ++ [b]) in E. change [c; d] with ([c] ++ [d]) in E. rewrite !app_assoc in E.
    apply app_inj_tail in E. destruct E as [E _]. apply app_inj_tail in E. apply E.
  Qed.
  Lemma inv_step ord x l y q found : inv (x :: l) found -> pop ord x l = (y, q) -> inv (q ++ map tag (next (snd y))) (found ++ [snd y]).
  Proof.
    intros [G Pl On Fo Pa Cl Ro] Ep. destruct (pop_good _ _ _ _ _ G Ep) as (Ty & Oy & G'). pose proof (pop_perm _ _ _ _ _ Ep) as Pm.
    assert (Pm' : Permutation (found ++ map snd (x :: l)) (found ++ [snd y] ++ map snd q)) by (apply Permutation_app_head; rewrite (Permutation_map snd Pm); reflexivity).
    assert (Mt : map snd (map tag (next (snd y))) = next (snd y)) by (rewrite map_map; apply map_id).
    assert (All : forall z, In z ((found ++ [snd y]) ++ map snd (q ++ map tag (next (snd y)))) <-> In z (found ++ map snd (x :: l)) \/ In z (next (snd y))).
    { intros z. rewrite map_app, Mt. rewrite (Permutation_in' eq_refl Pm'). rewrite !in_app_iff. tauto. }
    assert (Py : place (snd y)) by (apply Pl; rewrite (Permutation_in' eq_refl Pm'); apply in_or_app; right; left; auto).
    rewrite (Permutation_map fst Pm') in On.
    assert (Fy : ~ In (fst (snd y)) (map fst found)).
    { intros F. rewrite !map_app in On. cbn in On. apply NoDup_remove_2 in On. apply On, in_or_app. auto. }
    assert (Fx : found <> [] -> snd y <> ([], root)).
    { intros Hf E. destruct found as [|z0 f0] eqn:Ef; [congruence|]. destruct (Fo [] z0 f0 eq_refl) as [[_ ->]|(z & [] & _)]. apply Fy. rewrite E. cbn. auto. }
    split; auto.
    - intros z Hz. apply All in Hz. destruct Hz as [Hz|Hz]; [auto|]. econstructor; eauto.
    - rewrite (map_app snd q), Mt, app_assoc, map_app, <- (app_assoc found). apply nodup_app; [exact On|apply entry_once; auto|]. destruct (snd y) as [h n] eqn:Ey. cbn [snd fst] in *.
      intros h' H1 H2. apply in_map_iff in H2. destruct H2 as ([h2 m] & <- & H2). cbn [fst] in H1. destruct (next_ok _ _ _ _ Oy H2) as (_ & a & o & Eh). subst h2.
      apply in_map_iff in H1. destruct H1 as ([h3 m3] & E3 & H1). cbn [fst] in E3. subst h3.
      assert (Hz : In (h ++ [a; o], m3) (found ++ map snd (x :: l))) by (apply (Permutation_in' eq_refl Pm'); auto).
      destruct (Pa _ Hz) as [[E _]|([h4 m4] & H4 & H5)].
      + injection E. intros _ E'. destruct h; discriminate.
      + assert (Ok4 : ok m4) by (apply (place_ok (h4, m4)), Pl, in_or_app; auto). destruct (next_ok _ _ _ _ Ok4 H5) as (_ & a' & o' & E5). apply snoc2_inj in E5. subst h4.
        apply Fy. apply in_map_iff. exists (h, m4). auto.
    - intros l1 z l2 E. destruct (@exists_last _ (z :: l2)) as (l3 & w & Ew); [discriminate|]. assert (E2 : found ++ [snd y] = (l1 ++ l3) ++ [w]) by (rewrite <- app_assoc, <- Ew; auto).
      apply app_inj_tail in E2. destruct E2 as [E2 Ey]. destruct l3 as [|z' l3].
      + cbn in Ew. injection Ew. intros -> ->. rewrite app_nil_r in E2. subst l1. assert (Hy : In (snd y) (found ++ map snd (x :: l))) by (apply (Permutation_in' eq_refl Pm'), in_or_app; right; left; auto).
        rewrite <- Ey. destruct (Pa _ Hy) as [[E1 [E3|E3]]|E3]; [left; auto| |right; auto]. exfalso. apply Fy, in_map. auto.
      + cbn in Ew. injection Ew. intros _ ->. subst found. apply (Fo l1 z' l3). auto.
    - intros z Hz. apply All in Hz. destruct Hz as [Hz|Hz].
      + destruct (Pa _ Hz) as [[-> [Ef|Ef]]|(w & Hw & Hn)].
        * left. split; [auto|]. right. subst found. apply in_or_app. right. left. assert (Hy : In (snd y) ([] ++ map snd (x :: l))) by (apply (Permutation_in' eq_refl Pm'); left; auto).
          destruct (Pa _ Hy) as [[E _]|(w & [] & _)]. auto.
        * left. split; [auto|]. right. apply in_or_app. auto.
        * right. exists w. split; [apply in_or_app; auto|auto].
      + right. exists (snd y). split; [apply in_or_app; right; left; auto|auto].
    - intros z w Hz Hw. apply All. apply in_app_iff in Hz. destruct Hz as [Hz|[<-|[]]]; [left; eapply Cl; eauto|auto].
    - apply All. auto.
  Qed.
  Lemma inv_go ord : forall k queue found, inv queue found -> inv (fst (go k ord queue found)) (snd (go k ord queue found)).
  Proof.
    induction k as [|k IH]; intros queue found I; [rewrite go_0; auto|]. destruct queue as [|x q]; cbn [go]; [auto|]. destruct (pop ord x q) as [y q'] eqn:Ep.
    apply IH. eapply inv_step; eauto.
  Qed.
  Lemma inv_all found : inv [] found -> forall x, place x <-> In x found.
  Proof.
    intros [G Pl On Fo Pa Cl Ro] x. cbn in *. rewrite app_nil_r in *. split; [|auto]. induction 1; [auto|]. eapply Cl; eauto.
  Qed.

  (** *** Breadth first *)
  Fixpoint levels (d : nat) (l : list entry) : list entry := match d with 0 => [] | S d => l ++ levels d (flat_map next l) end.
  Lemma flat_map_flat_map {U V W} (f : U -> list V) (g : V -> list W) l : flat_map g (flat_map f l) = flat_map (fun x => flat_map g (f x)) l.
  Proof. induction l as [|x l IH]; cbn; [auto|]. rewrite flat_map_app, IH. auto. Qed.
  Lemma levels_level x : forall d k, flat_map (fun i => level next i x) (seq k d) = levels d (level next k x).
  Proof. induction d as [|d IH]; intros k; cbn; [auto|]. rewrite IH. reflexivity. Qed.
  Lemma firstn_add {U} (l l' : list U) k : firstn (length l + k) (l ++ l') = l ++ firstn k l'.
  Proof. rewrite firstn_app, firstn_all2 by lia. f_equal. f_equal. lia. Qed.
  Lemma go_breadth : forall k cur nxt found d, k <= length cur + d ->
    snd (go k Breadth (map tag (cur ++ nxt)) found) = found ++ firstn k (cur ++ levels d (nxt ++ flat_map next cur)).
  Proof.
    induction k as [|k IH]; intros cur nxt found d Hk; [rewrite go_0; cbn; rewrite app_nil_r; auto|].
    assert (Step : forall y cur nxt d, k <= length cur + d -> snd (go (S k) Breadth (map tag (y :: cur ++ nxt)) found) = found ++ firstn (S k) (y :: cur ++ levels d (nxt ++ next y ++ flat_map next cur))).
    { intros y cur' nxt' d' Hk'. cbn [map go pop snd tag]. rewrite <- map_app, <- app_assoc. rewrite IH with (d := d') by auto. cbn [firstn]. rewrite <- app_assoc. cbn. rewrite <- !app_assoc. auto. }
    destruct cur as [|y cur].
    - cbn in Hk. destruct d as [|d]; [lia|]. cbn [app flat_map levels]. rewrite app_nil_r. destruct nxt as [|y nxt].
      + cbn [map go snd]. cbn [flat_map app]. assert (E : levels d [] = []) by (clear; induction d; cbn; auto). rewrite E, firstn_nil, app_nil_r. auto.
      + specialize (Step y nxt [] d). rewrite app_nil_r in Step. rewrite Step by lia. cbn [flat_map app]. auto.
    - cbn in Hk. rewrite <- app_comm_cons, Step with (d := d) by lia. cbn [flat_map app]. auto.
  Qed.
  Lemma breadth_start k d : k <= d -> snd (go k Breadth [tag ([], root)] []) = firstn k (flat_map (fun i => level next i ([], root)) (seq 0 d)).
  Proof.
    intros Hk. rewrite levels_level. change ([tag ([], root)]) with (map tag ([] ++ [([], root)])). rewrite go_breadth with (d := d) by (cbn; lia). reflexivity.
  Qed.

  (** *** Depth first *)
  Definition descents (dq : list (nat * entry)) : list entry := flat_map (fun dx => descent next (fst dx) (snd dx)) dq.
  Lemma go_depth : forall k dq found, Forall (fun dx => k <= S (fst dx)) dq ->
    snd (go k Depth (map tag (rev (map snd dq))) found) = found ++ firstn k (descents dq).
  Proof.
    induction k as [|k IH]; intros dq found Hd; [rewrite go_0; cbn; rewrite app_nil_r; auto|]. destruct dq as [|[d x] dq].
    - cbn. rewrite app_nil_r. auto.
    - inversion Hd; subst. cbn [map rev snd]. rewrite map_app. cbn [map]. destruct (map tag (rev (map snd dq)) ++ [tag x]) as [|z l] eqn:E; [destruct (map tag (rev (map snd dq))); discriminate|].
      cbn [go pop]. rewrite <- E. rewrite removelast_last. rewrite last_last. cbn [tag snd]. rewrite <- map_app. cbn [fst] in H1.
      set (d' := k).
      destruct k as [|k].
      + rewrite go_0. cbn [snd descents flat_map fst]. destruct d; cbn; auto.
      + destruct d as [|d]; [lia|].
        assert (Eq : rev (map snd dq) ++ next x = rev (map snd (map (fun y => (d, y)) (rev (next x)) ++ dq))).
        { rewrite map_app, rev_app_distr, map_map. cbn [snd]. rewrite map_id, rev_involutive. auto. }
        rewrite Eq, IH.
        * rewrite <- app_assoc. cbn [descents flat_map fst snd descent app firstn]. f_equal. f_equal. unfold descents. rewrite flat_map_app. f_equal. f_equal. rewrite flat_map_concat_map, map_map, <- flat_map_concat_map. auto.
        * apply Forall_app. split; [apply Forall_map, Forall_forall; intros y _; cbn; lia|]. eapply Forall_impl; [|exact H2]. cbn. intros; lia.
  Qed.
  Lemma depth_start k d : k <= S d -> snd (go k Depth [tag ([], root)] []) = firstn k (descent next d ([], root)).
  Proof.
    intros Hk. change ([tag ([], root)]) with (map tag (rev (map snd [(d, ([], root) : entry)]))). rewrite (go_depth k [(d, ([], root) : entry)] []) by (apply Forall_cons; [exact Hk|constructor]).
    unfold descents. cbn [flat_map fst snd]. rewrite !app_nil_r. auto.
  Qed.

  (** *** Best first *)
  Lemma best_go : forall k queue found, inv queue found -> best_first next value ([], root) found -> best_first next value ([], root) (snd (go k Best queue found)).
  Proof.
    induction k as [|k IH]; intros queue found I Hb; [rewrite go_0; auto|]. destruct queue as [|x q]; cbn [go]; [auto|]. destruct (pop Best x q) as [y q'] eqn:Ep.
    apply IH; [eapply inv_step; eauto|]. intros l1 z l2 E w Hw Hn. destruct (@exists_last _ (z :: l2)) as (l3 & v & Ew); [discriminate|].
    assert (E2 : found ++ [snd y] = (l1 ++ l3) ++ [v]) by (rewrite <- app_assoc, <- Ew; auto). apply app_inj_tail in E2. destruct E2 as [E2 Ey]. destruct l3 as [|z' l3].
    - cbn in Ew. injection Ew. intros -> ->. rewrite app_nil_r in E2. subst l1 v. destruct I as [G Pl On Fo Pa Cl Ro].
      assert (Hin : In w (found ++ map snd (x :: q))) by (destruct Hw as [->|(z & Hz & Hzw)]; [auto|eapply Cl; eauto]). apply in_app_iff in Hin. destruct Hin as [Hin|Hin]; [tauto|].
      apply in_map_iff in Hin. destruct Hin as (it & <- & Hin). cbn [pop] in Ep. destruct (pop_good Best _ _ _ _ G Ep) as (Ty & _ & _). apply least_spec in Ep. destruct Ep as (_ & _ & L).
      specialize (L it Hin). assert (Tit : it = tag (snd it)) by (eapply Forall_forall in G; [|exact Hin]; apply G). rewrite Tit, Ty in L. unfold is_ahead, tag in L. cbn [fst snd] in L. split.
      + destruct (Qlt_le_dec (value (snd (snd y))) (value (snd (snd it)))) as [F|F]; [exfalso; apply L; auto|auto].
      + intros Eq F. apply L. right. auto.
    - cbn in Ew. injection Ew. intros _ ->. subst found. apply (Hb l1 z' l3 eq_refl w Hw Hn).
  Qed.
  Lemma best_start k : best_first next value ([], root) (snd (go k Best [tag ([], root)] [])).
  Proof. apply best_go; [apply inv_start|]. intros l1 x l2 E. destruct l1; discriminate. Qed.

  (** *** End of the loop *)
  Inductive sized : entry -> nat -> Prop := sz x ks : Forall2 sized (next x) ks -> sized x (S (list_sum ks)).
  Lemma sized_perm l l' : Permutation l l' -> forall ks, Forall2 sized l ks -> exists ks', Forall2 sized l' ks' /\ list_sum ks' = list_sum ks.
  Proof.
    induction 1 as [|x l l' _ IH|x y l|l l' l'' _ IH1 _ IH2]; intros ks F.
    - exists ks. auto.
    - inversion F as [|x0 k l0 ks0 Hx Hl]; subst. destruct (IH _ Hl) as (ks' & F' & E). exists (k :: ks'). split; [constructor; auto|]. unfold list_sum in *. cbn [fold_right]. lia.
    - inversion F as [|x0 k l0 ks0 Hx Hl]; subst. inversion Hl as [|x1 k1 l1 ks1 Hx1 Hl1]; subst. exists (k1 :: k :: ks1). split; [repeat constructor; auto|]. cbn. lia.
    - destruct (IH1 _ F) as (ks1 & F1 & E1). destruct (IH2 _ F1) as (ks2 & F2 & E2). exists ks2. split; [auto|lia].
  Qed.
  Lemma go_ends ord : forall k queue found ks, Forall2 sized (map snd queue) ks -> list_sum ks <= k -> fst (go k ord queue found) = [].
  Proof.
    induction k as [|k IH]; intros queue found ks F L.
    - rewrite go_0. destruct queue as [|x q]; [auto|]. inversion F; subst. inversion H1; subst. cbn in L. lia.
    - destruct queue as [|x q]; cbn [go]; [auto|]. destruct (pop ord x q) as [y q'] eqn:Ep. apply pop_perm in Ep. apply (Permutation_map snd) in Ep.
      destruct (sized_perm _ _ Ep _ F) as (ks' & F' & E). cbn [map] in F'. inversion F'; subst. inversion H1; subst. apply IH with (ks := l' ++ ks0).
      + rewrite map_app, map_map. cbn [tag snd]. rewrite map_id. apply Forall2_app; auto.
      + rewrite list_sum_app. unfold list_sum in *. cbn [fold_right] in E. lia.
  Qed.
  Lemma sized_bound : forall d x, (forall y i, d < i -> ~ In y (level next i x)) -> exists k, sized x k.
  Proof.
    induction d as [|d IH]; intros x Hd.
    - exists 1. change 1 with (S (list_sum [])). constructor. destruct (next x) as [|y l] eqn:E; [constructor|]. exfalso. apply (Hd y 1); [lia|]. cbn. rewrite E. left. auto.
    - assert (Lv : forall i y, In y (level next (S i) x) <-> exists z, In z (next x) /\ In y (level next i z)).
      { clear. induction i as [|i IH]; intros y.
        - cbn. rewrite app_nil_r. split; [intros H; exists y; auto|intros (z & Hz & [->|[]]); auto].
        - change (level next (S (S i)) x) with (flat_map next (level next (S i) x)). rewrite in_flat_map. split.
          + intros (z & Hz & Hy). apply IH in Hz. destruct Hz as (w & Hw & Hz). exists w. split; [auto|]. cbn. apply in_flat_map. eauto.
          + intros (w & Hw & Hy). cbn in Hy. apply in_flat_map in Hy. destruct Hy as (z & Hz & Hy). exists z. split; [|auto]. apply IH. eauto. }
      assert (E : exists ks, Forall2 sized (next x) ks).
      { assert (Hn : forall z, In z (next x) -> exists k, sized z k).
        { intros z Hz. apply IH. intros y i Hi Hy. apply (Hd y (S i)); [lia|]. apply Lv. eauto. }
        clear - Hn. induction (next x) as [|z l IHl]; [exists []; constructor|]. destruct (Hn z (or_introl eq_refl)) as [k Hk]. destruct IHl as [ks Hks]; [intros; apply Hn; right; auto|]. exists (k :: ks). constructor; auto. }
      destruct E as [ks F]. exists (S (list_sum ks)). constructor. auto.
  Qed.
End Loop.
