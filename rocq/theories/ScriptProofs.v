(** Proofs for C73. *)
From Coq Require Import Lia.
From Verif Require Import PyBase PyBaseFacts ScriptModel ScriptSpec.
Local Open Scope list_scope.
Local Open Scope nat_scope.

Lemma index_from_ok l : forall k x i, index_from k l x = Ok i -> k <= i /\ nth_error l (i - k) = Some x.
Proof.
  induction l as [|y l IH]; intros k x i H; cbn in H; [discriminate|]. destruct (String.eqb_spec y x) as [->|N].
  - assert (i = k) as -> by congruence. rewrite Nat.sub_diag. split; [lia|reflexivity].
  - apply IH in H. destruct H as [H1 H2]. split; [lia|]. replace (i - k) with (S (i - S k)) by lia. exact H2.
Qed.
Lemma index_ok l x i : index l x = Ok i -> nth_error l i = Some x.
Proof. intros H. apply index_from_ok in H. rewrite Nat.sub_0_r in H. apply H. Qed.
Lemma index_from_in l : forall k x, In x l -> exists i, index_from k l x = Ok i.
Proof. induction l as [|y l IH]; intros k x H; [destruct H|]. cbn. destruct (String.eqb_spec y x) as [->|N]; [eauto|]. apply IH. destruct H; [congruence|auto]. Qed.
Lemma index_from_out l : forall k x, ~ In x l -> index_from k l x = Err EValue.
Proof. induction l as [|y l IH]; intros k x H; cbn; auto. destruct (String.eqb_spec y x) as [->|N]; [exfalso; apply H; left; auto|]. apply IH. intros K. apply H. right. auto. Qed.
Lemma index_differ l x y i j : index l x = Ok i -> index l y = Ok j -> x <> y -> i <> j.
Proof. intros H1 H2 N ->. apply index_ok in H1, H2. congruence. Qed.
Lemma mem_true (x : nat) l : In x l -> mem x l = true.
Proof. unfold mem. intros H. destruct (in_dec eq_dec x l); tauto. Qed.
Lemma mem_false (x : nat) l : ~ In x l -> mem x l = false.
Proof. unfold mem. intros H. destruct (in_dec eq_dec x l); tauto. Qed.
Lemma mapM_indices l names is : mapM (index l) names = Ok is -> Forall2 (fun x i => index l x = Ok i) names is.
Proof.
  revert is. induction names as [|x names IH]; intros is H; cbn in H; [injection H as <-; constructor|]. destruct (index l x) as [i|] eqn:E; cbn in H; [|discriminate]. destruct (mapM (index l) names) as [is'|]; cbn in H; [|discriminate]. injection H as <-. constructor; auto.
Qed.
Lemma pairs_nth {A} (x y d : A) n i : i < n -> nth (2 * i) (concat (repeat [x; y] n)) d = x /\ nth (2 * i + 1) (concat (repeat [x; y] n)) d = y.
Proof.
  revert i. induction n as [|n IH]; intros i H; [lia|]. destruct i as [|i]; [split; reflexivity|]. destruct (IH i ltac:(lia)) as [H1 H2]. replace (2 * S i) with (S (S (2 * i))) by lia. replace (S (S (2 * i)) + 1) with (S (S (2 * i + 1))) by lia. split; assumption.
Qed.
Lemma pairs_length {A} (x y : A) n : length (concat (repeat [x; y] n)) = 2 * n.
Proof. induction n as [|n IH]; cbn [repeat concat app length]; [reflexivity|]. rewrite IH. lia. Qed.

Lemma nx_in actions holds nx i : Forall2 (fun x i => index actions x = Ok i) holds nx -> In i nx -> exists x, In x holds /\ index actions x = Ok i.
Proof. intros F. induction F as [|x j l l' H F IH]; intros K; [destruct K|]. destruct K as [->|K]; [exists x; split; [left|]; auto|]. destruct (IH K) as (y & H1 & H2). exists y. split; [right|]; auto. Qed.

Lemma nodup8 (b0 b1 b2 c0 c1 c2 lg w : nat) : NoDup [b0; b1; b2; c0; c1; c2; lg; w] ->
    (forall i, i < 3 -> In (nth i [b0; b1; b2] 0) [b0; b1; b2]) /\ (forall i, i < 3 -> In (nth i [c0; c1; c2] 0) [c0; c1; c2] /\ ~ In (nth i [c0; c1; c2] 0) [b0; b1; b2]) /\
    (~ In lg [b0; b1; b2] /\ ~ In lg [c0; c1; c2]) /\ (~ In w [b0; b1; b2] /\ ~ In w [c0; c1; c2] /\ w <> lg).
  Proof.
    intros A. repeat match goal with H : NoDup (_ :: _) |- _ => inversion H; clear H; subst end. cbn in *. repeat split; intros; try (match goal with i : nat, Hi : _ < 3 |- _ => destruct i as [|[|[|i]]]; [| | |exfalso; clear - Hi; lia] end); try (solve [auto]); try (intros K; repeat (destruct K as [K|K]); try (exact K));
    try (match goal with K : ?x = ?y, H : ~ _ |- False => solve [apply H; rewrite K; auto 12|apply H; rewrite <- K; auto 12] end).
  Qed.

Section Items.
  Variable n : nat.
  Variable holds : list string.
  Lemma item_first i : i < 3 -> item n holds i = [bring (nth i tools ""%string)].
  Proof. intros H. destruct i as [|[|[|i]]]; try lia; reflexivity. Qed.
  Lemma item_leg i : i < n -> item n holds (2 * i + 3) = [bring "leg"].
  Proof. intros H. unfold item, items. rewrite app_nth2 by (cbn; lia). cbn [length]. replace (2 * i + 3 - 3) with (2 * i) by lia. rewrite app_nth1 by (rewrite pairs_length; lia). apply pairs_nth. auto. Qed.
  Lemma item_hold i : i < n -> item n holds (2 * i + 4) = holds.
  Proof. intros H. unfold item, items. rewrite app_nth2 by (cbn; lia). cbn [length]. replace (2 * i + 4 - 3) with (2 * i + 1) by lia. rewrite app_nth1 by (rewrite pairs_length; lia). apply pairs_nth. auto. Qed.
  Lemma item_last i : i < 3 -> item n holds (2 * n + 3 + i) = [clear (nth i tools ""%string)].
  Proof. intros H. unfold item, items. rewrite app_nth2 by (cbn; lia). cbn [length]. replace (2 * n + 3 + i - 3) with (2 * n + i) by lia. rewrite app_nth2 by (rewrite pairs_length; lia). rewrite pairs_length. replace (2 * n + i - 2 * n) with i by lia. destruct i as [|[|[|i]]]; try lia; reflexivity. Qed.
  Lemma item_end i : 2 * n + 6 <= i -> item n holds i = ["wait"%string].
  Proof. intros H. unfold item, items. apply nth_overflow. rewrite !app_length, pairs_length. cbn. lia. Qed.
  Inductive stage : nat -> Prop :=
  | sg_bring i : i < 3 -> stage i
  | sg_leg i : i < n -> stage (2 * i + 3)
  | sg_hold i : i < n -> stage (2 * i + 4)
  | sg_clear i : i < 3 -> stage (2 * n + 3 + i)
  | sg_wait i : 2 * n + 6 <= i -> stage i.
  Lemma stages i : stage i.
  Proof.
    destruct (Nat.lt_ge_cases i 3) as [H|H]; [apply sg_bring; auto|]. destruct (Nat.lt_ge_cases i (2 * n + 3)) as [H1|H1].
    - destruct (Nat.Even_or_Odd (i - 3)) as [[k E]|[k E]]; [replace i with (2 * k + 3) by lia; apply sg_leg; lia|replace i with (2 * k + 4) by lia; apply sg_hold; lia].
    - destruct (Nat.lt_ge_cases i (2 * n + 6)) as [H2|H2]; [replace i with (2 * n + 3 + (i - 2 * n - 3)) by lia; apply sg_clear; lia|apply sg_wait; auto].
  Qed.
End Items.

Section Script.
  Variables actions observations : list string.
  Variable n_tasks : Z.
  Variable holds : list string.
  Hypothesis Hleg : In (bring "leg") actions.
  Hypothesis Hne : holds <> [].
  Hypothesis Hh : incl holds ["hold H"; "hold V"]%string.
  Variable s0 : script.
  Hypothesis New : new_script actions observations n_tasks holds = Ok s0.
  Let N := Z.to_nat n_tasks.

  Record Inv (s : script) (pos : nat) (b0 b1 b2 c0 c1 c2 lg w : nat) (nx : list nat) : Prop := {
    i_actions : sc_actions s = actions; i_obs : sc_observations s = observations; i_n : sc_n_tasks s = n_tasks; i_next : sc_next s = nx; i_wait : sc_wait s = w;
    i_b0 : index actions (bring "screws") = Ok b0; i_b1 : index actions (bring "screwdriver") = Ok b1; i_b2 : index actions (bring "joints") = Ok b2;
    i_c0 : index actions (clear "screws") = Ok c0; i_c1 : index actions (clear "screwdriver") = Ok c1; i_c2 : index actions (clear "joints") = Ok c2;
    i_lg : index actions (bring "leg") = Ok lg; i_w : index actions "wait" = Ok w; i_nx : Forall2 (fun x i => index actions x = Ok i) holds nx;
    i_bring : sc_to_bring s = skipn pos [b0; b1; b2]; i_clean : sc_to_clean s = skipn (pos - (2 * N + 3)) [c0; c1; c2];
    i_done : sc_n_done s = Z.of_nat (Nat.min (pos - 3) (2 * N) / 2); i_leg : sc_needs_leg s = Nat.even (Nat.min (pos - 3) (2 * N)) }.

  Lemma inv_new : exists b0 b1 b2 c0 c1 c2 lg w nx, Inv s0 0 b0 b1 b2 c0 c1 c2 lg w nx.
  Proof.
    unfold new_script in New. destruct (index actions "wait") as [w|] eqn:Ew; cbn [bind] in New; [|discriminate]. destruct (index observations "none") as [o|]; cbn [bind] in New; [|discriminate]. destruct (mapM (index actions) holds) as [nx|] eqn:En; cbn [bind] in New; [|discriminate].
    unfold script_reset in New. cbn [sc_actions mapM tools] in New.
    destruct (index actions (bring "screws")) as [b0|] eqn:B0; cbn [bind] in New; [|discriminate]. destruct (index actions (bring "screwdriver")) as [b1|] eqn:B1; cbn [bind] in New; [|discriminate]. destruct (index actions (bring "joints")) as [b2|] eqn:B2; cbn [bind] in New; [|discriminate].
    destruct (index actions (clear "screws")) as [c0|] eqn:C0; cbn [bind] in New; [|discriminate]. destruct (index actions (clear "screwdriver")) as [c1|] eqn:C1; cbn [bind] in New; [|discriminate]. destruct (index actions (clear "joints")) as [c2|] eqn:C2; cbn [bind] in New; [|discriminate].
    injection New as <-. destruct (index_from_in actions 0 _ Hleg) as [lg L]. exists b0, b1, b2, c0, c1, c2, lg, w, nx. constructor; cbn; auto. apply mapM_indices. auto.
  Qed.
  Lemma inv_reset s pos b0 b1 b2 c0 c1 c2 lg w nx : Inv s pos b0 b1 b2 c0 c1 c2 lg w nx -> exists s', script_reset s = Ok s' /\ Inv s' 0 b0 b1 b2 c0 c1 c2 lg w nx.
  Proof.
    intros [I1 I2 I3 I4 I5 B0 B1 B2 C0 C1 C2 L W NX I6 I7 I8 I9]. unfold script_reset. rewrite I1. cbn [mapM tools]. rewrite B0, B1, B2, C0, C1, C2. cbn [bind]. eexists. split; [reflexivity|]. constructor; cbn; auto.
  Qed.
  Lemma N_lt i : i < N -> (Z.of_nat i <? n_tasks)%Z = true.
  Proof. unfold N. intros H. apply Z.ltb_lt. lia. Qed.
  Lemma N_ge : (Z.of_nat N <? n_tasks)%Z = false.
  Proof. unfold N. apply Z.ltb_ge. lia. Qed.
  Lemma half2 i : Nat.even (2 * i) = true /\ 2 * i / 2 = i /\ Nat.even (2 * i + 1) = false /\ (2 * i + 1) / 2 = i.
  Proof.
    split; [rewrite Nat.even_mul; reflexivity|]. split; [rewrite Nat.mul_comm; apply Nat.div_mul; lia|]. split; [rewrite Nat.even_add, Nat.even_mul; reflexivity|]. symmetry. apply Nat.div_unique with 1; lia.
  Qed.
  (** The action chosen at a place of the script. *)
  Lemma chosen s pos b0 b1 b2 c0 c1 c2 lg w nx d : Inv s pos b0 b1 b2 c0 c1 c2 lg w nx -> exists a x, script_action s d = Ok a /\ index actions x = Ok a /\ In x (item N holds pos) /\
    (pos < 3 -> a = nth pos [b0; b1; b2] 0) /\ (forall i, i < N -> pos = 2 * i + 3 -> a = lg) /\ (forall i, i < N -> pos = 2 * i + 4 -> In a nx) /\ (forall i, i < 3 -> pos = 2 * N + 3 + i -> a = nth i [c0; c1; c2] 0) /\ (2 * N + 6 <= pos -> a = w).
  Proof.
    intros [I1 I2 I3 I4 I5 B0 B1 B2 C0 C1 C2 L W NX I6 I7 I8 I9]. unfold script_action. rewrite I6, I8, I9, I7, I3, I4, I5, I1. destruct (stages N pos) as [i H|i H|i H|i H|i H].
    - assert (G : exists a x, nth_error [b0; b1; b2] i = Some a /\ nth_error tools i = Some x /\ index actions (bring x) = Ok a).
      { destruct i as [|[|[|i]]]; [exists b0, "screws"%string|exists b1, "screwdriver"%string|exists b2, "joints"%string|lia]; repeat split; auto. }
      destruct G as (a & x & Ga & Gx & Gi). exists a, (bring x). split; [destruct i as [|[|[|i]]]; cbn in *; try lia; congruence|]. split; [auto|]. split; [rewrite item_first by auto; rewrite (nth_error_nth _ _ ""%string Gx); left; auto|]. split; [intros _; symmetry; apply (nth_error_nth _ _ 0 Ga)|]. repeat split; intros; lia.
    - replace (Nat.min (2 * i + 3 - 3) (2 * N)) with (2 * i) by lia. destruct (half2 i) as (-> & -> & _). rewrite (N_lt i H). rewrite skipn_all2 by (cbn; lia). exists lg, (bring "leg"). split; [auto|]. split; [auto|]. split; [rewrite item_leg by auto; left; auto|]. repeat split; intros; try lia; reflexivity.
    - replace (Nat.min (2 * i + 4 - 3) (2 * N)) with (2 * i + 1) by lia. destruct (half2 i) as (_ & _ & -> & ->). rewrite (N_lt i H). rewrite skipn_all2 by (cbn; lia).
      assert (Nn : nx <> []) by (intros ->; inversion NX; subst; congruence). unfold choice. destruct nx as [|a0 nx'] eqn:En; [congruence|]. rewrite <- En in *. set (a := nth (d mod length nx) nx 0). assert (Ha : In a nx) by (apply nth_In; apply Nat.mod_upper_bound; subst nx; discriminate).
      destruct (nx_in _ _ nx a NX Ha) as (x & Hx & Hi). exists a, x. split; [auto|]. split; [auto|]. split; [rewrite item_hold by auto; auto|]. repeat split; intros; try lia; auto.
    - replace (Nat.min (2 * N + 3 + i - 3) (2 * N)) with (2 * N) by lia. destruct (half2 N) as (-> & -> & _). rewrite N_ge. rewrite skipn_all2 by (cbn; lia). replace (2 * N + 3 + i - (2 * N + 3)) with i by lia.
      assert (G : exists a x, nth_error [c0; c1; c2] i = Some a /\ nth_error tools i = Some x /\ index actions (clear x) = Ok a).
      { destruct i as [|[|[|i]]]; [exists c0, "screws"%string|exists c1, "screwdriver"%string|exists c2, "joints"%string|lia]; repeat split; auto. }
      destruct G as (a & x & Ga & Gx & Gi). exists a, (clear x). split; [destruct i as [|[|[|i]]]; cbn in *; try lia; congruence|]. split; [auto|]. split; [rewrite item_last by auto; rewrite (nth_error_nth _ _ ""%string Gx); left; auto|]. repeat split; intros; try lia. replace i0 with i by lia. symmetry; apply (nth_error_nth _ _ 0 Ga).
    - replace (Nat.min (i - 3) (2 * N)) with (2 * N) by lia. destruct (half2 N) as (-> & -> & _). rewrite N_ge. rewrite !skipn_all2 by (cbn; lia). exists w, "wait"%string. split; [auto|]. split; [auto|]. split; [rewrite item_end by auto; left; auto|]. repeat split; intros; lia.
  Qed.
  Lemma inv_last s pos b0 b1 b2 c0 c1 c2 lg w nx a : Inv s pos b0 b1 b2 c0 c1 c2 lg w nx -> Inv (set_last s a) pos b0 b1 b2 c0 c1 c2 lg w nx.
  Proof. intros [I1 I2 I3 I4 I5 B0 B1 B2 C0 C1 C2 L W NX I6 I7 I8 I9]. constructor; cbn; auto. Qed.
  Lemma inv_history s pos b0 b1 b2 c0 c1 c2 lg w nx l : Inv s pos b0 b1 b2 c0 c1 c2 lg w nx -> Inv (extend_history s l) pos b0 b1 b2 c0 c1 c2 lg w nx.
  Proof. intros [I1 I2 I3 I4 I5 B0 B1 B2 C0 C1 C2 L W NX I6 I7 I8 I9]. constructor; cbn; auto. Qed.
  Lemma get_ok s pos b0 b1 b2 c0 c1 c2 lg w nx d : Inv s pos b0 b1 b2 c0 c1 c2 lg w nx -> exists x, snd (script_get_action s d) = Ok x /\ In x (item N holds pos) /\ Inv (fst (script_get_action s d)) pos b0 b1 b2 c0 c1 c2 lg w nx.
  Proof.
    intros I. destruct (chosen _ _ _ _ _ _ _ _ _ _ _ d I) as (a & x & E & Ex & Hx & _). unfold script_get_action. rewrite E. cbn [fst snd]. rewrite (i_actions _ _ _ _ _ _ _ _ _ _ _ I), (index_ok _ _ _ Ex). exists x. split; [auto|]. split; [auto|]. apply inv_last. auto.
  Qed.
  (** The indices used by step are different. *)
  Lemma apart s pos b0 b1 b2 c0 c1 c2 lg w nx : Inv s pos b0 b1 b2 c0 c1 c2 lg w nx -> NoDup [b0; b1; b2; c0; c1; c2; lg; w] /\ (forall a, In a nx -> ~ In a [b0; b1; b2; c0; c1; c2; lg; w]).
  Proof.
    intros [I1 I2 I3 I4 I5 B0 B1 B2 C0 C1 C2 L W NX I6 I7 I8 I9]. pose proof (fun x y i j (H1 : index actions x = Ok i) (H2 : index actions y = Ok j) => index_differ actions x y i j H1 H2) as D. split.
    - repeat constructor; cbn; intros K; repeat (destruct K as [K|K]); try (exact K); revert K;
      match goal with |- ?i = ?j -> False => match goal with H1 : index actions ?x = Ok i, H2 : index actions ?y = Ok j |- _ => apply (D x y i j H1 H2); discriminate end end.
    - intros a Ha. destruct (nx_in _ _ nx a NX Ha) as (x & Hx & Hi). apply Hh in Hx. cbn in Hx.
      cbn; intros K; repeat (destruct K as [K|K]); try (exact K); revert K;
      match goal with |- ?i = ?j -> False => match goal with H1 : index actions ?x = Ok i, H2 : index actions ?y = Ok j |- _ => apply (D x y i j H1 H2); destruct Hx as [<-|[<-|[]]]; discriminate end end.
  Qed.
  Lemma holding_no i : (forall k, k < N -> i <> 2 * k + 4) -> ~ holding N i.
  Proof. intros H (k & Hk & E). apply (H k Hk E). Qed.
  Lemma done_ok s pos b0 b1 b2 c0 c1 c2 lg w nx d a none : Inv s pos b0 b1 b2 c0 c1 c2 lg w nx -> script_action s d = Ok a ->
    (none = true \/ ~ holding N pos -> exists s', script_done s a none = Ok s' /\ Inv s' (S pos) b0 b1 b2 c0 c1 c2 lg w nx) /\
    (none = false -> holding N pos -> script_done s a none = Err EUnexpected).
  Proof.
    intros I Ea. destruct (chosen _ _ _ _ _ _ _ _ _ _ _ d I) as (a' & x & E & Ex & Hx & G1 & G2 & G3 & G4 & G5). assert (a' = a) as -> by congruence. destruct (apart _ _ _ _ _ _ _ _ _ _ _ I) as [A1 A2]. destruct (nodup8 _ _ _ _ _ _ _ _ A1) as (N1 & N2 & (N3 & N4) & (N5 & N6 & N7)).
    destruct I as [I1 I2 I3 I4 I5 B0 B1 B2 C0 C1 C2 L W NX I6 I7 I8 I9]. unfold script_done. rewrite I1. cbn [mapM tools]. rewrite B0, B1, B2, C0, C1, C2, L. cbn [bind]. destruct (stages N pos) as [i H|i H|i H|i H|i H].
    - rewrite (G1 H). rewrite (mem_true _ _ (N1 i H)). rewrite I6. split; [intros _|intros _ (k & Hk & K); lia].
      assert (R : remove_first (nth i [b0; b1; b2] 0) (skipn i [b0; b1; b2]) = Ok (skipn (S i) [b0; b1; b2])) by (destruct i as [|[|[|i]]]; [| | |lia]; cbn; rewrite Nat.eqb_refl; reflexivity). rewrite R. cbn [bind]. eexists. split; [reflexivity|]. constructor; cbn [set_progress sc_actions sc_observations sc_n_tasks sc_next sc_wait sc_to_bring sc_to_clean sc_n_done sc_needs_leg]; auto.
      + rewrite I7. f_equal. lia.
      + rewrite I8. replace (i - 3) with 0 by lia. replace (S i - 3) with 0 by lia. reflexivity.
      + rewrite I9. replace (i - 3) with 0 by lia. replace (S i - 3) with 0 by lia. reflexivity.
    - rewrite (G2 i H eq_refl), (mem_false _ _ N3), (mem_false _ _ N4), Nat.eqb_refl. split; [intros _|intros _ (k & Hk & K); lia]. eexists. split; [reflexivity|]. constructor; cbn [set_progress sc_actions sc_observations sc_n_tasks sc_next sc_wait sc_to_bring sc_to_clean sc_n_done sc_needs_leg]; auto.
      + rewrite I6, !skipn_all2; auto; cbn; lia.
      + rewrite I7. replace (S (2 * i + 3) - (2 * N + 3)) with 0 by lia. replace (2 * i + 3 - (2 * N + 3)) with 0 by lia. reflexivity.
      + rewrite I8. replace (Nat.min (2 * i + 3 - 3) (2 * N)) with (2 * i) by lia. replace (Nat.min (S (2 * i + 3) - 3) (2 * N)) with (2 * i + 1) by lia. destruct (half2 i) as (_ & -> & _ & ->). reflexivity.
      + replace (Nat.min (S (2 * i + 3) - 3) (2 * N)) with (2 * i + 1) by lia. destruct (half2 i) as (_ & _ & -> & _). reflexivity.
    - pose proof (G3 i H eq_refl) as Ha. pose proof (A2 a Ha) as Na. rewrite (mem_false a [b0; b1; b2]), (mem_false a [c0; c1; c2]) by (cbn in *; tauto). destruct (Nat.eqb_spec a lg) as [->|_]; [cbn in Na; tauto|]. rewrite I4, (mem_true _ _ Ha). rewrite I5. destruct (Nat.eqb_spec a w) as [->|_]; [cbn in Na; tauto|]. split.
      + intros [->|K]; [|exfalso; apply K; exists i; split; [auto|lia]]. cbn [andb]. eexists. split; [reflexivity|]. constructor; cbn [set_progress sc_actions sc_observations sc_n_tasks sc_next sc_wait sc_to_bring sc_to_clean sc_n_done sc_needs_leg]; auto.
        * rewrite I6, !skipn_all2; auto; cbn; lia.
        * rewrite I7. replace (S (2 * i + 4) - (2 * N + 3)) with 0 by lia. replace (2 * i + 4 - (2 * N + 3)) with 0 by lia. reflexivity.
        * rewrite I8. replace (Nat.min (2 * i + 4 - 3) (2 * N)) with (2 * i + 1) by lia. replace (Nat.min (S (2 * i + 4) - 3) (2 * N)) with (2 * (i + 1)) by lia. destruct (half2 i) as (_ & _ & _ & ->). destruct (half2 (i + 1)) as (_ & -> & _). lia.
        * replace (Nat.min (S (2 * i + 4) - 3) (2 * N)) with (2 * (i + 1)) by lia. destruct (half2 (i + 1)) as (-> & _). reflexivity.
      + intros -> _. reflexivity.
    - rewrite (G4 i H eq_refl). destruct (N2 i H) as [M1 M2]. rewrite (mem_false _ _ M2), (mem_true _ _ M1). rewrite I7. replace (2 * N + 3 + i - (2 * N + 3)) with i by lia. split; [intros _|intros _ (k & Hk & K); lia].
      assert (R : remove_first (nth i [c0; c1; c2] 0) (skipn i [c0; c1; c2]) = Ok (skipn (S i) [c0; c1; c2])) by (destruct i as [|[|[|i]]]; [| | |lia]; cbn; rewrite Nat.eqb_refl; reflexivity). rewrite R. cbn [bind]. eexists. split; [reflexivity|]. constructor; cbn [set_progress sc_actions sc_observations sc_n_tasks sc_next sc_wait sc_to_bring sc_to_clean sc_n_done sc_needs_leg]; auto.
      + rewrite I6, !skipn_all2; auto; cbn; lia.
      + replace (S (2 * N + 3 + i) - (2 * N + 3)) with (S i) by lia. reflexivity.
      + rewrite I8. replace (Nat.min (2 * N + 3 + i - 3) (2 * N)) with (2 * N) by lia. replace (Nat.min (S (2 * N + 3 + i) - 3) (2 * N)) with (2 * N) by lia. reflexivity.
      + rewrite I9. replace (Nat.min (2 * N + 3 + i - 3) (2 * N)) with (2 * N) by lia. replace (Nat.min (S (2 * N + 3 + i) - 3) (2 * N)) with (2 * N) by lia. reflexivity.
    - rewrite (G5 H), (mem_false _ _ N5), (mem_false _ _ N6). destruct (Nat.eqb_spec w lg) as [K|_]; [congruence|]. rewrite I4, I5, Nat.eqb_refl. rewrite (mem_false w nx) by (intros K; apply (A2 w K); cbn; tauto). cbn [andb]. split; [intros _|intros _ (k & Hk & K); lia]. exists s. split; [auto|]. constructor; auto.
      + rewrite I6, !skipn_all2; auto; cbn; lia.
      + rewrite I7, !skipn_all2; auto; cbn [length]; lia.
      + rewrite I8. replace (Nat.min (i - 3) (2 * N)) with (2 * N) by lia. replace (Nat.min (S i - 3) (2 * N)) with (2 * N) by lia. reflexivity.
      + rewrite I9. replace (Nat.min (i - 3) (2 * N)) with (2 * N) by lia. replace (Nat.min (S i - 3) (2 * N)) with (2 * N) by lia. reflexivity.
  Qed.
  Lemma step_ok s pos b0 b1 b2 c0 c1 c2 lg w nx d o : Inv s pos b0 b1 b2 c0 c1 c2 lg w nx ->
    answer N observations pos o (snd (script_step (fst (script_get_action s d)) o)) /\
    (In o observations -> completes N pos o -> Inv (fst (script_step (fst (script_get_action s d)) o)) (S pos) b0 b1 b2 c0 c1 c2 lg w nx) /\
    (~ (In o observations /\ completes N pos o) -> Inv (fst (script_step (fst (script_get_action s d)) o)) pos b0 b1 b2 c0 c1 c2 lg w nx).
  Proof.
    intros I. destruct (chosen _ _ _ _ _ _ _ _ _ _ _ d I) as (a & x & E & _). unfold script_get_action. rewrite E. cbn [fst]. unfold script_step. cbn [set_last sc_last sc_observations]. rewrite (i_obs _ _ _ _ _ _ _ _ _ _ _ I). pose proof (inv_last _ _ _ _ _ _ _ _ _ _ _ a I) as I'.
    destruct (in_dec string_dec o observations) as [Hin|Hout].
    - destruct (index_from_in observations 0 o Hin) as [i Ei]. unfold index. rewrite Ei. pose proof (inv_history _ _ _ _ _ _ _ _ _ _ _ [a; i] I') as J. assert (Ej : script_action (extend_history (set_last s a) [a; i]) d = Ok a) by exact E. set (s1 := extend_history (set_last s a) [a; i]) in *. unfold answer, completes. destruct (String.eqb_spec o "fail") as [->|Nf].
      + cbn [fst snd]. (split; [split; [|split]|split]); try tauto; intros _ [K|[K _]]; discriminate.
      + destruct (String.eqb_spec o "none") as [->|Nn]; cbn [orb].
        * destruct (proj1 (done_ok _ _ _ _ _ _ _ _ _ _ _ d a true J Ej) (or_introl eq_refl)) as (s' & -> & I2). cbn [fst snd]. (split; [split; [|split]|split]); auto; intros; exfalso; tauto.
        * destruct (String.eqb_spec o "not-found") as [->|Nm].
          -- destruct (Nat.lt_ge_cases pos 3) as [P|P]; [|destruct (stages N pos) as [k P'|k P'|k P'|k P'|k P']; [lia| | | |]].
             all: try (assert (NH : ~ holding N pos) by (intros (k' & H1 & H2); lia); destruct (proj1 (done_ok _ _ _ _ _ _ _ _ _ _ _ d a false J Ej) (or_intror NH)) as (s' & -> & I2); cbn [fst snd]; (split; [split; [|split]|split]); auto; intros; exfalso; tauto).
             all: try (match goal with |- context [holding N ?q] => assert (NH : ~ holding N q) by (intros (k' & H1 & H2); lia); destruct (proj1 (done_ok _ _ _ _ _ _ _ _ _ _ _ d a false J Ej) (or_intror NH)) as (s' & -> & I2); cbn [fst snd]; (split; [split; [|split]|split]); auto; intros; exfalso; tauto end).
             assert (HH : holding N (2 * k + 4)) by (exists k; split; [auto|lia]). rewrite (proj2 (done_ok _ _ _ _ _ _ _ _ _ _ _ d a false J Ej) eq_refl HH). cbn [fst snd]. (split; [split; [|split]|split]); auto; try tauto.
          -- cbn [fst snd]. (split; [split; [|split]|split]); auto; try tauto.
    - unfold index. rewrite (index_from_out observations 0 o Hout). cbn [fst snd]. unfold answer. (split; [split; [|split]|split]); auto; try tauto.
  Qed.
  Lemma after_ok ts pos : reaches N observations ts pos -> exists s b0 b1 b2 c0 c1 c2 lg w nx, after s0 ts = Some s /\ Inv s pos b0 b1 b2 c0 c1 c2 lg w nx.
  Proof.
    intros R. induction R as [|d ts pos R IH|d o ts pos R IH Ho Hc|d o ts pos R IH Hn|ts pos R IH].
    - destruct inv_new as (b0 & b1 & b2 & c0 & c1 & c2 & lg & w & nx & I). exists s0, b0, b1, b2, c0, c1, c2, lg, w, nx. split; auto.
    - destruct IH as (s & b0 & b1 & b2 & c0 & c1 & c2 & lg & w & nx & E & I). destruct (get_ok _ _ _ _ _ _ _ _ _ _ _ d I) as (x & _ & _ & J). do 10 eexists. split; [cbn; rewrite E; reflexivity|exact J].
    - destruct IH as (s & b0 & b1 & b2 & c0 & c1 & c2 & lg & w & nx & E & I). destruct (step_ok _ _ _ _ _ _ _ _ _ _ _ d o I) as (_ & J & _). do 10 eexists. split; [cbn; rewrite E; reflexivity|exact (J Ho Hc)].
    - destruct IH as (s & b0 & b1 & b2 & c0 & c1 & c2 & lg & w & nx & E & I). destruct (step_ok _ _ _ _ _ _ _ _ _ _ _ d o I) as (_ & _ & J). do 10 eexists. split; [cbn; rewrite E; reflexivity|exact (J Hn)].
    - destruct IH as (s & b0 & b1 & b2 & c0 & c1 & c2 & lg & w & nx & E & I). destruct (inv_reset _ _ _ _ _ _ _ _ _ _ _ I) as (s' & Es & J). do 10 eexists. split; [cbn; rewrite E, Es; reflexivity|exact J].
  Qed.
  Lemma twice ts pos s' d : reaches N observations ts pos -> pos < 3 -> after s0 ts = Some s' -> In "none"%string observations ->
    snd (script_step (fst (script_step (fst (script_get_action s' d)) "none")) "none") = Err EValue.
  Proof.
    intros R P E Ho. destruct (after_ok ts pos R) as (s & b0 & b1 & b2 & c0 & c1 & c2 & lg & w & nx & E' & I). assert (s = s') as -> by congruence.
    destruct (chosen _ _ _ _ _ _ _ _ _ _ _ d I) as (a & x & Ea & _ & _ & G1 & _). specialize (G1 P). destruct (apart _ _ _ _ _ _ _ _ _ _ _ I) as [A1 _]. destruct (nodup8 _ _ _ _ _ _ _ _ A1) as (N1 & _).
    unfold script_get_action. rewrite Ea. cbn [fst]. unfold script_step at 2. cbn [set_last sc_last sc_observations]. destruct (index_from_in observations 0 _ Ho) as [i Ei]. rewrite (i_obs _ _ _ _ _ _ _ _ _ _ _ I). unfold index at 1. rewrite Ei. cbn [String.eqb Ascii.eqb Bool.eqb orb].
    assert (D : forall s1 l, sc_actions s1 = actions -> sc_to_bring s1 = l -> script_done s1 a true = do l' <- remove_first a l; Ok (set_progress s1 l' (sc_to_clean s1) (sc_needs_leg s1) (sc_n_done s1))).
    { intros s1 l H1 H2. unfold script_done. rewrite H1. cbn [mapM tools]. rewrite (i_b0 _ _ _ _ _ _ _ _ _ _ _ I), (i_b1 _ _ _ _ _ _ _ _ _ _ _ I), (i_b2 _ _ _ _ _ _ _ _ _ _ _ I). cbn [bind]. rewrite G1, (mem_true _ _ (N1 pos P)), H2. reflexivity. }
    rewrite (D _ (skipn pos [b0; b1; b2])) by (cbn; apply I).
    assert (R1 : remove_first a (skipn pos [b0; b1; b2]) = Ok (skipn (S pos) [b0; b1; b2])) by (rewrite G1; destruct pos as [|[|[|k]]]; [| | |clear - P; lia]; cbn; rewrite Nat.eqb_refl; reflexivity).
    assert (R2 : remove_first a (skipn (S pos) [b0; b1; b2]) = Err EValue).
    { rewrite G1. clear - P A1. inversion A1 as [|? ? H1 H2]; subst. inversion H2 as [|? ? H3 H4]; subst. destruct pos as [|[|[|k]]]; [| | |lia]; cbn in *; repeat match goal with |- context [?x =? ?y] => destruct (Nat.eqb_spec x y); [exfalso; tauto|] end; reflexivity. }
    rewrite R1. cbn [bind fst]. unfold script_step. cbn [set_progress extend_history set_last sc_last sc_observations]. rewrite (i_obs _ _ _ _ _ _ _ _ _ _ _ I). unfold index at 1. rewrite Ei. cbn [String.eqb Ascii.eqb Bool.eqb orb]. rewrite (D _ (skipn (S pos) [b0; b1; b2])) by (cbn; first [apply I|reflexivity]). rewrite R2. reflexivity.
  Qed.
End Script.

Lemma holding_dec n pos : holding n pos \/ ~ holding n pos.
Proof.
  destruct (stages n pos) as [k H|k H|k H|k H|k H]; [| |left; exists k; split; [auto|lia]| |]; right; intros (k' & H1 & H2); lia.
Qed.
Lemma reaches_total n observations ts : exists pos, reaches n observations ts pos.
Proof.
  induction ts as [|u ts [pos IH]]; [exists 0; constructor|]. destruct u as [d|d o|]; [exists pos; constructor; auto| |exists 0; apply re_again with pos; auto].
  assert (D : (In o observations /\ completes n pos o) \/ ~ (In o observations /\ completes n pos o)).
  { unfold completes. destruct (in_dec string_dec o observations), (string_dec o "none"), (string_dec o "not-found"), (holding_dec n pos); tauto. }
  destruct D as [[D1 D2]|D]; [exists (S pos); apply re_next; auto|exists pos; apply re_same; auto].
Qed.
Lemma reaches_fun n observations ts : forall p q, reaches n observations ts p -> reaches n observations ts q -> p = q.
Proof.
  induction ts as [|u ts IH]; intros p q H1 H2.
  - inversion H1; inversion H2; auto.
  - inversion H1; subst; inversion H2; subst; try reflexivity; try (solve [apply IH; assumption]); try (f_equal; solve [apply IH; assumption]);
      match goal with A : reaches _ _ ts ?x, B : reaches _ _ ts ?y, K : ~ _ |- _ => assert (x = y) by (apply IH; assumption); subst; exfalso; apply K; split; assumption end.
Qed.

Lemma mapM_ok_iff {A} (l : list string) (f : A -> string) xs : (exists is, mapM (fun x => index l (f x)) xs = Ok is) <-> forall x, In x xs -> In (f x) l.
Proof.
  induction xs as [|x xs IH]; cbn; [split; [tauto|eauto]|]. split.
  - intros [is H] y [<-|Hy].
    + destruct (index l (f x)) as [i|] eqn:E; [apply index_ok in E; apply (nth_error_In _ _ E)|discriminate].
    + apply IH; auto. destruct (index l (f x)); cbn in H; [|discriminate]. destruct (mapM _ xs); cbn in H; [eauto|discriminate].
  - intros H. destruct (index_from_in l 0 (f x)) as [i E]; [auto|]. unfold index at 1. rewrite E. cbn [bind]. destruct (proj2 IH) as [is ->]; [auto|]. cbn. eauto.
Qed.
Lemma mapM_err_index {A} (l : list string) (f : A -> string) xs e : mapM (fun x => index l (f x)) xs = Err e -> e = EValue.
Proof.
  induction xs as [|x xs IH]; cbn; [discriminate|]. destruct (index l (f x)) as [i|] eqn:E; cbn.
  - destruct (mapM _ xs) as [is|e']; cbn; [discriminate|]. intros H. apply IH. congruence.
  - intros H. assert (E' : index l (f x) = Err EValue \/ exists i, index l (f x) = Ok i).
    { destruct (in_dec string_dec (f x) l) as [I|I]; [right; apply index_from_in; auto|left; apply index_from_out; auto]. }
    destruct E' as [E'|[i E']]; congruence.
Qed.
Lemma new_iff actions observations n_tasks holds :
  ((exists s, new_script actions observations n_tasks holds = Ok s) <->
    In "wait"%string actions /\ In "none"%string observations /\ incl holds actions /\ (forall o, In o tools -> In (bring o) actions /\ In (clear o) actions)) /\
  (forall e, new_script actions observations n_tasks holds = Err e -> e = EValue).
Proof.
  assert (IX : forall l x, (exists i, index l x = Ok i /\ In x l) \/ (index l x = Err EValue /\ ~ In x l)).
  { intros l x. destruct (in_dec string_dec x l) as [I|I]; [left; destruct (index_from_in l 0 x I) as [i H]; eauto|right; split; auto; apply index_from_out; auto]. }
  unfold new_script. destruct (IX actions "wait"%string) as [(w & -> & W)|(-> & W)]; cbn [bind]; [|split; [split; [intros [s H]; discriminate|tauto]|congruence]].
  destruct (IX observations "none"%string) as [(o & -> & O)|(-> & O)]; cbn [bind]; [|split; [split; [intros [s H]; discriminate|tauto]|congruence]].
  pose proof (mapM_ok_iff actions (fun x => x) holds) as M1. pose proof (mapM_err_index actions (fun x => x) holds) as X1. unfold incl. change (mapM (fun x => index actions x) holds) with (mapM (index actions) holds) in *. destruct (mapM (index actions) holds) as [nx|e]; cbn [bind].
  - assert (H0 : forall x, In x holds -> In x actions) by (apply M1; eauto). unfold script_reset. cbn [sc_actions]. pose proof (mapM_ok_iff actions bring tools) as M2. pose proof (mapM_err_index actions bring tools) as X2. destruct (mapM (fun o0 => index actions (bring o0)) tools) as [b|e2]; cbn [bind].
    + pose proof (mapM_ok_iff actions clear tools) as M3. pose proof (mapM_err_index actions clear tools) as X3. assert (H2 : forall x, In x tools -> In (bring x) actions) by (apply M2; eauto). destruct (mapM (fun o0 => index actions (clear o0)) tools) as [c|e3]; cbn [bind].
      * assert (H3 : forall x, In x tools -> In (clear x) actions) by (apply M3; eauto). split; [split; [intros _; repeat split; auto|eauto]|discriminate].
      * split; [split; [intros [s H]; discriminate|intros (_ & _ & _ & H); exfalso; destruct (proj2 M3) as [is H']; [apply H|discriminate]]|]. intros e' E'. injection E' as <-. apply X3. auto.
    + split; [split; [intros [s H]; discriminate|intros (_ & _ & _ & H); exfalso; destruct (proj2 M2) as [is H']; [apply H|discriminate]]|]. intros e' E'. injection E' as <-. apply X2. auto.
  - split; [split; [intros [s H]; discriminate|intros (_ & _ & H & _); exfalso; destruct (proj2 M1) as [is H']; [apply H|discriminate]]|]. intros e' E'. injection E' as <-. apply X1. auto.
Qed.
