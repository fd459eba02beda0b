(** C81, exactly: when sampling from the tables of an accepted POMDP raises, and what it returns otherwise. *)
From Verif Require Import QBase PyBase PyBaseFacts PomdpModel PomdpSpec PomdpProofs PomdpProofs2 Props_Pomdp.
From Coq Require Import Lia Lqa Field.
Local Open Scope nat_scope.

(** *** Specification *)
(** What random choice accepts: no negative number, and a sum that is 1 up to 2^-26. *)
Definition drawable (n : nat) (f : nat -> Q) : Prop := (forall i, i < n -> (0 <= f i)%Q) /\ (Qabs (sum_n n f - 1) <= 1 # 67108864)%Q.
(** The draw u is in the interval of k, of length f k in an interval that has the sum of all as length. *)
Definition drawn (n : nat) (f : nat -> Q) (u : Q) (k : nat) : Prop := k < n /\ (sum_n k f <= u * sum_n n f < sum_n k f + f k)%Q.
Definition unit_interval (u : Q) : Prop := (0 <= u < 1)%Q.

(** *** Random choice *)
Lemma drawable_dec n f : drawable n f \/ ~ drawable n f.
Proof.
  unfold drawable. destruct (Qlt_le_dec (1 # 67108864) (Qabs (sum_n n f - 1))) as [H|H].
  - right. intros [_ K]. lra.
  - destruct (forallb (fun i => Qle_bool 0 (f i)) (seq 0 n)) eqn:E.
    + left. split; [|auto]. intros i Hi. rewrite forallb_forall in E. apply Qle_bool_iff, E, in_seq. lia.
    + right. intros [K _]. assert (forallb (fun i => Qle_bool 0 (f i)) (seq 0 n) = true); [|congruence].
      apply forallb_forall. intros i Hi. apply in_seq in Hi. apply Qle_bool_iff, K. lia.
Qed.

Lemma choice_drawable n f u : drawable n f -> unit_interval u ->
  (exists k, random_choice (map f (seq 0 n)) u = Ok k) /\ forall k, random_choice (map f (seq 0 n)) u = Ok k <-> drawn n f u k.
Proof.
  intros [H0 H1] Hu. destruct (random_choice_spec (map f (seq 0 n)) u) as [C1 C2].
  - intros x Hx. apply in_map_iff in Hx. destruct Hx as [i [<- Hi]]. apply in_seq in Hi. apply H0. lia.
  - rewrite sumQ_map_seq. exact H1.
  - exact Hu.
  - split; [auto|]. intros k. rewrite C2, map_length, seq_length, sumQ_map_seq. unfold drawn.
    split; intros [K1 K2]; (split; [auto|]).
    + rewrite !firstn_map_seq, !sumQ_map_seq, sum_n_S in K2 by lia. exact K2.
    + rewrite !firstn_map_seq, !sumQ_map_seq, sum_n_S by lia. exact K2.
Qed.

Lemma choice_refused n f u : ~ drawable n f -> random_choice (map f (seq 0 n)) u = Err EValue.
Proof.
  intros H. unfold random_choice. destruct (forallb (fun x => Qle_bool 0 x) (map f (seq 0 n))) eqn:E; [|reflexivity]. cbn [negb].
  destruct (Qle_bool (Qabs (sumQ (map f (seq 0 n)) - 1)) (1 # 67108864)) eqn:E2; [|reflexivity]. exfalso. apply H. split.
  - intros i Hi. rewrite forallb_forall in E. apply Qle_bool_iff, E, in_map, in_seq. lia.
  - apply Qle_bool_iff. rewrite sumQ_map_seq in E2. exact E2.
Qed.

(** A draw reaches k exactly when it has a positive weight. *)
Lemma drawn_pos n f k : drawable n f -> k < n -> ((0 < f k)%Q <-> exists u, unit_interval u /\ drawn n f u k).
Proof.
  intros [H0 H1] Hk. assert (HS : (0 < sum_n n f)%Q). { apply Qabs_Qle_condition in H1. lra. }
  split.
  - intros Hf. exists (sum_n k f / sum_n n f)%Q.
    assert (E : (sum_n k f / sum_n n f * sum_n n f == sum_n k f)%Q) by (field; lra).
    assert (L : (sum_n (S k) f <= sum_n n f)%Q).
    { replace n with (S k + (n - S k)) by lia. unfold sum_n at 2. rewrite seq_app, sum_app. fold (sum_n (S k) f).
      assert (0 <= sum_over (seq (0 + S k) (n - S k)) f)%Q; [|lra]. apply sum_nonneg. intros i Hi. apply in_seq in Hi. apply H0. lia. }
    assert (N : (0 <= sum_n k f)%Q) by (apply sum_n_nonneg; intros; apply H0; lia).
    rewrite sum_n_S in L. split; [|split; [auto|]].
    + split; [apply Qle_shift_div_l; lra|apply Qlt_shift_div_r; lra].
    + rewrite E. lra.
  - intros [u [Hu [_ K]]]. lra.
Qed.

(** *** C81 *)
Section Accepted.
  Variables (T O R start : array) (discount : Q) (gs ga go : option (list name)) (values : string) (solver : bool) (p : pomdp).
  Hypothesis accepted : mk_pomdp T O R start discount gs ga go values solver = Ok p.

  Lemma accepted_shape : well_shaped p.
  Proof.
    destruct (proj1 (C43_accepts T O R start discount gs ga go values) solver p accepted) as [A (_ & _ & _ & ET & EO & ES & _ & ER & _)].
    destruct A as (_ & A1 & A2 & A3 & A4 & _). unfold well_shaped, nS, nA, nO. rewrite ET, EO, ES, ER. auto.
  Qed.

  (** The start is drawn with its probability among all, or nothing ever is. *)
  Theorem C81_start_partial :
    (drawable (nS p) (Start p) -> forall u, unit_interval u ->
       (exists s, pomdp_sample_start p u = Ok s) /\ forall s, pomdp_sample_start p u = Ok s <-> drawn (nS p) (Start p) u s) /\
    (~ drawable (nS p) (Start p) -> forall u, pomdp_sample_start p u = Err EValue).
  Proof.
    destruct accepted_shape as (W1 & _).
    assert (E : forall u, pomdp_sample_start p u = random_choice (map (Start p) (seq 0 (nS p))) u).
    { intros u. unfold pomdp_sample_start, row. rewrite W1. reflexivity. }
    split; intros H u; [intros Hu|]; rewrite E; [exact (choice_drawable _ _ _ H Hu)|exact (choice_refused _ _ _ H)].
  Qed.

  (** Transitions: what happens for every draw. *)
  Theorem C81_transition_partial : forall a s u v, a < nA p -> s < nS p -> unit_interval u -> unit_interval v ->
    let next := Tr p a s in
    let result := pomdp_sample_transition p u v (Z.of_nat a) (Z.of_nat s) in
    (drawable (nS p) next -> exists s', drawn (nS p) next u s' /\
       (drawable (nO p) (Ob p a s') -> exists o, drawn (nO p) (Ob p a s') v o /\ result = Ok (s', o, at_ (p_R p) [a; s; s'; o])) /\
       (~ drawable (nO p) (Ob p a s') -> result = Err EValue)) /\
    (~ drawable (nS p) next -> result = Err EValue).
  Proof.
    destruct accepted_shape as (W1 & W2 & W3 & W4). intros a s u v Ha Hs Hu Hv next result.
    assert (E : result = do s' <- random_choice (map next (seq 0 (nS p))) u; do o <- random_choice (map (Ob p a s') (seq 0 (nO p))) v; Ok (s', o, at_ (p_R p) [a; s; s'; o])).
    { unfold result, pomdp_sample_transition. rewrite !axis_nat. fold (nA p) (nS p).
      assert (a <? nA p = true) as -> by (apply Nat.ltb_lt; auto). assert (s <? nS p = true) as -> by (apply Nat.ltb_lt; auto). cbn [bind].
      rewrite (row3 _ _ _ _ _ _ W2). unfold next, Tr at 1. destruct (random_choice _ u) as [s'|]; [|reflexivity]. cbn [bind].
      rewrite (row3 _ _ _ _ _ _ W3). reflexivity. }
    rewrite E. split; intros H.
    - destruct (choice_drawable _ _ _ H Hu) as [[s' E1] C]. rewrite E1. cbn [bind]. exists s'. split; [apply C; auto|]. split; intros D.
      + destruct (choice_drawable _ _ _ D Hv) as [[o E2] C2]. rewrite E2. cbn [bind]. exists o. split; [apply C2; auto|reflexivity].
      + rewrite (choice_refused _ _ _ D). reflexivity.
    - rewrite (choice_refused _ _ _ H). reflexivity.
  Qed.

  (** Sampling never raises exactly when random choice accepts the row of the state and those of all states that can follow. *)
  Theorem C81_never_raises_partial : forall a s, a < nA p -> s < nS p ->
    ((forall u v, unit_interval u -> unit_interval v -> exists x, pomdp_sample_transition p u v (Z.of_nat a) (Z.of_nat s) = Ok x) <->
     drawable (nS p) (Tr p a s) /\ forall s', s' < nS p -> (0 < Tr p a s s')%Q -> drawable (nO p) (Ob p a s')).
  Proof.
    intros a s Ha Hs. assert (H0 : unit_interval 0) by (unfold unit_interval; lra). split.
    - intros H. assert (D : drawable (nS p) (Tr p a s)).
      { destruct (drawable_dec (nS p) (Tr p a s)) as [|N]; [auto|]. destruct (H 0%Q 0%Q H0 H0) as [x E].
        rewrite (proj2 (C81_transition_partial a s 0%Q 0%Q Ha Hs H0 H0) N) in E. discriminate. }
      split; [auto|]. intros s' Hs' Hp. destruct (drawable_dec (nO p) (Ob p a s')) as [|N]; [auto|]. exfalso.
      destruct (proj1 (drawn_pos _ _ _ D Hs') Hp) as [u [Hu Hd]]. destruct (H u 0%Q Hu H0) as [x E].
      destruct (proj1 (C81_transition_partial a s u 0%Q Ha Hs Hu H0) D) as [s1 [K1 [_ K2]]].
      assert (s1 = s'). { destruct (choice_drawable _ _ _ D Hu) as [_ C]. pose proof (proj2 (C s1) K1). pose proof (proj2 (C s') Hd). congruence. }
      subst s1. rewrite (K2 N) in E. discriminate.
    - intros [D H] u v Hu Hv. destruct (proj1 (C81_transition_partial a s u v Ha Hs Hu Hv) D) as [s' [K1 [K2 _]]].
      destruct K2 as [o [_ E]]; [|eauto]. apply H; [apply K1|]. apply (drawn_pos _ _ _ D); [apply K1|eauto].
  Qed.
End Accepted.
Print Assumptions C81_start_partial.
Print Assumptions C81_transition_partial.
Print Assumptions C81_never_raises_partial.

(** The tiger problem is accepted, and its rows are drawable; so is a row whose sum is not exactly 1. *)
Example C81_exact_ex : mk_pomdp tiger_T tiger_O tiger_R tiger_start (95 # 100) None (Some [NStr "listen"; NStr "left"; NStr "right"]) None "reward" true = Ok tiger /\
  drawable (nS tiger) (Tr tiger 0 0) /\ (forall s', s' < nS tiger -> (0 < Tr tiger 0 0 s')%Q -> drawable (nO tiger) (Ob tiger 0 s')) /\
  drawable 3 (fun i => nth i [333333333 # 1000000000; 333333333 # 1000000000; 333333333 # 1000000000]%Q 0%Q) /\
  ~ drawable 2 (fun i => nth i [1 # 2; 500001 # 1000000]%Q 0%Q).
Proof.
  split; [exact tiger_built|]. split; [|split; [|split]].
  - split; [intros [|[|i]] Hi; vm_compute in Hi; try lia; vm_compute; discriminate|vm_compute; discriminate].
  - intros [|[|s']] Hs _; vm_compute in Hs; try lia; (split; [intros [|[|i]] Hi; vm_compute in Hi; try lia; vm_compute; discriminate|vm_compute; discriminate]).
  - split; [intros [|[|[|i]]] Hi; try lia; vm_compute; discriminate|vm_compute; discriminate].
  - intros [_ H]. vm_compute in H. apply H. reflexivity.
Qed.
