(** Proofs for C110. *)
From Coq Require Import Lia.
From Coq Require Import String Ascii.
From Verif Require Import PyBase ActionModel ActionEqSpec.
Local Open Scope list_scope.
Local Open Scope nat_scope.

Lemma same_number_val c d : same_number c d <-> (val c == val d)%Q.
Proof.
  split; [intros [q q' H| |q H|q H]; cbn [val]; [exact H|reflexivity|symmetry; exact H|exact H]|].
  destruct c as [q|], d as [q'|]; cbn [val]; intros H; constructor; auto. symmetry. exact H.
Qed.
Lemma array_equal_iff a b : array_equal a b = true <-> same_array a b.
Proof.
  unfold array_equal, same_array, vals. generalize (a_cells a) (a_cells b). intros l. induction l as [|c l IH]; intros [|d l']; cbn [length Nat.eqb map combine forallb andb fst snd].
  - split; [constructor|auto].
  - split; [discriminate|intros H; inversion H].
  - split; [discriminate|intros H; inversion H].
  - specialize (IH l'). rewrite andb_true_iff in IH. rewrite !andb_true_iff, Qeq_bool_iff, <- same_number_val. split.
    + intros (L & E & F). constructor; [auto|]. apply IH. auto.
    + intros H. inversion H; subst. destruct (proj2 IH) as [L F]; auto.
Qed.
Lemma same_number_refl c : same_number c c.
Proof. apply same_number_val. reflexivity. Qed.
Lemma same_number_sym c d : same_number c d -> same_number d c.
Proof. rewrite !same_number_val. intros H. symmetry. exact H. Qed.
Lemma same_number_trans c d e : same_number c d -> same_number d e -> same_number c e.
Proof. rewrite !same_number_val. intros H K. rewrite H. exact K. Qed.
Section Forall2.
  Context {A : Type} (R : A -> A -> Prop).
  Lemma F2_refl l : Forall (fun x => R x x) l -> Forall2 R l l.
  Proof. induction 1; constructor; auto. Qed.
  Lemma F2_sym l l' : Forall2 (fun x y => R y x) l l' -> Forall2 R l' l.
  Proof. induction 1; constructor; auto. Qed.
  Lemma F2_trans l : forall l' l'', Forall2 (fun x y => forall z, R y z -> R x z) l l' -> Forall2 R l' l'' -> Forall2 R l l''.
  Proof. induction l as [|x l IH]; intros l' l'' H K; inversion H; subst; inversion K; subst; constructor; eauto. Qed.
  Lemma F2_impl (R' : A -> A -> Prop) l l' : Forall2 R l l' -> (forall x y, R x y -> R' x y) -> Forall2 R' l l'.
  Proof. intros H K. induction H; constructor; auto. Qed.
End Forall2.
Lemma same_array_refl a : same_array a a.
Proof. apply F2_refl. apply Forall_forall. intros x _. apply same_number_refl. Qed.
Lemma same_array_sym a b : same_array a b -> same_array b a.
Proof. intros H. apply F2_sym. eapply F2_impl; [exact H|]. apply same_number_sym. Qed.
Lemma same_array_trans a b c : same_array a b -> same_array b c -> same_array a c.
Proof. intros H K. eapply F2_trans; [|exact K]. eapply F2_impl; [exact H|]. intros x y E z. apply same_number_trans. auto. Qed.
Lemma same_cond_refl c : same_cond c c.
Proof. destruct c; constructor; apply same_array_refl. Qed.
Lemma same_cond_sym c d : same_cond c d -> same_cond d c.
Proof. intros []; constructor; apply same_array_sym; auto. Qed.
Lemma same_cond_trans c d e : same_cond c d -> same_cond d e -> same_cond c e.
Proof. intros H K. destruct H; inversion K; subst; constructor; eapply same_array_trans; eauto. Qed.

(** Induction over the actions in an action. *)
Fixpoint act_induction (P : act -> Prop) (Hp : forall pl p q n, P (PrePost pl p q n)) (Ha : forall s n, P (Abs s n)) (Hm : forall k s l n, Forall P l -> P (Meta k s l n)) (a : act) : P a :=
  match a with
  | PrePost pl p q n => Hp pl p q n
  | Abs s n => Ha s n
  | Meta k s l n => Hm k s l n ((fix go (l : list act) : Forall P l := match l with [] => @Forall_nil act P | x :: l => Forall_cons x (act_induction P Hp Ha Hm x) (go l) end) l)
  end.
Lemma same_act_refl a : same_act a a.
Proof. induction a as [pl p q n|s n|k s l n IH] using act_induction; constructor; auto using same_cond_refl. apply F2_refl. exact IH. Qed.
Lemma same_act_sym a : forall b, same_act a b -> same_act b a.
Proof.
  induction a as [pl p q n|s n|k s l n IH] using act_induction; intros b H; inversion H; subst; constructor; auto using same_cond_sym.
  match goal with F : Forall2 same_act l ?m |- _ => revert IH F; generalize m end. clear. intros l' IH F. induction F as [|x y l l' E F IHF]; [constructor|]. inversion IH; subst. constructor; auto.
Qed.
Lemma same_act_trans a : forall b c, same_act a b -> same_act b c -> same_act a c.
Proof.
  induction a as [pl p q n|s n|k s l n IH] using act_induction; intros b c H K; inversion H; subst; inversion K; subst; constructor; eauto using same_cond_trans.
  match goal with F : Forall2 same_act l ?m, G : Forall2 same_act ?m ?r |- _ => revert IH F G; generalize m r end. clear. intros l' l'' IH F. revert l''. induction F as [|x y l l' E F IHF]; intros l'' G; inversion G; subst; constructor; inversion IH; subst; eauto.
Qed.

Lemma cond_eq_same c d : (presence_condition c -> d <> CAll) -> (exists x, cond_eq c d = Ok x /\ (x = true <-> same_cond c d)).
Proof.
  intros P. assert (M : forall cls cls' m m' v v', array_equal m m' && array_equal v v' = true <-> same_cond (CMask cls m v) (CMask cls' m' v')).
  { intros. rewrite andb_true_iff, !array_equal_iff. split; [intros []; constructor; auto|intros H; inversion H; auto]. }
  destruct c as [cls m v|], d as [cls' m' v'|]; unfold cond_eq.
  - destruct (cond_derives (CMask cls' m' v') (CMask cls m v)); cbn [cond_eq_method]; eexists; (split; [reflexivity|]); [|apply M].
    rewrite (M cls' cls m' m v' v). split; apply same_cond_sym.
  - destruct cls; [|exfalso; apply P; [exists m, v|]; reflexivity]. cbn. exists false. split; [reflexivity|]. split; [discriminate|intros H; inversion H].
  - cbn. exists false. split; [reflexivity|]. split; [discriminate|intros H; inversion H].
  - cbn. exists true. split; [reflexivity|]. split; [constructor|auto].
Qed.

Section Acts.
  Variable hash_str : string -> Z.
  Variable hash_bytes : dtype * list cell -> Z.
  Variable hash_int : Z -> Z.
  Variable hash_tuple : list Z -> Z.
  Notation eq := (act_eq hash_str hash_bytes hash_int hash_tuple).
  Lemma prepost_same fuel pl p q n pl' p' q' n' :
    (~ presence_condition p) -> ~ presence_condition p' -> ~ presence_condition q -> ~ presence_condition q' ->
    exists x, eq (S fuel) (PrePost pl p q n) (PrePost pl' p' q' n') = Ok x /\ (x = true <-> same_act (PrePost pl p q n) (PrePost pl' p' q' n')).
  Proof.
    intros H1 H2 H3 H4.
    assert (G : forall a b c d pl pl' n n', ~ presence_condition a -> ~ presence_condition c ->
      exists x, (do x <- cond_eq a b; if x then cond_eq c d else Ok false) = Ok x /\ (x = true <-> same_act (PrePost pl a c n) (PrePost pl' b d n'))).
    { intros a b c d pl0 pl0' n0 n0' A C. destruct (cond_eq_same a b) as (x & -> & X); [tauto|]. destruct (cond_eq_same c d) as (y & Y & Z); [tauto|]. cbn [bind]. destruct x.
      - rewrite Y. exists y. split; [reflexivity|]. rewrite Z. split; [intros S; constructor; tauto|intros S; inversion S; auto].
      - exists false. split; [reflexivity|]. split; [discriminate|intros S; inversion S; subst; apply X; auto]. }
    cbn [act_eq]. destruct pl, pl'; try (apply G; auto; fail).
    destruct (G p' p q' q true false n' n H2 H4) as (x & E & X). exists x. split; [exact E|]. rewrite X. split; apply same_act_sym.
  Qed.
  Lemma meta_name k set l m : new_meta k set l = Ok m -> exists s, m = Meta k set l (String "("%char s).
  Proof. unfold new_meta. destruct (sep k); cbn [bind]; [|discriminate]. intros E. eexists. assert (X : forall A (a b : A), Ok a = Ok b -> a = b) by congruence. apply X in E. rewrite <- E. reflexivity. Qed.
  Lemma tidy_same fuel : forall a b, tidy fuel a -> tidy fuel b -> exists x, eq fuel a b = Ok x /\ (x = true <-> same_act a b).
  Proof.
    induction fuel as [|fuel IH]; intros a b A B; [inversion A|].
    inversion A as [d sub n N|d k l m F M]; subst; inversion B as [d' sub' n' N'|d' k' l' m' F' M']; subst; clear A B.
    - assert (X : forall n n' sub sub', String.eqb n n' = true <-> same_act (Abs sub n) (Abs sub' n')).
      { intros x y s s'. rewrite String.eqb_eq. split; [intros ->; constructor|intros H; inversion H; auto]. }
      cbn [act_eq]. destruct sub, sub'; try (eexists; split; [reflexivity|apply X]; fail). eexists. split; [reflexivity|]. rewrite String.eqb_sym. apply X.
    - destruct (meta_name _ _ _ _ M') as [s ->]. exists false. split; [|split; [discriminate|intros H; inversion H]]. cbn [act_eq]. destruct sub; [|reflexivity]. destruct (String.eqb_spec n (String "("%char s)); [destruct (N s); auto|reflexivity].
    - destruct (meta_name _ _ _ _ M) as [s ->]. exists false. split; [|split; [discriminate|intros H; inversion H]]. reflexivity.
    - destruct (meta_name _ _ _ _ M) as [s ->]. destruct (meta_name _ _ _ _ M') as [s' ->]. cbn [act_eq]. destruct (String.eqb_spec k k') as [<-|N]; cbn [negb]; [|exists false; split; [reflexivity|]; split; [discriminate|intros H; inversion H; congruence]].
      cbn [Bool.eqb negb orb]. destruct (Nat.eqb_spec (length l) (length l')) as [L|L]; cbn [negb].
      + assert (G : exists x, list_eq (eq fuel) l l' = Ok x /\ (x = true <-> Forall2 same_act l l')).
        { clear M M'. revert l' F' L. induction F as [|a l Ha F IHF]; intros [|b l'] F' L; try discriminate; [exists true; split; [reflexivity|split; [constructor|auto]]|]. inversion F' as [|b0 l0 Hb F'' E]; subst.
          cbn [list_eq]. destruct (IH a b Ha Hb) as (x & -> & X). cbn [bind]. destruct x; [|exists false; split; [reflexivity|split; [discriminate|intros H; inversion H; subst; apply X; auto]]].
          destruct (IHF l' F'') as (y & -> & Y); [cbn in L; lia|]. exists y. split; [reflexivity|]. rewrite Y. split; [intros H; constructor; tauto|intros H; inversion H; auto]. }
        destruct G as (x & E & X). exists x. split; [exact E|]. rewrite X. split; [constructor; auto|intros H; inversion H; auto].
      + exists false. split; [reflexivity|]. split; [discriminate|]. intros H. inversion H; subst. match goal with K : Forall2 same_act _ _ |- _ => clear - K L; induction K; cbn in *; lia end.
  Qed.
End Acts.
