(** C110: comparing conditions and actions. *)
From Coq Require Import Lia.
From Coq Require Import String Ascii.
From Verif Require Import PyBase ActionModel ActionEqSpec ActionEqProofs.
Local Open Scope list_scope.
Local Open Scope nat_scope.

(** Being the same is an equivalence. *)
Theorem C110_equivalence : (forall a, same_act a a) /\ (forall a b, same_act a b -> same_act b a) /\ (forall a b c, same_act a b -> same_act b c -> same_act a c) /\
  (forall c, same_cond c c) /\ (forall c d, same_cond c d -> same_cond d c) /\ (forall c d e, same_cond c d -> same_cond d e -> same_cond c e).
Proof. repeat split; eauto using same_act_refl, same_act_sym, same_act_trans, same_cond_refl, same_cond_sym, same_cond_trans. Qed.
Print Assumptions C110_equivalence.

(** Conditions are compared so, whatever the classes, except when a presence condition is compared with the condition
    that is always met. *)
Theorem C110_conditions_partial : forall c d, (presence_condition c -> d <> CAll) -> exists b, cond_eq c d = Ok b /\ (b = true <-> same_cond c d).
Proof. exact cond_eq_same. Qed.
Print Assumptions C110_conditions_partial.
Theorem C110_presence_refuted : forall c, presence_condition c -> cond_eq c CAll = Err EAttr /\ cond_eq CAll c = Ok false.
Proof. intros c (m & v & ->). split; reflexivity. Qed.
Print Assumptions C110_presence_refuted.

Section C110.
  Variable hash_str : string -> Z.
  Variable hash_bytes : dtype * list cell -> Z.
  Variable hash_int : Z -> Z.
  Variable hash_tuple : list Z -> Z.
  Notation eq := (act_eq hash_str hash_bytes hash_int hash_tuple).
  (** Pre/post-condition actions are the same when their conditions are. *)
  Theorem C110_prepost_partial : forall fuel pl p q n pl' p' q' n',
    ~ presence_condition p -> ~ presence_condition p' -> ~ presence_condition q -> ~ presence_condition q' ->
    exists b, eq (S fuel) (PrePost pl p q n) (PrePost pl' p' q' n') = Ok b /\ (b = true <-> same_act (PrePost pl p q n) (PrePost pl' p' q' n')).
  Proof. exact (prepost_same hash_str hash_bytes hash_int hash_tuple). Qed.
  (** For all conditions: an error when a presence condition meets the condition that is always met, first among the
      pre-conditions and then, if these are the same, among the post-conditions; otherwise whether they are the same. *)
  Definition clash (c d : cond) : Prop := presence_condition c /\ d = CAll.
  Theorem C110_prepost_exact : forall fuel pl p q n pl' p' q' n', (pl = false -> pl' = false) ->
    let raises := clash p p' \/ (same_cond p p' /\ clash q q') in
    (raises -> eq (S fuel) (PrePost pl p q n) (PrePost pl' p' q' n') = Err EAttr) /\
    (~ raises -> exists b, eq (S fuel) (PrePost pl p q n) (PrePost pl' p' q' n') = Ok b /\ (b = true <-> same_act (PrePost pl p q n) (PrePost pl' p' q' n'))) /\
    (pl <> pl' -> eq (S fuel) (PrePost pl' p' q' n') (PrePost pl p q n) = eq (S fuel) (PrePost pl p q n) (PrePost pl' p' q' n')).
  Proof.
    intros fuel pl p q n pl' p' q' n' HP. assert (E : eq (S fuel) (PrePost pl p q n) (PrePost pl' p' q' n') = (do x <- cond_eq p p'; if x then cond_eq q q' else Ok false)).
    { cbn [act_eq]. destruct pl, pl'; try reflexivity. specialize (HP eq_refl). discriminate. }
    rewrite E. assert (D : forall c d, clash c d \/ (presence_condition c -> d <> CAll)). { intros c d. destruct d as [cl m v|]; [right; intros _; discriminate|]. destruct c as [[|] m v|]; [right; intros (m' & v' & K); discriminate|left; split; [exists m, v; reflexivity|reflexivity]|right; intros (m' & v' & K); discriminate]. }
    split; [|split].
    - intros [[H1 ->]|[H1 [H2 ->]]].
      + rewrite (proj1 (C110_presence_refuted p H1)). reflexivity.
      + destruct (C110_conditions_partial p p') as (x & X1 & X2); [intros (m & v & ->) ->; inversion H1|]. rewrite X1. rewrite (proj2 X2 H1). cbn [bind]. rewrite (proj1 (C110_presence_refuted q H2)). reflexivity.
    - intros NR. destruct (D p p') as [K|K]; [destruct NR; auto|]. destruct (C110_conditions_partial p p' K) as (x & -> & X). cbn [bind]. destruct x.
      + destruct (D q q') as [K'|K']; [destruct NR; right; split; [apply X; reflexivity|exact K']|]. destruct (C110_conditions_partial q q' K') as (y & -> & Y). exists y. split; [reflexivity|]. rewrite Y. split; [intros S; constructor; [apply X; reflexivity|exact S]|intros S; inversion S; auto].
      + exists false. split; [reflexivity|]. split; [discriminate|]. intros S. inversion S; subst. apply X. auto.
    - intros NE. rewrite <- E. destruct pl, pl'; try congruence; [reflexivity|]. specialize (HP eq_refl). discriminate.
  Qed.
  (** Abstract actions and the meta-actions made of them, when no name begins with a parenthesis. *)
  Theorem C110_tree_partial : forall depth a b, tidy depth a -> tidy depth b -> exists x, eq depth a b = Ok x /\ (x = true <-> same_act a b).
  Proof. exact (tidy_same hash_str hash_bytes hash_int hash_tuple). Qed.
  (** With such a name the comparison is not symmetric: an action of a subclass equals the meta-action of the same
      name, which does not equal it; a plain abstract action differs from it both ways. *)
  Theorem C110_symmetry_refuted : forall fuel kind set l m, new_meta kind set l = Ok m ->
    eq (S fuel) (Abs true (act_name m)) m = Ok true /\ eq (S fuel) m (Abs true (act_name m)) = Ok false /\
    eq (S fuel) (Abs false (act_name m)) m = Ok false /\ eq (S fuel) m (Abs false (act_name m)) = Ok false /\
    eq (S fuel) (Abs false (act_name m)) (Abs true (act_name m)) = Ok true.
  Proof. intros fuel kind set l m H. destruct (meta_name _ _ _ _ H) as [s ->]. cbn. rewrite String.eqb_refl. auto. Qed.
End C110.
Print Assumptions C110_prepost_partial.
Print Assumptions C110_prepost_exact.
Print Assumptions C110_tree_partial.
Print Assumptions C110_symmetry_refuted.

Example C110_ex : exists a b, new_meta "sequence" false [Abs false "a"; Abs true "b"] = Ok a /\ new_meta "parallel" false [a; Abs false "c"] = Ok b /\ tidy 3 a /\ tidy 3 b /\
  same_act a (Meta "sequence" false [Abs true "a"; Abs true "b"] "another name") /\ ~ same_act a b.
Proof.
  eexists. eexists. split; [reflexivity|]. split; [reflexivity|].
  assert (A : forall k s x, x = "a"%string \/ x = "b"%string \/ x = "c"%string -> tidy (S k) (Abs s x)) by (intros k s x H; constructor; intros t; destruct H as [->|[->| ->]]; discriminate).
  assert (M : forall k, tidy (S (S k)) (Meta "sequence" false [Abs false "a"; Abs true "b"] "(a→b)")) by (intros k; apply (t_meta _ "sequence" [Abs false "a"; Abs true "b"]); [repeat (constructor; [apply A; auto|]); constructor|reflexivity]).
  split; [apply M|]. split; [|split; [repeat constructor|intros H; inversion H]].
  eapply (t_meta _ "parallel" [_; Abs false "c"]); [constructor; [apply M|constructor; [apply A; auto|constructor]]|reflexivity].
Qed.
Example C110_ex_conditions : let z := {| a_dtype := DInt; a_cells := [Num 0; Num 1] |} in let z' := {| a_dtype := DFloat; a_cells := [NegZero; Num (2 # 2)] |} in
  same_cond (CMask Plain z z) (CMask Presence z' z') /\ ~ presence_condition (CMask Plain z z) /\ cond_eq (CMask Plain z z) (CMask Presence z' z') = Ok true.
Proof. cbv zeta. split; [repeat constructor|]. split; [intros (m & v & E); discriminate|reflexivity]. Qed.
Example C110_ex_prepost : let z := {| a_dtype := DInt; a_cells := [Num 0; Num 1] |} in
  let here := PrePost true (CMask Presence z z) CAll "put" in let always := PrePost false CAll CAll "wait" in
  act_eq (fun _ => 0%Z) (fun _ => 0%Z) (fun z => z) (fun _ => 0%Z) 1 here always = Err EAttr /\ act_eq (fun _ => 0%Z) (fun _ => 0%Z) (fun z => z) (fun _ => 0%Z) 1 here here = Ok true.
Proof. split; reflexivity. Qed.
