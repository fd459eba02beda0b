(** Specification for C78 and C79. *)
From Verif Require Import PyBase ActionModel.
Local Open Scope list_scope.
Local Open Scope nat_scope.

(** A mask chooses features: it holds zeros and ones. *)
Definition chooses (mask : arr) : Prop := forall x, In x (vals mask) -> (x == 0 \/ x == 1)%Q.
(** No required value outside the mask. *)
Definition inside (mask value : arr) : Prop :=
  forall i m v, nth_error (vals mask) i = Some m -> nth_error (vals value) i = Some v -> ~ (m == 1)%Q -> (v == 0)%Q.
(** The chosen features have the required values. *)
Definition agrees (mask value : arr) (features : list Q) : Prop :=
  forall i m v f, nth_error (vals mask) i = Some m -> nth_error (vals value) i = Some v -> nth_error features i = Some f -> (m == 1)%Q -> (f == v)%Q.
Definition meets (c : cond) (features : list Q) : Prop := match c with CMask _ mask value => agrees mask value features | CAll => True end.
(** Conditions for n features. *)
Inductive fits (n : nat) : cond -> Prop :=
| fits_all : fits n CAll
| fits_mask cls mask value c : length (a_cells mask) = n -> length (a_cells value) = n -> chooses mask -> new_cond cls mask value = Ok c -> fits n c.

(** Arrays of the same type and without negative zeros. *)
Definition no_neg (a : arr) : Prop := ~ In NegZero (a_cells a).
Inductive alike : cond -> cond -> Prop :=
| alike_masks cls m v cls' m' v' : a_dtype m = a_dtype m' -> a_dtype v = a_dtype v' -> no_neg m -> no_neg v -> no_neg m' -> no_neg v' ->
    alike (CMask cls m v) (CMask cls' m' v')
| alike_left c : alike CAll c
| alike_right c : alike c CAll.
(** MetaActions on lists, built by the constructor, of actions that are not pre/post-condition actions. *)
Inductive by_name : act -> Prop :=
| bn_abs sub n : by_name (Abs sub n)
| bn_meta kind l m : Forall by_name l -> new_meta kind false l = Ok m -> by_name m.
