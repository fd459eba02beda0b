(** Specification of the names of the leaves in the POMDP of a task: small letters, and dashes for spaces.
    Only the 26 letters of ASCII have a small letter here, as in the model. *)
From Coq Require Import String Ascii.
Local Open Scope string_scope.

Definition capitals : string := "ABCDEFGHIJKLMNOPQRSTUVWXYZ ".
Definition smalls : string := "abcdefghijklmnopqrstuvwxyz-".
Fixpoint replaced (from to : string) (c : ascii) : ascii :=
  match from, to with
  | String f from, String t to => if Ascii.eqb c f then t else replaced from to c
  | _, _ => c
  end.
Fixpoint dashed (s : string) : string :=
  match s with EmptyString => EmptyString | String c s => String (replaced capitals smalls c) (dashed s) end.
