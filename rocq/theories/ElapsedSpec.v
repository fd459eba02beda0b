(** Specification for C76: how ps writes the time since a process was started, [[dd-]hh:]mm:ss. *)
From Coq Require Import List String Ascii ZArith.
Import ListNotations.
Local Open Scope Z_scope.
Local Open Scope string_scope.

(** The number written by some digits. *)
Definition digits : list (ascii * Z) :=
  [("0", 0); ("1", 1); ("2", 2); ("3", 3); ("4", 4); ("5", 5); ("6", 6); ("7", 7); ("8", 8); ("9", 9)]%char.
Inductive writes : string -> Z -> Prop :=
| w_digit c v : In (c, v) digits -> writes (String c "") v
| w_digits s c v w : writes s v -> In (c, w) digits -> writes (s ++ String c "") (10 * v + w).
(** Blanks before and after: the characters that Python counts as white. *)
Definition blanks : list ascii := [" "; "009"; "010"; "011"; "012"; "013"; "028"; "029"; "030"; "031"]%char.
Inductive blank : string -> Prop :=
| b_none : blank ""
| b_more c s : In c blanks -> blank s -> blank (String c s).
(** A text that ps writes for this number of seconds. *)
Inductive etime : string -> Z -> Prop :=
| et_minutes m s vm vs : writes m vm -> writes s vs -> etime (m ++ ":" ++ s) (60 * vm + vs)
| et_hours h m s vh vm vs : writes h vh -> writes m vm -> writes s vs -> etime (h ++ ":" ++ m ++ ":" ++ s) (3600 * vh + 60 * vm + vs)
| et_days d h m s vd vh vm vs : writes d vd -> writes h vh -> writes m vm -> writes s vs ->
    etime (d ++ "-" ++ h ++ ":" ++ m ++ ":" ++ s) (86400 * vd + 3600 * vh + 60 * vm + vs).

(** The usual text for a number of seconds. *)
Definition digit_of (v : Z) : string := match nth_error digits (Z.to_nat v) with Some (c, _) => String c "" | None => "" end.
Definition two (v : Z) : string := digit_of (v / 10) ++ digit_of (v mod 10).
Definition clock (d : Z) : string := two (d / 60 mod 60) ++ ":" ++ two (d mod 60).
Inductive shown (d : Z) : string -> Prop :=
| sh_minutes : d < 3600 -> shown d (clock d)
| sh_hours : 3600 <= d < 86400 -> shown d (two (d / 3600) ++ ":" ++ clock d)
| sh_days n : 86400 <= d -> writes n (d / 86400) -> shown d (n ++ "-" ++ two (d / 3600 mod 24) ++ ":" ++ clock d).

(** A character of a text; characters that have no place in such a text; the number of separators. *)
Definition uses (c : ascii) (s : string) : Prop := exists a b, s = a ++ String c b.
Definition foreign (c : ascii) : Prop := ~ In c [":"; "-"]%char /\ ~ In c blanks /\ forall v, ~ In (c, v) digits.
Fixpoint separators (s : string) : nat :=
  match s with "" => 0 | String ":" t => S (separators t) | String "-" t => S (separators t) | String _ t => separators t end%nat.
