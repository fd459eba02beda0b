(** Specification for C109: what is seen on a terminal. *)
From Coq Require Import Ascii String ZArith.
From Verif Require Import PyBase TermModel.
Local Open Scope list_scope.
Local Open Scope nat_scope.

(** A terminal: the lines that were left, the current line and the column of the cursor *)
Record screen := { left_lines : list (nat -> ascii); line : nat -> ascii; column : nat }.
Definition blank : nat -> ascii := fun _ => " "%char.
(** Characters replace what they are written on. *)
Definition put (x : screen) (c : ascii) : screen :=
  if Nat.eqb (nat_of_ascii c) 13 then {| left_lines := left_lines x; line := line x; column := 0 |}
  else if Nat.eqb (nat_of_ascii c) 10 then {| left_lines := left_lines x ++ [line x]; line := blank; column := 0 |}
  else {| left_lines := left_lines x; line := fun i => if Nat.eqb i (column x) then c else line x i; column := S (column x) |}.
Definition write (t : text) (x : screen) : screen := fold_left put t x.
(** A line where one reads t *)
Definition reads (l : nat -> ascii) (t : text) : Prop := forall i, l i = nth i t " "%char.
(** A text that does not move the cursor back *)
Definition plain (t : text) : Prop := forall c, In c t -> nat_of_ascii c <> 13 /\ nat_of_ascii c <> 10.
Definition fresh (x : screen) : Prop := (forall i, line x i = " "%char) /\ column x = 0.

(** The integer part of a / b *)
Definition part (a b q : nat) : Prop := q * b <= a < S q * b.
(** The digits s in groups of three *)
Inductive grouped : text -> text -> Prop :=
| grouped_short s : length s <= 3 -> grouped s s
| grouped_more s t u : s <> [] -> grouped s t -> length u = 3 -> grouped (s ++ u) (t ++ ","%char :: u).
(** A number in a field of w characters *)
Definition field (w n : nat) (t : text) : Prop := exists k g, grouped (digits n) g /\ t = repeat " "%char k ++ g /\ length t = max w (length g).
(** The bar: the part that is done, the percentage, and how many are done. *)
Definition shows_bar (done todo : nat) (count : bool) (size : nat) (t : text) : Prop :=
  exists full rest k percent c, full + rest = size /\ part (size * done) todo full /\
    part (100 * done) todo percent /\ k + length (digits percent) = 3 /\
    t = "["%char :: repeat "#"%char full ++ repeat "."%char rest ++ " "%char :: repeat " "%char k ++ digits percent ++ ["%"; "]"; " "]%char ++ c /\
    if count then exists a b, field (todo / 10) done a /\ field (todo / 10) todo b /\ c = " "%char :: a ++ "/"%char :: b else c = [].
