(** Progress bars, task_models/utils/term.py 15-39. *)
From Coq Require Export Ascii String ZArith.
From Verif Require Export PyBase.
From Verif Require TowerModel.
Local Open Scope list_scope.
Local Open Scope nat_scope.

(** Texts are lists of characters. *)
Definition text := list ascii.
Definition chars (s : string) : text := list_ascii_of_string s.
(** Integers here are natural numbers; [a / b] is exact, and its integer part is taken. *)
Definition digits (n : nat) : text := chars (TowerModel.str_int (Z.of_nat n)).
(** The option [,]: a comma after every third digit from the right; [k] digits are left before the next comma. *)
Fixpoint commas_rev (k : nat) (l : text) : text :=
  match l with
  | [] => []
  | c :: l => match k with O => ","%char :: c :: commas_rev 2 l | S k => c :: commas_rev k l end
  end.
Definition with_commas (l : text) : text := rev (commas_rev 3 (rev l)).
(** Fields of at least [w] characters, aligned to the right with spaces, and to the left with dots *)
Definition right_aligned (w : nat) (l : text) : text := repeat " "%char (w - length l) ++ l.
Definition left_aligned (w : nat) (l : text) : text := l ++ repeat "."%char (w - length l).

(** progress_bar, 31-39 *)
Definition progress_bar (done todo : nat) (count : bool) (size : nat) : res text :=
  let w := todo / 10 in
  let count_str := if count then chars " " ++ right_aligned w (with_commas (digits done)) ++ chars "/" ++ right_aligned w (with_commas (digits todo)) else [] in
  if Nat.eqb todo 0 then Err EZeroDiv
  else Ok (chars "[" ++ left_aligned size (repeat "#"%char (size * done / todo)) ++ chars " " ++
           right_aligned 3 (digits (100 * done / todo)) ++ chars "%] " ++ count_str).

Definition return_char : ascii := ascii_of_nat 13.
Definition newline : ascii := ascii_of_nat 10.
(** print_progress_bar, 21-28: what is printed.  [colored] is the function of termcolor with the color given; without termcolor it is the identity. *)
Definition print_progress_bar (colored : text -> text) (done todo : nat) (count : bool) (size : nat) (prefix : text) : res text :=
  if Nat.ltb todo done then Ok []
  else do s <- progress_bar done todo count size;
       Ok (prefix ++ colored s ++ [return_char] ++ (if Nat.eqb todo done then [newline] else [])).
(** clear_progress_bar, 15-18: what is printed *)
Definition clear_progress_bar (done todo : nat) (count : bool) (size : nat) (prefix : text) : text :=
  repeat " "%char (7 + size + 12 * (if count then 1 else 0) + length prefix) ++ [return_char].
