(** Model of get_process_elapsed_time, task_models/utils/multiprocess.py 79-88, from the output of ps.
    Simplifications: the characters are ASCII; numerals are digits with an optional minus sign (Python's int also accepts
    a plus sign, blanks and underscores around and between digits, and float also accepts fractions); a timedelta is
    its number of seconds. *)
From Coq Require Import DecimalString.
From Coq Require Export String Ascii ZArith.
From Verif Require Export PyBase.
Local Open Scope list_scope.
Local Open Scope nat_scope.

(** strip(): blanks are 9-13, 28-31 and 32. *)
Definition is_blank (c : ascii) : bool := let n := nat_of_ascii c in ((9 <=? n) && (n <=? 13)) || ((28 <=? n) && (n <=? 32)).
Fixpoint lstrip (s : string) : string := match s with String c t => if is_blank c then lstrip t else s | EmptyString => s end.
Fixpoint rstrip (s : string) : string :=
  match s with
  | EmptyString => EmptyString
  | String c t => match rstrip t with EmptyString => if is_blank c then EmptyString else String c EmptyString | t' => String c t' end
  end.
(** replace('-', ':') *)
Fixpoint replace_char (a b : ascii) (s : string) : string :=
  match s with EmptyString => EmptyString | String c t => String (if Ascii.eqb c a then b else c) (replace_char a b t) end.
(** split(':') *)
Fixpoint split_char (a : ascii) (s : string) : list string :=
  match s with
  | EmptyString => [EmptyString]
  | String c t => if Ascii.eqb c a then EmptyString :: split_char a t else match split_char a t with x :: l => String c x :: l | [] => [] end
  end.
(** int(s): ValueError *)
Definition int_of (s : string) : res Z := match NilZero.int_of_string s with Some d => Ok (Z.of_int d) | None => Err EValue end.
(** 85-88 *)
Definition elapsed (output : string) : res Z :=
  let t := rev (split_char ":" (replace_char "-" ":" (lstrip (rstrip output)))) in
  let t := t ++ repeat "0"%string (4 - length t) in
  match t with
  | t0 :: t1 :: t2 :: t3 :: _ =>
      do seconds <- int_of t0;
      do minutes <- int_of t1;
      do hours <- int_of t2;
      do days <- int_of t3;
      Ok (seconds + 60 * minutes + 3600 * hours + 86400 * days)%Z
  | _ => Err EIndex
  end.
