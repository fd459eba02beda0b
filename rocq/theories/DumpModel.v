(** Model of the text written for the solver: task_models/lib/pomdp.py 59-126 and 275-288. *)
From Coq Require Import String Ascii.
From Verif Require Export PyBase QBase PomdpModel.
From Verif Require Import TowerModel.
Local Open Scope list_scope.
Local Open Scope nat_scope.

(** The characters of the file *)
Definition nl : string := String (ascii_of_nat 10) EmptyString.
(** [str(x)] of a name *)
Definition name_text (x : name) : string := match x with NStr s => s | NInt z => str_int z end.
(** _dump_list, 76-77 *)
Definition dump_list (l : list name) : string := String.concat " " (map name_text l).
(** _dump_list_or_count, 80-84 *)
Definition dump_list_or_count (x : names) : string := match x with NCount n => str_int (Z.of_nat n) | NList l => dump_list l end.

(** NUMBER_FORMAT, 66: five decimals of a multiple of 1e-5, given in units of 1e-5. *)
Definition digit (d : Z) : string := String (ascii_of_nat (48 + Z.to_nat d)) EmptyString.
Definition show5 (z : Z) : string :=
  let n := Z.abs z in
  ((if (z <? 0)%Z then "-" else "") ++ str_int (n / 100000) ++ "." ++
   digit (n / 10000 mod 10) ++ digit (n / 1000 mod 10) ++ digit (n / 100 mod 10) ++ digit (n / 10 mod 10) ++ digit (n mod 10))%string.
(** _dump_1d_array, 87-94; the numbers are those of PomdpModel.dump_1d_array *)
Definition dump_1d (a : list Q) : res string := do l <- dump_1d_array a; Ok (String.concat " " (map show5 l)).
(** [a[i]] on the first axis of an array *)
Definition slice (a : array) (i : nat) : res array :=
  if i <? hd 0 (shape a) then Ok {| shape := tl (shape a); at_ := fun idx => at_ a (i :: idx) |} else Err EIndex.
Definition enumerate {A} (l : list A) : list (nat * A) := combine (seq 0 (length l)) l.
(** _dump_2d_array, 97-98 *)
Definition dump_2d (a : array) : res string :=
  do l <- mapM (fun i => dump_1d (row a [i])) (seq 0 (hd 0 (shape a)));
  Ok (String.concat nl l).
(** _dump_3d_array, 101-111 *)
Definition dump_3d (a : array) (nm : string) (xs : list string) : res string :=
  do l <- mapM (fun ix => do b <- slice a (fst ix); do t <- dump_2d b; Ok (nm ++ " : " ++ snd ix ++ nl ++ t)%string) (enumerate xs);
  Ok (String.concat nl l).
(** _dump_4d_array, 114-126 *)
Definition dump_4d (a : array) (nm : string) (xs ys : list string) : res string :=
  do l <- mapM (fun ix => do b <- slice a (fst ix); dump_3d b nm (map (fun y => (snd ix ++ " : " ++ y)%string) ys)) (enumerate xs);
  Ok (String.concat nl l).

(** dump, 275-288, with PREAMBLE_FMT, 59-64. [str_float] is Python's text of the discount. *)
Definition dump (str_float : Q -> string) (p : pomdp) : res string :=
  let preamble := ("discount: " ++ str_float (p_discount p) ++ nl ++ "values: reward" ++ nl ++ "states: " ++ dump_list_or_count (p_s p) ++ nl ++
                   "actions: " ++ dump_list_or_count (p_a p) ++ nl ++ "observations: " ++ dump_list_or_count (p_o p) ++ nl)%string in
  do l <- dump_1d (row (p_start p) []);
  let start := ("start: " ++ l)%string in
  do T <- dump_3d (p_T p) "T" (map name_text (p_actions p));
  do Ob <- dump_3d (p_O p) "O" (map name_text (p_actions p));
  do R <- dump_4d (p_R p) "R" (map name_text (p_actions p)) (map name_text (states p));
  Ok (String.concat (nl ++ nl)%string [preamble; start; T; Ob; R]).
