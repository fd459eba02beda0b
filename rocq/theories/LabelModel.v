(** Model of the texts of histories: samples/pomcp.py 63-85, by_two, short_a, short_o and format_history. *)
From Verif Require Export PyBase.
From Verif Require Import PomdpModel TowerModel ElapsedModel.
From Coq Require Export String Ascii.
Local Open Scope list_scope.
Local Open Scope nat_scope.

(** by_two, 63-67: the pairs yielded, and what is raised when another one is asked for.  At the end of the list next raises
    StopIteration in the body of the generator.  Since Python 3.7 ([pep479]) this gives a RuntimeError; before, it ends the
    generator. *)
Fixpoint by_two {A} (l : list A) : list (A * A) := match l with a :: b :: l => (a, b) :: by_two l | _ => [] end.
Definition by_two_end (pep479 : bool) : res unit := if pep479 then Err ERuntime else Ok tt.

(** s[0] *)
Definition first_char (s : string) : res string := match s with EmptyString => Err EIndex | String c _ => Ok (String c EmptyString) end.
(** short_a, 70-71; an integer has no split *)
Definition short_a (a : name) : res string :=
  match a with
  | NInt _ => Err EAttr
  | NStr s => do l <- mapM first_char (split_char "-" s); Ok (String.concat "" l)
  end.
(** short_o, 74-78; an integer has no first element *)
Definition short_o (o : name) : res string :=
  match o with
  | NInt _ => Err EType
  | NStr s => if String.eqb s "none" then Ok "∅"%string else first_char s
  end.
(** format_history, 81-85 *)
Definition format_pair (ao : name * name) : res string := do a <- short_a (fst ao); do o <- short_o (snd ao); Ok (a ++ ":" ++ o)%string.
Definition format_history (pep479 : bool) (history : list name) : res string :=
  do l <- mapM format_pair (by_two history);
  do _ <- by_two_end pep479;
  Ok (String.concat ", " l ++ " [" ++ str_int (Z.of_nat (List.length history)) ++ "]")%string.
