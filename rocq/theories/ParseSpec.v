(** Specification for C48 and C49: the format of the files. *)
From Verif Require Import PyBase QBase.
From Coq Require Import String Ascii.
Local Open Scope list_scope.

(** White space characters. *)
Definition white (c : ascii) : Prop :=
  let n := nat_of_ascii c in (9 <= n <= 13 \/ 28 <= n <= 32 \/ n = 133 \/ n = 160)%nat.
Fixpoint chars (s : string) : list ascii := match s with EmptyString => [] | String c t => c :: chars t end.
Definition blank (line : string) : Prop := line <> EmptyString /\ Forall white (chars line).

(** A file of values: blocks made of an action line and a vector line, and blank lines anywhere. *)
Inductive interleave : list string -> list string -> Prop :=
| il_nil : interleave [] []
| il_blank l ls rest : blank l -> interleave rest ls -> interleave (l :: rest) ls
| il_line l ls rest : ~ blank l -> interleave rest ls -> interleave (l :: rest) (l :: ls).
Inductive blocks (parse_int : string -> res Z) (parse_vector : string -> res (list Q)) : list string -> list (Z * list Q) -> Prop :=
| bl_nil : blocks parse_int parse_vector [] []
| bl_cons la lv a v ls bs : parse_int la = Ok a -> parse_vector lv = Ok v -> blocks parse_int parse_vector ls bs ->
    blocks parse_int parse_vector (la :: lv :: ls) ((a, v) :: bs).

(** A policy graph line: [N A  Z1 Z2 ...], for a way of writing integers. *)
Fixpoint join (l : list string) : string :=
  match l with [] => EmptyString | [x] => x | x :: t => (x ++ " " ++ join t)%string end.
Definition entry (show : Z -> string) (t : option Z) : string := match t with None => "-" | Some z => show z end.
Definition pg_line (show : Z -> string) (n a : Z) (ts : list (option Z)) (ending : string) : string :=
  (show n ++ " " ++ show a ++ "  " ++ join (map (entry show) ts) ++ ending)%string.
Fixpoint pg_file (show : Z -> string) (n : Z) (l : list (Z * list (option Z) * string)) : list string :=
  match l with [] => [] | (a, ts, e) :: t => pg_line show n a ts e :: pg_file show (n + 1) t end.
(** A way of writing integers that can be read back and has no white space. *)
Definition writes (parse_int : string -> res Z) (show : Z -> string) : Prop :=
  forall z, parse_int (show z) = Ok z /\ show z <> EmptyString /\ show z <> "-"%string /\ Forall (fun c => ~ white c) (chars (show z)).
