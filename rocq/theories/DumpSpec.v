(** Specification for C113: a reader for POMDP files, after http://www.pomdp.org/code/pomdp-file-spec.html. It reads
    the files whose tables are given by whole matrices. *)
From Coq Require Import String Ascii Bool.
From Verif Require Import PyBase QBase PomdpModel PomdpSpec.
Local Open Scope list_scope.
Local Open Scope nat_scope.

(** *** Tokens: words separated by blanks; a colon is a token of its own *)
Definition blank (c : ascii) : bool := let n := nat_of_ascii c in (9 <=? n) && (n <=? 13) || (n =? 32).
Definition colon (c : ascii) : bool := nat_of_ascii c =? 58.
Definition push (w : string) (l : list string) : list string := match w with EmptyString => l | _ => w :: l end.
(** The first word, if the text begins with one, and the tokens after it *)
Fixpoint words (s : string) : string * list string :=
  match s with
  | EmptyString => (EmptyString, [])
  | String c t => let (w, l) := words t in
                  if blank c then (EmptyString, push w l)
                  else if colon c then (EmptyString, ":"%string :: push w l)
                  else (String c w, l)
  end.
Definition tokens (s : string) : list string := push (fst (words s)) (snd (words s)).

(** *** Numbers: an optional minus, digits, and optionally a point and digits *)
Definition digit_value (c : ascii) : option Z := let n := nat_of_ascii c in if (48 <=? n) && (n <=? 57) then Some (Z.of_nat (n - 48)) else None.
(** [point] is the number of digits after the point, once it is read. *)
Fixpoint decimal (acc : Z) (point : option nat) (s : string) : option Q :=
  match s with
  | EmptyString => Some (inject_Z acc / inject_Z (10 ^ Z.of_nat (match point with Some k => k | None => 0 end)))%Q
  | String c t =>
      match digit_value c with
      | Some d => decimal (10 * acc + d) (option_map S point) t
      | None => if (nat_of_ascii c =? 46) && match point with None => true | Some _ => false end then decimal acc (Some 0) t else None
      end
  end.
Definition unsigned (s : string) : option Q :=
  match s with String c _ => match digit_value c with Some _ => decimal 0 None s | None => None end | EmptyString => None end.
Definition number (s : string) : option Q :=
  match s with String c t => if nat_of_ascii c =? 45 then option_map Qopp (unsigned t) else unsigned s | EmptyString => None end.
(** Counts and indices: digits only *)
Fixpoint digits_value (acc : Z) (s : string) : option Z :=
  match s with EmptyString => Some acc | String c t => match digit_value c with Some d => digits_value (10 * acc + d) t | None => None end end.
Definition whole (s : string) : option nat := match s with EmptyString => None | _ => option_map Z.to_nat (digits_value 0 s) end.

(** *** Names *)
Definition letter (c : ascii) : bool := let n := nat_of_ascii c in (65 <=? n) && (n <=? 90) || (97 <=? n) && (n <=? 122).
Definition name_char (c : ascii) : bool := letter c || match digit_value c with Some _ => true | None => false end || (nat_of_ascii c =? 45) || (nat_of_ascii c =? 95).
Fixpoint name_chars (s : string) : bool := match s with EmptyString => true | String c t => name_char c && name_chars t end.
Definition reserved : list string :=
  ["discount"; "values"; "states"; "actions"; "observations"; "T"; "O"; "R"; "uniform"; "identity"; "reward"; "cost"; "reset"; "start"; "include"; "exclude"]%string.
Definition is_reserved (s : string) : bool := existsb (String.eqb s) reserved.
Definition identifier (s : string) : bool := match s with String c t => letter c && name_chars t && negb (is_reserved s) | EmptyString => false end.

(** What a file declares: a number of things, or their names *)
Inductive declared := Counted (n : nat) | Named (l : list string).
Definition declared_size (d : declared) : nat := match d with Counted n => n | Named l => length l end.
Fixpoint distinct (l : list string) : bool := match l with [] => true | x :: t => negb (existsb (String.eqb x) t) && distinct t end.
Definition declare (l : list string) : option declared :=
  match l with
  | [] => None
  | x :: t => match whole x, t with
              | Some n, [] => if n =? 0 then None else Some (Counted n)
              | _, _ => if forallb identifier l && distinct l then Some (Named l) else None
              end
  end.
(** A name or an index stands for a thing. *)
Fixpoint position (x : string) (l : list string) : option nat :=
  match l with [] => None | y :: t => if String.eqb x y then Some 0 else option_map S (position x t) end.
Definition resolve (d : declared) (x : string) : option nat :=
  match whole x with
  | Some k => if k <? declared_size d then Some k else None
  | None => match d with Named l => position x l | Counted _ => None end
  end.

(** *** Files *)
Definition matrix := list (list Q).
Record tables := { f_T : nat -> option matrix; f_O : nat -> option matrix; f_R : nat -> nat -> option matrix }.
Record file := { f_discount : Q; f_values : string; f_states : declared; f_actions : declared; f_observations : declared; f_start : list Q; f_tables : tables }.

Definition obind {A B} (x : option A) (f : A -> option B) : option B := match x with Some a => f a | None => None end.
Fixpoint expect (l toks : list string) : option (list string) :=
  match l, toks with
  | [], _ => Some toks
  | x :: l, y :: toks => if String.eqb x y then expect l toks else None
  | _ :: _, [] => None
  end.
Definition take_word (toks : list string) : option (string * list string) := match toks with x :: t => Some (x, t) | [] => None end.
Fixpoint take_names (toks : list string) : list string * list string :=
  match toks with [] => ([], []) | x :: t => if is_reserved x then ([], toks) else let (l, r) := take_names t in (x :: l, r) end.
Fixpoint take_numbers (n : nat) (toks : list string) : option (list Q * list string) :=
  match n with
  | 0 => Some ([], toks)
  | S n => obind (take_word toks) (fun xt => obind (number (fst xt)) (fun q => obind (take_numbers n (snd xt)) (fun lr => Some (q :: fst lr, snd lr))))
  end.
Fixpoint take_rows (n m : nat) (toks : list string) : option (matrix * list string) :=
  match n with
  | 0 => Some ([], toks)
  | S n => obind (take_numbers m toks) (fun lr => obind (take_rows n m (snd lr)) (fun xr => Some (fst lr :: fst xr, snd xr)))
  end.
Definition set_at {A} (f : nat -> A) (i : nat) (x : A) : nat -> A := fun j => if j =? i then x else f j.

Section Entries.
  Variables ds da do_ : declared.
  Local Notation nS := (declared_size ds). Local Notation nO := (declared_size do_).
  (** The tables: matrices T : action, O : action, R : action : state, in any order; a later one replaces an earlier one. *)
  Fixpoint entries (fuel : nat) (toks : list string) (t : tables) : option tables :=
    match toks with
    | [] => Some t
    | x :: rest =>
        match fuel with
        | 0 => None
        | S fuel =>
            obind (expect [":"%string] rest) (fun rest => obind (take_word rest) (fun ar => obind (resolve da (fst ar)) (fun a =>
            if String.eqb x "T" then
              obind (take_rows nS nS (snd ar)) (fun mr => entries fuel (snd mr) {| f_T := set_at (f_T t) a (Some (fst mr)); f_O := f_O t; f_R := f_R t |})
            else if String.eqb x "O" then
              obind (take_rows nS nO (snd ar)) (fun mr => entries fuel (snd mr) {| f_T := f_T t; f_O := set_at (f_O t) a (Some (fst mr)); f_R := f_R t |})
            else if String.eqb x "R" then
              obind (expect [":"%string] (snd ar)) (fun rest => obind (take_word rest) (fun sr => obind (resolve ds (fst sr)) (fun s =>
              obind (take_rows nS nO (snd sr)) (fun mr => entries fuel (snd mr) {| f_T := f_T t; f_O := f_O t; f_R := set_at (f_R t) a (set_at (f_R t a) s (Some (fst mr))) |}))))
            else None)))
        end
    end.
End Entries.

Definition read_text (s : string) : option file :=
  obind (expect ["discount"; ":"]%string (tokens s)) (fun r => obind (take_word r) (fun dr => obind (number (fst dr)) (fun disc =>
  obind (expect ["values"; ":"]%string (snd dr)) (fun r => obind (take_word r) (fun vr =>
  if negb (String.eqb (fst vr) "reward" || String.eqb (fst vr) "cost") then None else
  obind (expect ["states"; ":"]%string (snd vr)) (fun r => let (ls, r) := take_names r in obind (declare ls) (fun ds =>
  obind (expect ["actions"; ":"]%string r) (fun r => let (la, r) := take_names r in obind (declare la) (fun da =>
  obind (expect ["observations"; ":"]%string r) (fun r => let (lo, r) := take_names r in obind (declare lo) (fun do_ =>
  obind (expect ["start"; ":"]%string r) (fun r => obind (take_numbers (declared_size ds) r) (fun sr =>
  obind (entries ds da do_ (length (snd sr)) (snd sr) {| f_T := fun _ => None; f_O := fun _ => None; f_R := fun _ _ => None |}) (fun t =>
  Some {| f_discount := disc; f_values := fst vr; f_states := ds; f_actions := da; f_observations := do_; f_start := fst sr; f_tables := t |})))))))))))))).

(** *** What the file of a model says *)
(** Written with five decimals: all numbers are rounded except one, which makes up for the rounding, so that the sum
    is the rounded sum. *)
Definition written (a b : list Q) : Prop :=
  length b = length a /\ (forall x, In x b -> exists z, (x == inject_Z z / 100000)%Q) /\
  (Qabs (sumQ a - sumQ b) <= 1 # 200000)%Q /\ ((sumQ a == 1)%Q -> (sumQ b == 1)%Q) /\
  exists k, k < length a /\ (forall i, i < length a -> i <> k -> (Qabs (nth i a 0 - nth i b 0) <= 1 # 200000)%Q) /\
    (Qabs (nth k a 0 - nth k b 0) <= (inject_Z (Z.of_nat (length a)) / 2 + 1) / 100000)%Q.
(** A matrix whose n rows are written from the given numbers *)
Definition written_matrix (n m : nat) (f : nat -> nat -> Q) (x : option matrix) : Prop :=
  exists rows, x = Some rows /\ length rows = n /\ forall i, i < n -> written (map (f i) (seq 0 m)) (nth i rows []).
(** Names as declared in the file *)
Definition declared_as (x : names) (d : declared) : Prop :=
  match x with NCount n => d = Counted n | NList l => exists ls, l = map NStr ls /\ d = Named ls end.
Definition good_names (x : names) : Prop := match x with NCount _ => True | NList l => forall y, In y l -> exists s, y = NStr s /\ identifier s = true end.
Definition describes (p : pomdp) (f : file) : Prop :=
  (f_discount f == p_discount p)%Q /\ f_values f = "reward"%string /\
  declared_as (p_s p) (f_states f) /\ declared_as (p_a p) (f_actions f) /\ declared_as (p_o p) (f_observations f) /\
  written (map (Start p) (seq 0 (nS p))) (f_start f) /\
  forall a, a < nA p -> written_matrix (nS p) (nS p) (Tr p a) (f_T (f_tables f) a) /\ written_matrix (nS p) (nO p) (Ob p a) (f_O (f_tables f) a) /\
    forall s, s < nS p -> written_matrix (nS p) (nO p) (fun s' o => at_ (p_R p) [a; s; s'; o]) (f_R (f_tables f) a s).

(** *** Names of actions from which readable names are made: letters, digits, dashes, underscores and spaces *)
Fixpoint plain_text (s : string) : bool := match s with EmptyString => true | String c t => (name_char c || (nat_of_ascii c =? 32)) && plain_text t end.
