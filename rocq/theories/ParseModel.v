(** Model of parse_value_function and parse_policy_graph (task_models/lib/pomdp.py 24-56).  A reader is the
    list of its lines.  Reading numbers, [int(s)] and [np.fromstring(s, sep=' ')], is left abstract. *)
From Verif Require Export PyBase QBase.
From Coq Require Export String Ascii.
Local Open Scope list_scope.
Local Open Scope nat_scope.

(** [str.isspace] on one character: the white space among the code points below 256 *)
Definition is_space (c : ascii) : bool :=
  let n := nat_of_ascii c in ((9 <=? n) && (n <=? 13)) || ((28 <=? n) && (n <=? 32)) || (n =? 133) || (n =? 160).

(** [s.isspace()]: false for the empty string *)
Fixpoint all_space (s : string) : bool := match s with EmptyString => true | String c t => is_space c && all_space t end.
Definition isspace (s : string) : bool := match s with EmptyString => false | _ => all_space s end.

(** [s.rstrip('\n')] and [s.rstrip()] *)
Fixpoint rstrip_by (f : ascii -> bool) (s : string) : string :=
  match s with
  | EmptyString => EmptyString
  | String c t => match rstrip_by f t with
                  | EmptyString => if f c then EmptyString else String c EmptyString
                  | t' => String c t'
                  end
  end.
Definition newline : ascii := ascii_of_nat 10.
Definition rstrip_newline := rstrip_by (fun c => Ascii.eqb c newline).
Definition rstrip := rstrip_by is_space.

(** [s.split(' ')]: never empty, consecutive spaces give empty strings *)
Fixpoint split (s : string) : list string :=
  match s with
  | EmptyString => [EmptyString]
  | String c t => if Ascii.eqb c " " then EmptyString :: split t
                  else match split t with [] => [String c EmptyString] | w :: ws => String c w :: ws end
  end.

Section Parse.
  Variable parse_int : string -> res Z.           (* int(s) *)
  Variable parse_vector : string -> res (list Q).   (* np.fromstring(s, sep=' ') *)

  (** The loop of parse_value_function, 28-38 *)
  Fixpoint vf_loop (lines : list string) (has_action : bool) (acts : list Z) (vectors : list (list Q)) : res (bool * list Z * list (list Q)) :=
    match lines with
    | [] => Ok (has_action, acts, vectors)
    | line :: t =>
        if isspace line then vf_loop t has_action acts vectors
        else if has_action then do v <- parse_vector line; vf_loop t false acts (vectors ++ [v])
        else do a <- parse_int line; vf_loop t true (acts ++ [a]) vectors
    end.
  (** [np.vstack]: ValueError without vectors or with different lengths *)
  Definition vstack (l : list (list Q)) : res (list (list Q)) :=
    match l with
    | [] => Err EValue
    | v :: _ => if forallb (fun w => Nat.eqb (List.length w) (List.length v)) l then Ok l else Err EValue
    end.
  (** parse_value_function, 24-41 *)
  Definition parse_value_function (lines : list string) : res (list Z * list (list Q)) :=
    do (has_action, acts, vectors) <- vf_loop lines false [] [];
    if has_action : bool then Err EParse else do m <- vstack vectors; Ok (acts, m).

  (** parse_policy_graph, 44-56; i is the line number *)
  Fixpoint pg_loop (i : Z) (lines : list string) (acts : list Z) (trans : list (list (option Z))) : res (list Z * list (list (option Z))) :=
    match lines with
    | [] => Ok (acts, trans)
    | line :: t =>
        let line := rstrip (rstrip_newline line) in
        if isspace line then pg_loop (i + 1) t acts trans
        else
          let l := split line in
          do n <- parse_int (hd EmptyString l);
          if negb (Z.eqb n i) then Err EAssert else
          do w <- (match nth_error l 1 with Some w => Ok w | None => Err EIndex end);
          do a <- parse_int w;
          do ts <- mapM (fun x => if String.eqb x "-" then Ok None else do z <- parse_int x; Ok (Some z)) (skipn 3 l);
          pg_loop (i + 1) t (acts ++ [a]) (trans ++ [ts])
    end.
  Definition parse_policy_graph (lines : list string) : res (list Z * list (list (option Z))) := pg_loop 0 lines [] [].
End Parse.
