(** Model of the hierarchical task trees: task_models/task.py 325-610,
    task_models/json_to_htm.py and the [copy] methods of the action classes.

    Probabilities (floats) are modelled by rationals. Node ids are integers. *)
From Verif Require Export PyBase.
From Coq Require Export String Ascii ZArith QArith Qabs DecimalString.
From Coq Require Import Qminmax.
Export List ListNotations.
Open Scope nat_scope.
Open Scope list_scope.

#[global] Instance EqDec_string : EqDec string := string_dec.
#[global] Instance EqDec_Z : EqDec Z := Z.eq_dec.

(** [str(n)] for a natural number. *)
Definition str_nat (n : nat) : string := NilZero.string_of_uint (Nat.to_uint n).

(** *** Actions *)

(** The action classes of the repository, by the [copy] method they have:
    action.py 55 Action; action.py 75 PrePostConditionAction (and PlaceAction);
    task.py 218 AbstractAction; task_to_pomdp.py 17 CollaborativeAction;
    bring_next_to_pomdp.py 15 CollaborativeAction; supportive.py 53 SupportedAction. *)
Inductive aclass := KAction | KPrePost | KAbstract | KCollab | KBring | KSupported.

Section Htm.
  (** The other attributes of an action (durations, probabilities, object, conditions...). *)
  Context {P : Type}.

  (** action.py 55-60: name and agent; [a_params] are the attributes that subclasses add. *)
  Record action := { a_class : aclass; a_name : string; a_agent : string; a_params : option P }.

  (** AbstractAction(name), task.py 218 and action.py 58-60 *)
  Definition mk_abstract (name : string) : action :=
    {| a_class := KAbstract; a_name := name; a_agent := "None"; a_params := None |}.

  (** [action.copy(rename_format)]: task.py 229-230 (inherited by bring_next_to_pomdp and supportive
      actions), task_to_pomdp.py 43-47; action.py 55-95 has no such method. [fmt] is
      [rename_format.format]. *)
  Definition action_copy (fmt : string -> string) (a : action) : res action :=
    match a_class a with
    | KAction | KPrePost => Err EAttr
    | KAbstract | KBring | KSupported => Ok (mk_abstract (fmt (a_name a)))
    | KCollab => Ok {| a_class := KCollab; a_name := fmt (a_name a); a_agent := "None"; a_params := a_params a |}
    end.

  (** *** Combinations *)

  (** task.py 452, 470, 505: the three inner classes. *)
  Inductive ckind := Sequential | Alternative | Parallel.

  (** BaseCombination 379-383, Combination 405-409, LeafCombination 428-430. *)
  Inductive comb :=
  | Leaf (a : action) (idx parent : option Z) (hl : bool)
  | Node (k : ckind) (children : list comb) (idx parent : option Z) (name : string) (hl : bool)
         (proba : option (list Q)).

  (** [c.name], task.py 385-387 and 432-434 *)
  Definition c_name (c : comb) : string :=
    match c with Leaf a _ _ _ => a_name a | Node _ _ _ _ n _ _ => n end.
  Definition c_idx (c : comb) : option Z := match c with Leaf _ i _ _ => i | Node _ _ i _ _ _ _ => i end.
  Definition c_hl (c : comb) : bool := match c with Leaf _ _ _ h => h | Node _ _ _ _ _ h _ => h end.

  (** [c.kind], task.py 426, 454, 472, 507 *)
  Definition kind_name (k : ckind) : string :=
    match k with Sequential => "Sequential" | Alternative => "Alternative" | Parallel => "Parallel" end.
  Definition c_kind (c : comb) : option string :=
    match c with Leaf _ _ _ _ => None | Node k _ _ _ _ _ _ => Some (kind_name k) end.

  (** np.min, np.max of a list (ValueError on an empty one), np.sum. *)
  Definition q_fold1 (f : Q -> Q -> Q) (l : list Q) : res Q :=
    match l with [] => Err EValue | x :: t => Ok (fold_left f t x) end.
  Definition q_sum (l : list Q) : Q := fold_right Qplus 0%Q l.
  Definition isclose1 (x : Q) : bool := Qle_bool (Qabs (x - 1)) ((1 # 100000000) + (1 # 100000)).
  Definition Qltb (x y : Q) : bool := negb (Qle_bool y x).

  (** Setter of AlternativeCombination.proba, task.py 482-495: the new value. *)
  Definition alt_proba (n_children : nat) (p : option (list Q)) : res (list Q) :=
    match p with
    | None =>                                                        (* 483-486 *)
        if Nat.eqb n_children 0 then Err EZeroDiv
        else Ok (repeat (1 # Pos.of_nat n_children)%Q n_children)
    | Some l =>
        do mn <- q_fold1 Qmin l;
        if Qltb mn 0 then Err EValue else                             (* 487 *)
        do mx <- q_fold1 Qmax l;
        if Qltb 1 mx then Err EValue else                             (* 489 *)
        if negb (isclose1 (q_sum l)) then Err EValue                  (* 491 *)
        else Ok l                                                     (* 494 *)
    end.

  (** SequentialCombination(...), AlternativeCombination(...), ParallelCombination(...):
      task.py 405-409, 456-457, 474-476, 509-510. *)
  Definition mk_comb (k : ckind) (children : list comb) (idx parent : option Z) (name : string) (hl : bool)
             (probabilities : option (list Q)) : res comb :=
    match k with
    | Alternative =>
        do _ <- alt_proba (length children) probabilities;            (* super().__init__ *)
        do p <- alt_proba (length children) None;                     (* self.proba = None *)
        Ok (Node k children idx parent name hl (Some p))
    | _ => Ok (Node k children idx parent name hl probabilities)
    end.

  (** [c.proba = p] on an existing combination. *)
  Definition set_proba (c : comb) (p : option (list Q)) : comb * res unit :=
    match c with
    | Leaf a i pr h => (Leaf a i pr h, Ok tt)
    | Node Alternative ch i pr n h old =>
        match alt_proba (length ch) p with
        | Ok l => (Node Alternative ch i pr n h (Some l), Ok tt)
        | Err e => (c, Err e)
        end
    | Node k ch i pr n h old => (Node k ch i pr n h p, Ok tt)
    end.

  (** deep_copy: task.py 419-421, 447-449, 459-464, 497-502, 512-517 *)
  Fixpoint deep_copy (fmt : string -> string) (c : comb) : res comb :=
    match c with
    | Leaf a _ _ hl => do a' <- action_copy fmt a; Ok (Leaf a' None None hl)
    | Node k children _ _ name hl proba =>
        do ch <- mapM (deep_copy fmt) children;
        mk_comb k ch None None (fmt name) hl proba
    end.

  (** itertools.permutations(l), in its documented order (lexicographic in positions). *)
  Fixpoint selects {A} (l : list A) : list (A * list A) :=
    match l with
    | [] => []
    | x :: t => (x, t) :: map (fun yr => (fst yr, x :: snd yr)) (selects t)
    end.
  Fixpoint perms_n {A} (n : nat) (l : list A) : list (list A) :=
    match n with
    | 0 => [[]]
    | S m => flat_map (fun xr => map (cons (fst xr)) (perms_n m (snd xr))) (selects l)
    end.
  Definition permutations {A} (l : list A) : list (list A) := perms_n (length l) l.

  (** ['{} order-{}'.format(name, i)], task.py 522-523 *)
  Definition order_fmt (i : nat) (name : string) : string := (name ++ " order-" ++ str_nat i)%string.

  Definition enum {A} (l : list A) : list (nat * A) := combine (seq 0 (length l)) l.

  (** ParallelCombination.to_alternative, task.py 519-527, given the children, name and highlighting. *)
  Definition to_alternative (children : list comb) (name : string) (hl : bool) : res comb :=
    do sequences <- mapM (fun ip : nat * list comb =>
                            do ch <- mapM (deep_copy (order_fmt (fst ip))) (snd ip);
                            mk_comb Sequential ch None None (order_fmt (fst ip) name) false None)
                         (enum (permutations children));
    mk_comb Alternative sequences None None name hl None.

  (** *** Export, task.py 389-398, 411-417, 444-445, 540-545 *)

  Inductive tdict :=
  | TDict (name : string) (id : Z) (parent : option Z) (combination : option string) (attributes : list string)
          (children : option (list tdict)).

  (** [gen] is the value that [next(id_generator)] returns (int_generator, task.py 368-372);
      the new value of the generator is returned with the dictionary. *)
  Fixpoint as_dictionary (c : comb) (parent : option Z) (gen : Z) : tdict * Z :=
    let attr := if c_hl c then ["highlighted"%string] else [] in
    match c with
    | Leaf a _ _ _ => (TDict (a_name a) gen parent None attr None, gen + 1)%Z
    | Node k children _ _ name _ _ =>
        let '(ds, g) := (fix go (l : list comb) (g : Z) : list tdict * Z :=
                           match l with
                           | [] => ([], g)
                           | x :: t => let '(d, g1) := as_dictionary x (Some gen) g in
                                       let '(ds, g2) := go t g1 in (d :: ds, g2)
                           end) children (gen + 1)%Z in
        (TDict name gen parent (Some (kind_name k)) attr (Some ds), g)
    end.

  (** HierarchicalTask.as_dictionary, task.py 540-545 *)
  Definition task_as_dictionary (root : option comb) (name : option string) : string * option tdict :=
    (match name with None => "Hierarchical task tree"%string | Some n => n end,
     match root with None => None | Some r => Some (fst (as_dictionary r None 0%Z)) end).

  (** *** json_to_htm.py 10-28 *)

  Definition combination_class (s : string) : option ckind :=            (* task.py 605-608 *)
    lookup s [("Sequential", Sequential); ("Parallel", Parallel); ("Alternative", Alternative)]%string.

  Fixpoint build_htm (d : tdict) : res comb :=
    match d with
    | TDict name id parent combination attributes children =>
        match attributes with
        | _ :: _ =>
            match filter (fun a => negb (String.eqb a "highlighted")) attributes with   (* 19 *)
            | [] => Err EIndex
            | agent :: _ => Ok (Leaf {| a_class := KAction; a_name := name; a_agent := agent; a_params := None |}
                                     (Some id) parent false)
            end
        | [] =>
            match children with
            | None => Err EKey                                             (* 23 *)
            | Some l =>
                do ch <- mapM build_htm l;
                match combination with
                | None => Err EKey
                | Some s => match combination_class s with
                            | None => Err EKey                             (* 28 *)
                            | Some k => mk_comb k ch (Some id) parent name false None
                            end
                end
            end
        end
    end.

  (** *** MetaAction, task.py 329-365 *)

  (** [MName] is a plain action; [MMeta] a MetaAction with its attributes name, kind and actions. *)
  Inductive maction :=
  | MPlain (a : action)
  | MMeta (name kind : string) (actions : list maction).

  Definition m_name (m : maction) : string := match m with MPlain a => a_name a | MMeta n _ _ => n end.

  Definition SEP : list (string * string) := [("sequence", "→"); ("parallel", "||"); ("alternative", "∨")]%string.

  (** MetaAction(kind, actions), 336-339 and 363-365 *)
  Definition mk_meta (kind : string) (actions : list maction) : res maction :=
    do sep <- getitem kind SEP;
    Ok (MMeta ("(" ++ String.concat sep (map m_name actions) ++ ")")%string kind actions).

  (** to_combination, 357-361. A plain action of the list becomes a leaf. *)
  Fixpoint to_combination (m : maction) : res comb :=
    match m with
    | MPlain a => Ok (Leaf a None None false)
    | MMeta _ kind actions =>
        do ch <- mapM to_combination actions;
        match combination_class kind with
        | None => Err EKey
        | Some k => mk_comb k ch None None "unnamed" false None
        end
    end.

  (** *** Searches, task.py 547-602 *)

  Definition opt_z_eqb (x y : option Z) : bool := if eq_dec x y then true else false.

  (** find_parent_node, 547-568. [None] is Python's None. *)
  Fixpoint find_parent_node (node : comb) (idx : option Z) : option comb :=
    match node with
    | Leaf _ _ _ _ => None
    | Node _ children _ _ _ _ _ =>
        (fix go (l : list comb) : option comb :=
           match l with
           | [] => None
           | c :: t => if opt_z_eqb idx (c_idx c) then Some node
                       else match find_parent_node c idx with
                            | Some p => Some p
                            | None => go t
                            end
           end) children
    end.

  Definition is_human_leaf (c : comb) : bool :=
    match c with Leaf a _ _ _ => String.eqb (a_agent a) "human" | Node _ _ _ _ _ _ _ => false end.

  (** find_next_human_action, 570-585. Comparing None with an integer is a TypeError. *)
  Fixpoint find_next_human_action (node : comb) (curr_idx : Z) : res (option comb) :=
    match node with
    | Leaf _ _ _ _ => Ok None
    | Node _ children _ _ _ _ _ =>
        (fix go (l : list comb) : res (option comb) :=
           match l with
           | [] => Ok None
           | c :: t =>
               match c_idx c with
               | None => Err EType
               | Some i =>
                   if (Z.ltb curr_idx i && is_human_leaf c)%bool then Ok (Some c)
                   else do r <- find_next_human_action c curr_idx;
                        match r with Some x => Ok (Some x) | None => go t end
               end
           end) children
    end.

  (** [name in s] for strings. *)
  Fixpoint contains (name s : string) : bool :=
    (String.prefix name s || match s with EmptyString => false | String _ t => contains name t end)%bool.

  (** find_node_by_name, 587-602. [lower] is str.lower. *)
  Fixpoint find_node_by_name (lower : string -> string) (node : comb) (name : string) : option comb :=
    match node with
    | Leaf _ _ _ _ => None
    | Node _ children _ _ _ _ _ =>
        (fix go (l : list comb) : option comb :=
           match l with
           | [] => None
           | c :: t => if contains name (lower (c_name c)) then Some c
                       else match find_node_by_name lower c name with
                            | Some p => Some p
                            | None => go t
                            end
           end) children
    end.
End Htm.
Arguments action P : clear implicits.
Arguments comb P : clear implicits.
Arguments maction P : clear implicits.
