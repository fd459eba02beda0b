(** Specification vocabulary for hierarchical tasks, C17 to C27. *)
From Verif Require Import PyBase HtmModel.
From Coq Require Import Qminmax.

Section HtmSpec.
  Context {P : Type}.

  (** *** Trees *)
  Definition children_of (c : comb P) : list (comb P) :=
    match c with Leaf _ _ _ _ => [] | Node _ ch _ _ _ _ _ => ch end.

  (** Nodes of a tree in depth-first preorder, with and without the root. *)
  Fixpoint preorder (c : comb P) : list (comb P) :=
    c :: match c with Leaf _ _ _ _ => [] | Node _ ch _ _ _ _ _ => flat_map preorder ch end.
  Definition descendants (c : comb P) : list (comb P) := flat_map preorder (children_of c).

  Definition is_leaf (c : comb P) : Prop := exists a i p h, c = Leaf a i p h.

  (** Trees that can be built with the constructors and the proba setter. *)
  Inductive constructed : comb P -> Prop :=
  | constructed_leaf a i p h : constructed (Leaf a i p h)
  | constructed_comb k ch i p n h pr c :
      Forall constructed ch -> mk_comb k ch i p n h pr = Ok c -> constructed c
  | constructed_set c pr : constructed c -> constructed (fst (set_proba c pr)).

  (** *** Exported dictionaries *)
  Definition d_id (d : tdict) : Z := match d with TDict _ i _ _ _ _ => i end.
  Definition d_parent (d : tdict) : option Z := match d with TDict _ _ p _ _ _ => p end.
  Definition d_children (d : tdict) : list tdict :=
    match d with TDict _ _ _ _ _ (Some l) => l | TDict _ _ _ _ _ None => [] end.
  Fixpoint dnodes (d : tdict) : list tdict :=
    d :: match d with TDict _ _ _ _ _ (Some l) => flat_map dnodes l | TDict _ _ _ _ _ None => [] end.

  (** The dictionary shows the tree: same shape, names, kinds and highlighting. *)
  Inductive shows : comb P -> tdict -> Prop :=
  | shows_leaf a i p (h : bool) id par :
      shows (Leaf a i p h) (TDict (a_name a) id par None (if h then ["highlighted"%string] else []) None)
  | shows_node k ch i p n (h : bool) pr id par ds :
      Forall2 shows ch ds ->
      shows (Node k ch i p n h pr)
            (TDict n id par (Some (kind_name k)) (if h then ["highlighted"%string] else []) (Some ds)).

  (** *** Copies: same shape, kinds, order and highlighting, with renamed names; [R] relates the
      actions of the leaves. Ids and parents are not kept. *)
  Inductive copied (R : action P -> action P -> Prop) (fmt : string -> string) : comb P -> comb P -> Prop :=
  | copied_leaf a a' i p h :
      a_name a' = fmt (a_name a) -> R a a' -> copied R fmt (Leaf a i p h) (Leaf a' None None h)
  | copied_node k ch ch' i p n h pr pr' :
      Forall2 (copied R fmt) ch ch' -> copied R fmt (Node k ch i p n h pr) (Node k ch' None None (fmt n) h pr').

  (** Same class and parameters. *)
  Definition same_params (a a' : action P) : Prop := a_class a' = a_class a /\ a_params a' = a_params a.

  (** Which actions have a copy method, and what the copy of each keeps. *)
  Definition has_copy (a : action P) : Prop := a_class a <> KAction /\ a_class a <> KPrePost.
  Definition copy_action (a a' : action P) : Prop :=
    (a_class a = KCollab -> same_params a a') /\ (a_class a <> KCollab -> a_class a' = KAbstract /\ a_params a' = None).

  (** Two trees equal up to ids, parents and probabilities. *)
  Inductive same_tree : comb P -> comb P -> Prop :=
  | same_leaf a i p h i' p' : same_tree (Leaf a i p h) (Leaf a i' p' h)
  | same_node k ch ch' i p n h pr i' p' pr' :
      Forall2 same_tree ch ch' -> same_tree (Node k ch i p n h pr) (Node k ch' i' p' n h pr').

  (** *** Probability lists: numbers in [0, 1] whose sum is 1 up to numpy's default tolerance. *)
  Definition valid_proba (l : list Q) : Prop :=
    (l <> [] /\ (forall x, In x l -> 0 <= x /\ x <= 1) /\
    Qabs (q_sum l - 1) <= (1 # 100000000) + (1 # 100000))%Q.

  (** *** JSON files that json_to_htm understands: a node is a leaf when it has attributes, one of
      them being the agent. *)
  Inductive loads : tdict -> comb P -> Prop :=
  | loads_leaf n i p cb attrs ch agent rest :
      filter (fun a => negb (String.eqb a "highlighted")) attrs = agent :: rest ->
      loads (TDict n i p cb attrs ch)
            (Leaf {| a_class := KAction; a_name := n; a_agent := agent; a_params := None |} (Some i) p false)
  | loads_node n i p k l ch pr :
      (k = Alternative -> l <> []) -> Forall2 loads l ch ->
      loads (TDict n i p (Some (kind_name k)) [] (Some l)) (Node k ch (Some i) p n false pr).

  (** *** Meta-actions built with the constructor. *)
  Inductive meta_built : maction P -> Prop :=
  | meta_plain a : meta_built (MPlain a)
  | meta_meta kind l m : Forall meta_built l -> mk_meta kind l = Ok m -> meta_built m.

  Fixpoint m_nodes (m : maction P) : list (maction P) :=
    m :: match m with MPlain _ => [] | MMeta _ _ l => flat_map m_nodes l end.

  (** The combination that a meta-action describes, its kinds being names of combinations. *)
  Inductive expands : maction P -> comb P -> Prop :=
  | expands_plain a : expands (MPlain a) (Leaf a None None false)
  | expands_meta n k l ch pr :
      Forall2 expands l ch -> expands (MMeta n (kind_name k) l) (Node k ch None None "unnamed" false pr).

  (** *** Lexicographic order, the order of itertools.permutations. *)
  Inductive lex_lt : list nat -> list nat -> Prop :=
  | lex_head x y p q : x < y -> lex_lt (x :: p) (y :: q)
  | lex_tail x p q : lex_lt p q -> lex_lt (x :: p) (x :: q).

  (** *** First element of a list that satisfies a predicate. *)
  Definition first_such {A} (Q : A -> Prop) (l : list A) (x : A) : Prop :=
    exists before after, l = before ++ x :: after /\ Q x /\ forall y, In y before -> ~ Q y.

  (** [s] contains [name] as a substring. *)
  Definition substring_of (name s : string) : Prop := exists a b, s = (a ++ name ++ b)%string.
End HtmSpec.
