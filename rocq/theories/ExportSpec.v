(** Specification of the exports of search trees, for C96. *)
From Coq Require Import Sorting.Sorted.
From Verif Require Import PyBase QBase PomdpModel BeliefModel PolicyModel PomcpModel PomcpSpec SharedModel SharedSpec ExportModel.
Local Open Scope list_scope.
Local Open Scope nat_scope.

Definition od_value d := match d with OD v _ _ _ _ => v end.
Definition od_visits d := match d with OD _ v _ _ _ => v end.
Definition od_belief d := match d with OD _ _ b _ _ => b end.
Definition od_actions d := match d with OD _ _ _ a _ => a end.
Definition od_children d := match d with OD _ _ _ _ c => c end.
Definition ad_value d := match d with AD v _ _ _ => v end.
Definition ad_visits d := match d with AD _ v _ _ => v end.
Definition ad_observations d := match d with AD _ _ o _ => o end.
Definition ad_children d := match d with AD _ _ _ c => c end.
Definition pd_info d := match d with PD f _ _ _ => f end.
Definition pd_expanded d := match d with PD _ e _ _ => e end.
Definition pd_observations d := match d with PD _ _ o _ => o end.
Definition pd_children d := match d with PD _ _ _ c => c end.

(** *** Reading a dictionary by names: the entry of "children" at the position of the name in the other list *)
Definition entry {C} (names : list name) (children : list C) (nm : name) : option C :=
  match list_index names nm with Ok i => nth_error children i | Err _ => None end.
Fixpoint read (d : odict) (h : list (name * name)) : option odict :=
  match h with
  | [] => Some d
  | (a, o) :: rest => match entry (od_actions d) (od_children d) a with
                      | Some c => match entry (ad_observations c) (ad_children c) o with Some d' => read d' rest | None => None end
                      | None => None
                      end
  end.

Section ExportSpec.
  Context {X St B H : Type}.
  Variable P : search X St B H.
  Variable to_list : B -> list Q.

  (** Trees of the search: a place for each action in each node, observations of the model, once each. *)
  Definition tree_ok (n : onode B) : Prop :=
    forall h m, PomcpSpec.find n h = Some m -> length (o_kids m) = length (s_actions P) /\
      forall a c, nth_error (o_kids m) a = Some (Some c) -> NoDup (map fst (a_kids c)) /\ forall o, In o (map fst (a_kids c)) -> o < length (s_observations P).
  (** Beliefs are only filtered for observations of the model. *)
  Definition in_range : Prop := forall b a o b', may_follow P b a o b' -> o < length (s_observations P).
  (** A history and the names of its actions and observations *)
  Definition named (h : list (nat * nat)) (nh : list (name * name)) : Prop :=
    Forall2 (fun ao n => nth_error (s_actions P) (fst ao) = Some (fst n) /\ nth_error (s_observations P) (snd ao) = Some (snd n)) h nh.
  (** Names of a list of indices *)
  Definition all_named (names : list name) (is : list nat) (l : list name) : Prop := Forall2 (fun i nm => nth_error names i = Some nm) is l.

  (** A dictionary describes a node: its numbers, the names of the actions tried, in the order of the model, and for each its
      numbers and the names of the observations made, in the order they were first made. *)
  Definition describes (d : odict) (m : onode B) : Prop :=
    od_value d = avg_value (o_avg m) /\ od_visits d = o_count m /\ od_belief d = to_list (o_belief m) /\
    (forall nm, In nm (od_actions d) <-> exists a c, nth_error (o_kids m) a = Some (Some c) /\ nth_error (s_actions P) a = Some nm) /\
    (forall a c nm, nth_error (o_kids m) a = Some (Some c) -> nth_error (s_actions P) a = Some nm ->
       exists e, entry (od_actions d) (od_children d) nm = Some e /\ ad_value e = avg_value (a_avg c) /\ ad_visits e = a_count c /\
         all_named (s_observations P) (map fst (a_kids c)) (ad_observations e) /\ length (ad_children e) = length (a_kids c)) /\
    length (od_children d) = length (od_actions d) /\
    exists is, StronglySorted lt is /\ all_named (s_actions P) is (od_actions d).

  (** *** Policies *)
  Definition untried (n : onode B) (a : nat) : Prop := a < length (o_kids n) /\ visits n a = 0.
  (** The action of a node: one never tried if there is one, otherwise the first of greatest value. *)
  Definition chosen (n : onode B) (a : nat) : Prop :=
    a < length (o_kids n) /\
    ((exists i, untried n i) -> untried n a) /\
    ((forall i, ~ untried n i) -> forall i, i < length (o_kids n) -> (action_value n i <= action_value n a)%Q /\ (i < a -> (action_value n i < action_value n a)%Q)).
  (** The entries of a node for an action *)
  Definition informs (bl : list Q) (n : onode B) (a : nat) (observed : option nat) (f : pinfo) : Prop :=
    p_value f = avg_value (o_avg n) /\ p_visits f = o_count n /\ p_belief f = bl /\ nth_error (s_actions P) a = Some (p_action f) /\ p_observed f = observed /\
    length (p_values f) = length (o_kids n) /\ length (p_terms f) = length (o_kids n) /\ length (p_child_visits f) = length (o_kids n) /\
    forall i, i < length (o_kids n) ->
      nth_error (p_child_visits f) i = Some (visits n i) /\
      (0 < o_count n -> nth_error (p_values f) i = Some (if Nat.eqb (visits n i) 0 then None else Some (action_value n i))) /\
      nth_error (p_terms f) i = Some (if Nat.eqb (visits n i) 0 then None else Some (s_bonus P (o_count n) (visits n i))).
  (** Observations made after an action, with the nodes they lead to *)
  Definition after_action (n : onode B) (a : nat) : list (nat * onode B) := match nth_error (o_kids n) a with Some (Some c) => a_kids c | _ => [] end.
  (** A dictionary is a policy for a tree: at each node an action it can choose, and a dictionary for each observation made after
      it.  [num] gives the entry "observed" of the child at a position and for an observation, [bl] the entry "belief". *)
  Inductive policy_for (num : nat -> nat -> nat) (bl : B -> list Q -> Prop) : onode B -> option nat -> pdict -> Prop :=
  | pf_node n observed a b f names ds : chosen n a -> bl (o_belief n) b -> informs b n a observed f ->
      all_named (s_observations P) (map fst (after_action n a)) names -> length ds = length (after_action n a) ->
      (forall i o m, nth_error (after_action n a) i = Some (o, m) -> exists d, nth_error ds i = Some d /\ policy_for num bl m (Some (num i o)) d) ->
      policy_for num bl n observed (PD f true names ds).

  (** What an export changes: nodes are the same but for actions never tried, which can get a child without simulations nor
      observations. *)
  Definition kid_kept (k k' : option (vavg * list nat)) : Prop := k' = k \/ k = None /\ k' = Some (avg_new, []).
  Definition view_kept (v v' : vavg * B * list (option (vavg * list nat))) : Prop :=
    fst v' = fst v /\ Forall2 kid_kept (snd v) (snd v').
  Definition kept (n n' : onode B) : Prop :=
    forall h, match PomcpSpec.find n h, PomcpSpec.find n' h with
              | Some m, Some m' => view_kept (t_view m) (t_view m')
              | None, None => True
              | _, _ => False
              end.

  (** *** Nodes shared by belief *)
  Definition store_kept (st st' : store B) : Prop :=
    length st' = length st /\
    forall i n, nth_error st i = Some n -> exists n', nth_error st' i = Some n' /\ sn_avg n' = sn_avg n /\ sn_belief n' = sn_belief n /\
      length (sn_kids n') = length (sn_kids n) /\
      forall a, nth_error (sn_kids n') a = nth_error (sn_kids n) a \/ nth_error (sn_kids n) a = Some None /\ nth_error (sn_kids n') a = Some (Some k_new).
  Definition reachable (st : store B) (i : nat) : Prop := exists h, s_find st 0 h = Some i.
  (** A node that comes back to itself *)
  Definition cyclic (st : store B) : Prop := exists h i g, s_find st 0 h = Some i /\ g <> [] /\ s_find st i g = Some i.

  (** Numbers of a node *)
  Definition brief (d : odict) (n : snode B) : Prop :=
    od_value d = avg_value (sn_avg n) /\ od_visits d = n_simulations (sn_avg n) /\ od_belief d = to_list (sn_belief n).
  (** All actions tried, in the order of the model, with all observations, in the order they were made, and the numbers of the
      nodes they lead to *)
  Definition full (st : store B) (d : odict) (n : snode B) : Prop :=
    exists ps, (forall a k, In (a, k) ps <-> nth_error (sn_kids n) a = Some (Some k)) /\ StronglySorted lt (map fst ps) /\
      all_named (s_actions P) (map fst ps) (od_actions d) /\
      Forall2 (fun ak e => let k := snd ak in
        ad_value e = avg_value (k_avg k) /\ ad_visits e = n_simulations (k_avg k) /\ all_named (s_observations P) (map fst (k_obs k)) (ad_observations e) /\
        Forall2 (fun oj d' => exists m, nth_error st (snd oj) = Some m /\ brief d' m) (k_obs k) (ad_children e)) ps (od_children d).
  (** A dictionary for the node at a reference: complete, or without its actions *)
  Definition new_dict (st : store B) (i : nat) (d : odict) : Prop := exists n, nth_error st i = Some n /\ brief d n /\ full st d n.
  Definition old_dict (st : store B) (i : nat) (d : odict) : Prop := exists n, nth_error st i = Some n /\ brief d n /\ od_actions d = [] /\ od_children d = [].

  (** The averages of a node and of its actions, as a tree without observations *)
  Definition averages (n : snode B) : onode B := ON (sn_avg n) (sn_belief n) (map (option_map (fun k => AN (k_avg k) [])) (sn_kids n)).
  (** The references after an action *)
  Definition s_after (n : snode B) (a : nat) : list (nat * nat) := match nth_error (sn_kids n) a with Some (Some k) => k_obs k | _ => [] end.
  (** Policies *)
  Definition pbrief (n : snode B) (a : nat) (d : pdict) : Prop :=
    chosen (averages n) a /\ informs (to_list (sn_belief n)) (averages n) a (p_observed (pd_info d)) (pd_info d).
  Definition new_policy (st : store B) (i : nat) (d : pdict) : Prop :=
    exists n a, nth_error st i = Some n /\ pbrief n a d /\ pd_expanded d = true /\ all_named (s_observations P) (map fst (s_after n a)) (pd_observations d) /\
      length (pd_children d) = length (s_after n a) /\
      forall p o j, nth_error (s_after n a) p = Some (o, j) -> exists d' m a', nth_error (pd_children d) p = Some d' /\ p_observed (pd_info d') = Some p /\
        nth_error st j = Some m /\ pbrief m a' d'.
  Definition old_policy (st : store B) (i : nat) (d : pdict) : Prop :=
    exists n a, nth_error st i = Some n /\ pbrief n a d /\ pd_expanded d = false /\ pd_observations d = [] /\ pd_children d = [].
End ExportSpec.

(** Dictionaries in order, with references to their nodes: new ones and ones seen before. *)
Section Listing.
  Context {D : Type}.
  Variables new old : nat -> D -> Prop.
  Inductive listing : list nat -> list nat -> list D -> Prop :=
  | ls_nil seen : listing seen [] []
  | ls_new seen i refs d ds : ~ In i seen -> new i d -> listing (i :: seen) refs ds -> listing seen (i :: refs) (d :: ds)
  | ls_old seen i refs d ds : In i seen -> old i d -> listing seen refs ds -> listing seen (i :: refs) (d :: ds).
End Listing.

(** All dictionaries inside a dictionary, in the order of the file *)
Fixpoint all_dicts (d : odict) : list odict :=
  match d with OD _ _ _ _ cs => d :: flat_map all_adicts cs end
with all_adicts (d : adict) : list odict :=
  match d with AD _ _ _ ds => flat_map all_dicts ds end.
Fixpoint all_pdicts (d : pdict) : list pdict :=
  match d with PD _ _ _ ds => d :: flat_map all_pdicts ds end.
