(** Specification of the search with nodes shared by belief, for C95. *)
From Verif Require Import PyBase QBase PomdpModel BeliefModel PolicyModel PomcpModel PomcpSpec SharedModel.
Local Open Scope list_scope.
Local Open Scope nat_scope.

Section SharedSpec.
  Context {X St B H : Type}.
  Variable P : search X St B H.
  Variable same : B -> B -> bool.

  (** The node at the end of a history of actions and observations. *)
  Fixpoint s_find (st : store B) (i : nat) (h : list (nat * nat)) : option nat :=
    match h with
    | [] => Some i
    | (a, o) :: rest =>
        match nth_error st i with
        | Some n => match nth_error (sn_kids n) a with
                    | Some (Some k) => match lookup o (k_obs k) with Some j => s_find st j rest | None => None end
                    | _ => None
                    end
        | None => None
        end
    end.

  (** Visits of an action of a node, and of all of them. *)
  Definition s_visits (n : snode B) (a : nat) : nat :=
    match nth_error (sn_kids n) a with Some (Some k) => n_simulations (k_avg k) | _ => 0 end.
  Definition s_all_visits (n : snode B) : nat := list_sum (map (s_visits n) (seq 0 (length (sn_kids n)))).

  (** Beliefs that filtering along a history can give, when a belief can be replaced by the same one found before. *)
  Inductive same_filters : B -> list (nat * nat) -> B -> Prop :=
  | sf_nil b : same_filters b [] b
  | sf_cons b a o b1 b1' h b2 : may_follow P b a o b1 -> same b1' b1 = true -> same_filters b1' h b2 -> same_filters b ((a, o) :: h) b2.

  (** Histories of operations, each with any state of the world. *)
  Inductive strace : B -> list event -> srunner B -> Prop :=
  | st_init x b x' r : s_start P x = (Ok b, x') -> sr_init P same BArray x = (Ok r, x') -> strace b [] r
  | st_action b l r k fuel x r' x' nm : strace b l r -> s_get_action P same k fuel r x = (r', x', Ok nm) -> strace b (l ++ [EvAction (sr_last r')]) r'
  | st_action_fail b l r k fuel x r' x' e : strace b l r -> s_get_action P same k fuel r x = (r', x', Err e) -> strace b (l ++ [EvAction None]) r'
  | st_step b l r ob o x r' x' : strace b l r -> s_step P same ob r x = (r', x', Ok tt) -> list_index (s_observations P) ob = Ok o ->
      strace b (l ++ [EvStep (Some o)]) r'
  | st_step_fail b l r ob x r' x' e : strace b l r -> s_step P same ob r x = (r', x', Err e) -> strace b (l ++ [EvStep None]) r'
  | st_reset b l r : strace b l r -> strace b (l ++ [EvReset]) (sr_reset (sr_store r))
  | st_explore b l r fuel action i x st x' v : strace b l r -> s_simulate_from P same fuel action (sr_store r) i x = (st, x', v) ->
      strace b (l ++ [EvExplore]) {| sr_store := st; sr_history := sr_history r; sr_node := sr_node r; sr_last := sr_last r |}.
End SharedSpec.

Section Agree.
  Context {B : Type}.
  (** What a node of either search holds: average, belief, and for each action tried its average and the
      observations made. *)
  Definition s_view (n : snode B) := (sn_avg n, sn_belief n, map (option_map (fun k => (k_avg k, map fst (k_obs k)))) (sn_kids n)).
  Definition t_view (n : onode B) := (o_avg n, o_belief n, map (option_map (fun c => (a_avg c, map fst (a_kids c)))) (o_kids n)).
  (** The two searches agree: the same histories lead to nodes that hold the same, and history, current node and
      last action are the same. *)
  Definition agree (r : srunner B) (t : runner B) : Prop :=
    (forall h, match PomcpSpec.find (r_root t) h with
               | Some n => exists i m, s_find (sr_store r) 0 h = Some i /\ nth_error (sr_store r) i = Some m /\ s_view m = t_view n
               | None => s_find (sr_store r) 0 h = None
               end) /\
    sr_history r = r_history t /\ s_find (sr_store r) 0 (r_node t) = Some (sr_node r) /\ sr_last r = r_last t.
  (** No two histories lead to the same node: nothing is shared. *)
  Definition unshared (r : srunner B) : Prop :=
    forall h1 h2 i, s_find (sr_store r) 0 h1 = Some i -> s_find (sr_store r) 0 h2 = Some i -> h1 = h2.
End Agree.

(** The same operations with the same random draws on either search: the outcomes. *)
Section Lockstep.
  Context {X St B H : Type}.
  Variable P : search X St B H.
  Variable same : B -> B -> bool.
  Inductive op := OpAction (iterations fuel : nat) (x : X) | OpStep (observation : name) (x : X) | OpReset.
  Inductive outcome := OutAction (x : X) (a : res name) | OutStep (x : X) (r : res unit) | OutReset.
  Definition shared_op (r : srunner B) (o : op) : srunner B * outcome :=
    match o with
    | OpAction k fuel x => let '(r, x, v) := s_get_action P same k fuel r x in (r, OutAction x v)
    | OpStep ob x => let '(r, x, v) := s_step P same ob r x in (r, OutStep x v)
    | OpReset => (sr_reset (sr_store r), OutReset)
    end.
  Definition plain_op (t : runner B) (o : op) : runner B * outcome :=
    match o with
    | OpAction k fuel x => let '(t, x, v) := get_action P k fuel t x in (t, OutAction x v)
    | OpStep ob x => let '(t, x, v) := r_step P ob t x in (t, OutStep x v)
    | OpReset => (r_reset (r_root t), OutReset)
    end.
  Fixpoint run {R} (step : R -> op -> R * outcome) (r : R) (l : list op) : R * list outcome :=
    match l with
    | [] => (r, [])
    | o :: l => let (r, out) := step r o in let (r, outs) := run step r l in (r, out :: outs)
    end.
End Lockstep.
