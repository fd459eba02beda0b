(** Specification for C57 to C63. *)
From Verif Require Import PyBase QBase PomdpModel BeliefModel PolicyModel PomcpModel.
Local Open Scope list_scope.
Local Open Scope nat_scope.

(** *** Averages *)
Definition mean (l : list Q) : Q := (sumQ l / inject_Z (Z.of_nat (length l)))%Q.
(** The average after a list of updates. *)
Definition after (alpha : Q) (updates : list Q) : vavg := fold_left (avg_update alpha) updates avg_new.

Section Tree.
  Context {X St B H : Type}.
  Variable P : search X St B H.

  (** The node at the end of a history of actions and observations. *)
  Fixpoint find (n : onode B) (h : list (nat * nat)) : option (onode B) :=
    match h with
    | [] => Some n
    | (a, o) :: rest => match nth_error (o_kids n) a with
                        | Some (Some c) => match lookup o (a_kids c) with Some m => find m rest | None => None end
                        | _ => None
                        end
    end.
  (** Number of visits of an action of a node, and of all of them. *)
  Definition visits (n : onode B) (a : nat) : nat := match nth_error (o_kids n) a with Some (Some c) => a_count c | _ => 0 end.
  Definition all_visits (n : onode B) : nat := list_sum (map (visits n) (seq 0 (length (o_kids n)))).
  (** Average value of an action. *)
  Definition action_value (n : onode B) (a : nat) : Q := match nth_error (o_kids n) a with Some (Some c) => avg_value (a_avg c) | _ => 0%Q end.

  (** Beliefs that filtering along a history can give. *)
  Definition may_follow (b : B) (a o : nat) (b' : B) : Prop := exists x x', s_succ P b a o x = (Ok b', x').
  Inductive filters : B -> list (nat * nat) -> B -> Prop :=
  | fl_nil b : filters b [] b
  | fl_cons b a o b1 h b2 : may_follow b a o b1 -> filters b1 h b2 -> filters b ((a, o) :: h) b2.

  (** *** Histories of operations, each with any state of the world *)
  Inductive event :=
  | EvAction (a : option nat)            (* get_action: the action, or an exception *)
  | EvStep (o : option nat)              (* step: the observation, or an exception *)
  | EvReset
  | EvExplore.                           (* a simulation from any node, as by the thread of AsyncPOMCPPolicyRunner *)
  Inductive trace : B -> list event -> runner B -> Prop :=
  | tr_init x b x' r : s_start P x = (Ok b, x') -> r_init P x = (Ok r, x') -> trace b [] r
  | tr_action b l r k fuel x r' x' nm : trace b l r -> get_action P k fuel r x = (r', x', Ok nm) -> trace b (l ++ [EvAction (r_last r')]) r'
  | tr_action_fail b l r k fuel x r' x' e : trace b l r -> get_action P k fuel r x = (r', x', Err e) -> trace b (l ++ [EvAction None]) r'
  | tr_step b l r ob o x r' x' : trace b l r -> r_step P ob r x = (r', x', Ok tt) -> list_index (s_observations P) ob = Ok o -> trace b (l ++ [EvStep (Some o)]) r'
  | tr_step_fail b l r ob x r' x' e : trace b l r -> r_step P ob r x = (r', x', Err e) -> trace b (l ++ [EvStep None]) r'
  | tr_reset b l r : trace b l r -> trace b (l ++ [EvReset]) (r_reset (r_root r))
  | tr_explore b l r fuel action path x root x' v : trace b l r ->
      at_node (simulate_from_node P fuel action) (r_root r) path x = (root, x', v) ->
      trace b (l ++ [EvExplore]) {| r_root := root; r_history := r_history r; r_node := r_node r; r_last := r_last r |}.
  (** Last action and history expected after events. *)
  Definition expect (g : option nat * list (nat * nat)) (ev : event) : option nat * list (nat * nat) :=
    match ev with
    | EvAction (Some a) => (Some a, snd g)
    | EvStep (Some o) => match fst g with Some a => (Some a, snd g ++ [(a, o)]) | None => g end
    | EvReset => (None, [])
    | EvAction None | EvStep None | EvExplore => g
    end.

  (** *** Rollouts *)
  (** Random walk from a state until the horizon is reached: its rewards. *)
  Inductive walk : St -> H -> X -> list Q -> X -> Prop :=
  | wk_end s h x : s_reached P h = true -> walk s h x [] x
  | wk_step s h x a x1 s' o r x2 rs x3 : s_reached P h = false -> choice (s_rand P) (n_actions P) x = (Ok a, x1) ->
      s_transition P a s x1 = (Ok (s', o, r), x2) -> walk s' (s_decrement P h a s s' o) x2 rs x3 -> walk s h x (r :: rs) x3.
  Fixpoint discounted (rs : list Q) : Q := match rs with [] => 0%Q | r :: t => (r + s_discount P * discounted t)%Q end.
  (** k walks from states of a belief: their discounted sums. *)
  Inductive walks : B -> H -> X -> list Q -> X -> Prop :=
  | ws_nil b h x : walks b h x [] x
  | ws_cons b h x s x1 rs x2 vs x3 : s_sample P b x = (Ok s, x1) -> walk s (s_copy P h) x1 rs x2 -> walks b h x2 vs x3 -> walks b h x (discounted rs :: vs) x3.

  (** A path of a simulation: transitions of the model while the horizon is not reached. *)
  Inductive chain : St -> H -> list Q -> H -> Prop :=
  | ch_nil s h : chain s h [] h
  | ch_cons s h a x s' o r x' rs h' : s_reached P h = false -> s_transition P a s x = (Ok (s', o, r), x') ->
      chain s' (s_decrement P h a s s' o) rs h' -> chain s h (r :: rs) h'.
  (** What is added at its end: 0 or the value of a node when the horizon is reached, the average of some
      rollouts from a new node, or 0 when no belief could be made for it (MaxSamplesReached). *)
  Inductive leaf (h : H) : Q -> Prop :=
  | lf_reached n : s_reached P h = true -> leaf h (avg_value (@o_avg B n))
  | lf_zero : s_reached P h = true -> leaf h 0%Q
  | lf_rollout b x vs x' v : s_reached P h = false -> walks b h x vs x' -> length vs = s_rollouts P -> (v == mean vs)%Q -> leaf h v
  | lf_skipped : (exists b a o x x', s_succ P b a o x = (Err EMaxSamples, x')) \/
      (exists b fuel x n' x', rollout_from_node P fuel (o_new P b) h x = (n', x', Err EMaxSamples)) -> leaf h 0%Q.
End Tree.
