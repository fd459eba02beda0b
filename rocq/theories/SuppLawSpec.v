(** Specification for C100: the chances of the outcomes of the supportive simulator, told on worlds. *)
From Verif Require Import QBase PyBase PomdpModel CodecModel SuppModel SuppSpec SuppLawModel LawSpec.
Local Open Scope list_scope.
Local Open Scope nat_scope.

(** *** Building finite distributions *)
Definition certain {A} (a : A) : space A := [(1%Q, a)].
(** First draw from d, then from the distribution that depends on the outcome. *)
Definition next {A B} (d : space A) (f : A -> space B) : space B :=
  flat_map (fun qa => map (fun rb => ((fst qa * fst rb)%Q, snd rb)) (f (snd qa))) d.
Definition coin (p : Q) : space bool := [(p, true); ((1 - p)%Q, false)].
Definition among {A} (l : list A) : space A := map (fun x => ((1 / inject_Z (Z.of_nat (length l)))%Q, x)) l.

Definition put (h : string -> bool) (o : string) (b : bool) : string -> bool := fun o' => if String.eqb o' o then b else h o'.

(** Each object of the list changes with probability p, each on its own. *)
Fixpoint moved (p : Q) (objs : list string) (h : string -> bool) : space (string -> bool) :=
  match objs with
  | [] => certain h
  | o :: t => next (coin p) (fun c => moved p t (if c then put h o (negb (h o)) else h))
  end.
(** Each preference changes with probability p, each on its own. *)
Fixpoint changed (p : Q) (l : list bool) : space (list bool) :=
  match l with
  | [] => certain []
  | b :: t => next (coin p) (fun c => next (changed p t) (fun t' => certain ((if c then negb b else b) :: t')))
  end.
(** Each preference is there with its own probability. *)
Fixpoint wanted (l : list Q) : space (list bool) :=
  match l with
  | [] => certain []
  | p :: t => next (coin p) (fun c => next (wanted t) (fun t' => certain (c :: t')))
  end.

Section Chances.
  Variable cf : config.
  Variable pr : probabilities.
  (** The leaves of the task, their successors, the first leaves, and the names of the objects *)
  Variable nodes : list sparams.
  Variable succs : list (list nat).
  Variable init : list nat.
  Variable objs : list string.

  Local Open Scope Q_scope.

  (** Meeting the conditions one after the other: what is there afterwards, and how many objects the human
      had to fetch; a partly consumed object runs out with probability p_consume_all. *)
  Fixpoint met (cs : list (cond * string)) (h : string -> bool) : space ((string -> bool) * nat) :=
    match cs with
    | [] => certain (h, 0%nat)
    | (c, o) :: t =>
        next (match c with
              | CConsumes => certain false
              | CUses => certain true
              | CSome => next (coin (p_consume_all pr)) (fun all => certain (negb all))
              | COther => certain (h o)
              end)
             (fun b => next (met t (put h o b)) (fun hn => certain (fst hn, ((if h o then 0 else 1) + snd hn)%nat)))
    end.

  (** The human finishes leaf i and goes to one of its successors, all as likely; [base] is the reward before
      the costs of fetching. *)
  Definition finishing (i : nat) (w : world) (base : Q) : space (world * string * Q) :=
    match nth_error nodes i, nth_error succs i with
    | Some p, Some l =>
        next (match l with [] => certain Cleaning | _ => next (among l) (fun j => certain (Doing j)) end)
             (fun g => next (met (sp_conditions p) (w_has w))
             (fun hn => certain ({| w_stage := g; w_prefs := w_prefs w; w_holding := w_holding w; w_has := fst hn |},
                                 "none"%string, base - missing_cost cf (snd hn))))
    | _, _ => []
    end.

  (** Holding this way helps with leaf i. *)
  Definition is_help (w : world) (hv : string) (i : nat) : bool :=
    wants_hold w && match nth_error nodes i with
                    | Some p => match sp_hold p with Some h => String.eqb h hv | None => false end
                    | None => false
                    end.
  Definition hold_law (rnd : bool) (w : world) (hv : string) : space (world * string * Q) :=
    match w_stage w with
    | Finished => certain (w, "none"%string, - cost_hold cf)
    | Cleaning => certain (w, "fail"%string, - cost_hold cf)
    | Doing i =>
        if is_help w hv i then finishing i w (r_subtask cf + r_preference cf - cost_hold cf)
        else next (coin (if rnd then 98 # 100 else 1))
               (fun fails => if fails then certain (w, "fail"%string, - cost_hold cf)
                             else finishing i w (r_subtask cf + compensation cf w - cost_hold cf))
    end.

  (** The chances of new worlds, observations and rewards for an action, after the spontaneous changes. *)
  Definition action_law (rnd : bool) (w : world) (act : robot) : space (world * string * Q) :=
    match act with
    | Wait =>
        match w_stage w with
        | Finished => certain (w, "none"%string, 0)
        | Cleaning => certain (with_stage w Finished, "none"%string, r_final cf - missing_cost cf (present_count objs w))
        | Doing i => finishing i w (r_subtask cf + compensation cf w)
        end
    | HoldH => hold_law rnd w "h"
    | HoldV => hold_law rnd w "v"
    | Ask =>
        next (coin (if rnd then (if wants_hold w then 9 # 10 else 95 # 100) else 1))
          (fun ans => certain (w, (if ans then (if wants_hold w then "yes" else "no") else "none")%string, - cost_intrinsic cf))
    | Bring o =>
        if w_has w o then certain (w, "not-found"%string, - cost_intrinsic cf)
        else next (coin (if rnd then p_fail pr else 0))
               (fun fails => if fails then certain (w, "fail"%string, - cost_intrinsic cf)
                             else certain (with_object w o true, "none"%string, - cost_intrinsic cf))
    | Clear o =>
        if w_has w o then next (coin (if rnd then p_fail pr else 0))
               (fun fails => if fails then certain (w, "fail"%string, - cost_intrinsic cf)
                             else certain (with_object w o false, "none"%string, - cost_intrinsic cf))
        else certain (w, "not-found"%string, - cost_intrinsic cf)
    end.

  (** One step: spontaneous changes (of the objects, of the preferences), then the action. *)
  Definition spontaneous (w : world) : space world :=
    next (moved (p_changed_by_human pr) objs (w_has w))
         (fun h => next (changed (p_change_preference pr) (w_prefs w))
         (fun l => certain {| w_stage := w_stage w; w_prefs := l; w_holding := w_holding w; w_has := h |})).
  Definition step_law (rnd : bool) (w : world) (act : robot) : space (world * string * Q) :=
    if rnd then next (spontaneous w) (fun w1 => action_law rnd w1 act) else action_law rnd w act.

  (** The start: a few objects already there, the preferences, and a first leaf, all independent. *)
  Definition start_law : space world :=
    next (moved (p_changed_by_human pr) objs (fun _ => false)) (fun h =>
    next (wanted (p_preferences pr)) (fun l => next (among init) (fun i =>
    certain {| w_stage := Doing i; w_prefs := l; w_holding := false; w_has := h |}))).
End Chances.

(** The numbers with which the draws are compared *)
Definition supp_marks (pr : probabilities) : list Q :=
  ([p_fail pr; p_consume_all pr; p_changed_by_human pr; p_change_preference pr; 98 # 100; 9 # 10; 95 # 100] ++ p_preferences pr)%Q.
(** Independent numbers, drawn from sp, and an index, drawn from si *)
Definition numbers_space (sp : space Q) (si : space nat) (no np nc : nat) : space numbers :=
  map (fun qw => (fst qw, let '(a, (b, (c, (d, e)))) := snd qw in
                          {| n_objects := a; n_preferences := b; n_luck := c; n_index := d; n_consume := e |}))
      (pairs (tapes sp no) (pairs (tapes sp np) (pairs sp (pairs si (tapes sp nc))))).

(** f, on state integers, observation indices and rewards, and g, on worlds, observations and rewards, say the
    same. *)
Definition agree (cf : config) (m : spomdp) (f : Z -> nat -> Q -> Q) (g : world -> string -> Q -> Q) : Prop :=
  forall s w o ob r r', reads cf m s w -> nth_error observations o = Some ob -> (r == r')%Q -> (f s o r == g w ob r')%Q.
