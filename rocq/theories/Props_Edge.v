(** C41 (samples of particle beliefs) and C75 (how tasks of towers are shown). *)
From Verif Require Import PyBase PyBaseFacts QBase PomdpModel BeliefModel BeliefProofs HtmModel TowerModel TowerSpec TowerProofs Props_Belief Props_Tower.
From Coq Require Import Lia.
Local Open Scope list_scope.
Local Open Scope nat_scope.

(** Sampling a particle belief gives one of its particles, each for some draw, unless it was asked to have no particle: then ValueError. *)
Theorem C41_sample : forall X (rand : X -> nat * X) smp n x parts x', particle_belief rand n smp x = (Ok parts, x') ->
  (forall y, n = 0 -> fst (particle_sample rand parts n y) = Err EValue) /\
  (forall y, 0 < n -> exists s, fst (particle_sample rand parts n y) = Ok s /\ In s parts) /\
  (forall s, In s parts -> exists k, forall Y (rand' : Y -> nat * Y) y, fst (rand' y) = k -> fst (particle_sample rand' parts n y) = Ok s).
Proof.
  intros X rand smp n x parts x' E. destruct (C41_full _ _ _ _ _ _ _ E) as [L _]. split; [|split].
  - intros y ->. unfold particle_sample, choice. destruct (rand y). reflexivity.
  - intros y Hn. destruct (sample_ok rand n parts y) as (s & y' & Es); [lia|]. exists s. rewrite Es. split; [reflexivity|]. eapply sample_In; eauto.
  - intros s Hs. apply In_nth_error in Hs. destruct Hs as [k Ek]. exists k. intros Y rand' y Hk. assert (Hl : k < n) by (rewrite <- L; apply nth_error_Some; congruence).
    unfold particle_sample, choice. destruct (rand' y) as [j y'] eqn:Er. cbn [fst] in Hk. subst j. destruct n as [|n]; [lia|]. rewrite Nat.mod_small by lia. rewrite Ek. reflexivity.
Qed.
Print Assumptions C41_sample.

(** The dictionary of a task made of orders: an alternative, with a sequence for each order and its name, with a leaf for each part that is named
    by the number of the part and the name of the order; identifiers of parents are right and nothing is highlighted. *)
Definition default_labels {A} (orders : list A) : list string := map (fun i => numeral (Z.of_nat i)) (seq 0 (length orders)).
Definition shows_part (nm : string) (parent i : Z) (d : tdict) : Prop := exists id, d = TDict (numeral i ++ "-" ++ nm)%string id (Some parent) None [] None.
Definition shows_order (on : list Z * string) (d : tdict) : Prop :=
  exists id parts, d = TDict (snd on) id (Some 0%Z) (Some "Sequential"%string) [] (Some parts) /\ Forall2 (shows_part (snd on) id) (fst on) parts.
Lemma shown_parts nm parent : forall l g, exists ds g', 
  (fix go (l : list (comb string)) (g : Z) : list tdict * Z := match l with [] => ([], g) | x :: t => let '(d, g1) := as_dictionary x (Some parent) g in let '(ds, g2) := go t g1 in (d :: ds, g2) end) (map (bring_part (Some nm)) l) g = (ds, g') /\
  Forall2 (shows_part nm parent) l ds.
Proof.
  induction l as [|i l IH]; intros g; cbn [map]; [eexists _, _; split; [reflexivity|constructor]|]. cbn [bring_part as_dictionary c_hl a_name]. cbv zeta.
  destruct (IH (g + 1)%Z) as (ds & g' & E & F). rewrite E. eexists _, _. split; [reflexivity|]. constructor; [|exact F]. exists g. reflexivity.
Qed.
Lemma shown_orders : forall l g, exists ds g', 
  (fix go (l : list (comb string)) (g : Z) : list tdict * Z := match l with [] => ([], g) | x :: t => let '(d, g1) := as_dictionary x (Some 0%Z) g in let '(ds, g2) := go t g1 in (d :: ds, g2) end) (map order_comb l) g = (ds, g') /\
  Forall2 shows_order l ds.
Proof.
  induction l as [|[o nm] l IH]; intros g; cbn [map]; [eexists _, _; split; [reflexivity|constructor]|]. cbn [order_comb as_dictionary c_hl fst snd]. cbv zeta.
  destruct (shown_parts nm g o (g + 1)%Z) as (ps & g1 & E1 & F1). rewrite E1. destruct (IH g1) as (ds & g' & E & F). rewrite E. eexists _, _. split; [reflexivity|]. constructor; [|exact F]. exists g, ps. split; [reflexivity|exact F1].
Qed.
Theorem C75_shown : forall orders names root title, task_from_orders orders names = Ok root ->
  let labels := match names with Some l => l | None => default_labels orders end in
  exists ds, task_as_dictionary (Some root) title = (match title with Some t => t | None => "Hierarchical task tree"%string end, Some (TDict "Alt" 0 None (Some "Alternative"%string) [] (Some ds))) /\
    Forall2 shows_order (combine orders labels) ds.
Proof.
  intros orders names root title E labels. unfold task_from_orders in E.
  change (match names with Some l => l | None => map (fun i => str_int (Z.of_nat i)) (seq 0 (length orders)) end) with labels in E. rewrite children_ok in E. cbn [bind mk_comb] in E.
  destruct (alt_proba _ None) as [pr|e]; [|discriminate]. cbn [bind] in E. injection E as <-.
  destruct (shown_orders (combine orders labels) 1%Z) as (ds & g & E & F). exists ds. split; [|exact F]. unfold task_as_dictionary. cbn [as_dictionary c_hl kind_name]. cbv zeta.
  change (0 + 1)%Z with 1%Z. rewrite E. cbn [fst]. destruct title; reflexivity.
Qed.
Print Assumptions C75_shown.
Example C75_ex_shown : exists root ds, vertical_horizontal_task 2 2 = Ok root /\ task_as_dictionary (Some root) None = ("Hierarchical task tree"%string, Some (TDict "Alt" 0 None (Some "Alternative"%string) [] (Some ds))) /\
  nth_error ds 1 = Some (TDict "horizontal" 6 (Some 0%Z) (Some "Sequential"%string) [] (Some (map (fun x => TDict (fst x) (snd x) (Some 6%Z) None [] None) [("0-horizontal", 7); ("2-horizontal", 8); ("1-horizontal", 9); ("3-horizontal", 10)]%string%Z))).
Proof. eexists _, _. split; [vm_compute; reflexivity|]. split; vm_compute; reflexivity. Qed.
Example C41_ex_sample : exists parts, particle_belief (fun x => (x, S x)) 3 (fun x => (Ok (x mod 2), S x)) 0 = (Ok parts, 3) /\ fst (particle_sample (fun x => (x, S x)) parts 3 4) = Ok 1 /\
  particle_belief (fun x => (x, S x)) 0 (fun x => (Ok x, S x)) 0 = (Ok [], 0).
Proof. eexists. split; [vm_compute; reflexivity|]. split; vm_compute; reflexivity. Qed.
