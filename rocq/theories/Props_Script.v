(** C73: the scripted policy. *)
From Verif Require Import PyBase ScriptModel ScriptSpec ScriptProofs.
Local Open Scope list_scope.
Local Open Scope nat_scope.

(** The policy can be built exactly on models that have the actions and the observation it names, apart from
    'bring leg', which is not looked for at this point; otherwise: ValueError. *)
Theorem C73_constructed : forall actions observations n_tasks holds,
  ((exists s, new_script actions observations n_tasks holds = Ok s) <->
    incl looked_for actions /\ In "none"%string observations /\ incl holds actions) /\
  (forall e, new_script actions observations n_tasks holds = Err e -> e = EValue).
Proof.
  intros actions observations n_tasks holds. destruct (new_iff actions observations n_tasks holds) as [H1 H2]. split; [|exact H2]. rewrite H1. clear.
  unfold looked_for, tools, incl, bring, clear. cbn [In]. split.
  - intros (W & N & Hh & T). repeat split; auto. intros a [<-|[<-|[<-|[<-|[<-|[<-|[<-|[]]]]]]]]; [auto|apply (T "screws"%string)|apply (T "screwdriver"%string)|apply (T "joints"%string)|apply (T "screws"%string)|apply (T "screwdriver"%string)|apply (T "joints"%string)]; auto.
  - intros (W & N & Hh). repeat split; auto; destruct H as [<-|[<-|[<-|[]]]]; apply W; cbn; auto 9.
Qed.
Print Assumptions C73_constructed.

(** After any sequence of requests for actions, of turns (an action, then its observation, whatever it is) and of
    resets, the policy is at one place of the script.  There, the action returned is one of the item of the script at
    that place, and the next observation is refused exactly when it is unknown or unexpected. *)
Theorem C73_order : forall actions observations n_tasks holds s,
  new_script actions observations n_tasks holds = Ok s -> In "bring leg"%string actions -> holds <> [] -> incl holds ["hold H"; "hold V"]%string ->
  forall ts, exists pos s',
    (forall q, reaches (Z.to_nat n_tasks) observations ts q <-> q = pos) /\ after s ts = Some s' /\
    forall d, (exists a, snd (script_get_action s' d) = Ok a /\ In a (item (Z.to_nat n_tasks) holds pos)) /\
              forall o, answer (Z.to_nat n_tasks) observations pos o (snd (script_step (fst (script_get_action s' d)) o)).
Proof.
  intros actions observations n_tasks holds s New Hleg Hne Hh ts. destruct (reaches_total (Z.to_nat n_tasks) observations ts) as [pos R]. destruct (after_ok actions observations n_tasks holds Hleg Hne Hh s New ts pos R) as (s' & b0 & b1 & b2 & c0 & c1 & c2 & lg & w & nx & E & I).
  exists pos, s'. split; [intros q; split; [intros K; apply (reaches_fun _ _ _ _ _ K R)|intros ->; auto]|]. split; [auto|]. intros d. split.
  - destruct (get_ok actions observations n_tasks holds Hleg Hne Hh s New s' pos _ _ _ _ _ _ _ _ _ d I) as (x & H1 & H2 & _). eauto.
  - intros o. apply (step_ok actions observations n_tasks holds Hleg Hne Hh s New s' pos _ _ _ _ _ _ _ _ _ d o I).
Qed.
Print Assumptions C73_order.

(** A script without failures runs through all its items: after k turns in which 'none' is observed, the policy is at
    item k. *)
Theorem C73_progress : forall n observations ts, In "none"%string observations -> Forall (fun u => exists d, u = Turn d "none") ts -> reaches n observations ts (length ts).
Proof.
  intros n observations ts H F. induction F as [|u ts [d ->] F IH]; [constructor|]. cbn [length]. apply re_next; auto. left. auto.
Qed.
Print Assumptions C73_progress.

(** The exception is a second call to step without an action in between: while the tools are brought, ValueError. *)
Theorem C73_step_twice : forall actions observations n_tasks holds s,
  new_script actions observations n_tasks holds = Ok s -> In "bring leg"%string actions -> holds <> [] -> incl holds ["hold H"; "hold V"]%string -> In "none"%string observations ->
  forall ts pos s' d, reaches (Z.to_nat n_tasks) observations ts pos -> pos < 3 -> after s ts = Some s' ->
  snd (script_step (fst (script_step (fst (script_get_action s' d)) "none")) "none") = Err EValue.
Proof. intros actions observations n_tasks holds s New Hleg Hne Hh Ho ts pos s' d R P E. exact (twice actions observations n_tasks holds Hleg Hne Hh s New ts pos s' d R P E Ho). Qed.
Print Assumptions C73_step_twice.

(** A model without 'bring leg' (no action of its task needs a leg) is accepted, but after the three tools get_action fails. *)
Definition the_actions : list string :=
  ["wait"; "hold H"; "hold V"; "ask hold"; "bring leg"; "bring screws"; "bring screwdriver"; "bring joints"; "clear screws"; "clear screwdriver"; "clear joints"]%string.
Definition the_obs : list string := ["none"; "yes"; "no"; "not-found"; "fail"]%string.
Definition none3 : list use := [Turn 0 "none"; Turn 0 "none"; Turn 0 "none"].
Theorem C73_no_leg_refuted : exists s s',
  new_script (remove string_dec "bring leg"%string the_actions) the_obs 2 ["hold H"%string] = Ok s /\ after s none3 = Some s' /\ snd (script_get_action s' 0) = Err EValue.
Proof. eexists. eexists. split; [vm_compute; reflexivity|]. split; [vm_compute; reflexivity|]. vm_compute. reflexivity. Qed.
Print Assumptions C73_no_leg_refuted.

(** A run with failures and a reset. *)
Definition asked (s : script) (ts : list use) (d : nat) : option (res string) := option_map (fun s' => snd (script_get_action s' d)) (after s ts).
Example C73_ex : exists s, new_script the_actions the_obs 2 ["hold H"; "hold V"]%string = Ok s /\
  asked s none3 0 = Some (Ok (bring "leg")) /\ asked s (Turn 0 "not-found" :: Turn 0 "fail" :: none3) 1 = Some (Ok "hold V"%string) /\
  asked s (Turn 1 "not-found" :: Turn 0 "none" :: none3) 0 = Some (Ok "hold H"%string) /\ asked s (repeat (Turn 0 "none") 9) 0 = Some (Ok (clear "joints")) /\
  asked s (repeat (Turn 0 "none") 12) 0 = Some (Ok "wait"%string) /\ asked s (Again :: repeat (Turn 0 "none") 12) 0 = Some (Ok (bring "screws")) /\
  reaches 2 the_obs (repeat (Turn 0 "none") 9) 9.
Proof.
  eexists. split; [vm_compute; reflexivity|]. repeat split; try (vm_compute; reflexivity). exact (C73_progress 2 the_obs (repeat (Turn 0 "none"%string) 9) ltac:(cbn; auto) ltac:(repeat constructor; eexists; reflexivity)).
Qed.
