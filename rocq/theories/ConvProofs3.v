(** Proofs for the POMDP of a task: the arguments of the constructor of POMDP. *)
From Coq Require Import Lia Lqa Field.
From Verif Require Import PyBase PyBaseFacts QBase PomdpModel PomdpSpec PomdpProofs HtmModel HtmSpec HtmProofs ConvModel NodeModel NodeSpec NodeProofs NodeProofs2 NodeProofs3 ConvProofs ConvProofs2.
Local Open Scope list_scope.
Local Open Scope nat_scope.

(** *** Lists made of blocks *)
Lemma flat_map_length_w {A B} (f : A -> list B) w l : (forall x, In x l -> length (f x) = w) -> length (flat_map f l) = w * length l.
Proof. induction l as [|x l IH]; intros H; cbn [flat_map length]; [lia|]. rewrite app_length, IH, (H x (or_introl eq_refl)) by (intros; apply H; right; auto). lia. Qed.
Lemma nth_error_blocks {A B} (f : A -> list B) w l k x r : (forall x, In x l -> length (f x) = w) -> nth_error l k = Some x -> r < w -> nth_error (flat_map f l) (w * k + r) = nth_error (f x) r.
Proof.
  revert k. induction l as [|y l IH]; intros [|k] H E Hr; try discriminate; cbn [flat_map nth_error] in *.
  - rewrite Nat.mul_0_r. cbn. assert (y = x) as -> by congruence. apply nth_error_app1. rewrite H; auto. left; auto.
  - rewrite nth_error_app2 by (rewrite (H y (or_introl eq_refl)); nia). rewrite (H y (or_introl eq_refl)). replace (w * S k + r - w) with (w * k + r) by nia. apply IH; auto. intros; apply H; right; auto.
Qed.
Lemma NoDup_map_inj {A B} (f : A -> B) l : (forall x y, In x l -> In y l -> f x = f y -> x = y) -> NoDup l -> NoDup (map f l).
Proof.
  induction l as [|x l IH]; intros H N; cbn; [constructor|]. inversion N as [|y z N1 N2]; subst. constructor; [|apply IH; auto; intros; apply H; auto; right; auto].
  intros K. apply in_map_iff in K. destruct K as (y & E & Hy). apply N1. rewrite (H x y); auto; [left|right]; auto.
Qed.
Lemma NoDup_blocks {A} (g : A -> string) (pre : list string) l :
  (forall p q u v, In p pre -> In q pre -> (p ++ u = q ++ v)%string -> p = q /\ u = v) -> NoDup pre -> NoDup (map g l) ->
  NoDup (flat_map (fun x => map (fun p => (p ++ g x)%string) pre) l).
Proof.
  intros HP NP. induction l as [|x l IH]; cbn [flat_map map]; intros N; [constructor|]. inversion N as [|y z N1 N2]; subst. apply NoDup_app_disj; auto.
  - apply NoDup_map_inj; auto. intros p q Hp Hq E. apply (HP p q _ _ Hp Hq E).
  - intros s Hs K. apply in_map_iff in Hs. destruct Hs as (p & <- & Hp). apply in_flat_map in K. destruct K as (y & Hy & K). apply in_map_iff in K. destruct K as (q & E & Hq). destruct (HP q p _ _ Hq Hp E) as [_ E']. apply N1. rewrite <- E'. apply in_map. auto.
Qed.
Lemma mapM_app {A B} (f : A -> res B) l l' : mapM f (l ++ l') = do x <- mapM f l; do y <- mapM f l'; Ok (x ++ y).
Proof. induction l as [|x l IH]; cbn [app mapM bind]; [destruct (mapM f l'); reflexivity|]. destruct (f x); cbn [bind]; [|reflexivity]. rewrite IH. destruct (mapM f l); cbn [bind]; [|reflexivity]. destruct (mapM f l'); reflexivity. Qed.

Section Names.
  Lemma node_states_flat t : node_states t = flat_map leaf_states (leaves t).
  Proof. induction t as [a|l IH|l IH] using n2p_ind'; [reflexivity| |]; cbn [node_states leaves]; (induction IH as [|c l H _ IHl]; cbn [flat_map]; [reflexivity|]; rewrite flat_map_app, H, IHl; reflexivity). Qed.
  Lemma node_actions_flat t : node_actions t = flat_map leaf_actions (leaves t).
  Proof. induction t as [a|l IH|l IH] using n2p_ind'; [reflexivity| |]; cbn [node_actions leaves]; (induction IH as [|c l H _ IHl]; cbn [flat_map]; [reflexivity|]; rewrite flat_map_app, H, IHl; reflexivity). Qed.
  Lemma node_durations_flat t_ask t_tell t : node_durations t_ask t_tell t = do ls <- mapM (leaf_durations t_ask t_tell) (leaves t); Ok (concat ls).
  Proof.
    induction t as [a|l IH|l IH] using n2p_ind'; cbn [node_durations leaves].
    - cbn [mapM bind]. destruct (leaf_durations t_ask t_tell a); cbn; [rewrite app_nil_r; reflexivity|reflexivity].
    - induction IH as [|c l H _ IHl]; [reflexivity|]. cbn [flat_map mapM]. rewrite mapM_app, H. destruct (mapM (leaf_durations t_ask t_tell) (leaves c)) as [x|]; cbn [bind]; [|reflexivity].
      destruct (mapM (leaf_durations t_ask t_tell) (flat_map leaves l)) as [y|]; cbn [bind] in *; destruct (mapM (node_durations t_ask t_tell) l) as [z|]; cbn [bind concat] in *; try congruence. rewrite concat_app. congruence.
    - induction IH as [|c l H _ IHl]; [reflexivity|]. cbn [flat_map mapM]. rewrite mapM_app, H. destruct (mapM (leaf_durations t_ask t_tell) (leaves c)) as [x|]; cbn [bind]; [|reflexivity].
      destruct (mapM (leaf_durations t_ask t_tell) (flat_map leaves l)) as [y|]; cbn [bind] in *; destruct (mapM (node_durations t_ask t_tell) l) as [z|]; cbn [bind concat] in *; try congruence. rewrite concat_app. congruence.
  Qed.
  Lemma node_states_length t : length (node_states t) = 3 * n_leaves t.
  Proof. rewrite node_states_flat, n_leaves_length. apply flat_map_length_w. auto. Qed.
  Lemma node_actions_length t : length (node_actions t) = 4 * n_leaves t.
  Proof. rewrite node_actions_flat, n_leaves_length. apply flat_map_length_w. auto. Qed.
  Ltac pre H1 H2 E := cbn [In] in H1, H2; repeat match goal with H : _ \/ _ |- _ => destruct H | H : False |- _ => destruct H end; subst; cbn in E; try discriminate E; (split; [reflexivity|congruence]).
  Lemma node_states_NoDup t : NoDup (map (fun a => name_radix (a_name a)) (leaves t)) -> NoDup (node_states t).
  Proof.
    intros N. rewrite node_states_flat. apply (NoDup_blocks (fun a : action collab => name_radix (a_name a)) ["init-"; "H-"; "R-"]%string); auto.
    - intros p q u v H1 H2 E. pre H1 H2 E.
    - repeat constructor; cbn; intuition discriminate.
  Qed.
  Lemma node_actions_NoDup t : NoDup (map (fun a => name_radix (a_name a)) (leaves t)) -> NoDup (node_actions t).
  Proof.
    intros N. rewrite node_actions_flat. apply (NoDup_blocks (fun a : action collab => name_radix (a_name a)) ["phy-"; "com-ask-intention-"; "com-tell-intention-"; "com-ask-finished-"]%string); auto.
    - intros p q u v H1 H2 E. pre H1 H2 E.
    - repeat constructor; cbn; intuition discriminate.
  Qed.
  Lemma state_names_NoDup t (b : bool) : NoDup (map (fun a => name_radix (a_name a)) (leaves t)) -> NoDup (node_states t ++ (if b then ["end-reward"%string] else []) ++ ["end"%string]).
  Proof.
    intros N. apply NoDup_app_disj; [apply node_states_NoDup; auto|destruct b; repeat constructor; cbn; intuition discriminate|].
    intros x Hx K. rewrite node_states_flat in Hx. apply in_flat_map in Hx. destruct Hx as (a & _ & Hx). cbn in Hx. destruct b; cbn in K; destruct K as [<-|K]; try (destruct K as [<-|[]]); try destruct K; destruct Hx as [E|[E|[E|[]]]]; discriminate.
  Qed.
  Lemma action_names_NoDup t : NoDup (map (fun a => name_radix (a_name a)) (leaves t)) -> NoDup ("wait"%string :: node_actions t).
  Proof.
    intros N. constructor; [|apply node_actions_NoDup; auto]. intros Hx. rewrite node_actions_flat in Hx. apply in_flat_map in Hx. destruct Hx as (a & _ & Hx). cbn in Hx. destruct Hx as [E|[E|[E|[E|[]]]]]; discriminate.
  Qed.
End Names.

Section Core.
  Variable exp : Q -> Q.
  Variables t_wait t_ask t_tell intr end_reward : Q.
  Variable fl : flags.
  Variable t : n2p collab.
  Hypothesis Pt : proper t.
  Notation L := (n_leaves t).
  Notation fls := (flat t 0 [(L, 1%Q)] []).
  Definition size : nat := 3 * L + (if reward_state fl then 2 else 1).
  Definition n_act : nat := 4 * L + 1.
  Definition more : bool := loop fl || reward_state fl.
  Definition n_obs : nat := if more then 5 else 4.
  Definition leaf_ds (a : action collab) : list Q := match attrs a with Ok p => [t_err p; t_ask; t_tell; t_ask] | Err _ => [] end.
  Definition durs : list Q := t_wait :: flat_map leaf_ds (leaves t).

  Definition rowE (s : nat) : list (nat * Q) :=
    if loop fl then if s =? size - 1 then map (fun x => (3 * fst x, 1%Q)) (inits t) else []
    else [(size - 1, 1%Q)].
  Definition tabT (T : tensor) : Prop := forall a s s', s < size ->
    (forall li, In li fls -> mine (li_k li) s = true -> T a s s' = look (row exp fl (par li) (li_k li) (li_next li) durs a s) s') /\
    (3 * L <= s -> T a s s' = look (rowE s) s').
  Definition vecE (s : nat) : option (list Q) :=
    if more then if s =? 3 * L then Some [0; 0; 0; 0; 1]%Q else if s =? 3 * L + 1 then Some [1; 0; 0; 0; 0]%Q else None else None.
  Definition tabO (O : tensor) : Prop := forall a s o, a < n_act -> s < size ->
    match vecE s with
    | Some v => O a s o = nth o v 0%Q
    | None => (a = 0 -> O a s o = nth o o_none 0%Q) /\
              (forall li, In li fls -> act (li_k li) a = true -> O a s o = nth o (ovec fl (li_k li) (li_next li) (3 * L :: flat_map blk (li_after li)) a s) 0%Q)
    end.
  Definition tabR (R : tensor4) : Prop := forall a s s' o, s < size ->
    (forall li, In li fls -> mine (li_k li) s = true -> R a s s' o = rcost fl (par li) (li_k li) durs intr a s s') /\
    (s = 3 * L -> R a s s' o = if a =? 0 then (- end_reward)%Q else intr) /\
    (s = 3 * L + 1 -> R a s s' o = if a =? 0 then 0%Q else intr).
  Definition state_names : list string := node_states t ++ (if reward_state fl then ["end-reward"%string] else []) ++ ["end"%string].
  Definition action_names : list string := "wait"%string :: node_actions t.
  Definition obs_names : list string := if more then observations ++ ["done"%string] else observations.
  Lemma state_names_length : length state_names = size.
  Proof. unfold state_names, size. rewrite !app_length, node_states_length. destruct (reward_state fl); cbn; lia. Qed.
  Lemma action_names_length : length action_names = n_act.
  Proof. unfold action_names, n_act. cbn [length]. rewrite node_actions_length. lia. Qed.
  Lemma obs_names_length : length obs_names = n_obs.
  Proof. unfold obs_names, n_obs. destruct more; reflexivity. Qed.

  Lemma ovec_length k next after a s : length (ovec fl k next after a s) = 4.
  Proof. unfold ovec. repeat match goal with |- context [if ?b then _ else _] => destruct b end; reflexivity. Qed.

  Section Attrs.
    Hypothesis At : Forall (fun a => exists p, attrs a = Ok p) (leaves t).
    Lemma node_durations_ok : node_durations t_ask t_tell t = Ok (flat_map leaf_ds (leaves t)).
    Proof.
      rewrite node_durations_flat. pose proof At as F. clear At. induction F as [|a l [p Hp] F IH]; [reflexivity|]. cbn [mapM flat_map]. assert (leaf_durations t_ask t_tell a = Ok (leaf_ds a)) as -> by (unfold leaf_durations, leaf_ds; rewrite Hp; reflexivity). cbn [bind].
      destruct (mapM (leaf_durations t_ask t_tell) l) as [y|]; cbn [bind] in *; [|discriminate IH]. cbn [concat]. injection IH as IH. rewrite IH. reflexivity.
    Qed.
    Lemma durs_length : length durs = n_act.
    Proof.
      unfold durs, n_act. cbn [length]. rewrite (flat_map_length_w leaf_ds 4), n_leaves_length; [lia|]. intros a Ha. rewrite Forall_forall in At. destruct (At a Ha) as [p Hp]. unfold leaf_ds. rewrite Hp. reflexivity.
    Qed.
    Lemma starts : exists i st, init 3 t = Ok i /\ start t = Ok st /\ same_length i st = Ok tt /\ i = ix 3 (inits t) /\ (forall k, assigned i st k = look (map (fun x => (3 * fst x, snd x)) (inits t)) k).
    Proof.
      exists (ix 3 (inits t)), (map snd (inits t)). split; [apply init_ok; auto|]. split; [apply start_ok; auto|]. split; [unfold same_length, ix; rewrite !map_length, Nat.eqb_refl; reflexivity|]. split; [reflexivity|].
      intros k. destruct (in_dec Nat.eq_dec k (ix 3 (inits t))) as [H|H].
      - destruct (look_map (fun q => q) 3 (inits t) k ltac:(lia) H (inits_NoDup t)) as (i & q & _ & _ & E1 & E2). unfold ix. rewrite E1, E2. reflexivity.
      - rewrite assigned_notin by auto. symmetry. apply (look_map_notin (fun q => q)). auto.
    Qed.
    Lemma size_end : end_ size = size - 1 /\ endr size = size - 2 /\ (if reward_state fl then size - 2 else size - 1) = 3 * L.
    Proof. unfold end_, endr, size. destruct (reward_state fl); repeat split; lia. Qed.

    Lemma core_structured solver : structured fl = true -> node_to_pomdp exp t_ask t_tell fl t_wait intr end_reward t solver = Err EAttr.
    Proof.
      intros Hs. unfold node_to_pomdp. fold state_names. fold action_names. rewrite state_names_length, action_names_length. destruct starts as (i & st & -> & -> & E & Ei & Es). cbn [bind]. rewrite E, node_durations_ok. cbn [bind].
      destruct size_end as (_ & _ & ->). fold durs. destruct (fill_T exp fl t Pt At n_act durs (eq_sym durs_length)) as (T & -> & _). cbn [bind]. destruct (fill_O_some fl t Pt) as (O & ->). cbn [bind]. unfold wait. rewrite fill_R_structured; auto.
    Qed.
    Lemma core solver : structured fl = false -> exists T O R S,
      node_to_pomdp exp t_ask t_tell fl t_wait intr end_reward t solver =
        mk_pomdp (array3 n_act size size T) (array3 n_act size n_obs O) (array4 n_act size size n_obs R) (array1 size S) 1 (Some (map NStr state_names)) (Some (map NStr action_names)) (Some (map NStr obs_names)) "cost" solver /\
      tabT T /\ tabO O /\ tabR R /\ (forall k, S k = look (map (fun x => (3 * fst x, snd x)) (inits t)) k).
    Proof.
      intros Hs. unfold node_to_pomdp. fold state_names. fold action_names. rewrite state_names_length, action_names_length. destruct starts as (i & st & -> & -> & E & Ei & Es). cbn [bind]. rewrite E, node_durations_ok. cbn [bind].
      destruct size_end as (E1 & E2 & E3). rewrite E3. fold durs. destruct (fill_T exp fl t Pt At n_act durs (eq_sym durs_length)) as (T & -> & HT & HT0). cbn [bind]. destruct (fill_O fl t Pt Hs) as (O & -> & HO). cbn [bind]. unfold wait. destruct (fill_R fl t At durs intr Hs) as (R & -> & HR). cbn [bind].
      fold more obs_names. do 4 eexists. split; [reflexivity|]. split; [|split; [|split]].
      - intros a s s' Hlt. split.
        + intros li Hl Hm. pose proof (flat_range _ _ _ _ _ Hl) as HR'. pose proof (proj1 (mine_iff _ _) Hm) as HM. rewrite <- (HT li a s s' Hl Hm). unfold update_T_end. assert (s < 3 * L) by lia. rewrite E1, E2. unfold size in *. unfold put3. destruct (loop fl); destruct (reward_state fl); repeat match goal with |- context [Nat.eqb s ?y] => destruct (Nat.eqb_spec s y); [lia|] end; reflexivity.
        + intros Hge. pose proof (HT0 a s s' Hge) as Z. unfold update_T_end, rowE. rewrite E1, E2. unfold put3. destruct (loop fl).
          * destruct (Nat.eqb_spec s (size - 1)); cbn [andb]; [|rewrite Z; reflexivity]. rewrite Ei. destruct (mem s' (ix 3 (inits t))) eqn:M.
            -- apply mem_In in M. destruct (look_map (fun _ => 1%Q) 3 (inits t) s' ltac:(lia) M (inits_NoDup t)) as (i0 & q & _ & _ & E0 & _). rewrite E0. reflexivity.
            -- apply mem_not_In in M. rewrite (look_map_notin (fun _ => 1%Q)) by auto. auto.
          * rewrite look_cons. unfold size in *. destruct (reward_state fl).
            -- destruct (Nat.eqb_spec s (3 * L + 2 - 1)); destruct (Nat.eqb_spec s (3 * L + 2 - 2)); try lia; rewrite (Nat.eqb_sym s'); destruct (3 * L + 2 - 1 =? s'); cbn [andb]; auto.
            -- destruct (Nat.eqb_spec s (3 * L + 1 - 1)); try lia; rewrite (Nat.eqb_sym s'); destruct (3 * L + 1 - 1 =? s'); cbn [andb]; auto.
      - intros a s o Ha Hlt. assert (N5 : forall O4, (if more then if o <? 4 then O4 else 0 else O4)%Q = (if more && (4 <=? o) then 0 else O4)%Q). { intros O4. destruct more; cbn [andb]; [|reflexivity]. destruct (Nat.ltb_spec o 4); destruct (Nat.leb_spec 4 o); try lia; reflexivity. }
        assert (N4 : forall v : list Q, length v = 4 -> (if more && (4 <=? o) then 0 else nth o v 0)%Q = nth o v 0%Q). { intros v Hv. destruct (Nat.leb_spec 4 o); [rewrite (nth_overflow v) by lia; destruct more; reflexivity|rewrite andb_false_r; reflexivity]. }
        unfold vecE. unfold more in *. rewrite E1, E2. unfold update_O_wait, put3, vec, wait. destruct (loop fl || reward_state fl) eqn:Em.
        + unfold size in *. destruct (reward_state fl) eqn:Er.
          * destruct (Nat.eqb_spec s (3 * L)) as [->|N1]; [replace (3 * L =? 3 * L + 2 - 2) with true by (symmetry; apply Nat.eqb_eq; lia); reflexivity|]. destruct (Nat.eqb_spec s (3 * L + 2 - 2)); [lia|].
            destruct (Nat.eqb_spec s (3 * L + 1)) as [->|N2]; [replace (3 * L + 1 =? 3 * L + 2 - 1) with true by (symmetry; apply Nat.eqb_eq; lia); reflexivity|]. destruct (Nat.eqb_spec s (3 * L + 2 - 1)); [lia|].
            split; [intros ->; rewrite Nat.eqb_refl; rewrite N5; apply (N4 o_none); reflexivity|]. intros li Hl Hact. pose proof (proj1 (act_iff _ _) Hact). destruct (Nat.eqb_spec a 0); [lia|]. rewrite N5, (HO li a s o Hl Hact). apply N4, ovec_length.
          * destruct (Nat.eqb_spec s (3 * L)) as [->|N1]; [replace (3 * L =? 3 * L + 1 - 1) with true by (symmetry; apply Nat.eqb_eq; lia); reflexivity|]. destruct (Nat.eqb_spec s (3 * L + 1 - 1)); [lia|]. destruct (Nat.eqb_spec s (3 * L + 1)); [lia|].
            split; [intros ->; rewrite Nat.eqb_refl; rewrite N5; apply (N4 o_none); reflexivity|]. intros li Hl Hact. pose proof (proj1 (act_iff _ _) Hact). destruct (Nat.eqb_spec a 0); [lia|]. rewrite N5, (HO li a s o Hl Hact). apply N4, ovec_length.
        + split; [intros ->; reflexivity|]. intros li Hl Hact. pose proof (proj1 (act_iff _ _) Hact). destruct (Nat.eqb_spec a 0); [lia|]. apply HO; auto.
      - intros a s s' o Hlt. unfold update_R_end, put4, wait. rewrite E1, E2. unfold size in *. split; [|split].
        + intros li Hl Hm. pose proof (flat_range _ _ _ _ _ Hl) as HR'. pose proof (proj1 (mine_iff _ _) Hm) as HM. rewrite <- (HR li a s s' o Hl Hm). assert (s < 3 * L) by lia. destruct (reward_state fl); repeat match goal with |- context [Nat.eqb s ?y] => destruct (Nat.eqb_spec s y); [lia|] end; rewrite ?andb_false_r; reflexivity.
        + intros ->. destruct (reward_state fl); repeat match goal with |- context [Nat.eqb (3 * L) ?y] => destruct (Nat.eqb_spec (3 * L) y); try lia end; destruct (a =? 0); reflexivity.
        + intros ->. destruct (reward_state fl); [|lia].
          repeat match goal with |- context [Nat.eqb (3 * L + 1) ?y] => destruct (Nat.eqb_spec (3 * L + 1) y); try lia end; destruct (a =? 0); reflexivity.
      - intros k. apply Es.
    Qed.
  End Attrs.
  (** When the conversion succeeds, every leaf has durations and probabilities. *)
  Lemma core_attrs solver p : node_to_pomdp exp t_ask t_tell fl t_wait intr end_reward t solver = Ok p -> Forall (fun a => exists p, attrs a = Ok p) (leaves t).
  Proof.
    unfold node_to_pomdp. destruct starts as (i & st & -> & -> & E0 & _ & _). cbn [bind]. rewrite E0. cbn [bind]. clear E0. rewrite node_durations_flat. destruct (mapM (leaf_durations t_ask t_tell) (leaves t)) as [ls|] eqn:E; cbn [bind]; [|discriminate]. intros _.
    apply mapM_Forall2 in E. clear - E. induction E as [|a d l l' H E IH]; constructor; auto. unfold leaf_durations in H. destruct (attrs a); [eauto|discriminate].
  Qed.
  (** Otherwise AttributeError. *)
  Lemma core_noattrs solver : ~ Forall (fun a => exists p, attrs a = Ok p) (leaves t) -> node_to_pomdp exp t_ask t_tell fl t_wait intr end_reward t solver = Err EAttr.
  Proof.
    intros N. unfold node_to_pomdp. destruct starts as (i & st & -> & -> & E0 & _ & _). cbn [bind]. rewrite E0. cbn [bind]. clear E0. rewrite node_durations_flat. assert (mapM (leaf_durations t_ask t_tell) (leaves t) = Err EAttr) as ->; [|reflexivity].
    revert N. induction (leaves t) as [|a l IH]; intros N; [exfalso; apply N; constructor|]. cbn [mapM]. unfold leaf_durations at 1. destruct (attrs a) as [p|e] eqn:Ea; cbn [bind].
    - rewrite IH; [reflexivity|]. intros F. apply N. constructor; eauto.
    - unfold attrs in Ea. destruct (a_class a); destruct (a_params a); congruence.
  Qed.
End Core.
