(** Properties of the POMDP of a task whose leaves bring objects: C68, C69 and C89 to C92. *)
From Coq Require Import Lia Lqa.
From Verif Require Import PyBase PyBaseFacts QBase PomdpModel PomdpSpec PomdpProofs Props_Pomdp HtmModel HtmSpec HtmProofs ConvModel NodeModel NodeSpec BringModel BringSpec NodeProofs NodeProofs2 NodeProofs3 NodeProofs4 ConvProofs ConvProofs2 ConvProofs3 BringProofs BringProofs2 NameSpec NameProofs.
Local Open Scope list_scope.
Local Open Scope nat_scope.

Lemma bNStr_NoDup l : NoDup l -> NoDup (map NStr l).
Proof. apply FinFun.Injective_map_NoDup. intros x y E. congruence. Qed.
Lemma babout_one_1 x : (x == 1)%Q -> about_one x.
Proof. intros E. unfold about_one. rewrite E. vm_compute. discriminate. Qed.
Lemma bnames_NoDup (t : n2p string) : NoDup (bnames t) <-> names_differ t.
Proof.
  unfold bnames, names_differ. rewrite dashed_map, bring_states_flat. split.
  - intros N. assert (G : forall l l' : list string, NoDup (l ++ l') -> NoDup l). { clear. induction l as [|x l IH]; intros l' N; [constructor|]. inversion N as [|y z N1 N2]; subst. constructor; [|eauto]. intros K. apply N1. apply in_or_app. auto. }
    apply G in N. rewrite <- (map_map (fun a : action string => name_radix (a_name a)) (fun s => "before-" ++ s)%string) in N. apply NoDup_map_inv in N. auto.
  - intros N. apply NoDup_app_disj; [|repeat constructor; intros []|].
    + rewrite <- (map_map (fun a : action string => name_radix (a_name a)) (fun s => "before-" ++ s)%string). apply FinFun.Injective_map_NoDup; auto. intros x y E. cbn in E. congruence.
    + intros x Hx [<-|[]]. apply in_map_iff in Hx. destruct Hx as (a & E & _). discriminate.
Qed.

Section Inv.
  Variables cost_com cost_get cost_err end_reward : Q.
  Variable objects : list string.
  Variables loop no_answer : bool.
  Variable discount : option Q.
  Notation conv := (bring_task_to_pomdp cost_com cost_get cost_err end_reward objects loop no_answer discount).

  Lemma start_look (t : n2p string) s : assigned (map fst (inits t)) (map snd (inits t)) s = look (inits t) s.
  Proof. apply assigned_look. apply inits_NoDup. Qed.
  Lemma start_dist (t : n2p string) : proper t -> (sum_n (bsize t) (look (inits t)) == 1)%Q /\ forall s, (0 <= look (inits t) s)%Q.
  Proof.
    intros Pt. split.
    - rewrite look_sum; [apply (inits_sum t Pt)|apply inits_NoDup|]. intros x Hx. apply inits_bound in Hx. unfold bsize. lia.
    - intros s. apply look_nonneg. intros x Hx. apply inits_pos in Hx. lra.
  Qed.
  Lemma O_dist (t : n2p string) O a s : proper t -> NoDup objects -> Forall (known objects) (leaves t) -> tO objects no_answer t O -> a < length (bring_actions objects) ->
    (sum_n 4 (O a s) == 1)%Q /\ forall o, (0 <= O a s o)%Q.
  Proof.
    intros Pt HN HK HO Ha. assert (V : exists v, (forall o, O a s o = nth o v 0%Q) /\ (v = o_maybe_good \/ v = o_err \/ v = yes_vec no_answer \/ v = no_vec no_answer)).
    { destruct (action_cases objects a Ha) as [[x F]|[x A]].
      - destruct (brought_dec objects t Pt HN HK a s x F) as [B|B]; eexists; (split; [intros o; first [exact (proj1 (O_get objects no_answer t Pt HN HK O a s o x HO F) B)|exact (proj2 (O_get objects no_answer t Pt HN HK O a s o x HO F) B)]|auto]).
      - destruct (wants_dec objects t HN HK s x) as [B|B]; eexists; (split; [intros o; first [exact (proj1 (O_ask objects no_answer t HN HK O a s o x HO A) B)|exact (proj2 (O_ask objects no_answer t HN HK O a s o x HO A) B)]|auto]). }
    destruct V as (v & E & C). split.
    - rewrite (sum_n_ext 4 (O a s) (fun o => nth o v 0%Q)) by (intros; rewrite E; reflexivity). unfold yes_vec, no_vec in C. destruct no_answer; destruct C as [-> | [-> | [-> | ->]]]; reflexivity.
    - intros o. rewrite E. unfold yes_vec, no_vec in C. destruct no_answer; destruct C as [-> | [-> | [-> | ->]]]; destruct o as [|[|[|[|[|o]]]]]; vm_compute; discriminate.
  Qed.
  Lemma bring_accepts (t : n2p string) T O R : proper t -> Forall (known objects) (leaves t) -> tT objects loop t T -> tO objects no_answer t O ->
    (accepts (array3 (length (bring_actions objects)) (bsize t) (bsize t) T) (array3 (length (bring_actions objects)) (bsize t) 4 O) (array4 (length (bring_actions objects)) (bsize t) (bsize t) 4 R) (array1 (bsize t) (assigned (map fst (inits t)) (map snd (inits t)))) (bring_discount loop discount) (map NStr (bnames t)) (map NStr (bring_actions objects)) (map NStr observations) "cost" <->
     names_differ t /\ NoDup objects /\ (0 <= bring_discount loop discount <= 1)%Q).
  Proof.
    intros Pt HK HT HO. unfold accepts. rewrite !map_length, bnames_length. cbn [array3 array4 array1 shape at_]. split.
    - intros (_ & _ & _ & _ & _ & _ & _ & _ & N1 & N2 & _ & D). apply NoDup_map_inv in N1. apply NoDup_map_inv in N2. split; [apply bnames_NoDup; auto|]. split; [apply (proj2 (actions_NoDup objects)); auto|auto].
    - intros (N1 & HN & D). split; [auto|]. do 4 (split; [reflexivity|]). split; [|split; [|split; [|split; [|split; [|split]]]]].
      + apply babout_one_1. rewrite (sum_n_ext _ (fun s => assigned (map fst (inits t)) (map snd (inits t)) s) (look (inits t))) by (intros; rewrite start_look; reflexivity). apply (start_dist t Pt).
      + intros a s Ha Hs. apply babout_one_1. apply (T_dist objects loop t Pt T a s HT Hs).
      + intros a s Ha Hs. apply babout_one_1. apply (O_dist t O a s Pt HN HK HO Ha).
      + apply bNStr_NoDup, bnames_NoDup. auto.
      + apply bNStr_NoDup. apply (proj1 (actions_NoDup objects)). auto.
      + apply bNStr_NoDup. repeat constructor; cbn; intuition discriminate.
      + auto.
  Qed.
  Lemma bring_inv root solver p : inhabited root -> conv root solver = Ok p ->
    exists t T O R, unfolds root t /\ proper t /\ Forall (known objects) (leaves t) /\ NoDup objects /\ names_differ t /\
      tT objects loop t T /\ tO objects no_answer t O /\ tR cost_com cost_get cost_err end_reward objects loop t R /\
      states p = map NStr (bnames t) /\ p_actions p = map NStr (bring_actions objects) /\ p_observations p = map NStr observations /\
      (forall a s s', Tr p a s s' = T a s s') /\ (forall a s o, Ob p a s o = O a s o) /\ (forall s, Start p s = look (inits t) s) /\ (forall a s s' o, at_ (p_R p) [a; s; s'; o] = (- R a s s' o)%Q) /\
      p_discount p = bring_discount loop discount /\ well_shaped p.
  Proof.
    intros HI E. unfold bring_task_to_pomdp in E. destruct (from_node bring_leaf (levels root) root) as [t|] eqn:En; cbn [bind] in E; [|discriminate]. apply from_node_unfolds in En. pose proof (unfolds_proper root t HI En) as Pt.
    pose proof (bring_core_known _ _ _ _ _ _ _ t Pt discount solver p E) as HK. destruct (bring_core cost_com cost_get cost_err end_reward objects loop no_answer t Pt discount solver HK) as (T & O & R & E' & HT & HO & HR). rewrite E' in E. clear E'.
    destruct (proj1 (C43_accepts _ _ _ _ _ _ _ _ _) solver p E) as (Acc & N1 & N2 & N3 & PT & PO & PS & PD & ShR & _ & PR). cbn [named] in N1, N2, N3. specialize (PR eq_refl). rewrite N1, N2, N3 in Acc. apply (bring_accepts t T O R Pt HK HT HO) in Acc. destruct Acc as (D1 & D2 & D3).
    exists t, T, O, R. do 8 (split; [assumption|]). do 3 (split; [assumption|]). split; [intros; unfold Tr; rewrite PT; reflexivity|]. split; [intros; unfold Ob; rewrite PO; reflexivity|]. split; [intros; unfold Start; rewrite PS; cbn [array1 at_]; apply start_look|]. split; [intros; rewrite PR; reflexivity|]. split; [auto|].
    unfold well_shaped, nS, nA, nO. rewrite N1, N2, N3, PT, PO, PS, ShR, !map_length, bnames_length. repeat split; reflexivity.
  Qed.
End Inv.

Lemma bring_sizes p (t : n2p string) objects : states p = map NStr (bnames t) -> p_actions p = map NStr (bring_actions objects) -> p_observations p = map NStr observations ->
  nS p = bsize t /\ nA p = length (bring_actions objects) /\ nO p = 4 /\ nS p = length (leaves t) + 1 /\ nA p = 2 * length objects.
Proof.
  intros N1 N2 N3. unfold nS, nA, nO. rewrite N1, N2, N3, !map_length, bnames_length, actions_length. unfold bsize. rewrite n_leaves_length. cbn. repeat split; lia.
Qed.

(** *** C68 *)
Theorem C68_tables : forall cost_com cost_get cost_err end_reward objects loop no_answer discount root solver p,
  inhabited root -> bring_task_to_pomdp cost_com cost_get cost_err end_reward objects loop no_answer discount root solver = Ok p ->
  exists t, unfolds root t /\
    nS p = length (leaves t) + 1 /\ nA p = 2 * length objects /\ nO p = 4 /\
    well_shaped p /\ stochastic p /\
    (sum_n (nS p) (Start p) == 1)%Q /\ (forall s, (0 <= Start p s)%Q).
Proof.
  intros cost_com cost_get cost_err end_reward objects loop no_answer discount root solver p HI E.
  destruct (bring_inv _ _ _ _ _ _ _ _ _ _ _ HI E) as (t & T & O & R & U & Pt & HK & HN & D & HT & HO & HR & N1 & N2 & N3 & PT & PO & PS & PR & PD & WS).
  destruct (bring_sizes p t objects N1 N2 N3) as (Es & Ea & Eo & Es' & Ea').
  exists t. do 5 (split; [assumption|]). split; [|split].
  - split; [|split; [|split]].
    + rewrite Es. intros a s s' _ Hs _. rewrite PT. apply (T_dist objects loop t Pt T a s HT Hs).
    + rewrite Es. intros a s _ Hs. rewrite (sum_n_ext _ (Tr p a s) (T a s)) by (intros; rewrite PT; reflexivity). apply (T_dist objects loop t Pt T a s HT Hs).
    + rewrite Ea. intros a s' o Ha _ _. rewrite PO. apply (O_dist objects no_answer t O a s' Pt HN HK HO Ha).
    + rewrite Ea, Eo. intros a s' Ha _. rewrite (sum_n_ext _ (Ob p a s') (O a s')) by (intros; rewrite PO; reflexivity). apply (O_dist objects no_answer t O a s' Pt HN HK HO Ha).
  - rewrite Es. rewrite (sum_n_ext _ (Start p) (look (inits t))) by (intros; rewrite PS; reflexivity). apply (start_dist t Pt).
  - intros s. rewrite PS. apply (start_dist t Pt).
Qed.
Print Assumptions C68_tables.

Lemma from_node_plain leaf fuel : forall c : comb string, levels c <= fuel -> ~ has_parallel c -> leaves_satisfy (fun a => leaf a = Ok tt) c -> exists t, from_node leaf fuel c = Ok t.
Proof.
  induction fuel as [|fuel IH]; intros c Hl HP HG; [destruct c as [|k]; [cbn in Hl; lia|destruct k; cbn in Hl; lia]|]. destruct c as [a i p h|k ch i p n h pr].
  - cbn [from_node]. rewrite (HG a i p h (or_introl eq_refl)). cbn [bind]. eauto.
  - assert (M : levels (Node k ch i p n h pr) <= S fuel -> k <> Parallel -> exists l, mapM (from_node leaf fuel) ch = Ok l).
    { intros Hl' Hk. assert (F : forall c, In c ch -> exists t, from_node leaf fuel c = Ok t).
      { intros c Hc. apply IH.
        - cbn [levels] in Hl'. pose proof (levels_max ch c Hc). destruct k; lia.
        - intros (ch' & i' & p' & n' & h' & pr' & H). apply HP. exists ch', i', p', n', h', pr'. cbn. right. apply in_flat_map. eauto.
        - intros a i' p' h' H. apply (HG a i' p' h'). cbn. right. apply in_flat_map. eauto. }
      clear - F. induction ch as [|c ch IHc]; [exists []; reflexivity|]. destruct (F c (or_introl eq_refl)) as [t Ht]. destruct (IHc (fun d Hd => F d (or_intror Hd))) as [l Hl]. cbn [mapM]. rewrite Ht, Hl. cbn. eauto. }
    destruct k; cbn [from_node].
    + destruct (M Hl ltac:(discriminate)) as [l ->]. cbn. eauto.
    + destruct (M Hl ltac:(discriminate)) as [l ->]. cbn. eauto.
    + exfalso. apply HP. exists ch, i, p, n, h, pr. left. reflexivity.
Qed.
Theorem C68_usable_partial : forall cost_com cost_get cost_err end_reward objects loop no_answer discount root,
  inhabited root -> leaves_satisfy (brings objects) root -> NoDup objects -> ~ has_parallel root ->
  (forall d, discount = Some d -> (0 <= d <= 1)%Q) -> (forall t, unfolds root t -> names_differ t) ->
  exists p, bring_task_to_pomdp cost_com cost_get cost_err end_reward objects loop no_answer discount root true = Ok p.
Proof.
  intros cost_com cost_get cost_err end_reward objects loop no_answer discount root HI HG HN HP HD HU.
  destruct (from_node_plain bring_leaf (levels root) root (le_n _) HP) as [t En].
  { intros a i p h H. destruct (HG a i p h H) as (x & A & B & _). unfold bring_leaf, obj_of. rewrite A, B. reflexivity. }
  unfold bring_task_to_pomdp. rewrite En. cbn [bind]. apply from_node_unfolds in En. pose proof (unfolds_proper root t HI En) as Pt.
  assert (HK : Forall (known objects) (leaves t)).
  { clear - HP HG En. revert t HP HG En. induction root as [a i p h|k ch i p n h pr IH] using comb_ind'; intros t HP HG U.
    - inversion U; subst. cbn. constructor; [|constructor]. destruct (HG a i p h (or_introl eq_refl)) as (x & A & B & C). exists x. split; [apply obj_iff; auto|auto].
    - assert (F : forall l, Forall2 unfolds ch l -> Forall (known objects) (flat_map leaves l)).
      { intros l F. rewrite Forall_forall in IH. assert (IH' : forall c, In c ch -> forall t, unfolds c t -> Forall (known objects) (leaves t)).
        { intros c Hc t0 U0. apply (IH c Hc t0); auto.
          - intros (ch' & i' & p' & n' & h' & pr' & H). apply HP. exists ch', i', p', n', h', pr'. cbn. right. apply in_flat_map. eauto.
          - intros a i' p' h' H. apply (HG a i' p' h'). cbn. right. apply in_flat_map. eauto. }
        clear - F IH'. induction F as [|c t ch l U F IHF]; [constructor|]. cbn [flat_map]. apply Forall_app. split; [apply (IH' c (or_introl eq_refl) t U)|]. apply IHF. intros d Hd. apply IH'. right. auto. }
      inversion U as [|? ? ? ? ? ? l Fl|? ? ? ? ? ? l Fl|]; subst; cbn [leaves]; auto. exfalso. apply HP. exists ch, i, p, n, h, pr. left. reflexivity. }
  destruct (bring_core cost_com cost_get cost_err end_reward objects loop no_answer t Pt discount true HK) as (T & O & R & -> & HT & HO & HR).
  destruct (proj1 (proj2 (C43_accepts (array3 (length (bring_actions objects)) (bsize t) (bsize t) T) (array3 (length (bring_actions objects)) (bsize t) 4 O) (array4 (length (bring_actions objects)) (bsize t) (bsize t) 4 R) (array1 (bsize t) (assigned (map fst (inits t)) (map snd (inits t)))) (bring_discount loop discount) (Some (map NStr (bnames t))) (Some (map NStr (bring_actions objects))) (Some (map NStr observations)) "cost")) _ _ _ eq_refl eq_refl eq_refl) as [Hp _]; [|exact Hp].
  apply (bring_accepts objects loop no_answer discount t T O R Pt HK HT HO). split; [auto|]. split; [auto|]. unfold bring_discount. destruct discount as [d|]; [auto|]. destruct loop; split; vm_compute; discriminate.
Qed.
Print Assumptions C68_usable_partial.

(** No task with a parallel combination has a POMDP: the leaves of the copies do not know their objects. *)
Lemma perms_ne {A} (l : list A) : permutations l <> [].
Proof.
  unfold permutations. assert (G : forall n (l : list A), n <= length l -> perms_n n l <> []); [|apply G; lia]. clear.
  induction n as [|n IH]; intros l H; cbn; [discriminate|]. destruct l as [|x l]; [cbn in H; lia|]. cbn [selects flat_map]. cbn in H. cbn [fst snd]. specialize (IH l ltac:(lia)). destruct (perms_n n l); [congruence|discriminate].
Qed.
Lemma copy_not_bring fmt (c c' : comb string) : deep_copy fmt c = Ok c' -> leaves_satisfy (fun a => a_class a <> KBring) c'.
Proof.
  revert c'. induction c as [a i p h|k ch i p n h pr IH] using comb_ind'; intros c' E; cbn [deep_copy] in E.
  - destruct (action_copy fmt a) as [a'|] eqn:Ea; cbn [bind] in E; [|discriminate]. assert (c' = Leaf a' None None h) as -> by congruence. intros b i' p' h' [H|[]]. assert (b = a') as -> by congruence. unfold action_copy in Ea. destruct (a_class a) eqn:Ec; try discriminate; injection Ea as Ea; rewrite <- Ea; cbn; discriminate.
  - destruct (mapM (deep_copy fmt) ch) as [ch'|] eqn:Em; cbn [bind] in E; [|discriminate]. assert (G : exists pr', c' = Node k ch' None None (fmt n) h pr') by (unfold mk_comb in E; destruct k; [injection E as E; rewrite <- E; eauto|destruct (alt_proba (length ch') pr) as [l|]; cbn [bind] in E; [|discriminate]; destruct (alt_proba (length ch') None) as [l'|]; cbn [bind] in E; [|discriminate]; injection E as E; rewrite <- E; eauto|injection E as E; rewrite <- E; eauto]).
    destruct G as [pr' ->]. intros b i' p' h' [H|H]; [discriminate|]. cbn in H. apply in_flat_map in H. destruct H as (d & Hd & H). destruct (mapM_In _ _ _ _ Em Hd) as (c & Hc & Ec). rewrite Forall_forall in IH. apply (IH c Hc d Ec b i' p' h' H).
Qed.
Lemma proper_leaf {P} (t : n2p P) : proper t -> leaves t <> [].
Proof. intros Pt E. pose proof (inits_ne t Pt) as N. destruct (inits t) as [|x l] eqn:Ei; [congruence|]. pose proof (inits_bound t x) as B. rewrite Ei in B. specialize (B (or_introl eq_refl)). rewrite n_leaves_length, E in B. cbn in B. lia. Qed.
Lemma perms_n_in {A} n : forall (l p : list A), In p (perms_n n l) -> length p = n /\ incl p l.
Proof.
  induction n as [|n IH]; intros l p H; cbn in H; [destruct H as [<-|[]]; split; [reflexivity|intros x []]|]. apply in_flat_map in H. destruct H as ([y r] & Hs & H). apply in_map_iff in H. destruct H as (q & <- & Hq). cbn [fst snd] in *. destruct (IH _ _ Hq) as [H1 H2]. split; [cbn; lia|].
  assert (G : forall (l : list A) y r, In (y, r) (selects l) -> In y l /\ incl r l).
  { clear. induction l as [|x l IH]; intros y r H; [destruct H|]. cbn in H. destruct H as [E|H]; [assert (y = x) as -> by congruence; assert (r = l) as -> by congruence; split; [left; auto|intros z; right; auto]|]. apply in_map_iff in H. destruct H as ([y' r'] & E & H). cbn in E. assert (y = y') as -> by congruence. assert (r = x :: r') as -> by congruence. destruct (IH _ _ H) as [H1 H2]. split; [right; auto|]. intros z [->|Hz]; [left; auto|right; auto]. }
  destruct (G _ _ _ Hs) as [H3 H4]. intros z [->|Hz]; auto.
Qed.
Lemma parallel_copies (c : comb string) : forall t, has_parallel c -> inhabited c -> unfolds c t -> exists a, In a (leaves t) /\ a_class a <> KBring.
Proof.
  induction c as [a i p h|k ch i p n h pr IH] using comb_ind'; intros t HP HI U.
  - destruct HP as (ch & i' & p' & n' & h' & pr' & [H|[]]). discriminate.
  - inversion HI as [|? ? ? ? ? ? ? Ne FI]; subst.
    assert (C : forall l, Forall2 unfolds ch l -> k <> Parallel -> exists a, In a (flat_map leaves l) /\ a_class a <> KBring).
    { intros l F Hk. destruct HP as (ch' & i' & p' & n' & h' & pr' & [H|H]); [congruence|]. cbn in H. apply in_flat_map in H. destruct H as (d & Hd & H). rewrite Forall_forall in IH, FI. assert (exists u, In u l /\ unfolds d u) as (u & Hu & Ud). { clear - F Hd. induction F as [|x y ch l U F IHF]; [destruct Hd|]. destruct Hd as [->|Hd]; [exists y; split; [left; auto|auto]|]. destruct (IHF Hd) as (u & H1 & H2). exists u. split; [right|]; auto. }
      destruct (IH d Hd u) as (a & Ha & Hc); auto; [exists ch', i', p', n', h', pr'; auto|]. exists a. split; [apply in_flat_map; eauto|auto]. }
    inversion U as [|? ? ? ? ? ? l Fl|? ? ? ? ? ? l Fl|? ? ? ? ? ? l Fl]; subst; cbn [leaves]; [apply C; auto; discriminate|apply C; auto; discriminate|].
    pose proof (perms_ne ch) as Np. destruct (permutations ch) as [|o orders] eqn:Eo; [congruence|]. cbn [length seq combine] in Fl. inversion Fl as [|x y l1 l2 Ho Fl2]; subst. inversion Ho as [k0 ch0 copies l0 Em Fc]; subst.
    assert (Hlen : length o = length ch /\ incl o ch) by (unfold permutations in Eo; apply (perms_n_in (length ch) ch); rewrite Eo; left; auto). destruct Hlen as [Hlen Hincl].
    destruct o as [|c0 o]; [destruct ch; [congruence|cbn in Hlen; lia]|]. cbn [mapM] in Em. destruct (deep_copy (fun s : string => (s ++ " order-" ++ str_nat 0)%string) c0) as [c1|] eqn:E1; cbn [bind] in Em; [|discriminate]. destruct (mapM (deep_copy (fun s : string => (s ++ " order-" ++ str_nat 0)%string)) o) as [cs|] eqn:E2; cbn [bind] in Em; [|discriminate].
    assert (copies = c1 :: cs) as -> by congruence. inversion Fc as [|x y l3 l4 U1 Fc2]; subst. rewrite Forall_forall in FI. pose proof (deep_copy_inhabited _ _ _ (FI c0 (Hincl c0 (or_introl eq_refl))) E1) as I1. pose proof (unfolds_proper _ _ I1 U1) as P1.
    pose proof (unfolds_leaves (fun a => a_class a <> KBring) (fun fmt a a' Ha Ec => ltac:(unfold action_copy in Ec; destruct (a_class a) eqn:Ek; try discriminate; injection Ec as Ec; rewrite <- Ec; cbn; discriminate)) c1 y (copy_not_bring _ _ _ E1) U1) as G.
    pose proof (proper_leaf y P1) as Nl. destruct (leaves y) as [|a ls] eqn:El; [congruence|]. inversion G as [|? ? Ga _]; subst. exists a. split; [|auto]. cbn [flat_map leaves]. rewrite El. left. reflexivity.
Qed.
Theorem C68_usable_refuted : forall cost_com cost_get cost_err end_reward objects loop no_answer discount root solver p,
  inhabited root -> has_parallel root -> bring_task_to_pomdp cost_com cost_get cost_err end_reward objects loop no_answer discount root solver <> Ok p.
Proof.
  intros cost_com cost_get cost_err end_reward objects loop no_answer discount root solver p HI HP E.
  destruct (bring_inv _ _ _ _ _ _ _ _ _ _ _ HI E) as (t & T & O & R & U & Pt & HK & _). destruct (parallel_copies root t HP HI U) as (a & Ha & Hc). rewrite Forall_forall in HK. destruct (HK a Ha) as (x & Hx & _). apply obj_iff in Hx. destruct Hx as [Hx _]. contradiction.
Qed.
Print Assumptions C68_usable_refuted.

(** How other tasks are refused: a leaf that does not bring an object has no attribute obj, and an object that is not
    in the list is not a key. *)
Lemma foldM_err {A B} (f : B -> A -> res B) (x0 : exn) (G : A -> Prop) l : (forall s x, In x l -> (G x -> exists s', f s x = Ok s') /\ (~ G x -> f s x = Err x0)) -> (forall x, G x \/ ~ G x) ->
  (exists x, In x l /\ ~ G x) -> forall s, foldM f l s = Err x0.
Proof.
  intros H D. induction l as [|x l IH]; intros (y & Hy & N) s; [destruct Hy|]. cbn [foldM]. destruct (D x) as [Gx|Nx].
  - destruct (proj1 (H s x (or_introl eq_refl)) Gx) as [s' ->]. cbn [bind]. apply IH; [intros s1 x1 H1; apply H; right; auto|]. destruct Hy as [->|Hy]; [contradiction|eauto].
  - rewrite (proj2 (H s x (or_introl eq_refl)) Nx). reflexivity.
Qed.
Lemma from_node_err leaf x0 fuel : (forall a, leaf a = Ok tt \/ leaf a = Err x0) -> forall c : comb string, levels c <= fuel -> ~ has_parallel c ->
  (exists t, from_node leaf fuel c = Ok t) \/ from_node leaf fuel c = Err x0.
Proof.
  intros D. induction fuel as [|fuel IH]; intros c Hl HP; [destruct c as [|k]; [cbn in Hl; lia|destruct k; cbn in Hl; lia]|]. destruct c as [a i p h|k ch i p n h pr].
  - cbn [from_node]. destruct (D a) as [->| ->]; cbn [bind]; eauto.
  - assert (F : k <> Parallel -> (exists l, mapM (from_node leaf fuel) ch = Ok l) \/ mapM (from_node leaf fuel) ch = Err x0).
    { intros Hk. assert (F : forall c, In c ch -> (exists t, from_node leaf fuel c = Ok t) \/ from_node leaf fuel c = Err x0).
      { intros c Hc. apply IH.
        - cbn [levels] in Hl. pose proof (levels_max ch c Hc). destruct k; lia.
        - intros (ch' & i' & p' & n' & h' & pr' & H). apply HP. exists ch', i', p', n', h', pr'. cbn. right. apply in_flat_map. eauto. }
      clear - F. induction ch as [|c ch IHc]; [left; exists []; reflexivity|]. cbn [mapM]. destruct (F c (or_introl eq_refl)) as [[t ->]| ->]; cbn [bind]; [|auto]. destruct (IHc (fun d Hd => F d (or_intror Hd))) as [[l ->]| ->]; cbn [bind]; eauto. }
    destruct k; cbn [from_node].
    + destruct (F ltac:(discriminate)) as [[l ->]| ->]; cbn [bind]; eauto.
    + destruct (F ltac:(discriminate)) as [[l ->]| ->]; cbn [bind]; eauto.
    + exfalso. apply HP. exists ch, i, p, n, h, pr. left. reflexivity.
Qed.
Lemma from_node_leaves leaf fuel : forall (c : comb string) t a i p h, ~ has_parallel c -> from_node leaf fuel c = Ok t -> In (Leaf a i p h) (HtmSpec.preorder c) -> leaf a = Ok tt /\ In a (leaves t).
Proof.
  induction fuel as [|fuel IH]; intros c t a i p h HP E H; [discriminate|]. destruct c as [b j q g|k ch j q n g pr].
  - destruct H as [H|[]]. assert (b = a) as -> by congruence. cbn [from_node] in E. destruct (leaf a) as [[]|]; cbn [bind] in E; [|discriminate]. assert (t = NLeaf a) as -> by congruence. split; [reflexivity|left; reflexivity].
  - destruct H as [H|H]; [discriminate|]. cbn in H. apply in_flat_map in H. destruct H as (d & Hd & H).
    assert (N : ~ has_parallel d) by (intros (ch' & i' & p' & n' & h' & pr' & K); apply HP; exists ch', i', p', n', h', pr'; cbn; right; apply in_flat_map; eauto).
    assert (M : forall l, mapM (from_node leaf fuel) ch = Ok l -> leaf a = Ok tt /\ In a (flat_map leaves l)).
    { intros l Em. assert (exists u, In u l /\ from_node leaf fuel d = Ok u) as (u & Hu & Eu).
      { clear - Em Hd. revert l Em. induction ch as [|c ch IHc]; intros l Em; [destruct Hd|]. cbn [mapM] in Em. destruct (from_node leaf fuel c) as [t|] eqn:Et; cbn [bind] in Em; [|discriminate]. destruct (mapM _ ch) as [l'|] eqn:El; cbn [bind] in Em; [|discriminate]. assert (l = t :: l') as -> by congruence. destruct Hd as [->|Hd]; [exists t; split; [left; auto|auto]|]. destruct (IHc Hd _ eq_refl) as (u & H1 & H2). exists u. split; [right; auto|auto]. }
      destruct (IH d u a i p h N Eu H) as [H1 H2]. split; [auto|]. apply in_flat_map. eauto. }
    destruct k; cbn [from_node] in E.
    + destruct (mapM _ ch) as [l|] eqn:Em; cbn [bind] in E; [|discriminate]. assert (t = NSeq l) as -> by congruence. apply M. reflexivity.
    + destruct (mapM _ ch) as [l|] eqn:Em; cbn [bind] in E; [|discriminate]. assert (t = NAlt l) as -> by congruence. apply M. reflexivity.
    + exfalso. apply HP. exists ch, j, q, n, g, pr. left. reflexivity.
Qed.
Theorem C68_refused : forall cost_com cost_get cost_err end_reward objects loop no_answer discount root solver a i p h, inhabited root -> ~ has_parallel root ->
  In (Leaf a i p h) (HtmSpec.preorder root) ->
  ((forall x, ~ (a_class a = KBring /\ a_params a = Some x)) ->
     bring_task_to_pomdp cost_com cost_get cost_err end_reward objects loop no_answer discount root solver = Err EAttr) /\
  (leaves_satisfy (fun b => exists x, a_class b = KBring /\ a_params b = Some x) root -> (forall x, a_params a = Some x -> ~ In x objects) ->
     bring_task_to_pomdp cost_com cost_get cost_err end_reward objects loop no_answer discount root solver = Err EKey).
Proof.
  intros cost_com cost_get cost_err end_reward objects loop no_answer discount root solver a i p h HI HP HA.
  assert (D : forall a, bring_leaf a = Ok tt \/ bring_leaf a = Err EAttr) by (intros b; unfold bring_leaf, obj_of; destruct (a_class b); auto; destruct (a_params b); auto).
  assert (DB : forall a, bring_leaf a = Ok tt <-> exists x, a_class a = KBring /\ a_params a = Some x) by (intros b; unfold bring_leaf; split; [intros H; destruct (obj_of b) as [x|] eqn:E; [|discriminate]; apply obj_iff in E; eauto|intros [x H]; apply obj_iff in H; rewrite H; reflexivity]).
  unfold bring_task_to_pomdp. split.
  - intros N. destruct (from_node_err bring_leaf EAttr (levels root) D root (le_n _) HP) as [[t En]|En]; [|rewrite En; reflexivity].
    exfalso. destruct (from_node_leaves _ _ _ _ _ _ _ _ HP En HA) as [H _]. apply DB in H. destruct H as [x H]. exact (N x H).
  - intros HB N. destruct (from_node_plain bring_leaf (levels root) root (le_n _) HP) as [t En]; [intros b j q g H; apply DB; exact (HB b j q g H)|]. rewrite En. cbn [bind].
    destruct (from_node_leaves _ _ _ _ _ _ _ _ HP En HA) as [_ La]. apply from_node_unfolds in En as Un. pose proof (unfolds_proper root t HI Un) as Pt.
    assert (LB : forall b, In b (leaves t) -> exists x, obj_of b = Ok x).
    { assert (G : forall fuel (c : comb string) t, ~ has_parallel c -> from_node bring_leaf fuel c = Ok t -> forall b, In b (leaves t) -> exists x, obj_of b = Ok x).
      { clear. induction fuel as [|fuel IH]; intros c t HP E b Hb; [discriminate|]. destruct c as [b' j q g|k ch j q n g pr].
        - cbn [from_node] in E. unfold bring_leaf in E. destruct (obj_of b') as [x|] eqn:Eo; cbn [bind] in E; [|discriminate]. assert (t = NLeaf b') as -> by congruence. destruct Hb as [->|[]]. eauto.
        - assert (M : forall l, mapM (from_node bring_leaf fuel) ch = Ok l -> In b (flat_map leaves l) -> exists x, obj_of b = Ok x).
          { intros l Em Hl. apply in_flat_map in Hl. destruct Hl as (u & Hu & Hl). destruct (mapM_In _ _ _ _ Em Hu) as (c & Hc & Ec). apply (IH c u); auto. intros (ch' & i' & p' & n' & h' & pr' & K). apply HP. exists ch', i', p', n', h', pr'. cbn. right. apply in_flat_map. eauto. }
          destruct k; cbn [from_node] in E.
          + destruct (mapM _ ch) as [l|] eqn:Em; cbn [bind] in E; [|discriminate]. assert (t = NSeq l) as -> by congruence. apply (M l); auto.
          + destruct (mapM _ ch) as [l|] eqn:Em; cbn [bind] in E; [|discriminate]. assert (t = NAlt l) as -> by congruence. apply (M l); auto.
          + exfalso. apply HP. exists ch, j, q, n, g, pr. left. reflexivity. }
      exact (G _ _ _ HP En). }
    assert (NK : ~ known objects a) by (intros (x & E & Hx); apply obj_iff in E; exact (N x (proj2 E) Hx)).
    assert (DK : forall b, known objects b \/ ~ known objects b).
    { intros b. unfold known. destruct (obj_of b) as [x|]; [|right; intros (x & E & _); discriminate]. destruct (in_dec string_dec x objects); [left; eauto|right; intros (y & E & Hy); congruence]. }
    unfold bring_node_to_pomdp. rewrite (init_ok 1 t Pt), (start_ok t Pt). cbn [bind]. unfold same_length at 1. rewrite !map_length, Nat.eqb_refl. cbn [bind].
    set (F := length (bring_states t ++ ["end"%string]) - 1). change [F] with (map fst [(F, 1%Q)]). change [1%Q] with (map snd [(F, 1%Q)]). unfold bring_update_T. rewrite (bring_flat _ t Pt 0 [(F, 1%Q)] []).
    rewrite (foldM_err _ EKey (fun li => known objects (li_a li))); [reflexivity| | |].
    + intros T0 li Hli. unfold bstep, bring_leaf_T. split.
      * intros K. apply known_get in K. destruct K as [g ->]. cbn [bind]. unfold same_length. rewrite !map_length, Nat.eqb_refl. cbn [bind]. eauto.
      * intros K. assert (E : get_of objects (li_a li) = Err EKey); [|rewrite E; reflexivity].
        pose proof (flat_action _ _ _ _ _ Hli) as En2. apply nth_error_In in En2. destruct (LB _ En2) as [x Ex]. unfold get_of. rewrite Ex. cbn [bind]. unfold action_index. destruct (last_index_from 0 ("get-" ++ x) (bring_actions objects)) as [k|] eqn:El; [|reflexivity]. exfalso. apply K. apply known_get. exists k. unfold get_of, action_index. rewrite Ex. cbn [bind]. rewrite El. reflexivity.
    + intros li. apply DK.
    + rewrite <- (flat_a t 0 [(F, 1%Q)] []) in La. apply in_map_iff in La. destruct La as (li & E & Hli). exists li. split; [auto|]. rewrite E. exact NK.
Qed.
Print Assumptions C68_refused.

(** *** C69 *)
Theorem C69_restart_partial : forall cost_com cost_get cost_err end_reward objects no_answer discount root solver p t,
  inhabited root -> bring_task_to_pomdp cost_com cost_get cost_err end_reward objects true no_answer discount root solver = Ok p -> unfolds root t ->
  (forall i q j q', enters t i q -> enters t j q' -> (q == q')%Q) ->
  forall a s, a < nA p -> s < nS p -> (Tr p a (finish t) s == Start p s)%Q.
Proof.
  intros cost_com cost_get cost_err end_reward objects no_answer discount root solver p t HI E U HU a s Ha Hs.
  destruct (bring_inv _ _ _ _ _ _ _ _ _ _ _ HI E) as (t' & T & O & R & U' & Pt & HK & HN & D & HT & HO & HR & N1 & N2 & N3 & PT & PO & PS & PR & PD & WS). assert (t' = t) as -> by (eapply unfolds_unique; eauto).
  rewrite PT, PS, finish_L, (T_last objects true t T a s HT). cbn [rowL]. unfold rowL. destruct (look_cases (inits t) s) as [(q & Hq & ->)|[Hn ->]].
  - rewrite (look_In _ s (1 / inject_Z (Z.of_nat (length (inits t))))%Q); [|rewrite map_map; apply inits_NoDup|apply in_map_iff; exists (s, q); auto].
    pose proof (inits_sum t Pt) as Sm. assert (Sc : (sum_over (inits t) snd == inject_Z (Z.of_nat (length (inits t))) * q)%Q).
    { rewrite <- QBase.sum_const. apply sum_ext. intros [i q'] Hi. cbn [snd]. apply (HU i q' s q); apply inits_enters; auto. }
    rewrite Sc in Sm. assert (Z : (~ inject_Z (Z.of_nat (length (inits t))) == 0)%Q) by (intros Z; rewrite Z in Sm; lra). rewrite <- Sm. field. auto.
  - rewrite look_notin; [reflexivity|]. rewrite map_map. exact Hn.
Qed.
Print Assumptions C69_restart_partial.

(** For every task that may start with two leaves with different probabilities. *)
Theorem C69_restart_refuted : forall cost_com cost_get cost_err end_reward objects no_answer discount root solver p t i q j q',
  inhabited root -> bring_task_to_pomdp cost_com cost_get cost_err end_reward objects true no_answer discount root solver = Ok p -> unfolds root t ->
  enters t i q -> enters t j q' -> (~ q == q')%Q ->
  forall a, exists s, s < nS p /\ (~ Tr p a (finish t) s == Start p s)%Q.
Proof.
  intros cost_com cost_get cost_err end_reward objects no_answer discount root solver p t i q j q' HI E U E1 E2 Nq a.
  destruct (bring_inv _ _ _ _ _ _ _ _ _ _ _ HI E) as (t' & T & O & R & U' & Pt & HK & HN & D & HT & HO & HR & N1 & N2 & N3 & PT & PO & PS & PR & PD & WS). assert (t' = t) as -> by (eapply unfolds_unique; eauto).
  destruct (bring_sizes p t objects N1 N2 N3) as (Es & _).
  assert (G : forall k r, enters t k r -> Tr p a (finish t) k = (1 / inject_Z (Z.of_nat (length (inits t))))%Q /\ Start p k = r /\ k < nS p).
  { intros k r Hk. pose proof (enters_bound _ _ _ Hk) as B. apply inits_enters in Hk. rewrite PT, PS, finish_L, (T_last objects true t T a k HT), Es. unfold rowL. split; [|split; [|unfold bsize; lia]].
    - apply look_In; [rewrite map_map; apply inits_NoDup|]. apply in_map_iff. exists (k, r). auto.
    - apply look_In; [apply inits_NoDup|auto]. }
  destruct (G i q E1) as (A1 & A2 & A3). destruct (G j q' E2) as (B1 & B2 & B3). destruct (Qeq_dec q (1 / inject_Z (Z.of_nat (length (inits t))))) as [K|K].
  - exists j. split; [auto|]. rewrite B1, B2, <- K. auto.
  - exists i. split; [auto|]. rewrite A1, A2. intros K'. apply K. symmetry. auto.
Qed.
Print Assumptions C69_restart_refuted.

(** *** C89: moves *)
Theorem C89_moves : forall cost_com cost_get cost_err end_reward objects loop no_answer discount root solver p,
  inhabited root -> bring_task_to_pomdp cost_com cost_get cost_err end_reward objects loop no_answer discount root solver = Ok p ->
  exists t, unfolds root t /\
    (forall a s s', s < nS p ->
       (forall q, moves objects loop t a s s' q -> Tr p a s s' = q) /\ ((forall q, ~ moves objects loop t a s s' q) -> Tr p a s s' = 0%Q)) /\
    (forall j q, enters t j q -> Start p j = q) /\
    (forall s, (~ Start p s == 0)%Q <-> exists r, run t r /\ starts_with r s) /\
    p_discount p = match discount with Some d => d | None => if loop then (9 # 10)%Q else 1%Q end.
Proof.
  intros cost_com cost_get cost_err end_reward objects loop no_answer discount root solver p HI E.
  destruct (bring_inv _ _ _ _ _ _ _ _ _ _ _ HI E) as (t & T & O & R & U & Pt & HK & HN & D & HT & HO & HR & N1 & N2 & N3 & PT & PO & PS & PR & PD & WS).
  destruct (bring_sizes p t objects N1 N2 N3) as (Es & Ea & Eo & Es' & Ea'). exists t. split; [auto|]. split; [|split; [|split]].
  - rewrite Es. intros a s s' Hs. rewrite PT. apply (T_moves objects loop t Pt HN HK T a s s' HT Hs).
  - intros j q H. rewrite PS. apply look_In; [apply inits_NoDup|]. apply inits_enters. auto.
  - intros s. rewrite PS, <- (enters_run t s Pt). destruct (look_cases (inits t) s) as [(q & Hq & ->)|[Hn ->]].
    + split; [intros _; exists q; apply inits_enters; auto|]. intros _. apply inits_pos in Hq. cbn in Hq. lra.
    + split; [intros K; exfalso; apply K; reflexivity|]. intros [q Hq]. exfalso. apply Hn. apply inits_enters in Hq. apply (in_map fst) in Hq. auto.
  - exact PD.
Qed.
Print Assumptions C89_moves.

(** *** C90: observations *)
Theorem C90_observations : forall cost_com cost_get cost_err end_reward objects loop no_answer discount root solver p,
  inhabited root -> bring_task_to_pomdp cost_com cost_get cost_err end_reward objects loop no_answer discount root solver = Ok p ->
  p_observations p = map NStr ["none"; "yes"; "no"; "error"]%string /\
  exists t, unfolds root t /\ forall a s' o, a < nA p ->
    (forall q, observed objects no_answer t a s' o q -> Ob p a s' o = q) /\ ((forall q, ~ observed objects no_answer t a s' o q) -> Ob p a s' o = 0%Q).
Proof.
  intros cost_com cost_get cost_err end_reward objects loop no_answer discount root solver p HI E.
  destruct (bring_inv _ _ _ _ _ _ _ _ _ _ _ HI E) as (t & T & O & R & U & Pt & HK & HN & D & HT & HO & HR & N1 & N2 & N3 & PT & PO & PS & PR & PD & WS).
  destruct (bring_sizes p t objects N1 N2 N3) as (Es & Ea & Eo & Es' & Ea'). split; [auto|]. exists t. split; [auto|]. intros a s o Ha. rewrite PO. rewrite Ea in Ha.
  assert (X : forall x y, fetches objects a x -> asks objects a y -> False) by (intros x y H1 H2; apply fetches_lt in H1; apply asks_ge in H2; lia). split.
  - intros q H. destruct H as [x F B|x F B|x F B|x N A W|x N A W|x N A W|x N A W|x N A].
    + rewrite (proj1 (O_get objects no_answer t Pt HN HK O a s b_none x HO F) B). reflexivity.
    + rewrite (proj1 (O_get objects no_answer t Pt HN HK O a s b_error x HO F) B). reflexivity.
    + rewrite (proj2 (O_get objects no_answer t Pt HN HK O a s b_error x HO F) B). reflexivity.
    + rewrite (proj1 (O_ask objects no_answer t HN HK O a s b_yes x HO A) W). unfold yes_vec. rewrite N. reflexivity.
    + rewrite (proj2 (O_ask objects no_answer t HN HK O a s b_no x HO A) W). unfold no_vec. rewrite N. reflexivity.
    + rewrite (proj1 (O_ask objects no_answer t HN HK O a s b_yes x HO A) W). unfold yes_vec. rewrite N. reflexivity.
    + rewrite (proj2 (O_ask objects no_answer t HN HK O a s b_no x HO A) W). unfold no_vec. rewrite N. reflexivity.
    + destruct (wants_dec objects t HN HK s x) as [W|W]; [rewrite (proj1 (O_ask objects no_answer t HN HK O a s b_none x HO A) W); unfold yes_vec|rewrite (proj2 (O_ask objects no_answer t HN HK O a s b_none x HO A) W); unfold no_vec]; rewrite N; reflexivity.
  - intros H. destruct (action_cases objects a Ha) as [[x F]|[x A]].
    + destruct (brought_dec objects t Pt HN HK a s x F) as [B|B].
      * rewrite (proj1 (O_get objects no_answer t Pt HN HK O a s o x HO F) B). destruct o as [|[|[|[|o]]]]; try reflexivity; [exfalso; eapply H; eapply ob_good; eauto|exfalso; eapply H; eapply ob_good_error; eauto|destruct o; reflexivity].
      * rewrite (proj2 (O_get objects no_answer t Pt HN HK O a s o x HO F) B). destruct o as [|[|[|[|o]]]]; try reflexivity; [exfalso; eapply H; eapply ob_error; eauto|destruct o; reflexivity].
    + destruct (wants_dec objects t HN HK s x) as [W|W].
      * rewrite (proj1 (O_ask objects no_answer t HN HK O a s o x HO A) W). unfold yes_vec. destruct no_answer eqn:N; destruct o as [|[|[|[|o]]]]; try reflexivity; try (destruct o; reflexivity); exfalso; eapply H; first [eapply ob_silent; eauto; fail|eapply ob_maybe_yes; eauto; fail|eapply ob_yes; eauto].
      * rewrite (proj2 (O_ask objects no_answer t HN HK O a s o x HO A) W). unfold no_vec. destruct no_answer eqn:N; destruct o as [|[|[|[|o]]]]; try reflexivity; try (destruct o; reflexivity); exfalso; eapply H; first [eapply ob_silent; eauto; fail|eapply ob_maybe_no; eauto; fail|eapply ob_no; eauto].
Qed.
Print Assumptions C90_observations.

(** *** C91: costs *)
Theorem C91_costs : forall cost_com cost_get cost_err end_reward objects loop no_answer discount root solver p,
  inhabited root -> bring_task_to_pomdp cost_com cost_get cost_err end_reward objects loop no_answer discount root solver = Ok p ->
  exists t, unfolds root t /\ forall a s s', a < nA p ->
    (exists c, spends cost_com cost_get cost_err end_reward objects loop t a s s' c) /\
    forall c o, spends cost_com cost_get cost_err end_reward objects loop t a s s' c -> at_ (p_R p) [a; s; s'; o] = (- c)%Q.
Proof.
  intros cost_com cost_get cost_err end_reward objects loop no_answer discount root solver p HI E.
  destruct (bring_inv _ _ _ _ _ _ _ _ _ _ _ HI E) as (t & T & O & R & U & Pt & HK & HN & D & HT & HO & HR & N1 & N2 & N3 & PT & PO & PS & PR & PD & WS).
  destruct (bring_sizes p t objects N1 N2 N3) as (Es & Ea & Eo & Es' & Ea'). exists t. split; [auto|]. intros a s s' Ha. rewrite Ea in Ha. split; [apply spends_ex; auto|]. intros c o H. rewrite PR. f_equal. exact (R_spends cost_com cost_get cost_err end_reward objects loop t HN HK R a s s' o HR Ha c H).
Qed.
Print Assumptions C91_costs.

(** *** C92: names *)
Theorem C92_names : forall cost_com cost_get cost_err end_reward objects loop no_answer discount root solver p,
  inhabited root -> bring_task_to_pomdp cost_com cost_get cost_err end_reward objects loop no_answer discount root solver = Ok p ->
  NoDup objects /\ exists t, unfolds root t /\ names_differ t /\
    (forall s n, nth_error (states p) s = Some (NStr n) <-> bring_state_name t s n) /\
    (forall a n, nth_error (p_actions p) a = Some (NStr n) <-> bring_action_name objects a n) /\
    (forall k a, nth_error (leaves t) k = Some a -> exists x, wants t k x /\ In x objects).
Proof.
  intros cost_com cost_get cost_err end_reward objects loop no_answer discount root solver p HI E.
  destruct (bring_inv _ _ _ _ _ _ _ _ _ _ _ HI E) as (t & T & O & R & U & Pt & HK & HN & D & HT & HO & HR & N1 & N2 & N3 & PT & PO & PS & PR & PD & WS).
  split; [auto|]. exists t. split; [auto|]. split; [auto|]. split; [|split].
  - intros s n. rewrite N1. unfold bnames, bring_state_name, finish. rewrite bring_states_flat, map_app, map_map. destruct (Nat.lt_ge_cases s (length (leaves t))) as [H|H].
    + rewrite nth_error_app1 by (rewrite map_length; auto). rewrite nth_error_map. destruct (nth_error (leaves t) s) as [a|] eqn:Ea; [|apply nth_error_None in Ea; lia]. cbn [option_map]. split; [intros K; left; exists a; rewrite dashed_radix; split; [auto|congruence]|]. intros [(a' & Ea' & ->)|[K _]]; [rewrite dashed_radix; congruence|lia].
    + rewrite nth_error_app2 by (rewrite map_length; auto). rewrite map_length. split.
      * intros K. right. destruct (s - length (leaves t)) as [|m] eqn:Em; cbn in K; [split; [lia|congruence]|destruct m; discriminate].
      * intros [(a & Ea & _)|[-> ->]]; [apply nth_error_None in H; congruence|]. rewrite Nat.sub_diag. reflexivity.
  - intros a n. rewrite N2, nth_error_map, actions_nth. unfold bring_action_name, fetches, asks. destruct (Nat.ltb_spec a (length objects)) as [H|H].
    + destruct (nth_error objects a) as [x|] eqn:Ea; [|apply nth_error_None in Ea; lia]. cbn [option_map]. split; [intros K; left; exists x; split; [auto|congruence]|]. intros [(y & Ey & ->)|(y & (i & -> & _) & _)]; [congruence|lia].
    + split.
      * intros K. right. destruct (nth_error objects (a - length objects)) as [x|] eqn:Ea; [|discriminate]. exists x. split; [exists (a - length objects); split; [lia|auto]|]. cbn [option_map] in K. congruence.
      * intros [(y & Ey & _)|(y & (i & -> & Ei) & ->)]; [apply nth_error_None in H; congruence|]. replace (length objects + i - length objects) with i by lia. rewrite Ei. reflexivity.
  - intros k a Ha. rewrite Forall_forall in HK. destruct (HK a (nth_error_In _ _ Ha)) as (x & Hx & Hin). exists x. split; [|auto]. exists a. split; [auto|apply obj_iff; auto].
Qed.
Print Assumptions C92_names.

(** *** Non-vacuity *)
Definition bx_leaf (n x : string) : comb string := Leaf {| a_class := KBring; a_name := n; a_agent := "None"; a_params := Some x |} None None false.
(** The top, then a leg, or a screw and one of two drivers. *)
Definition bx_task : comb string :=
  Node Sequential [bx_leaf "Top" "top"; Node Alternative [bx_leaf "Leg" "leg"; Node Sequential [bx_leaf "Fix leg" "screw"; Node Alternative [bx_leaf "D1" "driver 1"; bx_leaf "D2" "driver 2"] None None "drivers" true (Some [1 # 2; 1 # 2])] None None "fix" true None] None None "legs" true (Some [1 # 2; 1 # 2])] None None "task" true None.
(** A choice between a leaf and a choice between two leaves. *)
Definition bx_choice : comb string :=
  Node Alternative [bx_leaf "A" "top"; Node Alternative [bx_leaf "B" "leg"; bx_leaf "C" "screw"] None None "in" true (Some [1 # 2; 1 # 2])] None None "out" true (Some [1 # 2; 1 # 2]).
Definition bx_objects : list string := ["top"; "leg"; "screw"; "driver 1"; "driver 2"]%string.
Definition bx_unfolded (c : comb string) : n2p string := match from_node bring_leaf (levels c) c with Ok t => t | Err _ => NSeq [] end.
Lemma bx_unfolds : unfolds bx_task (bx_unfolded bx_task) /\ unfolds bx_choice (bx_unfolded bx_choice).
Proof. split; [apply (from_node_unfolds bring_leaf (levels bx_task))|apply (from_node_unfolds bring_leaf (levels bx_choice))]; vm_compute; reflexivity. Qed.
Lemma bx_inhabited : inhabited bx_task /\ inhabited bx_choice.
Proof. split; repeat (constructor; try discriminate). Qed.
Ltac no_par := intros (ch & i & p & n & h & pr & H); cbn in H; repeat (destruct H as [H|H]; [discriminate H|]); destruct H.
Ltac all_bring := intros a i p h H; cbn in H; repeat (destruct H as [H|H]; [first [discriminate H|inversion H; subst; eexists; split; [reflexivity|]; split; [reflexivity|]; cbn; tauto]|]); destruct H.
Ltac b_distinct := vm_compute; repeat (constructor; [cbn; intuition discriminate|]); constructor.
Lemma bx_built loop no_answer : (exists p, bring_task_to_pomdp 1 2 5 10 bx_objects loop no_answer None bx_task true = Ok p) /\ (exists p, bring_task_to_pomdp 1 2 5 10 bx_objects loop no_answer None bx_choice true = Ok p).
Proof.
  split; apply C68_usable_partial; try apply bx_inhabited; try (all_bring); try (b_distinct); try (no_par); try discriminate.
  - intros t U. rewrite (unfolds_unique _ _ _ U (proj1 bx_unfolds)). unfold names_differ. b_distinct.
  - intros t U. rewrite (unfolds_unique _ _ _ U (proj2 bx_unfolds)). unfold names_differ. b_distinct.
Qed.
Definition bx_entry (c : comb string) (loop : bool) (a s s' : nat) : res Q := do p <- bring_task_to_pomdp 1 2 5 10 bx_objects loop true None c true; Ok (Qred (Tr p a s s')).
Example C68_ex_refused : let task o := Node Sequential [bx_leaf "A" "top"; o] None None "seq" true None in
  inhabited (task (bx_leaf "B" "bottle")) /\ ~ has_parallel (task (bx_leaf "B" "bottle")) /\ ~ In "bottle"%string bx_objects /\
  bring_task_to_pomdp 1 2 5 10 bx_objects true true None (task (bx_leaf "B" "bottle")) true = Err EKey.
Proof.
  cbv zeta. split; [repeat (constructor; try discriminate)|]. split; [intros (ch & i & p & n & h & pr & [H|[H|[H|[]]]]); discriminate|]. split; [cbn; intuition discriminate|vm_compute; reflexivity].
Qed.
Example C68_ex : (exists p, bring_task_to_pomdp 1 2 5 10 bx_objects true true None bx_task true = Ok p /\ nS p = 6 /\ nA p = 10 /\ stochastic p) /\
  has_parallel (Node Parallel [bx_leaf "A" "top"] None None "par" true None) /\ inhabited (Node Parallel [bx_leaf "A" "top"] None None "par" true None) /\
  bring_task_to_pomdp 1 2 5 10 bx_objects true true None (Node Parallel [bx_leaf "A" "top"] None None "par" true None) true = Err EAttr.
Proof.
  split; [|split; [|split]].
  - destruct (proj1 (bx_built true true)) as [p E]. exists p. split; [auto|]. destruct (C68_tables _ _ _ _ _ _ _ _ _ _ _ (proj1 bx_inhabited) E) as (t & U & -> & -> & _ & _ & S & _). rewrite (unfolds_unique _ _ _ U (proj1 bx_unfolds)). repeat split; try reflexivity; apply S.
  - do 6 eexists. left. reflexivity.
  - repeat (constructor; try discriminate).
  - vm_compute. reflexivity.
Qed.
(** The start distribution of the choice is 1/2, 1/4, 1/4; it restarts with 1/3 for each. *)
Example C69_ex : (exists p, bring_task_to_pomdp 1 2 5 10 bx_objects true false None bx_choice true = Ok p) /\
  enters (bx_unfolded bx_choice) 0 (1 * (1 / inject_Z (Z.of_nat 2))) /\ enters (bx_unfolded bx_choice) 1 (1 * (1 / inject_Z (Z.of_nat 2)) * (1 / inject_Z (Z.of_nat 2))) /\
  map (bx_entry bx_choice true 0 3) [0; 1; 2; 3] = [Ok (1 # 3); Ok (1 # 3); Ok (1 # 3); Ok 0%Q] /\
  (forall i q j q', enters (bx_unfolded bx_task) i q -> enters (bx_unfolded bx_task) j q' -> (q == q')%Q).
Proof.
  split; [apply bx_built|]. split; [|split; [|split]].
  - let x := eval vm_compute in (bx_unfolded bx_choice) in change (bx_unfolded bx_choice) with x. match goal with |- enters (NAlt [?u; ?v]) _ _ => exact (en_alt [] u [v] 0 1 (en_leaf _)) end.
  - let x := eval vm_compute in (bx_unfolded bx_choice) in change (bx_unfolded bx_choice) with x. match goal with |- enters (NAlt [?u; NAlt [?v; ?w]]) _ _ => exact (en_alt [u] (NAlt [v; w]) [] 0 _ (en_alt [] v [w] 0 1 (en_leaf _))) end.
  - vm_compute. reflexivity.
  - let x := eval vm_compute in (bx_unfolded bx_task) in change (bx_unfolded bx_task) with x. intros i q j q' H H'. inversion H as [|t1 l1 j1 q1 H1|]; subst. inversion H1; subst. inversion H' as [|t1 l1 j1 q1 H2|]; subst. inversion H2; subst. reflexivity.
Qed.
Lemma bx_wants : wants (bx_unfolded bx_task) 0 "top" /\ wants (bx_unfolded bx_task) 2 "screw".
Proof. split; (eexists; split; [vm_compute; reflexivity|split; reflexivity]). Qed.
Example C89_ex : moves bx_objects false (bx_unfolded bx_task) 0 0 1 (1 * (1 * (1 / inject_Z (Z.of_nat 2)))) /\ moves bx_objects false (bx_unfolded bx_task) 3 0 0 1 /\
  map (bx_entry bx_task false 0 0) [0; 1; 2; 3; 4; 5] = [Ok 0%Q; Ok (1 # 2); Ok (1 # 2); Ok 0%Q; Ok 0%Q; Ok 0%Q].
Proof.
  split; [|split; [|vm_compute; reflexivity]].
  - change 1 with (site (bx_unfolded bx_task) (Some 1)) at 1. apply (mo_right _ _ _ _ 0 "top"); [apply bx_wants|reflexivity|].
    let x := eval vm_compute in (bx_unfolded bx_task) in change (bx_unfolded bx_task) with x. match goal with |- leads (NSeq [?t; NAlt [?u; ?v]]) _ _ _ => exact (le_next [] t (NAlt [u; v]) [] 0 0 _ _ (le_leaf _) (en_alt [] u [v] 0 1 (en_leaf _))) end.
  - apply (mo_other _ _ _ _ 0 "top"); [apply bx_wants|]. discriminate.
Qed.
Example C90_ex : observed bx_objects true (bx_unfolded bx_task) 7 2 b_yes (9 # 10) /\ observed bx_objects true (bx_unfolded bx_task) 0 2 b_none (9 # 10) /\ observed bx_objects false (bx_unfolded bx_task) 6 0 b_no 1.
Proof.
  split; [|split].
  - apply (ob_maybe_yes _ _ _ _ _ "screw"); [reflexivity|exists 2; split; reflexivity|apply bx_wants].
  - apply (ob_good _ _ _ _ _ "top"); [reflexivity|]. exists 0. split; [apply bx_wants|]. left. apply (leads_some_run (bx_unfolded bx_task)); [apply (unfolds_proper _ _ (proj1 bx_inhabited) (proj1 bx_unfolds))|].
    eexists. let x := eval vm_compute in (bx_unfolded bx_task) in change (bx_unfolded bx_task) with x. match goal with |- leads (NSeq [?t; NAlt [?u; NSeq [?v; ?w]]]) _ _ _ => exact (le_next [] t (NAlt [u; NSeq [v; w]]) [] 0 1 _ _ (le_leaf _) (en_alt [u] (NSeq [v; w]) [] 0 1 (en_seq v [w] 0 1 (en_leaf _)))) end.
  - apply (ob_no _ _ _ _ _ "leg"); [reflexivity|exists 1; split; reflexivity|]. intros W. pose proof (wants_fun _ _ _ _ W (proj1 bx_wants)). discriminate.
Qed.
Example C91_ex : spends 1 2 5 10 bx_objects false (bx_unfolded bx_task) 3 0 1 5 /\ spends 1 2 5 10 bx_objects true (bx_unfolded bx_task) 3 5 0 (- 10).
Proof.
  split; [|apply sp_loop_end; reflexivity]. apply sp_other; [reflexivity|discriminate|]. apply (ef_err _ _ _ _ _ _ _ _ "driver 1"); [reflexivity|]. intros (x & o & q & W & F & _). pose proof (wants_fun _ _ _ _ W (proj1 bx_wants)) as ->. discriminate F.
Qed.
Example C92_ex : bring_state_name (bx_unfolded bx_task) 2 "before-fix-leg" /\ bring_action_name bx_objects 8 "ask-driver 1".
Proof. split; [left; eexists; split; vm_compute; reflexivity|]. right. exists "driver 1"%string. split; [exists 3; split; reflexivity|reflexivity]. Qed.
