(** C129: writing results and reading them. *)
From Coq Require Import Lia.
From Verif Require Import PyBase PyBaseFacts QBase HtmModel HtmProofs TowerModel SaveModel SaveSpec.
Local Open Scope list_scope.
Local Open Scope nat_scope.

Section Save.
  Variable float_text : Q -> string.
  Notation key := (key_as float_text).
  Notation back := (reads_back float_text).

  Lemma key_text_iff k s : key_text float_text k = Ok s <-> key k s.
  Proof. split; [destruct k as [|[]| | | | | | |]; cbn; intros H; try discriminate; assert (X : forall a b : string, Ok a = Ok b -> a = b) by (intros; congruence); apply X in H; subst; constructor|]. intros H; inversion H; subst; reflexivity. Qed.
  Lemma key_text_cases k : (exists s, key_text float_text k = Ok s) \/ key_text float_text k = Err EType.
  Proof. destruct k; cbn; eauto. Qed.

  (** *** Dictionaries that are read *)
  Definition items_of (l : list (string * pobj)) : list (patom * pobj) := map (fun kv => (KStr (fst kv), snd kv)) l.
  Fixpoint put_item (l : list (string * pobj)) (k : string) (v : pobj) : list (string * pobj) :=
    match l with [] => [(k, v)] | (k', v') :: l => if String.eqb k' k then (k, v) :: l else (k', v') :: put_item l k v end.
  Lemma set_put l k v : set_item (items_of l) k v = items_of (put_item l k v).
  Proof. induction l as [|[k' v'] l IH]; [reflexivity|]. unfold items_of in *. cbn. destruct (String.eqb k' k); [reflexivity|]. cbn. rewrite IH. reflexivity. Qed.
  Definition merge (l : list (string * pobj)) : list (string * pobj) := fold_left (fun d kv => put_item d (fst kv) (snd kv)) l [].
  Lemma load_items l : forall d, fold_left (fun d kv => set_item d (fst kv) (snd kv)) l (items_of d) = items_of (fold_left (fun d kv => put_item d (fst kv) (snd kv)) l d).
  Proof. induction l as [|x l IH]; intros d; [reflexivity|]. cbn [fold_left]. rewrite set_put, IH. reflexivity. Qed.
  Lemma put_In l k v s w : In (s, w) (put_item l k v) -> (s = k /\ w = v) \/ In (s, w) l.
  Proof. induction l as [|[k' v'] l IH]; cbn; [intros [E|[]]; left; split; congruence|]. destruct (String.eqb k' k); cbn; intros [E|H]; [left; split; congruence|auto|auto|]. destruct (IH H); auto. Qed.
  Lemma put_names l k v s : In s (map fst (put_item l k v)) <-> s = k \/ In s (map fst l).
  Proof. induction l as [|[k' v'] l IH]; cbn; [intuition|]. destruct (String.eqb_spec k' k) as [->|D]; cbn; [intuition|]. rewrite IH. intuition. Qed.
  Lemma put_spec l k v : NoDup (map fst l) -> NoDup (map fst (put_item l k v)) /\ forall s w, In (s, w) (put_item l k v) <-> (s = k /\ w = v) \/ (s <> k /\ In (s, w) l).
  Proof.
    induction l as [|[k' v'] l IH]; intros N; cbn [map fst] in N.
    - cbn. split; [repeat constructor; intros []|]. intros s w. split; [intros [E|[]]; left; split; congruence|]. intros [[-> ->]|[_ []]]. auto.
    - inversion N as [|x y N1 N2]; subst. destruct (IH N2) as [I1 I2]. cbn [put_item]. destruct (String.eqb_spec k' k) as [->|D]; cbn [map fst].
      + split; [constructor; auto|]. intros s w. cbn. split.
        * intros [E|H]; [left; split; congruence|]. right. split; [intros ->; apply N1; apply (in_map fst) in H; exact H|auto].
        * intros [[-> ->]|[Hs [E|H]]]; auto. exfalso. apply Hs. congruence.
      + split.
        * constructor; [|auto]. rewrite put_names. intros [E|H]; [congruence|auto].
        * intros s w. cbn. rewrite I2. split.
          -- intros [E|[H|H]]; [right; split; [congruence|auto]|auto|]. right. tauto.
          -- intros [H|[Hs [E|H]]]; auto.
  Qed.
  Lemma merge_spec l : NoDup (map fst (merge l)) /\ forall s w, In (s, w) (merge l) <-> last_value l s w.
  Proof.
    unfold merge. induction l as [|[k v] l IH] using rev_ind; [split; [constructor|]; intros s w; split; [intros []|]; intros (a & b & E & _); destruct a; discriminate|].
    rewrite fold_left_app. cbn [fold_left fst snd]. destruct IH as [N I]. destruct (put_spec _ k v N) as [N' I']. split; [exact N'|]. intros s w. rewrite I'. split.
    - intros [[-> ->]|[D H]]; [exists l, []; split; [reflexivity|intros []]|]. apply I in H. destruct H as (a & b & -> & H). exists a, (b ++ [(k, v)]). split; [rewrite <- app_assoc; reflexivity|]. rewrite map_app, in_app_iff. cbn. intros [K|[K|[]]]; [auto|congruence].
    - intros (a & b & E & H). destruct b as [|x b _] using rev_ind.
      + apply app_inj_tail in E. destruct E as [_ E]. left. split; congruence.
      + rewrite app_comm_cons, app_assoc in E. apply app_inj_tail in E. destruct E as [E <-]. rewrite map_app, in_app_iff in H. cbn in H. right. split; [intros ->; tauto|]. apply I. exists a, b. split; [auto|tauto].
  Qed.
  Lemma merge_back l items : Forall2 (fun kv kv' => key (fst kv) (fst kv') /\ back (snd kv) (snd kv')) l items -> back (PDict l) (PDict (items_of (merge items))).
  Proof.
    intros F. destruct (merge_spec items) as [N I]. apply rb_dict with items; [exact F| |].
    - unfold items_of. rewrite map_map. cbn [fst]. rewrite <- (map_map fst KStr). apply FinFun.Injective_map_NoDup; [intros x y; congruence|exact N].
    - intros k v. unfold items_of. rewrite in_map_iff. split.
      + intros ([s w] & E & H). cbn in E. exists s. split; [congruence|]. assert (w = v) as <- by congruence. apply I, H.
      + intros (s & -> & H). exists (s, v). split; [reflexivity|]. apply I, H.
  Qed.
  Lemma items_from_file items : Forall (fun kv => from_file (snd kv)) items -> from_file (PDict (items_of (merge items))).
  Proof.
    intros F. destruct (merge_spec items) as [N I]. constructor.
    - unfold items_of. rewrite map_map. cbn [fst]. rewrite <- (map_map fst KStr). apply FinFun.Injective_map_NoDup; [intros x y; congruence|exact N].
    - apply Forall_forall. intros x Hx. apply in_map_iff in Hx. destruct Hx as ([s w] & <- & H). cbn. split; [eauto|]. apply I in H. destruct H as (a & b & -> & _). rewrite Forall_forall in F. apply (F (s, w)). apply in_elt.
  Qed.
  Lemma merge_distinct l : NoDup (map fst l) -> merge l = l.
  Proof.
    unfold merge. intros N. assert (K : forall d, NoDup (map fst (d ++ l)) -> fold_left (fun d kv => put_item d (fst kv) (snd kv)) l d = d ++ l); [|apply (K []); exact N].
    clear N. induction l as [|[k v] l IH]; intros d N; [rewrite app_nil_r; reflexivity|]. cbn [fold_left fst snd].
    assert (P : put_item d k v = d ++ [(k, v)]).
    { assert (H : ~ In k (map fst d)). { rewrite map_app in N. cbn in N. apply NoDup_remove_2 in N. intros H. apply N. apply in_or_app. auto. }
      clear N IH. induction d as [|[k' v'] d IHd]; [reflexivity|]. cbn. cbn in H. destruct (String.eqb_spec k' k) as [->|D]; [tauto|]. rewrite IHd; auto. }
    rewrite P, IH; rewrite <- app_assoc; [reflexivity|exact N].
  Qed.

  (** *** Writing *)
  Lemma weight_in o l : In o l -> weight o <= fold_right (fun o n => Nat.max (weight o) n) 0 l.
  Proof. induction l as [|x l IH]; intros H; [destruct H|]. cbn. destruct H as [->|H]; [lia|]. specialize (IH H). lia. Qed.
  Lemma weight_item (kv : patom * pobj) l : In kv l -> weight (snd kv) <= fold_right (fun kv n => Nat.max (weight (snd kv)) n) 0 l.
  Proof. induction l as [|x l IH]; intros H; [destruct H|]. cbn. destruct H as [->|H]; [lia|]. specialize (IH H). lia. Qed.
  Definition default_of (np : bool) : pobj -> res pobj := if np then np_default else plain_default.
  Definition fine (np : bool) (o : pobj) (r : res jval) : Prop :=
    (exists j, r = Ok j /\ writable float_text np o /\ back o (load j) /\ from_file (load j)) \/ (r = Err EType /\ ~ writable float_text np o).
  Lemma list_fine np f l : (forall x, In x l -> fine np x (f x)) ->
    (exists js, mapM f l = Ok js /\ Forall (writable float_text np) l /\ Forall2 back l (map load js) /\ Forall from_file (map load js)) \/ (mapM f l = Err EType /\ ~ Forall (writable float_text np) l).
  Proof.
    induction l as [|x l IH]; intros H; [left; exists []; repeat split; constructor|]. cbn [mapM]. destruct (H x (or_introl eq_refl)) as [(j & -> & W & B & F)|[-> W]]; cbn [bind].
    - destruct IH as [(js & -> & W' & B' & F')|[-> W']]; [intros; apply H; right; auto| |]; cbn [bind].
      + left. exists (j :: js). repeat split; try constructor; auto.
      + right. split; [auto|]. intros K. inversion K; auto.
    - right. split; [auto|]. intros K. inversion K; auto.
  Qed.
  Lemma dict_fine np (f : pobj -> res jval) l : (forall kv, In kv l -> fine np (snd kv) (f (snd kv))) ->
    (exists js, mapM (fun kv => do k <- key_text float_text (fst kv); do v <- f (snd kv); Ok (k, v)) l = Ok js /\ Forall (fun kv => (exists s, key (fst kv) s) /\ writable float_text np (snd kv)) l /\
       Forall2 (fun kv kv' => key (fst kv) (fst kv') /\ back (snd kv) (snd kv')) l (map (fun kv => (fst kv, load (snd kv))) js) /\ Forall (fun kv => from_file (snd kv)) (map (fun kv => (fst kv, load (snd kv))) js)) \/
    (mapM (fun kv => do k <- key_text float_text (fst kv); do v <- f (snd kv); Ok (k, v)) l = Err EType /\ ~ Forall (fun kv => (exists s, key (fst kv) s) /\ writable float_text np (snd kv)) l).
  Proof.
    induction l as [|x l IH]; intros H; [left; exists []; repeat split; constructor|]. cbn [mapM]. destruct (key_text_cases (fst x)) as [[s Es]|Es]; rewrite Es; cbn [bind].
    - pose proof (proj1 (key_text_iff _ _) Es) as Ks. destruct (H x (or_introl eq_refl)) as [(j & -> & W & B & F)|[-> W]]; cbn [bind].
      + destruct IH as [(js & -> & W' & B' & F')|[-> W']]; [intros; apply H; right; auto| |]; cbn [bind].
        * left. exists ((s, j) :: js). split; [reflexivity|]. split; [constructor; eauto|]. split; [constructor; auto|constructor; auto].
        * right. split; [auto|]. intros K. inversion K; auto.
      + right. split; [auto|]. intros K. inversion K as [|? ? [_ K1] K2]; auto.
    - right. split; [auto|]. intros K. inversion K as [|? ? [[s K1] _] K2]; subst. apply key_text_iff in K1. congruence.
  Qed.
  Lemma encode_fine np fuel : forall o, weight o <= fuel -> fine np o (encode (default_of np) float_text fuel o).
  Proof.
    induction fuel as [|fuel IH]; intros o Hw; [destruct o; cbn in Hw; lia|].
    destruct o as [| | | | |l|l|l| | | |v|]; cbn [encode]; cbn [weight] in Hw.
    - left. eexists. repeat split; constructor.
    - left. eexists. repeat split; constructor.
    - left. eexists. repeat split; constructor.
    - left. eexists. repeat split; constructor.
    - left. eexists. repeat split; constructor.
    - destruct (list_fine np (encode (default_of np) float_text fuel) l) as [(js & -> & W & B & F)|[-> W]]; [intros x Hx; apply IH; apply weight_in in Hx; lia| |]; cbn [bind].
      + left. eexists. split; [reflexivity|]. cbn [load]. split; [constructor; auto|]. split; constructor; auto.
      + right. split; [auto|]. intros K. inversion K; auto.
    - destruct (list_fine np (encode (default_of np) float_text fuel) l) as [(js & -> & W & B & F)|[-> W]]; [intros x Hx; apply IH; apply weight_in in Hx; lia| |]; cbn [bind].
      + left. eexists. split; [reflexivity|]. cbn [load]. split; [constructor; auto|]. split; constructor; auto.
      + right. split; [auto|]. intros K. inversion K; auto.
    - destruct (dict_fine np (encode (default_of np) float_text fuel) l) as [(js & -> & W & B & F)|[-> W]]; [intros x Hx; apply IH; apply weight_item in Hx; lia| |]; cbn [bind].
      + left. eexists. split; [reflexivity|]. cbn [load]. change (@nil (patom * pobj)) with (items_of []). rewrite load_items. fold (merge (map (fun kv => (fst kv, load (snd kv))) js)).
        split; [constructor; auto|]. split; [apply merge_back, B|apply items_from_file, F].
      + right. split; [auto|]. intros K. inversion K; auto.
    - destruct np; cbn; [destruct fuel as [|fuel]; [lia|]; cbn; left; eexists; repeat split; constructor; reflexivity|right; split; [reflexivity|intros K; inversion K; congruence]].
    - destruct np; cbn; [destruct fuel as [|fuel]; [lia|]; cbn; left; eexists; repeat split; constructor; reflexivity|right; split; [reflexivity|intros K; inversion K; congruence]].
    - right. split; [destruct np; reflexivity|intros K; inversion K].
    - destruct np; cbn [default_of np_default plain_default bind]; [|right; split; [reflexivity|intros K; inversion K; congruence]].
      destruct (IH v ltac:(lia)) as [(j & E & W & B & F)|[E W]]; cbn [default_of] in E; rewrite E.
      + left. exists j. split; [reflexivity|]. split; [constructor; auto|]. split; [constructor; auto|auto].
      + right. split; [auto|]. intros K. inversion K; auto.
    - right. split; [destruct np; reflexivity|intros K; inversion K].
  Qed.
  Lemma same_aux np fuel : forall o, weight o <= fuel -> from_file o -> exists j, encode (default_of np) float_text fuel o = Ok j /\ load j = o.
  Proof.
    induction fuel as [|fuel IH]; intros o Hw Ho; [destruct o; cbn in Hw; lia|].
    inversion Ho as [|b|z|q|s|l F|l N F]; subst; cbn [encode]; cbn [weight] in Hw; try (eexists; split; reflexivity).
    - assert (K : exists js, mapM (encode (default_of np) float_text fuel) l = Ok js /\ map load js = l).
      { clear Ho. assert (Hx : forall x, In x l -> weight x <= fuel) by (intros x Hx; apply weight_in in Hx; lia). clear Hw. induction F as [|x l Fx F IHF]; [exists []; split; reflexivity|]. destruct (IH x (Hx x (or_introl eq_refl)) Fx) as (j & E & El). destruct IHF as (js & E' & El'); [intros; apply Hx; right; auto|]. exists (j :: js). cbn. rewrite E, E'. cbn. split; congruence. }
      destruct K as (js & -> & E). cbn [bind]. eexists. split; [reflexivity|]. cbn [load]. congruence.
    - assert (K : exists js, mapM (fun kv => do k <- key_text float_text (fst kv); do v <- encode (default_of np) float_text fuel (snd kv); Ok (k, v)) l = Ok js /\ items_of (map (fun kv => (fst kv, load (snd kv))) js) = l).
      { clear Ho N. assert (Hx : forall x, In x l -> weight (snd x) <= fuel) by (intros x Hx; apply weight_item in Hx; lia). clear Hw. induction F as [|[k o] l [[s Ek] Fx] F IHF]; [exists []; split; reflexivity|]. cbn [fst snd] in *. subst k. destruct (IH o (Hx _ (or_introl eq_refl)) Fx) as (j & E & El). destruct IHF as (js & E' & El'); [intros; apply Hx; right; auto|].
        exists ((s, j) :: js). cbn [mapM fst snd key_text bind]. rewrite E. cbn [bind]. rewrite E'. cbn [bind]. split; [reflexivity|]. cbn. rewrite El. f_equal. exact El'. }
      destruct K as (js & -> & E). cbn [bind]. eexists. split; [reflexivity|]. cbn [load]. change (@nil (patom * pobj)) with (items_of []). rewrite load_items. fold (merge (map (fun kv => (fst kv, load (snd kv))) js)).
      rewrite merge_distinct; [rewrite E; reflexivity|]. rewrite <- E in N. unfold items_of in N. rewrite map_map in N. cbn [fst] in N. rewrite <- (map_map fst KStr) in N. apply NoDup_map_inv in N. exact N.
  Qed.
End Save.

(** Results are written if and only if they hold nothing but what NPEncoder or json can write, with keys that json can write; else
    TypeError is raised.  What is read back is what was written. *)
Theorem C129_results : forall float_text o,
  (writable float_text true o -> exists j, write_result float_text o = Ok j /\ reads_back float_text o (load j) /\ from_file (load j)) /\
  (~ writable float_text true o -> write_result float_text o = Err EType).
Proof.
  intros ft o. destruct (encode_fine ft true (weight o) o (Nat.le_refl _)) as [(j & E & W & B & F)|[E W]]; split; intros H; try tauto; first [exact E|exists j; auto].
Qed.
Print Assumptions C129_results.
(** The parameters of jobs are written without NPEncoder: the same, except for the numbers and arrays of numpy. *)
Theorem C129_parameters : forall float_text o,
  (writable float_text false o -> exists j, write_parameters float_text o = Ok j /\ reads_back float_text o (load j) /\ from_file (load j)) /\
  (~ writable float_text false o -> write_parameters float_text o = Err EType).
Proof.
  intros ft o. destruct (encode_fine ft false (weight o) o (Nat.le_refl _)) as [(j & E & W & B & F)|[E W]]; split; intros H; try tauto; first [exact E|exists j; auto].
Qed.
Print Assumptions C129_parameters.
(** What was read from a file can be written again, both ways, and is read back as it is. *)
Theorem C129_again : forall float_text o, from_file o ->
  (exists j, write_result float_text o = Ok j /\ load j = o) /\ (exists j, write_parameters float_text o = Ok j /\ load j = o).
Proof. intros ft o H. split; [apply (same_aux ft true)|apply (same_aux ft false)]; auto. Qed.
Print Assumptions C129_again.

(** Results with numbers and arrays of numpy; a key that is a number of numpy, or a truth value of numpy, is refused; two keys that
    are the same text. *)
Definition ex_results : pobj := PDict [(KStr "return", PNpFloat (-(7 # 2))); (KStr "states", PArray (PList [PInt 3; PInt 5])); (KStr "best", PTuple [PNpInt 2; PBool true]); (KInt 4, PNone)].
Example C129_ex : writable (fun _ => "0.5"%string) true ex_results /\ ~ writable (fun _ => "0.5"%string) false ex_results /\
  (exists j, write_result (fun _ => "0.5"%string) ex_results = Ok j /\ load j = PDict [(KStr "return", PFloat (-(7 # 2))); (KStr "states", PList [PInt 3; PInt 5]); (KStr "best", PList [PInt 2; PBool true]); (KStr "4", PNone)]) /\
  write_result (fun _ => "0.5"%string) (PDict [(KNpInt 4, PNone)]) = Err EType /\ write_result (fun _ => "0.5"%string) (PList [PNpBool true]) = Err EType /\
  (exists j, write_result (fun _ => "0.5"%string) (PDict [(KInt 1, PInt 3); (KStr "2", PInt 4); (KStr "1", PInt 5)]) = Ok j /\ load j = PDict [(KStr "1", PInt 5); (KStr "2", PInt 4)]).
Proof.
  split; [|split; [|split; [|split; [|split]]]].
  - repeat (constructor; cbn; try (split; [eexists; constructor|])).
  - intros H. inversion H as [| | | | | | |l F| | |]; subst. inversion F as [|? ? [_ K] _]; subst. inversion K; discriminate.
  - eexists. split; vm_compute; reflexivity.
  - reflexivity.
  - reflexivity.
  - eexists. split; vm_compute; reflexivity.
Qed.
