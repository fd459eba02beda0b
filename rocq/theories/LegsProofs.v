(** Proofs for C115. *)
From Verif Require Import PyBase PyBaseFacts QBase HtmModel HtmSpec DagModel DagSpec SuppModel SuppProofs SuppProofs2 SuppProofs3 SuppProofs4 RunModel RunProofs RunProofs2 JobModel LegsSpec.
From Coq Require Import Lia Permutation.
Local Open Scope list_scope.
Local Open Scope nat_scope.

(** *** Executions *)
Lemma seq_exec {L} (lab : action sparams -> L) l word : executes lab (seq_leaves l) word <-> word = map lab l.
Proof.
  unfold seq_leaves. split.
  - intros H. inversion H as [|ch i p n h pr ws F| |]; subst. clear H. revert ws F. induction l as [|a l IH]; intros ws F; inversion F as [|? ? ? ? F1 F2]; subst; [reflexivity|].
    cbn [concat map]. inversion F1; subst. cbn [app]. f_equal. apply IH. exact F2.
  - intros ->. replace (map lab l) with (concat (map (fun a => [lab a]) l)) by (induction l; cbn; congruence). constructor.
    induction l as [|a l IH]; constructor; [constructor|exact IH].
Qed.
Lemma seqs_exec {L} (lab : action sparams -> L) ls i p nm h pr word : executes lab (Node Sequential (map seq_leaves ls) i p nm h pr : stree) word <-> word = map lab (concat ls).
Proof.
  split.
  - intros H. inversion H as [|ch i0 p0 n0 h0 pr0 ws F| |]; subst. clear H. revert ws F. induction ls as [|l ls IH]; intros ws F; inversion F as [|? ? ? ? F1 F2]; subst; [reflexivity|].
    cbn [concat map]. rewrite map_app. f_equal; [apply seq_exec; exact F1|]. apply IH. exact F2.
  - intros ->. rewrite concat_map. constructor. induction ls as [|l ls IH]; constructor; [apply seq_exec; reflexivity|exact IH].
Qed.
Lemma alts_exec {L} (lab : action sparams -> L) ls i p nm h pr word : executes lab (Node Alternative (map seq_leaves ls) i p nm h pr : stree) word <-> exists l, In l ls /\ word = map lab l.
Proof.
  split.
  - intros H. inversion H; subst. match goal with H : In _ (map _ _) |- _ => apply in_map_iff in H; destruct H as (l & <- & Hl) end. exists l. split; [exact Hl|]. apply seq_exec. assumption.
  - intros (l & Hl & ->). apply exec_alt with (c := seq_leaves l); [apply in_map; exact Hl|apply seq_exec; reflexivity].
Qed.

Lemma in_product n w : In w (product_hv n) <-> hold_ways n w.
Proof.
  revert w. induction n as [|n IH]; intros w.
  - cbn. split; [intros [<-|[]]; split; [reflexivity|intros h []]|intros [H _]; left; destruct w; [reflexivity|discriminate]].
  - cbn [product_hv flat_map]. rewrite app_nil_r, in_app_iff, !in_map_iff. split.
    + intros [(v & <- & Hv)|(v & <- & Hv)]; apply IH in Hv; destruct Hv as [H1 H2]; (split; [cbn; congruence|]); intros h [<-|Hh]; auto.
    + intros [H1 H2]. destruct w as [|h w]; [discriminate|]. assert (Hw : hold_ways n w) by (split; [cbn in H1; congruence|intros; apply H2; right; assumption]). apply IH in Hw.
      destruct (H2 h (or_introl eq_refl)) as [-> | ->]; [left|right]; eauto.
Qed.
Lemma NoDup_app_intro {A} (l l' : list A) : NoDup l -> NoDup l' -> (forall x, In x l -> ~ In x l') -> NoDup (l ++ l').
Proof. induction 1 as [|x l Hx Hl IH]; intros H' HD; [exact H'|]. cbn. constructor; [rewrite in_app_iff; intros [H|H]; [auto|apply (HD x (or_introl eq_refl) H)]|]. apply IH; [exact H'|intros y Hy; apply HD; right; exact Hy]. Qed.
Lemma product_nodup n : NoDup (product_hv n).
Proof.
  induction n as [|n IH]; [repeat constructor; intros []|]. cbn [product_hv flat_map]. rewrite app_nil_r. apply NoDup_app_intro.
  - apply FinFun.Injective_map_NoDup; [intros x y; congruence|exact IH].
  - apply FinFun.Injective_map_NoDup; [intros x y; congruence|exact IH].
  - intros w H1 H2. apply in_map_iff in H1. apply in_map_iff in H2. destruct H1 as (v & <- & _), H2 as (u & H & _). discriminate.
Qed.

(** *** The graph of a choice of sequences *)
Fixpoint chain (s k : nat) : list (list nat) :=
  match k with 0 => [] | S 0 => [[]] | S k => [S s] :: chain (S s) k end.
Lemma chain_length s k : length (chain s k) = k.
Proof. revert s. induction k as [|k IH]; intros s; [reflexivity|]. destruct k; [reflexivity|]. change (chain s (S (S k))) with ([S s] :: chain (S s) (S k)). cbn [length]. rewrite IH. reflexivity. Qed.

Lemma set_nth_at {A} (s : list A) y x t : set_nth (length s) x (s ++ y :: t) = s ++ x :: t.
Proof. induction s as [|z s IH]; [reflexivity|]. cbn. rewrite IH. reflexivity. Qed.
Lemma link_chain k : forall s, link_all (map (fun j => ([j], [j])) (seq (length s) k)) (s ++ repeat [] k) = s ++ chain (length s) k.
Proof.
  induction k as [|k IH]; intros s; [reflexivity|]. destruct k as [|k]; [reflexivity|].
  change (link_all (map (fun j => ([j], [j])) (seq (length s) (S (S k)))) (s ++ repeat [] (S (S k)))) with
    (link_all (map (fun j => ([j], [j])) (seq (S (length s)) (S k))) (set_nth (length s) [S (length s)] (s ++ [] :: repeat [] (S k)))).
  rewrite set_nth_at. specialize (IH (s ++ [[S (length s)]])). rewrite app_length, <- !app_assoc in IH. cbn [length app] in IH. rewrite Nat.add_1_r in IH. exact IH.
Qed.

Section Graph.
  Variable ordn : list nat -> list nat.
  Lemma visit_leaves f l : forall d : dag sparams, length (d_succs d) = length (d_nodes d) ->
    visit_children (get_initial_final ordn (S f)) (map leaf_of l) d =
      Ok (map (fun j => ([j], [j])) (seq (length (d_nodes d)) (length l)), {| d_nodes := d_nodes d ++ map leaf_of l; d_succs := d_succs d ++ repeat [] (length l) |}).
  Proof.
    induction l as [|a l IH]; intros [ns ss] Hd; cbn [d_nodes d_succs] in *.
    - cbn. rewrite !app_nil_r. reflexivity.
    - cbn [map visit_children]. unfold leaf_of at 1. cbn [get_initial_final push bind d_nodes d_succs]. rewrite IH; cbn [d_nodes d_succs]; [|rewrite !app_length; cbn; lia].
      cbn [bind length seq map repeat]. rewrite app_length, <- !app_assoc. cbn [length app]. rewrite Nat.add_1_r. reflexivity.
  Qed.
  Lemma gif_seq f l (d : dag sparams) : l <> [] -> length (d_succs d) = length (d_nodes d) ->
    get_initial_final ordn (S (S f)) (seq_leaves l) d =
      Ok ([length (d_nodes d)], [length (d_nodes d) + (length l - 1)], {| d_nodes := d_nodes d ++ map leaf_of l; d_succs := d_succs d ++ chain (length (d_nodes d)) (length l) |}).
  Proof.
    intros Hl Hd. change (get_initial_final ordn (S (S f)) (seq_leaves l) d) with
      (do (fls, d1) <- visit_children (get_initial_final ordn (S f)) (map leaf_of l) d;
       match fls with [] => Err EValue | fl0 :: _ => Ok (fst fl0, snd (last fls fl0), {| d_nodes := d_nodes d1; d_succs := link_all fls (d_succs d1) |}) end).
    rewrite (visit_leaves f l d Hd). cbn [bind d_nodes d_succs]. rewrite <- Hd, link_chain. destruct l as [|a l]; [congruence|]. cbn [length seq map fst]. f_equal. f_equal. f_equal.
    rewrite <- (map_cons (fun j => ([j], [j])) (length (d_succs d)) (seq (S (length (d_succs d))) (length l))).
    replace (length (d_succs d) :: seq (S (length (d_succs d))) (length l)) with (seq (length (d_succs d)) (S (length l))) by reflexivity.
    rewrite seq_S, map_app. cbn [map]. rewrite last_last. cbn [snd]. f_equal. lia.
  Qed.
  Fixpoint starts (s : nat) (ls : list (list (action sparams))) : list nat := match ls with [] => [] | l :: ls => s :: starts (s + length l) ls end.
  Fixpoint chains (s : nat) (ls : list (list (action sparams))) : list (list nat) := match ls with [] => [] | l :: ls => chain s (length l) ++ chains (s + length l) ls end.
  Lemma visit_seqs f ls : forall d : dag sparams, (forall l, In l ls -> l <> []) -> length (d_succs d) = length (d_nodes d) ->
    exists fls, visit_children (get_initial_final ordn (S (S f))) (map seq_leaves ls) d =
      Ok (fls, {| d_nodes := d_nodes d ++ map leaf_of (concat ls); d_succs := d_succs d ++ chains (length (d_nodes d)) ls |}) /\
      concat (map fst fls) = starts (length (d_nodes d)) ls /\ (ls <> [] -> fls <> []).
  Proof.
    induction ls as [|l ls IH]; intros [ns ss] Hl Hd; cbn [d_nodes d_succs] in *.
    - exists []. cbn. rewrite !app_nil_r. split; [reflexivity|]. split; [reflexivity|congruence].
    - cbn [map visit_children]. rewrite gif_seq; cbn [d_nodes d_succs]; [|apply Hl; left; reflexivity|exact Hd]. cbn [bind].
      destruct (IH {| d_nodes := ns ++ map leaf_of l; d_succs := ss ++ chain (length ns) (length l) |}) as (fls & E & Ef & _); cbn [d_nodes d_succs]; [intros; apply Hl; right; assumption|rewrite !app_length, chain_length, map_length; lia|].
      rewrite E. cbn [bind]. exists (([length ns], [length ns + (length l - 1)]) :: fls). cbn [d_nodes d_succs] in *. rewrite !app_length, map_length, <- !app_assoc in *. cbn [map concat fst app starts chains]. split; [|split; [|congruence]].
      + rewrite map_app. reflexivity.
      + rewrite Ef. reflexivity.
  Qed.
  Lemma starts_bound ls : forall s i, In i (starts s ls) -> s <= i.
  Proof. induction ls as [|l ls IH]; intros s i; [intros []|]. intros [<-|H]; [lia|]. apply IH in H. lia. Qed.
  Lemma starts_nodup ls : forall s, (forall l, In l ls -> l <> []) -> NoDup (starts s ls).
  Proof.
    induction ls as [|l ls IH]; intros s Hl; cbn [starts]; constructor; [|apply IH; intros; apply Hl; right; assumption].
    intros H. apply starts_bound in H. specialize (Hl l (or_introl eq_refl)). destruct l; [congruence|cbn in H; lia].
  Qed.
  Lemma starts_length ls s : length (starts s ls) = length ls.
  Proof. revert s. induction ls as [|l ls IH]; intros s; [reflexivity|]. cbn. rewrite IH. reflexivity. Qed.

  (** Where a walk from a start leads *)
  Lemma walk_chain k : forall A B w, full_walk (A ++ chain (length A) (S k) ++ B) (length A) w <-> w = seq (length A) (S k).
  Proof.
    induction k as [|k IH]; intros A B w.
    - assert (E : nth_error (A ++ chain (length A) 1 ++ B) (length A) = Some []) by (rewrite nth_error_app2, Nat.sub_diag by lia; reflexivity). cbn [seq]. split.
      + intros H. inversion H as [i E1 Ei Ew|i j w' l E1 Hj Hw Ei Ew]; [reflexivity|]. assert (l = []) as -> by congruence. destruct Hj.
      + intros ->. constructor. exact E.
    - change (chain (length A) (S (S k))) with ([S (length A)] :: chain (S (length A)) (S k)).
      assert (E : nth_error (A ++ ([S (length A)] :: chain (S (length A)) (S k)) ++ B) (length A) = Some [S (length A)]) by (rewrite nth_error_app2, Nat.sub_diag by lia; reflexivity).
      specialize (IH (A ++ [[S (length A)]]) B). rewrite app_length, <- app_assoc in IH. cbn [length app] in IH. rewrite Nat.add_1_r in IH. cbn [app] in *.
      change (seq (length A) (S (S k))) with (length A :: seq (S (length A)) (S k)). split.
      + intros H. inversion H as [i E1 Ei Ew|i j w' l E1 Hj Hw Ei Ew]; [congruence|]. assert (l = [S (length A)]) as -> by congruence. destruct Hj as [<-|[]]. f_equal. apply IH. exact Hw.
      + intros ->. eapply walk_step; [exact E|left; reflexivity|]. apply IH. reflexivity.
  Qed.
  Lemma labels_at {L} (lab : action sparams -> L) (l : list (action sparams)) : forall A B, map (node_label lab (A ++ map leaf_of l ++ B)) (seq (length A) (length l)) = map (fun a => Some (lab a)) l.
  Proof.
    induction l as [|a l IH]; intros A B; [reflexivity|]. cbn [map length seq app]. f_equal.
    - unfold node_label. rewrite nth_error_app2, Nat.sub_diag by lia. reflexivity.
    - specialize (IH (A ++ [leaf_of a]) B). rewrite app_length, <- app_assoc in IH. cbn [length app] in IH. rewrite Nat.add_1_r in IH. exact IH.
  Qed.
  Lemma walk_starts {L} (lab : action sparams -> L) ls : (forall l, In l ls -> l <> []) -> forall A C, length C = length A ->
    Forall2 (fun i l => forall w, full_walk (C ++ chains (length A) ls) i w <-> w = seq i (length l)) (starts (length A) ls) ls /\
    Forall2 (fun i l => map (node_label lab (A ++ map leaf_of (concat ls))) (seq i (length l)) = map (fun a => Some (lab a)) l) (starts (length A) ls) ls.
  Proof.
    intros Hl. induction ls as [|l ls IH]; intros A C HC; [split; constructor|]. cbn [starts chains concat]. rewrite map_app.
    assert (Hn : l <> []) by (apply Hl; left; reflexivity).
    destruct (IH (fun l0 H => Hl l0 (or_intror H)) (A ++ map leaf_of l) (C ++ chain (length A) (length l))) as [I1 I2]; [rewrite !app_length, chain_length, map_length; lia|].
    rewrite app_length, map_length, <- app_assoc in *. split; constructor; auto.
    - intros w. rewrite <- HC. destruct l as [|a l]; [congruence|]. cbn [length]. rewrite walk_chain. reflexivity.
    - apply labels_at.
  Qed.
End Graph.
Lemma Forall2_nth {A B} (R : A -> B -> Prop) l m i x : Forall2 R l m -> nth_error l i = Some x -> exists y, nth_error m i = Some y /\ R x y.
Proof. intros F. revert i. induction F as [|a b l m H F IH]; intros [|i] E; try discriminate; [injection E as <-; exists b; auto|apply IH in E; exact E]. Qed.

(** *** The model of a choice of sequences *)
Definition alts (ls : list (list (action sparams))) pr : stree := Node Alternative (map seq_leaves ls) None None "unnamed" false pr.
Lemma dag_alts ordn ls pr : is_order ordn -> ls <> [] -> (forall l, In l ls -> l <> []) ->
  exists init, htm_to_dag ordn (alts ls pr) = Ok (map leaf_of (concat ls), chains 0 ls, init) /\ Permutation init (starts 0 ls).
Proof.
  intros Ho Hn Hl. assert (F : exists f, dag_fuel (alts ls pr) = S (S (S f))).
  { unfold alts. cbn [dag_fuel]. destruct ls as [|l ls]; [congruence|]. specialize (Hl l (or_introl eq_refl)). destruct l as [|a l]; [congruence|]. cbn [map fold_right seq_leaves dag_fuel leaf_of].
    match goal with |- exists f, 1 + Nat.max (1 + Nat.max 1 ?a) ?b = _ => exists (Nat.max (1 + Nat.max 1 a) b - 2); lia end. }
  destruct F as [f F]. unfold htm_to_dag. rewrite F. destruct (visit_seqs ordn f ls empty_dag Hl eq_refl) as (fls & E & Ef & Hne).
  change (get_initial_final ordn (S (S (S f))) (alts ls pr) empty_dag) with
    (do (fls, d1) <- visit_children (get_initial_final ordn (S (S f))) (map seq_leaves ls) empty_dag;
     match fls with [] => Err EValue | _ :: _ => Ok (unique ordn (concat (map fst fls)), unique ordn (concat (map snd fls)), d1) end).
  rewrite E. cbn [bind]. destruct fls as [|x fls]; [exfalso; apply (Hne Hn); reflexivity|]. cbn [bind d_nodes d_succs empty_dag app length]. eexists. split; [reflexivity|].
  rewrite Ef. unfold unique. rewrite (Ho (set_of (starts 0 ls))). apply NoDup_Permutation; [apply set_of_NoDup|apply starts_nodup; exact Hl|intros y; apply set_of_In].
Qed.

(** *** Objects *)
Definition leg_objects : list string := ["joints"; "leg"; "screwdriver"; "screws"]%string.
Lemma populate_legs nodes : (forall x, In x nodes -> exists q, action_params x = Ok q /\ sp_conditions q = leg_conditions) ->
  exists cs, populate_conditions nodes leg_objects [true; false; true; true] = Ok (leg_objects, [true; false; true; true], cs).
Proof.
  induction nodes as [|x nodes IH]; intros H; [exists []; reflexivity|]. cbn [populate_conditions]. destruct (H x (or_introl eq_refl)) as (q & -> & Eq). cbn [bind]. rewrite Eq.
  change (add_conditions leg_conditions leg_objects [true; false; true; true]) with (leg_objects, [true; false; true; true], [(CUses, 0); (CConsumes, 1); (CUses, 2); (CUses, 3)]).
  destruct IH as [cs ->]; [intros y Hy; apply H; right; exact Hy|]. cbn [bind]. eexists. reflexivity.
Qed.
Lemma legs_objects ordn t m : is_order ordn -> mk_supportive ordn t = Ok m ->
  (forall x q, In x (htm_nodes m) -> action_params x = Ok q -> sp_conditions q = leg_conditions) ->
  objects m = leg_objects /\ actions m = leg_actions.
Proof.
  intros Ho E Hl. destruct (mk_facts _ _ _ Ho E) as (nodes & succs & init & ps & Ed & B & D).
  assert (HP : forall x, In x nodes -> exists q, action_params x = Ok q /\ sp_conditions q = leg_conditions).
  { intros x Hx. pose proof (b_params _ _ _ _ _ B) as Hp. pose proof Hx as Hx'. rewrite <- (b_nodes _ _ _ _ _ B) in Hx'.
    assert (Hq : exists q, action_params x = Ok q).
    { clear -Hp Hx. revert ps Hp. induction nodes as [|y l IH]; intros ps Hp; [destruct Hx|]. cbn [mapM] in Hp. destruct (action_params y) as [q|] eqn:Ey; [|discriminate]. cbn [bind] in Hp.
      destruct (mapM action_params l) as [qs|] eqn:Eq; [|discriminate]. destruct Hx as [<-|Hx]; [eauto|]. eapply IH; eauto. }
    destruct Hq as [q Hq]. exists q. split; [exact Hq|]. apply (Hl x q Hx' Hq). }
  assert (Hne : nodes <> []). { destruct D as (_ & D2 & D3 & _). destruct init as [|i init]; [contradiction|]. specialize (D3 i (or_introl eq_refl)). destruct nodes; [cbn in D3; lia|discriminate]. }
  unfold mk_supportive in E. rewrite Ed in E. cbn [bind] in E. destruct nodes as [|x nodes]; [congruence|]. cbn [populate_conditions] in E.
  destruct (HP x (or_introl eq_refl)) as (q & E1 & E2). rewrite E1 in E. cbn [bind] in E. rewrite E2 in E.
  change (add_conditions leg_conditions [] []) with (leg_objects, [true; false; true; true], [(CUses, 0); (CConsumes, 1); (CUses, 2); (CUses, 3)]) in E. cbv iota beta in E.
  destruct (populate_legs nodes) as [cs Ec]; [intros y Hy; apply HP; right; exact Hy|]. rewrite Ec in E. cbn [bind] in E.
  match type of E with (let '(b, k) := ?e in _) = _ => destruct e as [bb kk] end. injection E as <-. split; reflexivity.
Qed.
