(** Proofs for C78 and C79. *)
From Coq Require Import Lia Lqa.
From Verif Require Import PyBase PyBaseFacts ActionModel ActionSpec.
Local Open Scope list_scope.
Local Open Scope nat_scope.

Lemma broadcast_same {A} (f : Q -> Q -> A) l l' : length l = length l' -> broadcast f l l' = Ok (map (fun p => f (fst p) (snd p)) (combine l l')).
Proof.
  intros E. destruct l as [|x [|x2 l]], l' as [|y [|y2 l']]; try discriminate; try reflexivity. cbn [broadcast]. rewrite E, Nat.eqb_refl. reflexivity.
Qed.
Lemma broadcast_differ {A} (f : Q -> Q -> A) l l' : length l <> length l' -> length l <> 1 -> length l' <> 1 -> broadcast f l l' = Err EValue.
Proof.
  intros E N1 N2. destruct l as [|x [|x2 l]], l' as [|y [|y2 l']]; cbn [length] in *; try lia; try reflexivity. cbn [broadcast]. destruct (Nat.eqb_spec (length (x :: x2 :: l)) (length (y :: y2 :: l'))) as [K|K]; [|reflexivity]. cbn [length] in K. lia.
Qed.
Lemma nth_error_combine {A B} (l : list A) (l' : list B) i x y : nth_error l i = Some x -> nth_error l' i = Some y -> nth_error (combine l l') i = Some (x, y).
Proof. revert l' i. induction l as [|a l IH]; intros [|b l'] [|i] H1 H2; cbn in *; try discriminate; [congruence|auto]. Qed.
Lemma nth_error_combine_inv {A B} (l : list A) (l' : list B) i x y : nth_error (combine l l') i = Some (x, y) -> nth_error l i = Some x /\ nth_error l' i = Some y.
Proof. revert l' i. induction l as [|a l IH]; intros [|b l'] [|i] H; cbn in *; try discriminate; [split; congruence|auto]. Qed.
Lemma vals_length a : length (vals a) = length (a_cells a).
Proof. apply map_length. Qed.

Lemma new_cond_iff cls mask value : length (a_cells mask) = length (a_cells value) ->
  (inside mask value -> new_cond cls mask value = Ok (CMask cls mask value)) /\ (~ inside mask value -> new_cond cls mask value = Err EValue) /\ (inside mask value \/ ~ inside mask value).
Proof.
  intros E. unfold new_cond. rewrite broadcast_same by (rewrite !vals_length; auto). cbn [bind]. set (P := fun x => negb (Qeq_bool x 0)). set (F := fun p : Q * Q => ((1 - fst p) * snd p)%Q).
  assert (D : existsb P (map F (combine (vals mask) (vals value))) = false <-> inside mask value).
  { split.
    - intros H i m v Hm Hv N. destruct (Qeq_dec v 0) as [K|K]; auto. exfalso. assert (T : existsb P (map F (combine (vals mask) (vals value))) = true); [|congruence].
      apply existsb_exists. exists (F (m, v)). split; [apply in_map; apply (nth_error_In _ i); apply nth_error_combine; auto|]. unfold P, F. cbn [fst snd]. apply negb_true_iff. destruct (Qeq_bool _ 0) eqn:Q; auto. apply Qeq_bool_iff in Q. apply Qmult_integral in Q. destruct Q as [Q|Q]; [|contradiction]. exfalso. apply N. lra.
    - intros H. destruct (existsb P _) eqn:T; auto. apply existsb_exists in T. destruct T as (x & Hx & Px). apply in_map_iff in Hx. destruct Hx as ([m v] & <- & Hp). apply In_nth_error in Hp. destruct Hp as [i Hi]. apply nth_error_combine_inv in Hi. destruct Hi as [H1 H2].
      unfold P, F in Px. cbn [fst snd] in Px. apply negb_true_iff in Px. assert (Qeq_bool ((1 - m) * v) 0 = true); [|congruence]. apply Qeq_bool_iff. destruct (Qeq_dec m 1) as [K|K]; [rewrite K; ring|]. rewrite (H i m v H1 H2 K). ring. }
  destruct (existsb P _) eqn:T; [|rewrite (proj1 D eq_refl) || idtac].
  - assert (N : ~ inside mask value) by (intros K; apply D in K; congruence). repeat split; auto. intros K. contradiction.
  - assert (I : inside mask value) by (apply D; auto). repeat split; auto. intros K. contradiction.
Qed.
Lemma check_iff mismatch n c f : fits n c -> length f = n -> exists b, cond_check mismatch c f = Ok b /\ (b = true <-> meets c f).
Proof.
  intros F L. destruct F as [|cls mask value c Lm Lv C N]; [exists true; cbn; tauto|].
  destruct (new_cond_iff cls mask value ltac:(congruence)) as (A1 & A2 & [I|I]); [|rewrite (A2 I) in N; discriminate]. rewrite (A1 I) in N. injection N as <-. cbn [cond_check meets].
  assert (LL : length (map (fun p : Q * Q => (fst p * snd p)%Q) (combine f (vals mask))) = length (vals value)) by (rewrite map_length, combine_length, !vals_length; lia).
  rewrite broadcast_same by (rewrite vals_length; congruence). cbn [bind]. rewrite broadcast_same by exact LL. eexists. split; [reflexivity|]. rewrite forallb_forall. split.
  - intros H i m v x Hm Hv Hx E. specialize (H (Qeq_bool (x * m) v)). assert (K : Qeq_bool (x * m) v = true).
    { apply H. apply in_map_iff. exists (x * m, v)%Q. split; [reflexivity|]. apply (nth_error_In _ i). apply nth_error_combine; [|auto]. rewrite nth_error_map. rewrite (nth_error_combine _ _ _ _ _ Hx Hm). reflexivity. }
    apply Qeq_bool_iff in K. rewrite E in K. lra.
  - intros H b Hb. apply in_map_iff in Hb. destruct Hb as ([p v] & <- & Hp). apply In_nth_error in Hp. destruct Hp as [i Hi]. apply nth_error_combine_inv in Hi. destruct Hi as [H1 H2]. rewrite nth_error_map in H1. destruct (nth_error (combine f (vals mask)) i) as [[x m]|] eqn:Ei; [|discriminate]. cbn in H1. injection H1 as <-. apply nth_error_combine_inv in Ei. destruct Ei as [E1 E2].
    cbn [fst snd]. apply Qeq_bool_iff. destruct (C m (nth_error_In _ _ E2)) as [M|M].
    + assert (V : (v == 0)%Q) by (apply (I i m v E2 H2); rewrite M; discriminate). rewrite M, V. ring.
    + specialize (H i m v x E2 H2 E1 M). rewrite M, H. ring.
Qed.

(** *** Equality and hash *)
Lemma array_equal_eq a b : array_equal a b = true -> a_dtype a = a_dtype b -> no_neg a -> no_neg b -> tostring a = tostring b.
Proof.
  unfold array_equal, no_neg, tostring, vals. intros E -> Na Nb. apply andb_true_iff in E. destruct E as [L E]. apply Nat.eqb_eq in L. f_equal. revert L E Na Nb. generalize (a_cells b). induction (a_cells a) as [|x l IH]; intros [|y l'] L E Na Nb; cbn in *; try discriminate; [reflexivity|].
  apply andb_true_iff in E. destruct E as [E1 E2]. f_equal; [|apply IH; auto]. destruct x as [q|]; [|exfalso; auto]. destruct y as [q'|]; [|exfalso; auto]. cbn in *. f_equal. apply Qred_complete. apply Qeq_bool_iff. auto.
Qed.
Lemma array_equal_sym a b : array_equal a b = array_equal b a.
Proof.
  unfold array_equal, vals. rewrite (Nat.eqb_sym (length (a_cells b))). destruct (Nat.eqb_spec (length (a_cells a)) (length (a_cells b))) as [L|L]; [|reflexivity]. cbn [andb]. revert L. generalize (a_cells b). induction (a_cells a) as [|x l IH]; intros [|y l'] L; cbn in *; try discriminate; [reflexivity|]. rewrite (IH l') by lia. f_equal. destruct (Qeq_bool (val x) (val y)) eqn:E, (Qeq_bool (val y) (val x)) eqn:E'; auto.
  - apply Qeq_bool_iff in E. assert (Qeq_bool (val y) (val x) = true) by (apply Qeq_bool_iff; symmetry; auto). congruence.
  - apply Qeq_bool_iff in E'. assert (Qeq_bool (val x) (val y) = true) by (apply Qeq_bool_iff; symmetry; auto). congruence.
Qed.
Lemma array_equal_refl a : array_equal a a = true.
Proof. unfold array_equal, vals. rewrite Nat.eqb_refl. cbn. induction (a_cells a) as [|x l IH]; cbn; auto. rewrite IH, andb_true_r. apply Qeq_bool_iff. reflexivity. Qed.
Lemma cond_eq_refl c : cond_eq c c = Ok true.
Proof. destruct c as [[] m v|]; cbn; rewrite ?array_equal_refl; reflexivity. Qed.
Lemma cond_eq_hash hash_bytes hash_int hash_tuple c d : cond_eq c d = Ok true -> alike c d -> cond_hash hash_bytes hash_int hash_tuple c = cond_hash hash_bytes hash_int hash_tuple d.
Proof.
  intros E A. unfold cond_eq in E. destruct A as [cls m v cls' m' v' D1 D2 N1 N2 N3 N4|d|c].
  - assert (E' : array_equal m m' && array_equal v v' = true).
    { destruct cls, cls'; cbn in E; try (rewrite (array_equal_sym m'), (array_equal_sym v') in E); congruence. }
    apply andb_true_iff in E'. destruct E' as [E1 E2]. cbn. rewrite (array_equal_eq m m'), (array_equal_eq v v'); auto.
  - destruct d as [[] m v|]; cbn in E; try discriminate. reflexivity.
  - destruct c as [[] m v|]; cbn in E; try discriminate. reflexivity.
Qed.

Section Hash.
  Variable hash_str : string -> Z.
  Variable hash_bytes : dtype * list cell -> Z.
  Variable hash_int : Z -> Z.
  Variable hash_tuple : list Z -> Z.
  Notation act_eq := (act_eq hash_str hash_bytes hash_int hash_tuple).
  Notation act_hash := (act_hash hash_str hash_bytes hash_int hash_tuple).

  Lemma list_eq_refl eq l : (forall x, In x l -> eq x x = Ok true) -> list_eq eq l l = Ok true.
  Proof. induction l as [|x l IH]; intros H; [reflexivity|]. cbn. rewrite H by (left; auto). cbn. apply IH. intros y Hy. apply H. right. auto. Qed.
  Fixpoint depth (a : act) : nat := match a with Meta _ _ l _ => S (fold_right (fun x m => Nat.max (depth x) m) 0 l) | _ => 0 end.
  Lemma depth_in x l : In x l -> depth x <= fold_right (fun x m => Nat.max (depth x) m) 0 l.
  Proof. induction l as [|y l IH]; intros H; [destruct H|]. cbn. destruct H as [->|H]; [lia|]. specialize (IH H). lia. Qed.
  Lemma act_eq_refl_list : forall fuel a, depth a < fuel -> (forall k s l n, a = Meta k s l n -> s = false) -> (forall x, In x (match a with Meta _ _ l _ => l | _ => [] end) -> act_eq (pred fuel) x x = Ok true) -> act_eq fuel a a = Ok true.
  Proof.
    intros [|fuel] a H S IH; [lia|]. destruct a as [pl p q n|sub n|k s l n].
    - cbn. destruct pl; cbn; rewrite !cond_eq_refl; reflexivity.
    - cbn. destruct sub; rewrite String.eqb_refl; reflexivity.
    - rewrite (S k s l n eq_refl). cbn. rewrite String.eqb_refl, Nat.eqb_refl. cbn. apply list_eq_refl. exact IH.
  Qed.
  (** [contains] finds an item that equals itself, unless an item before it raises. *)
  Inductive lists_only : act -> Prop :=
  | lo_pp pl p q n : lists_only (PrePost pl p q n)
  | lo_abs sub n : lists_only (Abs sub n)
  | lo_meta k l n : Forall lists_only l -> lists_only (Meta k false l n).
  Lemma act_eq_refl : forall fuel a, depth a < fuel -> lists_only a -> act_eq fuel a a = Ok true.
  Proof.
    induction fuel as [|fuel IH]; intros a H LO; [lia|]. apply act_eq_refl_list; auto.
    - intros k s l n ->. inversion LO; auto.
    - cbn [pred]. inversion LO; subst; cbn [In]; try tauto. intros x Hx. rewrite Forall_forall in H0. cbn [depth] in H. pose proof (depth_in x l Hx). apply IH; [lia|auto].
  Qed.

  Lemma list_eq_true eq l : forall l', length l = length l' -> list_eq eq l l' = Ok true -> Forall2 (fun x y => eq x y = Ok true) l l'.
  Proof.
    induction l as [|x l IH]; intros [|y l'] L E; cbn in *; try discriminate; [constructor|]. destruct (eq x y) as [[]|] eqn:Exy; cbn in E; try discriminate. constructor; auto.
  Qed.
  Lemma by_name_eq : forall fuel a b, by_name a -> by_name b -> act_eq fuel a b = Ok true -> act_name a = act_name b.
  Proof.
    induction fuel as [|fuel IH]; intros a b A B E; [discriminate|]. cbn in E. destruct A as [sub n|k l m Fl Nm], B as [sub' n'|k' l' m' Fl' Nm'].
    - destruct sub, sub'; cbn in E; injection E as E; apply String.eqb_eq in E; cbn; congruence.
    - unfold new_meta in Nm'. destruct (sep k') as [sp|]; cbn in Nm'; [|discriminate]. injection Nm' as <-. destruct sub; cbn in E; [|discriminate]. injection E as E. apply String.eqb_eq in E. cbn. auto.
    - unfold new_meta in Nm. destruct (sep k) as [sp|]; cbn in Nm; [|discriminate]. injection Nm as <-. discriminate.
    - unfold new_meta in Nm, Nm'. destruct (sep k) as [sp|] eqn:Es; cbn in Nm; [|discriminate]. injection Nm as <-. destruct (sep k') as [sp'|] eqn:Es'; cbn in Nm'; [|discriminate]. injection Nm' as <-. cbn in E. destruct (String.eqb_spec k k') as [->|]; cbn in E; [|discriminate]. destruct (Nat.eqb_spec (length l) (length l')) as [L|]; cbn in E; [|discriminate].
      assert (sp' = sp) as -> by congruence. apply list_eq_true in E; [|auto]. cbn [act_name]. do 2 f_equal. f_equal. clear - IH E Fl Fl'. induction E as [|x y l l' E1 E2 IHE]; [reflexivity|]. inversion Fl; inversion Fl'; subst. cbn. f_equal; [apply (IH x y)|]; auto.
  Qed.
End Hash.
