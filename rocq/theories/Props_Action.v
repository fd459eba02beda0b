(** C74, C78 and C79: conditions, placements on a board, equality and hash. *)
From Coq Require Import Lia.
From Verif Require Import PyBase PyBaseFacts ActionModel ActionSpec ActionProofs SnapModel SnapSpec SnapProofs.
Local Open Scope list_scope.
Local Open Scope nat_scope.

(** *** C78 *)
(** A condition is accepted exactly when no value is required outside of its mask; otherwise: ValueError. *)
Theorem C78_constructed : forall cls mask value, length (a_cells mask) = length (a_cells value) ->
  (inside mask value <-> new_cond cls mask value = Ok (CMask cls mask value)) /\ (~ inside mask value <-> new_cond cls mask value = Err EValue).
Proof.
  intros cls mask value L. destruct (new_cond_iff cls mask value L) as (A & B & [D|D]).
  - rewrite (A D). split; split; auto; try discriminate. intros K. contradiction.
  - rewrite (B D). split; split; auto; try discriminate. intros K. contradiction.
Qed.
Print Assumptions C78_constructed.

(** It checks exactly that the features chosen by its mask have the required values. *)
Theorem C78_check : forall mismatch n c f, fits n c -> length f = n -> exists b, cond_check mismatch c f = Ok b /\ (b = true <-> meets c f).
Proof. exact check_iff. Qed.
Print Assumptions C78_check.

(** An action checks its pre-condition before and its post-condition after. *)
Theorem C78_prepost : forall mismatch n pre post before after, fits n pre -> fits n post -> length before = n -> length after = n ->
  exists b, prepost_check mismatch pre post (Ok before) (Ok after) = Ok b /\ (b = true <-> meets pre before /\ meets post after).
Proof.
  intros mismatch n pre post before after F1 F2 L1 L2. destruct (check_iff mismatch n pre before F1 L1) as (b1 & E1 & M1). destruct (check_iff mismatch n post after F2 L2) as (b2 & E2 & M2).
  assert (G : forall c f, match c with CAll => Ok true | _ => do f <- Ok f; cond_check mismatch c f end = cond_check mismatch c f) by (intros [cls m v|] f; reflexivity).
  exists (if b1 then b2 else false). unfold prepost_check. cbv zeta beta. rewrite !G, E1. cbn [bind]. split; [destruct b1; auto|]. rewrite <- M1, <- M2. destruct b1, b2; intuition congruence.
Qed.
Print Assumptions C78_prepost.

(** Vectors of other lengths are refused: ValueError. *)
Theorem C78_lengths : forall mismatch cls mask value f,
  (length (a_cells mask) <> length (a_cells value) -> length (a_cells mask) <> 1 -> length (a_cells value) <> 1 -> new_cond cls mask value = Err EValue) /\
  (length f <> length (a_cells mask) -> length f <> 1 -> length (a_cells mask) <> 1 -> cond_check mismatch (CMask cls mask value) f = Err EValue).
Proof.
  intros mismatch cls mask value f. split; intros H1 H2 H3.
  - unfold new_cond. rewrite broadcast_differ by (rewrite ?vals_length; auto). reflexivity.
  - cbn [cond_check]. rewrite broadcast_differ by (rewrite ?vals_length; auto). reflexivity.
Qed.
Print Assumptions C78_lengths.

Definition ints (l : list Z) : arr := {| a_dtype := DInt; a_cells := map (fun z => Num (inject_Z z)) l |}.
Example C78_ex :
  (exists c, new_cond Plain (ints [1; 0; 1]%Z) (ints [3; 0; 0]%Z) = Ok c /\ fits 3 c /\ cond_check EAttr c [3; 7; 0]%Q = Ok true /\ cond_check EAttr c [3; 7; 1]%Q = Ok false) /\
  new_cond Plain (ints [1; 0; 1]%Z) (ints [3; 1; 0]%Z) = Err EValue.
Proof.
  split; [|reflexivity]. eexists. split; [reflexivity|]. split; [|split; reflexivity]. apply (fits_mask 3 Plain (ints [1; 0; 1]%Z) (ints [3; 0; 0]%Z)); try reflexivity. intros x [<-|[<-|[<-|[]]]]; [right|left|right]; reflexivity.
Qed.
(** A mask with a two accepts only required zeros, and then asks for zeros. *)
Example C78_ex_mask : new_cond Plain (ints [2]%Z) (ints [3]%Z) = Err EValue /\ exists c, new_cond Plain (ints [2]%Z) (ints [0]%Z) = Ok c /\ cond_check EAttr c [3]%Q = Ok false.
Proof. split; [reflexivity|]. eexists. split; reflexivity. Qed.

(** *** C74 *)
(** The features of a state whose parts are on its board are ones at the cells taken by a part, and zeros elsewhere. *)
Theorem C74_features : forall s, valid s -> exists f, get_features s = Ok f /\ length f = size (s_rows s) (s_cols s) /\
  forall i x y o, i < 20 -> x < Z.to_nat (s_rows s) -> y < Z.to_nat (s_cols s) -> o < 4 ->
    exists q, nth_error f (cell_number (s_rows s) (s_cols s) i x y o) = Some q /\ (occupied s i x y o -> q = 1%Q) /\ (~ occupied s i x y o -> q = 0%Q).
Proof. exact get_features_ok. Qed.
Print Assumptions C74_features.

(** A placement accepts exactly the transitions from a state without the part at the location to a state with it. *)
Theorem C74_place : forall show mismatch rows cols p loc before after,
  on_board rows cols (p_id p) loc -> valid before -> valid after -> s_rows before = rows -> s_cols before = cols -> s_rows after = rows -> s_cols after = cols ->
  exists a b, place show (rows, cols) p loc = Ok a /\ act_check mismatch a before after = Ok b /\ (b = true <-> ~ present before (p_id p) loc /\ present after (p_id p) loc).
Proof. exact place_ok. Qed.
Print Assumptions C74_place.

(** A part out of the board is refused, by the placement and by the features: IndexError. *)
Theorem C74_out_of_board : forall show rows cols p loc, (0 <= rows)%Z -> (0 <= cols)%Z -> ~ on_board rows cols (p_id p) loc ->
  place show (rows, cols) p loc = Err EIndex /\ forall s, s_rows s = rows -> s_cols s = cols -> In (loc, p) (s_parts s) -> get_features s = Err EIndex.
Proof.
  intros show rows cols p loc Hr Hc N. split.
  - unfold place. destruct loc as [[x y] o]. rewrite presence_err by auto. reflexivity.
  - intros s <- <- K. unfold get_features. rewrite features_err; [reflexivity|auto|auto|]. eauto.
Qed.
Print Assumptions C74_out_of_board.

(** Without negative indices, the part is present when an item of the state has its identifier and location. *)
Theorem C74_present : forall s id x y o, valid s ->
  (forall lx ly lo p, In ((lx, ly, lo), p) (s_parts s) -> 0 <= p_id p /\ 0 <= lx /\ 0 <= ly /\ 0 <= lo)%Z -> (0 <= id)%Z -> (0 <= x)%Z -> (0 <= y)%Z -> (0 <= o)%Z ->
  (present s id (x, y, o) <-> exists label, In ((x, y, o), {| p_id := id; p_label := label |}) (s_parts s)).
Proof.
  intros s id x y o V NN Hi Hx Hy Ho. split.
  - intros (i & kx & ky & ko & (T1 & T2 & T3 & T4) & ([[lx ly] lo] & [pid lab] & K & (U1 & U2 & U3 & U4))). cbn [p_id] in *. destruct (NN _ _ _ _ K) as (N1 & N2 & N3 & N4). cbn [p_id] in N1. unfold designates in *. exists lab. replace id with pid by lia. replace x with lx by lia. replace y with ly by lia. replace o with lo by lia. exact K.
  - intros [lab K]. destruct V as (_ & _ & V). destruct (V _ _ K) as (i & kx & ky & ko & T). exists i, kx, ky, ko. split; [exact T|]. exists (x, y, o), {| p_id := id; p_label := lab |}. split; [exact K|exact T].
Qed.
Print Assumptions C74_present.

(** The order in which the parts are given, and repetitions, do not matter. *)
Theorem C74_set : forall order board l l', is_order order -> (forall x, In x l <-> In x l') -> valid (new_snap order board l) ->
  get_features (new_snap order board l) = get_features (new_snap order board l').
Proof.
  intros order board l l' HO HI V.
  assert (IN : forall l x, In x (s_parts (new_snap order board l)) <-> In x l).
  { intros m x. cbn [s_parts new_snap]. rewrite <- (set_of_In x m). apply order_In. exact HO. }
  assert (V' : valid (new_snap order board l')). { destruct V as (V1 & V2 & V3). split; [auto|]. split; [auto|]. intros loc p K. apply V3. apply (proj2 (IN l _)). apply (proj2 (HI _)). apply (proj1 (IN l' _)). exact K. }
  assert (OC : forall i x y o, occupied (new_snap order board l) i x y o <-> occupied (new_snap order board l') i x y o).
  { intros i x y o. unfold occupied. split; intros (loc & p & K & T); exists loc, p; (split; [|exact T]); [apply (proj2 (IN l' _)), (proj1 (HI _)), (proj1 (IN l _))|apply (proj2 (IN l _)), (proj2 (HI _)), (proj1 (IN l' _))]; exact K. }
  destruct (get_features_ok _ V) as (f & E & L & G). destruct (get_features_ok _ V') as (f' & E' & L' & G'). rewrite E, E'. f_equal. change (s_rows (new_snap order board l')) with (s_rows (new_snap order board l)) in *. change (s_cols (new_snap order board l')) with (s_cols (new_snap order board l)) in *.
  apply (nth_ext f f' 0%Q 0%Q); [congruence|]. intros j Hj. rewrite L in Hj. destruct (cell_exists _ _ j Hj) as (i & x & y & o & R1 & R2 & R3 & R4 & ->). destruct (G i x y o R1 R2 R3 R4) as (q & Q1 & Q2 & Q3). destruct (G' i x y o R1 R2 R3 R4) as (q' & Q1' & Q2' & Q3'). rewrite (nth_error_nth _ _ 0%Q Q1), (nth_error_nth _ _ 0%Q Q1').
  destruct (takes_dec (s_rows (new_snap order board l)) (s_cols (new_snap order board l)) (s_parts (new_snap order board l)) i x y o) as [D|D]; [rewrite (Q2 D), (Q2' (proj1 (OC _ _ _ _) D)); reflexivity|]. rewrite (Q3 D), Q3'; [reflexivity|]. intros K. apply D. apply OC. exact K.
Qed.
Print Assumptions C74_set.

Definition ex_part (i : Z) : part := {| p_id := i; p_label := "lamp" |}.
Definition ex_show (l : string) (xy : Z * Z) (o : string) : string := ("Place " ++ l ++ o)%string.
Definition ex_state (l : list (location * part)) : snap := new_snap (fun l => l) (2, 3)%Z l.
Definition ex_check (before after : list (location * part)) : res bool :=
  do a <- place ex_show (2, 3)%Z (ex_part 5) (1, 2, 3)%Z; act_check EAttr a (ex_state before) (ex_state after).
Example C74_ex : on_board 2 3 5 (1, 2, 3)%Z /\ valid (ex_state [((1, 2, 3)%Z, ex_part 5); ((0, 1, 0)%Z, ex_part 2)]) /\
  ex_check [((0, 1, 0)%Z, ex_part 2)] [((1, 2, 3)%Z, ex_part 5); ((0, 1, 0)%Z, ex_part 2)] = Ok true /\
  ex_check [((1, 2, 3)%Z, ex_part 5)] [((1, 2, 3)%Z, ex_part 5)] = Ok false /\ ex_check [] [((1, 2, 2)%Z, ex_part 5)] = Ok false /\
  ex_check [] [((-1, -1, -1)%Z, ex_part 5)] = Ok true.
Proof.
  split; [exists 5, 1, 2, 3; repeat split; try reflexivity; left; reflexivity|]. split; [|repeat split; vm_compute; reflexivity].
  split; [cbn; lia|]. split; [cbn; lia|]. intros loc p [E|[E|[]]]; injection E as <- <-; [exists 5, 1, 2, 3|exists 2, 0, 1, 0]; repeat split; try reflexivity; left; reflexivity.
Qed.

(** The name of a placement tells the orientation. *)
Theorem C74_name : forall show rows cols p x y o a, place show (rows, cols) p (x, y, o) = Ok a -> (0 <= o)%Z ->
  exists word, In (o, word) [(0%Z, "north"); (1%Z, "east"); (2%Z, "south"); (3%Z, "west")]%string /\ act_name a = show (p_label p) (x, y) word.
Proof.
  intros show rows cols p x y o a E Ho. unfold place in E. destruct (presence _ _ _ false) as [c|]; cbn [bind] in E; [|discriminate]. destruct (presence _ _ _ true) as [d|]; cbn [bind] in E; [|discriminate].
  destruct (np_index _ o) as [k|] eqn:K; cbn [bind] in E; [|discriminate]. assert (a = PrePost true c d (show (p_label p) (x, y) (nth k orientation_names ""%string))) as -> by congruence. cbn [act_name].
  unfold np_index in K. change (Z.of_nat (length orientation_names)) with 4%Z in K. destruct ((0 <=? o) && (o <? 4))%Z eqn:B; [apply andb_true_iff in B; destruct B as [_ B]; apply Z.ltb_lt in B|destruct (Z.leb_spec 0 o); [|lia]; destruct (Z.ltb_spec o 0); [lia|]; rewrite andb_false_r in K; discriminate].
  assert (k = Z.to_nat o) as -> by congruence. assert (C : (o = 0 \/ o = 1 \/ o = 2 \/ o = 3)%Z) by lia. destruct C as [->|[->|[->| ->]]]; eexists; (split; [|reflexivity]); cbn; auto.
Qed.
Print Assumptions C74_name.

(** *** C79 *)
Section C79.
  Variable hash_str : string -> Z.
  Variable hash_bytes : dtype * list cell -> Z.
  Variable hash_int : Z -> Z.
  Variable hash_tuple : list Z -> Z.
  Notation eq := (act_eq hash_str hash_bytes hash_int hash_tuple).
  Notation hash := (act_hash hash_str hash_bytes hash_int hash_tuple).

  (** Equal conditions and pre/post-condition actions have equal hashes if their arrays are of the same type and hold
      no negative zero... *)
  Theorem C79_conditions_partial : forall c d, alike c d -> cond_eq c d = Ok true -> cond_hash hash_bytes hash_int hash_tuple c = cond_hash hash_bytes hash_int hash_tuple d.
  Proof. intros c d A E. apply cond_eq_hash; auto. Qed.
  Lemma alike_sym c d : alike c d -> alike d c.
  Proof. intros [cls m v cls' m' v' H1 H2 H3 H4 H5 H6|e|e]; constructor; auto. Qed.
  Theorem C79_prepost_partial : forall fuel pl p q n pl' p' q' n', alike p p' -> alike q q' -> eq fuel (PrePost pl p q n) (PrePost pl' p' q' n') = Ok true -> hash (PrePost pl p q n) = hash (PrePost pl' p' q' n').
  Proof.
    intros [|fuel] pl p q n pl' p' q' n' A B E; [discriminate|]. assert (G : (cond_eq p p' = Ok true /\ cond_eq q q' = Ok true) \/ (cond_eq p' p = Ok true /\ cond_eq q' q = Ok true)).
    { cbn in E. destruct pl, pl'; cbn in E; try (left; destruct (cond_eq p p') as [[]|]; cbn in E; try discriminate; auto; fail); right; destruct (cond_eq p' p) as [[]|]; cbn in E; try discriminate; auto. }
    cbn. destruct G as [[G1 G2]|[G1 G2]]; [rewrite (C79_conditions_partial p p' A G1), (C79_conditions_partial q q' B G2)|rewrite (C79_conditions_partial p' p (alike_sym _ _ A) G1), (C79_conditions_partial q' q (alike_sym _ _ B) G2)]; reflexivity.
  Qed.
  (** ... which holds of all placements on boards. *)
  Theorem C79_places : forall fuel show board p loc board' p' loc' a a', place show board p loc = Ok a -> place show board' p' loc' = Ok a' -> eq fuel a a' = Ok true -> hash a = hash a'.
  Proof.
    assert (P : forall board p loc b c, presence board p loc b = Ok c -> exists f g, c = CMask Presence (float_array f) (float_array g)).
    { intros [rows cols] p loc b c H. unfold presence in H. destruct (zeros rows cols) as [z|]; cbn [bind] in H; [|discriminate]. destruct (put rows cols z (p_id p) loc) as [m|]; cbn [bind] in H; [|discriminate].
      assert (K : exists v, new_cond Presence (float_array (flatten rows cols m)) (float_array (flatten rows cols v)) = Ok c) by (destruct b; cbn [bind] in H; eauto). destruct K as [v K]. unfold new_cond in K. destruct (broadcast _ _ _); cbn [bind] in K; [|discriminate]. destruct (existsb _ _); [discriminate|]. injection K as <-. eauto. }
    assert (NN : forall l, no_neg (float_array l)) by (intros l K; apply in_map_iff in K; destruct K as (x & K & _); discriminate).
    assert (PL : forall show board p loc a, place show board p loc = Ok a -> exists f g f' g' n, a = PrePost true (CMask Presence (float_array f) (float_array g)) (CMask Presence (float_array f') (float_array g')) n).
    { intros show board p [[x y] o] a H. unfold place in H. destruct (presence board p _ false) as [c1|] eqn:E1; cbn [bind] in H; [|discriminate]. destruct (presence board p _ true) as [c2|] eqn:E2; cbn [bind] in H; [|discriminate]. destruct (np_index _ _) as [k|]; cbn [bind] in H; [|discriminate]. injection H as <-. destruct (P _ _ _ _ _ E1) as (f & g & ->). destruct (P _ _ _ _ _ E2) as (f' & g' & ->). do 5 eexists. reflexivity. }
    intros fuel show board p loc board' p' loc' a a' H H' E. apply PL in H, H'. destruct H as (f & g & f' & g' & n & ->). destruct H' as (k & l & k' & l' & n' & ->). revert E. apply C79_prepost_partial; constructor; auto.
  Qed.
  (** Equal actions that are compared by name, and MetaActions built from lists of such actions, have equal hashes. *)
  Theorem C79_named : forall fuel a b, by_name a -> by_name b -> eq fuel a b = Ok true -> hash a = hash b.
  Proof.
    intros fuel a b A B E. pose proof (by_name_eq hash_str hash_bytes hash_int hash_tuple fuel a b A B E) as N.
    assert (G : forall c, by_name c -> hash c = hash_str (act_name c)). { intros c C. destruct C as [sub n|kind l m Fl H]; [reflexivity|]. unfold new_meta in H. destruct (sep kind); cbn in H; [|discriminate]. injection H as <-. reflexivity. }
    rewrite (G a A), (G b B), N. reflexivity.
  Qed.
  (** Board states: equal ones have equal hashes if their sets of parts are iterated in the same order. *)
  Theorem C79_parts : forall p q : part, p = q -> part_hash hash_int p = part_hash hash_int q.
  Proof. intros p q ->. reflexivity. Qed.
  Theorem C79_snap_partial : forall s s' canonical, (forall l l' : list (location * part), (forall x, In x l <-> In x l') -> canonical l = canonical l') ->
    s_parts s = canonical (s_parts s) -> s_parts s' = canonical (s_parts s') -> snap_eq s s' = true -> snap_hash hash_int hash_tuple s = snap_hash hash_int hash_tuple s'.
  Proof.
    intros s s' canonical HC C C' E. unfold snap_eq in E. apply andb_true_iff in E. destruct E as [E E3]. apply andb_true_iff in E. destruct E as [E1 E2]. apply Z.eqb_eq in E1, E2. unfold snap_hash. rewrite E1, E2, C, C'. rewrite (HC (s_parts s) (s_parts s')); [reflexivity|]. unfold set_eqb in E3. apply andb_true_iff in E3. destruct E3 as [F1 F2]. rewrite forallb_forall in F1, F2. intros x. unfold mem in *. split; intros H; [specialize (F1 x H); destruct (in_dec eq_dec x (s_parts s'))|specialize (F2 x H); destruct (in_dec eq_dec x (s_parts s))]; auto; discriminate.
  Qed.
  (** Beliefs. *)
  Theorem C79_belief_partial : forall mismatch a b, a_dtype a = a_dtype b -> no_neg a -> no_neg b -> length (a_cells a) = length (a_cells b) -> belief_eq mismatch a b = Ok true -> belief_hash hash_bytes a = belief_hash hash_bytes b.
  Proof.
    intros mismatch a b D N N' L E. unfold belief_eq in E. rewrite broadcast_same in E by (rewrite !vals_length; auto). injection E as E. unfold belief_hash. rewrite (array_equal_eq a b); auto. unfold array_equal. rewrite L, Nat.eqb_refl. cbn [andb]. rewrite forallb_forall in *. intros x Hx. apply E. apply in_map_iff. exists x. auto.
  Qed.

  (** What is false.  Arrays of another type: *)
  Theorem C79_dtype_refuted : let c := CMask Plain (ints [1]%Z) (ints [1]%Z) in let d := CMask Plain (float_array [1%Q]) (float_array [1%Q]) in
    cond_eq c d = Ok true /\ belief_eq EAttr (ints [1]%Z) (float_array [1%Q]) = Ok true /\
    (hash_bytes (tostring (ints [1]%Z)) <> hash_bytes (tostring (float_array [1%Q])) -> belief_hash hash_bytes (ints [1]%Z) <> belief_hash hash_bytes (float_array [1%Q])) /\
    (hash_tuple [hash_bytes (tostring (ints [1]%Z)); hash_bytes (tostring (ints [1]%Z))] <> hash_tuple [hash_bytes (tostring (float_array [1%Q])); hash_bytes (tostring (float_array [1%Q]))] ->
      cond_hash hash_bytes hash_int hash_tuple c <> cond_hash hash_bytes hash_int hash_tuple d) /\ tostring (ints [1]%Z) <> tostring (float_array [1%Q]).
  Proof. cbn zeta. split; [reflexivity|]. split; [reflexivity|]. split; [auto|]. split; [auto|]. discriminate. Qed.
  (** Pre/post-condition actions are equal whatever their names, but the name of a MetaAction, which gives its hash,
      depends on them: all pairs of sequences of one action with different names are counterexamples. *)
  Theorem C79_meta_refuted : forall pl p q n n', n <> n' -> exists a b, new_meta "sequence" false [PrePost pl p q n] = Ok a /\ new_meta "sequence" false [PrePost pl p q n'] = Ok b /\
    eq 2 a b = Ok true /\ act_name a <> act_name b /\ hash a = hash_str (act_name a) /\ hash b = hash_str (act_name b).
  Proof.
    intros pl p q n n' N. eexists. eexists. split; [reflexivity|]. split; [reflexivity|]. split; [cbn; destruct pl; cbn; rewrite !cond_eq_refl; reflexivity|]. split; [|split; reflexivity]. cbn. intros E. injection E as E. apply N.
    assert (G : forall s s' : string, (s ++ ")")%string = (s' ++ ")")%string -> s = s').
    { clear. induction s as [|c s IH]; intros [|c' s'] E; cbn in E; auto; try (injection E as E1 E2; destruct s' + destruct s; discriminate). injection E as -> E. f_equal. auto. }
    apply G. exact E.
  Qed.
  (** MetaActions on sets (as in samples/test_hierarchies.py 55): the order of iteration shows in the name. *)
  Theorem C79_set_refuted : exists a b, new_meta "parallel" true [Abs false "a"; Abs false "b"] = Ok a /\ new_meta "parallel" true [Abs false "b"; Abs false "a"] = Ok b /\
    (hash_str "a" <> hash_str "b" -> eq 2 a b = Ok true) /\ hash a = hash_str "(a||b)" /\ hash b = hash_str "(b||a)".
  Proof.
    eexists. eexists. split; [reflexivity|]. split; [reflexivity|]. split; [|split; reflexivity]. intros N. cbn. rewrite !Z.eqb_refl. destruct (Z.eqb_spec (hash_str "a") (hash_str "b")); [contradiction|]. cbn. destruct (Z.eqb_spec (hash_str "b") (hash_str "a")); [congruence|]. reflexivity.
  Qed.
  (** Board states whose sets are iterated in different orders: equal, but the tuples that are hashed differ as soon as
      two items have different hashes. *)
  Theorem C79_snap_refuted : forall rows cols x y, x <> y -> item_hash hash_int hash_tuple x <> item_hash hash_int hash_tuple y ->
    let s := {| s_rows := rows; s_cols := cols; s_parts := [x; y] |} in let s' := {| s_rows := rows; s_cols := cols; s_parts := [y; x] |} in
    snap_eq s s' = true /\ map (item_hash hash_int hash_tuple) (s_parts s) <> map (item_hash hash_int hash_tuple) (s_parts s').
  Proof.
    intros rows cols x y N NH. cbn zeta. split; [|cbn [s_parts map]; congruence]. unfold snap_eq. cbn [s_rows s_cols s_parts]. rewrite !Z.eqb_refl. cbn [andb]. unfold set_eqb, mem. cbn [forallb].
    assert (X : forall a b c : location * part, (if in_dec eq_dec a [b; c] then true else false) = true <-> a = b \/ a = c) by (intros a b c; destruct (in_dec eq_dec a [b; c]) as [I|I]; cbn in I; split; intros K; auto; try discriminate; [destruct I as [I|[I|[]]]; auto|exfalso; apply I; destruct K; auto]).
    rewrite !andb_true_iff, !X. tauto.
  Qed.
  (** Comparisons that raise instead of returning False. *)
  Theorem C79_compare_refuted : forall fuel pl p q n sub n' m v, eq (S fuel) (PrePost pl p q n) (Abs sub n') = Err EAttr /\ eq (S fuel) (Abs sub n') (PrePost pl p q n) = Ok false /\
    cond_eq (CMask Presence m v) CAll = Err EAttr /\ cond_eq CAll (CMask Presence m v) = Ok false /\ forall a b, ndim_eq a b = Err EType.
  Proof. intros fuel pl p q n sub n' m v. repeat split; destruct pl, sub; reflexivity. Qed.
End C79.
Print Assumptions C79_conditions_partial.
Print Assumptions C79_prepost_partial.
Print Assumptions C79_places.
Print Assumptions C79_named.
Print Assumptions C79_parts.
Print Assumptions C79_snap_partial.
Print Assumptions C79_belief_partial.
Print Assumptions C79_dtype_refuted.
Print Assumptions C79_meta_refuted.
Print Assumptions C79_set_refuted.
Print Assumptions C79_snap_refuted.
Print Assumptions C79_compare_refuted.

Example C79_ex : exists a b, new_meta "sequence" false [Abs false "a"; Abs true "b"] = Ok a /\ new_meta "sequence" false [Abs true "a"; Abs false "b"] = Ok b /\ by_name a /\ by_name b /\
  forall hash_str hash_bytes hash_int hash_tuple, act_eq hash_str hash_bytes hash_int hash_tuple 2 a b = Ok true.
Proof.
  eexists. eexists. split; [reflexivity|]. split; [reflexivity|]. split; [apply (bn_meta "sequence" [Abs false "a"; Abs true "b"]); [repeat constructor|reflexivity]|]. split; [apply (bn_meta "sequence" [Abs true "a"; Abs false "b"]); [repeat constructor|reflexivity]|]. reflexivity.
Qed.
Example C79_ex_places : exists a b, place ex_show (2, 3)%Z (ex_part 5) (1, 2, 3)%Z = Ok a /\ place ex_show (2, 3)%Z {| p_id := 5; p_label := "bulb" |} (1, 2, 3)%Z = Ok b /\ a <> b /\
  forall hash_str hash_bytes hash_int hash_tuple, act_eq hash_str hash_bytes hash_int hash_tuple 2 a b = Ok true.
Proof. eexists. eexists. split; [vm_compute; reflexivity|]. split; [vm_compute; reflexivity|]. split; [discriminate|]. intros. vm_compute. reflexivity. Qed.
