(** Proofs for C121. *)
From Verif Require Import PyBase PyBaseFacts ActionModel SnapModel SnapSpec SnapProofs GraphModel GraphSpec GraphProofs BoardModel BoardSpec.
Local Open Scope list_scope.
Local Open Scope nat_scope.

Section Build.
  Variable show : string -> Z * Z -> string -> string.
  Variable order : list (location * part) -> list (location * part).
  Variable mismatch : exn.
  Hypothesis HO : is_order order.
  Variables rows cols : Z.
  Hypotheses (Hr : (0 <= rows)%Z) (Hc : (0 <= cols)%Z).
  Notation on lp := (on_board rows cols (p_id (snd lp)) (fst lp)).
  Notation st := (new_snap order (rows, cols)).

  Lemma st_In l x : In x (s_parts (st l)) <-> In x l.
  Proof. cbn [s_parts new_snap]. rewrite <- (set_of_In x l). apply order_In. exact HO. Qed.
  Lemma st_valid l : (forall lp, In lp l -> on lp) -> valid (st l).
  Proof. intros H. split; [exact Hr|]. split; [exact Hc|]. intros loc p K. apply (proj1 (st_In _ _)) in K. exact (H _ K). Qed.
  Lemma st_present l lp : present (st l) (p_id (snd lp)) (fst lp) <-> exists lp', In lp' l /\ same_cell rows cols lp' lp.
  Proof.
    split.
    - intros (i & x & y & o & T & (loc & p & K & T')). apply (proj1 (st_In _ _)) in K. exists (loc, p). split; [exact K|]. exists i, x, y, o. split; assumption.
    - intros ([loc p] & K & (i & x & y & o & T' & T)). exists i, x, y, o. split; [exact T|]. exists loc, p. split; [apply (proj2 (st_In _ _)); exact K|exact T'].
  Qed.
  Lemma same_refl lp : on lp -> same_cell rows cols lp lp.
  Proof. intros (i & x & y & o & T). exists i, x, y, o. split; exact T. Qed.

  Lemma step_check l lp l' : (forall lp, In lp l -> on lp) -> (forall lp, In lp l' -> on lp) -> on lp ->
    exists a b, place show (rows, cols) (snd lp) (fst lp) = Ok a /\ act_check mismatch a (st l) (st l') = Ok b /\
      (b = true <-> (~ exists lp', In lp' l /\ same_cell rows cols lp' lp) /\ exists lp', In lp' l' /\ same_cell rows cols lp' lp).
  Proof.
    intros H H' O. destruct (place_ok show mismatch rows cols (snd lp) (fst lp) (st l) (st l') O (st_valid l H) (st_valid l' H') eq_refl eq_refl eq_refl eq_refl) as (a & b & E & C & I).
    exists a, b. split; [exact E|]. split; [exact C|]. rewrite I, !st_present. reflexivity.
  Qed.

  Lemma stepwise_head d rest path : stepwise show order (rows, cols) d rest path -> exists tl, path = IState (st d) :: tl.
  Proof. intros H. destruct H; eauto. Qed.
  Lemma stepwise_exists rest : (forall lp, In lp rest -> on lp) -> forall d, exists path, stepwise show order (rows, cols) d rest path.
  Proof.
    induction rest as [|[loc p] rest IH]; intros H d; [eexists; constructor|].
    destruct (IH (fun lp K => H lp (or_intror K)) (d ++ [(loc, p)])) as [path W].
    destruct (step_check [] (loc, p) [] (fun _ F => match F with end) (fun _ F => match F with end) (H _ (or_introl eq_refl))) as (a & _ & E & _).
    eexists. econstructor; [exact E|exact W].
  Qed.
  Lemma stepwise_fun rest : forall d path path', stepwise show order (rows, cols) d rest path -> stepwise show order (rows, cols) d rest path' -> path = path'.
  Proof.
    induction rest as [|[loc p] rest IH]; intros d path path' W W'.
    - inversion W; inversion W'; subst; reflexivity.
    - inversion W as [|d1 l1 p1 r1 a1 t1 E1 W1]; subst. inversion W' as [|d2 l2 p2 r2 a2 t2 E2 W2]; subst.
      rewrite (IH _ _ _ W1 W2). congruence.
  Qed.
  Lemma stepwise_check d rest path : stepwise show order (rows, cols) d rest path ->
    (forall lp, In lp d -> on lp) -> (forall lp, In lp rest -> on lp) ->
    exists b, check_path (act_check mismatch) path = Ok b /\
      (b = true <-> forall pre lp post lp', rest = pre ++ lp :: post -> In lp' (d ++ pre) -> ~ same_cell rows cols lp' lp).
  Proof.
    induction 1 as [d|d loc p rest a path E W IH]; intros Hd Hn.
    - exists true. split; [reflexivity|]. split; [|reflexivity]. intros _ [|] ? ? ? ?; discriminate.
    - assert (Hd' : forall lp, In lp (d ++ [(loc, p)]) -> on lp). { intros lp K. apply in_app_iff in K. destruct K as [K|[<-|[]]]; [apply Hd, K|apply Hn; left; reflexivity]. }
      destruct (IH Hd' (fun lp K => Hn lp (or_intror K))) as (b & C & I).
      destruct (step_check d (loc, p) (d ++ [(loc, p)]) Hd Hd' (Hn _ (or_introl eq_refl))) as (a' & b1 & E' & C1 & I1). cbn [fst snd] in E'. assert (a' = a) as -> by congruence.
      destruct (stepwise_head _ _ _ W) as [tl ->].
      assert (F : b1 = true <-> ~ exists lp', In lp' d /\ same_cell rows cols lp' (loc, p)).
      { rewrite I1. split; [intros [K _]; exact K|]. intros K. split; [exact K|]. exists (loc, p). split; [apply in_app_iff; right; left; reflexivity|]. apply same_refl, Hn. left. reflexivity. }
      exists (if b1 then b else false). split.
      { cbn [check_path]. cbn [check_path] in C. rewrite C1. destruct b1; [exact C|reflexivity]. }
      split.
      + intros T. destruct b1; [|discriminate]. pose proof (proj1 F eq_refl) as F1. intros [|x pre] lp post lp' Q K S.
        * injection Q as <- _. rewrite app_nil_r in K. apply F1. exists lp'. split; assumption.
        * injection Q as <- Q. apply (proj1 I T pre lp post lp' Q); [|exact S]. rewrite <- app_assoc. exact K.
      + intros T. rewrite (proj2 F), (proj2 I); [reflexivity| |].
        * intros pre lp post lp' -> K. apply (T ((loc, p) :: pre) lp post lp' eq_refl). rewrite <- app_assoc in K. exact K.
        * intros (lp' & K & S). apply (T [] (loc, p) rest lp' eq_refl); [rewrite app_nil_r; exact K|exact S].
  Qed.
End Build.

(** *** The L *)
Lemma designates_iff n i : (exists k, designates n i k) <-> (- n <= i < n)%Z.
Proof.
  split.
  - intros (k & H1 & H2). lia.
  - intros H. destruct (Z.leb_spec 0 i); [exists (Z.to_nat i)|exists (Z.to_nat (i + n))]; unfold designates; lia.
Qed.
Lemma on_board_iff rows cols id x y o : on_board rows cols id (x, y, o) <-> (- 20 <= id < 20 /\ - rows <= x < rows /\ - cols <= y < cols /\ - 4 <= o < 4)%Z.
Proof.
  rewrite <- (designates_iff rows), <- (designates_iff cols), <- (designates_iff 20 id), <- (designates_iff 4 o). unfold on_board, takes. split.
  - intros (i & kx & ky & ko & ? & ? & ? & ?). split; [eauto|]. split; [eauto|]. split; eauto.
  - intros ((i & ?) & (kx & ?) & (ky & ?) & (ko & ?)). exists i, kx, ky, ko. auto.
Qed.
Lemma same_cell_ids rows cols lp lp' : same_cell rows cols lp lp' -> exists i, designates 20 (p_id (snd lp)) i /\ designates 20 (p_id (snd lp')) i.
Proof. destruct lp as [[[? ?] ?] ?], lp' as [[[? ?] ?] ?]. intros (i & x & y & o & (T & _) & (T' & _)). exists i. split; assumption. Qed.
Lemma two_apart rows cols loc loc' : ~ same_cell rows cols (loc, two 0) (loc', two 1) /\ ~ same_cell rows cols (loc', two 1) (loc, two 0).
Proof. split; intros S; apply same_cell_ids in S; destruct S as (i & H1 & H2); cbn in *; unfold designates in *; lia. Qed.

Section L.
  Variable show : string -> Z * Z -> string -> string.
  Variable order : list (location * part) -> list (location * part).
  Variable mismatch : exn.
  Hypothesis HO : is_order order.
  Notation L := (path_make_L show order).
  Notation chk := (act_check mismatch).

  Lemma L_ok r c : (- 7 <= r < 5)%Z -> (- 10 <= c < 9)%Z -> exists path, L (r, c) = Ok path /\ stepwise show order (7, 10)%Z [] (L_parts r c) path.
  Proof.
    intros H1 H2. assert (H : forall lp, In lp (L_parts r c) -> on_board 7 10 (p_id (snd lp)) (fst lp)).
    { intros lp [<-|[<-|[]]]; cbn [fst snd p_id two]; apply on_board_iff; lia. }
    destruct (stepwise_exists show order mismatch HO 7 10 ltac:(lia) ltac:(lia) (L_parts r c) H []) as [path W]. exists path. split; [|exact W].
    inversion W as [|d1 l1 p1 r1 a1 t1 E1 W1]; subst. inversion W1 as [|d2 l2 p2 r2 a2 t2 E2 W2]; subst. inversion W2; subst.
    unfold path_make_L. cbn [fst snd BOARD]. rewrite (proj2 (Z.ltb_lt r (7 - 2))), (proj2 (Z.ltb_lt c (10 - 1))) by lia. cbn [negb]. fold (two 0). fold (two 1). unfold NORTH, EAST, BOARD. rewrite E1. cbn [bind]. rewrite E2. reflexivity.
  Qed.
  Lemma L_assert r c : (5 <= r \/ 9 <= c)%Z -> L (r, c) = Err EAssert.
  Proof.
    intros H. unfold path_make_L. cbn [fst snd BOARD]. destruct (Z.ltb_spec r (7 - 2)); cbn [negb]; [|reflexivity]. destruct (Z.ltb_spec c (10 - 1)); cbn [negb]; [lia|reflexivity].
  Qed.
  Lemma place_out r c o p : ~ on_board 7 10 (p_id p) (r, c, o) -> place show (7, 10)%Z p (r, c, o) = Err EIndex.
  Proof. intros N. unfold place. rewrite presence_err by (auto; lia). reflexivity. Qed.
  Lemma L_index r c : (r < 5 -> c < 9 -> (r < - 7 \/ c < - 10) -> L (r, c) = Err EIndex)%Z.
  Proof.
    intros H1 H2 H. unfold path_make_L. cbn [fst snd BOARD]. rewrite (proj2 (Z.ltb_lt r (7 - 2))), (proj2 (Z.ltb_lt c (10 - 1))) by lia. cbn [negb].
    unfold BOARD. rewrite place_out; [reflexivity|]. intros K. apply on_board_iff in K. lia.
  Qed.
  Lemma L_inv r c path : L (r, c) = Ok path -> (- 7 <= r < 5)%Z /\ (- 10 <= c < 9)%Z.
  Proof.
    intros E. destruct (Z_lt_dec r 5), (Z_lt_dec c 9); try (rewrite L_assert in E by lia; discriminate).
    destruct (Z_lt_dec r (- 7)), (Z_lt_dec c (- 10)); try (rewrite L_index in E by lia; discriminate). lia.
  Qed.
  Lemma L_check r c path : L (r, c) = Ok path -> check_path chk path = Ok true.
  Proof.
    intros E. destruct (L_inv _ _ _ E) as [H1 H2]. destruct (L_ok r c H1 H2) as (path' & E' & W). assert (path' = path) as -> by congruence.
    assert (H : forall lp, In lp (L_parts r c) -> on_board 7 10 (p_id (snd lp)) (fst lp)). { intros lp [<-|[<-|[]]]; cbn [fst snd p_id two]; apply on_board_iff; lia. }
    destruct (stepwise_check show order mismatch HO 7 10 ltac:(lia) ltac:(lia) _ _ _ W (fun _ F => match F with end) H) as (b & C & I). rewrite C. f_equal. apply I.
    intros pre lp post lp' Q K. destruct pre as [|x [|y pre]]; [contradiction| |destruct pre; discriminate].
    injection Q as <- <- _. cbn in K. destruct K as [<-|[]]. apply two_apart.
  Qed.

  (** What the path is. *)
  Definition st0 : snap := new_snap order (7, 10)%Z [].
  Definition st1 (p : Z * Z) : snap := new_snap order (7, 10)%Z [((fst p, snd p, 0%Z), two 0)].
  Definition st2 (p : Z * Z) : snap := new_snap order (7, 10)%Z (L_parts (fst p) (snd p)).
  Lemma L_shape p path : L p = Ok path -> exists a0 a1, path = [IState st0; IAction a0; IState (st1 p); IAction a1; IState (st2 p)] /\
    place show (7, 10)%Z (two 0) (fst p, snd p, 0%Z) = Ok a0 /\ place show (7, 10)%Z (two 1) (fst p + 2, snd p, 1)%Z = Ok a1.
  Proof.
    destruct p as [r c]. unfold path_make_L. cbn [fst snd BOARD]. destruct (negb _); [discriminate|]. destruct (negb _); [discriminate|]. fold (two 0). fold (two 1). unfold BOARD, NORTH, EAST.
    destruct (place show (7, 10)%Z (two 0) (r, c, 0%Z)) as [a0|]; cbn [bind]; [|discriminate]. destruct (place show (7, 10)%Z (two 1) _) as [a1|]; cbn [bind]; [|discriminate].
    intros E. exists a0, a1. split; [|split; reflexivity]. symmetry. injection E as <-. reflexivity.
  Qed.
  Lemma snap_parts l l' : new_snap order (7, 10)%Z l = new_snap order (7, 10)%Z l' -> forall x, In x l <-> In x l'.
  Proof. intros E x. rewrite <- (st_In order HO 7 10 l x), <- (st_In order HO 7 10 l' x), E. reflexivity. Qed.
  Lemma st1_inj p p' : st1 p = st1 p' -> p = p'.
  Proof. intros E. pose proof (proj1 (snap_parts _ _ E _) (or_introl eq_refl)) as [K|[]]. destruct p, p'. cbn in K. injection K as -> ->. reflexivity. Qed.
  Lemma st2_inj p p' : st2 p = st2 p' -> p = p'.
  Proof. intros E. pose proof (proj1 (snap_parts _ _ E _) (or_introl eq_refl)) as [K|[K|[]]]; [|discriminate K]. destruct p, p'. cbn in K. injection K as -> ->. reflexivity. Qed.
  Lemma st0_st1 p : st0 <> st1 p.
  Proof. intros E. exact (proj2 (snap_parts _ _ E _) (or_introl eq_refl)). Qed.
  Lemma st0_st2 p : st0 <> st2 p.
  Proof. intros E. exact (proj2 (snap_parts _ _ E _) (or_introl eq_refl)). Qed.
  Lemma st1_st2 p p' : st1 p <> st2 p'.
  Proof. intros E. pose proof (proj2 (snap_parts _ _ E _) (or_intror (or_introl eq_refl))) as [K|[]]. discriminate K. Qed.

  (** The steps of the paths. *)
  Lemma L_steps p path : L p = Ok path -> forall s a s', path_step path s a s' ->
    (s = st0 /\ s' = st1 p /\ place show (7, 10)%Z (two 0) (fst p, snd p, 0%Z) = Ok a) \/
    (s = st1 p /\ s' = st2 p /\ place show (7, 10)%Z (two 1) (fst p + 2, snd p, 1)%Z = Ok a).
  Proof.
    intros E s a s' (i & H1 & H2 & H3). destruct (L_shape p path E) as (a0 & a1 & -> & P0 & P1).
    destruct i as [|[|i]].
    - cbn in H1, H2, H3. left. repeat split; congruence.
    - cbn in H1, H2, H3. right. repeat split; congruence.
    - exfalso. assert (X : nth_error [IState st0; IAction a0; IState (st1 p); IAction a1; IState (st2 p)] (2 * S (S i) + 1) = None) by (apply nth_error_None; cbn [length]; lia). congruence.
  Qed.
  Lemma L_first p path s : L p = Ok path -> path_first path s -> s = st0.
  Proof. intros E F. destruct (L_shape p path E) as (a0 & a1 & -> & _). unfold path_first in F. cbn in F. congruence. Qed.
  Lemma L_last p path s : L p = Ok path -> path_last path s -> s = st2 p.
  Proof. intros E [_ F]. destruct (L_shape p path E) as (a0 & a1 & -> & _). cbn in F. congruence. Qed.

  (** Placements of different locations are different. *)
  Lemma place_differ p p' a : place show (7, 10)%Z (two 0) (fst p, snd p, 0%Z) = Ok a -> place show (7, 10)%Z (two 0) (fst p', snd p', 0%Z) = Ok a ->
    same_cell 7 10 ((fst p, snd p, 0%Z), two 0) ((fst p', snd p', 0%Z), two 0).
  Proof.
    intros E E'. assert (ON : forall p a, place show (7, 10)%Z (two 0) (fst p, snd p, 0%Z) = Ok a -> on_board 7 10 0 (fst p, snd p, 0%Z)).
    { intros q b Q. destruct (put_cases 7 10 (fun _ _ _ _ => 0%Q) 0 (fst q, snd q, 0%Z)) as [K|[K _]]; [exact K|]. rewrite place_out in Q by exact K. discriminate. }
    pose proof (ON _ _ E) as O. pose proof (ON _ _ E') as O'.
    destruct (step_check show order mismatch HO 7 10 ltac:(lia) ltac:(lia) [] ((fst p, snd p, 0%Z), two 0) [((fst p, snd p, 0%Z), two 0)] (fun _ F => match F with end)) as (a1 & b1 & P1 & C1 & I1); [intros lp [<-|[]]; exact O|exact O|].
    destruct (step_check show order mismatch HO 7 10 ltac:(lia) ltac:(lia) [] ((fst p', snd p', 0%Z), two 0) [((fst p, snd p, 0%Z), two 0)] (fun _ F => match F with end)) as (a2 & b2 & P2 & C2 & I2); [intros lp [<-|[]]; exact O|exact O'|].
    cbn [fst snd] in P1, P2. assert (a1 = a) as -> by congruence. assert (a2 = a) as -> by congruence. assert (b2 = b1) as -> by congruence.
    assert (T : b1 = true). { apply I1. split; [intros (? & [] & _)|]. eexists. split; [left; reflexivity|]. apply same_refl. exact O. }
    apply I2 in T. destruct T as (_ & lp & [<-|[]] & S). exact S.
  Qed.
  Lemma drawn_differ p p' : drawn p -> drawn p' -> same_cell 7 10 ((fst p, snd p, 0%Z), two 0) ((fst p', snd p', 0%Z), two 0) -> p = p'.
  Proof.
    destruct p as [r c], p' as [r' c']. unfold drawn. cbn [fst snd]. intros D D' (i & x & y & o & T & T'). cbn [fst snd] in *. destruct T as (_ & X & Y & _), T' as (_ & X' & Y' & _). unfold designates in *. f_equal; lia.
  Qed.

  (** *** The script *)
  Context {ES : EqDec snap} {EA : EqDec act}.
  Lemma script_ok draws : Forall drawn draws -> exists paths, Forall2 (fun p path => L p = Ok path) draws paths /\
    forall h, script show order mismatch (add_paths chk h) draws = (add_paths chk (h ++ paths), Ok tt).
  Proof.
    induction 1 as [|[r c] draws D _ IH]; [exists []; split; [constructor|]; intros h; cbn [script]; rewrite app_nil_r; reflexivity|].
    destruct IH as (paths & F & G). destruct D as [D1 D2]. cbn [fst snd] in *. destruct (L_ok r c) as (path & E & _); [lia|lia|]. exists (path :: paths). split; [constructor; assumption|].
    intros h. cbn [script]. rewrite E. assert (A : snd (add_path chk (add_paths chk h) path) = Ok tt). { unfold add_path. rewrite (L_check r c path E). reflexivity. }
    destruct (add_path chk (add_paths chk h) path) as [g' r'] eqn:Q. cbn [snd] in A. subst r'.
    replace g' with (add_paths chk (h ++ [path])). { rewrite G, <- app_assoc. reflexivity. }
    unfold add_paths. rewrite fold_left_app. cbn [fold_left]. fold (add_paths chk h). rewrite Q. reflexivity.
  Qed.
  Lemma Forall2_pick {X Y} (R : X -> Y -> Prop) l l' : Forall2 R l l' -> (forall y, In y l' -> exists x, In x l /\ R x y) /\ (forall x, In x l -> exists y, In y l' /\ R x y).
  Proof.
    induction 1 as [|x y l l' H _ [I1 I2]]; [split; intros ? []|]. split.
    - intros z [<-|K]; [exists x; split; [left; reflexivity|exact H]|]. destruct (I1 z K) as (w & ? & ?). exists w. split; [right; assumption|assumption].
    - intros z [<-|K]; [exists y; split; [left; reflexivity|exact H]|]. destruct (I2 z K) as (w & ? & ?). exists w. split; [right; assumption|assumption].
  Qed.
  Lemma accepted_L draws paths q : Forall2 (fun p path => L p = Ok path) draws paths -> path_ok chk q ->
    (accepted chk paths q <-> q = [] \/ exists p, In p draws /\ L p = Ok q).
  Proof.
    intros F OK. destruct (Forall2_pick _ _ _ F) as [F1 F2]. split.
    - intros [->|((s & S1 & (w & W1 & _ & W2)) & (t & T1 & (w' & W1' & _ & W2')) & K)]; [left; reflexivity|right].
      destruct (F1 _ W1) as (p & _ & E). assert (s = st0) as -> by exact (L_first _ _ _ E W2).
      destruct (F1 _ W1') as (p' & I' & E'). assert (t = st2 p') as -> by exact (L_last _ _ _ E' W2'). clear w W1 W2 p E.
      assert (ST : forall s a s', path_step q s a s' -> exists p, In p draws /\ ((s = st0 /\ s' = st1 p /\ place show (7, 10)%Z (two 0) (fst p, snd p, 0%Z) = Ok a) \/
        (s = st1 p /\ s' = st2 p /\ place show (7, 10)%Z (two 1) (fst p + 2, snd p, 1)%Z = Ok a))).
      { intros s a s' Z. destruct (K s a s' Z) as (v & V1 & _ & V2). destruct (F1 _ V1) as (u & U1 & U2). exists u. split; [exact U1|]. exact (L_steps _ _ U2 _ _ _ V2). }
      assert (VQ : q = [] \/ exists n, length q = 2 * n + 1 /\ (forall i, i <= n -> exists s, nth_error q (2 * i) = Some (IState s)) /\ forall i, i < n -> exists s a s', nth_error q (2 * i) = Some (IState s) /\ nth_error q (2 * i + 1) = Some (IAction a) /\ nth_error q (2 * i + 2) = Some (IState s')).
      { destruct OK as [->|(n & N1 & N2 & N3)]; [left; reflexivity|right]. exists n. split; [exact N1|]. split; [exact N2|]. intros i Hi. destruct (N3 i Hi) as (x & a & y & X1 & X2 & X3 & _). exists x, a, y. auto. }
      unfold path_first in S1. destruct T1 as [T0 T1].
      destruct VQ as [->|(n & N1 & _ & N3)]; [contradiction|].
      destruct n as [|n].
      { exfalso. rewrite N1 in T1. change (2 * 0 + 1 - 1) with 0 in T1. assert (X : st0 = st2 p') by congruence. exact (st0_st2 _ X). }
      destruct (N3 0) as (s0 & b0 & s1 & X1 & X2 & X3); [lia|]. change (2 * 0) with 0 in X1. cbn [Nat.mul Nat.add] in X2, X3.
      assert (s0 = st0) as -> by congruence. destruct (ST st0 b0 s1) as (p & IP & Cs); [exists 0; auto|].
      destruct Cs as [(_ & -> & P0)|(Bad & _)]; [|destruct (st0_st1 _ Bad)].
      destruct n as [|n].
      { exfalso. rewrite N1 in T1. change (2 * 1 + 1 - 1) with 2 in T1. assert (X : st1 p = st2 p') by congruence. exact (st1_st2 _ _ X). }
      destruct (N3 1) as (s1 & b1 & s2 & Y1 & Y2 & Y3); [lia|]. change (2 * 1) with 2 in Y1. cbn [Nat.mul Nat.add] in Y2, Y3.
      assert (s1 = st1 p) as -> by congruence. destruct (ST (st1 p) b1 s2) as (p1 & IP1 & Cs1); [exists 1; auto|].
      destruct Cs1 as [(Bad & _)|(EQ & -> & P1)]; [destruct (st0_st1 _ (eq_sym Bad))|]. apply st1_inj in EQ. subst p1.
      destruct n as [|n].
      { exists p. split; [exact IP|]. destruct (F2 p IP) as (path & _ & EP). rewrite EP. f_equal. destruct (L_shape p path EP) as (a0 & a1 & -> & A0 & A1). assert (b0 = a0) as -> by congruence. assert (b1 = a1) as -> by congruence.
        destruct q as [|q0 [|q1 [|q2 [|q3 [|q4 [|]]]]]]; cbn in N1; try lia. cbn in S1, X2, X3, Y2, Y3. congruence. }
      exfalso. destruct (N3 2) as (s2 & b2 & s3 & Z1 & Z2 & Z3); [lia|]. change (2 * 2) with 4 in Z1. cbn [Nat.mul Nat.add] in Z2, Z3.
      assert (s2 = st2 p) as -> by congruence. destruct (ST (st2 p) b2 s3) as (p2 & _ & Cs2); [exists 2; auto|].
      destruct Cs2 as [(Bad & _)|(Bad & _)]; [exact (st0_st2 _ (eq_sym Bad))|exact (st1_st2 _ _ (eq_sym Bad))].
    - intros [->|(p & IP & E)]; [left; reflexivity|right]. destruct (F2 p IP) as (path & I & E'). assert (path = q) as -> by congruence.
      destruct (L_shape p q E) as (a0 & a1 & Q & _). assert (OQ := OK).
      split; [exists st0; split; [rewrite Q; reflexivity|]; exists q; split; [exact I|]; split; [exact OQ|]; rewrite Q; reflexivity|].
      split; [exists (st2 p); assert (PL : path_last q (st2 p)) by (split; [rewrite Q; discriminate|rewrite Q; reflexivity]); split; [exact PL|]; exists q; auto|].
      intros s a s' K. exists q. auto.
  Qed.
End L.
