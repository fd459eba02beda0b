(** Property C121: boards built step by step, and the script samples/snap_circuit_scenarii.py. *)
From Verif Require Import PyBase PyBaseFacts ActionModel SnapModel SnapSpec SnapProofs GraphModel GraphSpec GraphProofs BoardModel BoardSpec BoardProofs.
From Coq Require Import Permutation.
Local Open Scope list_scope.
Local Open Scope nat_scope.

(** The path that puts parts on a board, one after the other, exists when they are on the board, is unique, and is accepted
    exactly when no two of the parts take the same cell. *)
Theorem C121_stepwise : forall show order mismatch rows cols parts,
  is_order order -> (0 <= rows)%Z -> (0 <= cols)%Z -> (forall loc p, In (loc, p) parts -> on_board rows cols (p_id p) loc) ->
  exists path, stepwise show order (rows, cols) [] parts path /\ (forall path', stepwise show order (rows, cols) [] parts path' -> path' = path) /\
  exists b, check_path (act_check mismatch) path = Ok b /\ (b = true <-> apart rows cols parts).
Proof.
  intros show order mismatch rows cols parts HO Hr Hc ON. assert (ON' : forall lp, In lp parts -> on_board rows cols (p_id (snd lp)) (fst lp)) by (intros [loc p] K; exact (ON _ _ K)).
  destruct (stepwise_exists show order mismatch HO rows cols Hr Hc parts ON' []) as [path W]. exists path. split; [exact W|]. split; [intros path' W'; exact (stepwise_fun show order rows cols _ _ _ _ W' W)|].
  destruct (stepwise_check show order mismatch HO rows cols Hr Hc [] parts path W (fun _ F => match F with end) ON') as (b & C & I). exists b. split; [exact C|]. rewrite I. clear - parts. cbn [app]. split.
  - intros H j k lp lp' L N N'. destruct (nth_error_split _ _ N') as (pre & post & -> & <-). apply (H pre lp' post lp eq_refl). rewrite nth_error_app1 in N by exact L. exact (nth_error_In _ _ N).
  - intros H pre lp post lp' -> K. destruct (In_nth_error _ _ K) as [j N]. assert (J : j < length pre) by (apply nth_error_Some; congruence).
    apply (H j (length pre) lp' lp J); [rewrite nth_error_app1 by exact J; exact N|]. rewrite nth_error_app2, Nat.sub_diag by lia. reflexivity.
Qed.
Print Assumptions C121_stepwise.

(** What path_make_L does with every position. *)
Theorem C121_make_L : forall show order mismatch r c, is_order order ->
  ((5 <= r \/ 9 <= c)%Z -> path_make_L show order (r, c) = Err EAssert) /\
  (((r < 5 /\ c < 9) /\ (r < - 7 \/ c < - 10))%Z -> path_make_L show order (r, c) = Err EIndex) /\
  ((- 7 <= r < 5 /\ - 10 <= c < 9)%Z -> exists path, path_make_L show order (r, c) = Ok path /\
     stepwise show order (7, 10)%Z [] (L_parts r c) path /\ check_path (act_check mismatch) path = Ok true).
Proof.
  intros show order mismatch r c HO. split; [apply L_assert|]. split; [intros ([? ?] & ?); apply L_index; assumption|].
  intros [H1 H2]. destruct (L_ok show order mismatch HO r c H1 H2) as (path & E & W). exists path. split; [exact E|]. split; [exact W|]. exact (L_check show order mismatch HO r c path E).
Qed.
Print Assumptions C121_make_L.

(** The second part is two rows further than the first one, except when the position is in the last two rows counted
    from the end. *)
Theorem C121_two_rows : forall r c i0 x0 y0 o0 i1 x1 y1 o1, (- 7 <= r < 5)%Z ->
  takes 7 10 0 (r, c, 0%Z) i0 x0 y0 o0 -> takes 7 10 1 (r + 2, c, 1)%Z i1 x1 y1 o1 -> y1 = y0 /\ (x1 = x0 + 2 <-> (r <> - 1 /\ r <> - 2)%Z).
Proof.
  intros r c i0 x0 y0 o0 i1 x1 y1 o1 H (_ & X & Y & _) (_ & X' & Y' & _). unfold designates in *. lia.
Qed.
Print Assumptions C121_two_rows.
(** Such a position is accepted and the path too, although the parts are at both ends of the board. *)
Theorem C121_wraps_refuted : forall show order mismatch, is_order order -> exists r c path x x',
  path_make_L show order (r, c) = Ok path /\ check_path (act_check mismatch) path = Ok true /\
  takes 7 10 0 (r, c, 0%Z) 0 x 0 0 /\ takes 7 10 1 (r + 2, c, 1)%Z 1 x' 0 1 /\ x = 6 /\ x' = 1.
Proof.
  intros show order mismatch HO. destruct (proj2 (proj2 (C121_make_L show order mismatch (-1)%Z 0%Z HO))) as (path & E & _ & C); [lia|].
  exists (-1)%Z, 0%Z, path, 6, 1. split; [exact E|]. split; [exact C|]. unfold takes, designates. repeat split; try lia.
Qed.
Print Assumptions C121_wraps_refuted.

(** The script, for all the positions it can draw, in any number: it never fails; the graph accepts exactly the empty path
    and the paths of the positions drawn; and its transitions are deterministic. *)
Theorem C121_script : forall (ES : EqDec snap) (EA : EqDec act) show order mismatch draws, is_order order -> Forall drawn draws ->
  exists g, script show order mismatch empty_task_graph draws = (g, Ok tt) /\
    (forall q, check_path (act_check mismatch) q = Ok true ->
       exists b, has_path (act_check mismatch) g q = Ok b /\ (b = true <-> q = [] \/ exists position, In position draws /\ path_make_L show order position = Ok q)) /\
    deterministic (tg_trans g) /\
    forall ord, is_order ord -> check_det ord (tg_trans g) = Ok tt.
Proof.
  intros ES EA show order mismatch draws HO D. destruct (script_ok show order mismatch HO draws D) as (paths & F & G). pose proof (G []) as G0. cbn [app] in G0. eexists. split; [exact G0|].
  assert (DET : deterministic (tg_trans (add_paths (act_check mismatch) paths))).
  { destruct (add_paths_inv (act_check mismatch) paths) as (_ & _ & _ & HT & _). destruct (Forall2_pick _ _ _ F) as [F1 _].
    intros s a d1 d2 T1 T2. apply HT in T1, T2. destruct T1 as (w1 & I1 & _ & S1), T2 as (w2 & I2 & _ & S2). destruct (F1 _ I1) as (p1 & P1 & E1). destruct (F1 _ I2) as (p2 & P2 & E2).
    rewrite Forall_forall in D.
    destruct (L_steps show order p1 w1 E1 _ _ _ S1) as [(A1 & -> & A3)|(A1 & -> & A3)], (L_steps show order p2 w2 E2 _ _ _ S2) as [(B1 & -> & B3)|(B1 & -> & B3)].
    - f_equal. apply drawn_differ; [auto|auto|]. exact (place_differ show order mismatch HO p1 p2 a A3 B3).
    - destruct (st0_st1 order HO p2). congruence.
    - destruct (st0_st1 order HO p1). congruence.
    - f_equal. apply (st1_inj order HO). congruence. }
  split; [|split; [exact DET|]].
  - intros q C. assert (OK : path_ok (act_check mismatch) q) by (apply path_ok_iff, check_path_vp; exact C).
    destruct (has_path_correct (act_check mismatch) paths q OK) as (b & E & I). exists b. split; [exact E|]. rewrite I. exact (accepted_L show order mismatch HO draws paths q F OK).
  - intros ord Ho. destruct (add_paths_inv (act_check mismatch) paths) as (W & _). destruct (check_det_correct ord _ Ho W) as [[-> _]|[_ N]]; [reflexivity|contradiction].
Qed.
Print Assumptions C121_script.

(** What it prints: for n different positions, 2 n + 1 nodes (one state without part, and two for each position) and 2 n
    links. *)
Theorem C121_printed : forall (ES : EqDec snap) (EA : EqDec act) show order mismatch draws positions (T : Type) (strn : snap -> T) (strl : act -> T) ord ordn,
  is_order order -> is_order ord -> is_order ordn -> Forall drawn draws -> NoDup positions -> (forall p, In p positions <-> In p draws) -> draws <> [] ->
  exists nodes links, graph_as_dictionary strn strl ord ordn (tg_trans (fst (script show order mismatch empty_task_graph draws))) = Ok (nodes, links) /\
    length nodes = 2 * length positions + 1 /\ length links = 2 * length positions.
Proof.
  intros ES EA show order mismatch draws positions T strn strl ord ordn HO Ho1 Ho2 D ND PI NE. destruct (script_ok show order mismatch HO draws D) as (paths & F & G). pose proof (G []) as G0. cbn [app] in G0. rewrite (G0 : script show order mismatch empty_task_graph draws = _). cbn [fst].
  destruct (add_paths_inv (act_check mismatch) paths) as (W & _ & _ & HT & _). destruct (Forall2_pick _ _ _ F) as [F1 F2].
  destruct (as_dictionary_correct strn strl ord ordn _ Ho1 Ho2 W) as (nodes & links & ns & ts & idx & E & N1 & N2 & N3 & _ & M1 & M2 & _ & M3).
  exists nodes, links. split; [exact E|].
  set (act_of := fun (id : Z) (loc : location) => match place show (7, 10)%Z (two id) loc with Ok a => a | Err _ => Abs false ""%string end).
  assert (TR : forall s a s', has_transition (tg_trans (add_paths (act_check mismatch) paths)) s a s' = true <->
    exists p, In p positions /\ ((s = st0 order /\ s' = st1 order p /\ a = act_of 0%Z (fst p, snd p, 0%Z)) \/ (s = st1 order p /\ s' = st2 order p /\ a = act_of 1%Z (fst p + 2, snd p, 1)%Z))).
  { intros s a s'. rewrite HT. split.
    - intros (w & I & _ & S). destruct (F1 _ I) as (p & P & EL). exists p. split; [apply PI, P|]. unfold act_of. destruct (L_steps show order p w EL _ _ _ S) as [(A & B & C)|(A & B & C)]; [left|right]; rewrite C; auto.
    - intros (p & P & Cs). apply PI in P. destruct (F2 p P) as (w & I & EL). exists w. split; [exact I|]. destruct p as [r c]. split; [apply path_ok_iff, check_path_vp; exact (L_check show order mismatch HO r c w EL)|].
      destruct (L_shape show order _ _ EL) as (a0 & a1 & -> & P0 & P1). cbn [fst snd] in *. unfold act_of in Cs. rewrite P0, P1 in Cs. destruct Cs as [(-> & -> & ->)|(-> & -> & ->)]; [exists 0|exists 1]; auto. }
  assert (LN : length nodes = length ns). { rewrite <- (map_length gn_id), N3. apply seq_length. }
  assert (LL : length links = length ts). { apply (f_equal (@length _)) in M3. rewrite !map_length in M3. exact M3. }
  assert (I1 : forall l : list (Z * Z), NoDup l -> NoDup (map (st1 order) l)). { intros l H. apply FinFun.Injective_map_NoDup; [|exact H]. intros x y. apply st1_inj, HO. }
  assert (I2 : forall l : list (Z * Z), NoDup l -> NoDup (map (st2 order) l)). { intros l H. apply FinFun.Injective_map_NoDup; [|exact H]. intros x y. apply st2_inj, HO. }
  rewrite LN, LL. split.
  - assert (P : Permutation ns (st0 order :: map (st1 order) positions ++ map (st2 order) positions)).
    { apply NoDup_Permutation; [exact N1| |].
      - constructor.
        + intros K. apply in_app_iff in K. destruct K as [K|K]; apply in_map_iff in K; destruct K as (p & K & _); [exact (st0_st1 order HO _ (eq_sym K))|exact (st0_st2 order HO _ (eq_sym K))].
        + apply NoDup_app_disj; [apply I1, ND|apply I2, ND|]. intros x K K'. apply in_map_iff in K, K'. destruct K as (p & <- & _), K' as (p' & K' & _). exact (st1_st2 order HO _ _ (eq_sym K')).
      - intros n. rewrite N2. split.
        + intros (s & a & d & H & Q). apply TR in H. destruct H as (p & P & Cs). cbn [In]. rewrite in_app_iff, !in_map_iff. destruct Cs as [(-> & -> & _)|(-> & -> & _)], Q as [->| ->]; eauto.
        + cbn [In]. rewrite in_app_iff, !in_map_iff. intros [<-|[(p & <- & P)|(p & <- & P)]].
          * destruct draws as [|p draws]; [contradiction|]. exists (st0 order), (act_of 0%Z (fst p, snd p, 0%Z)), (st1 order p). split; [|left; reflexivity]. apply TR. exists p. split; [apply PI; left; reflexivity|left; auto].
          * exists (st0 order), (act_of 0%Z (fst p, snd p, 0%Z)), (st1 order p). split; [|right; reflexivity]. apply TR. exists p. split; [exact P|left; auto].
          * exists (st1 order p), (act_of 1%Z (fst p + 2, snd p, 1)%Z), (st2 order p). split; [|right; reflexivity]. apply TR. exists p. split; [exact P|right; auto]. }
    rewrite (Permutation_length P). cbn [length]. rewrite app_length, !map_length. lia.
  - assert (P : Permutation ts (map (fun p => (st0 order, act_of 0%Z (fst p, snd p, 0%Z), st1 order p)) positions ++ map (fun p => (st1 order p, act_of 1%Z (fst p + 2, snd p, 1)%Z, st2 order p)) positions)).
    { apply NoDup_Permutation; [exact M1| |].
      - apply NoDup_app_disj.
        + apply FinFun.Injective_map_NoDup; [|exact ND]. intros x y K. apply (st1_inj order HO). congruence.
        + apply FinFun.Injective_map_NoDup; [|exact ND]. intros x y K. apply (st1_inj order HO). congruence.
        + intros x K K'. apply in_map_iff in K, K'. destruct K as (p & <- & _), K' as (p' & K' & _). apply (st0_st1 order HO p'). congruence.
      - intros [[s a] d]. rewrite M2, TR, in_app_iff, !in_map_iff. split.
        + intros (p & P & [(-> & -> & ->)|(-> & -> & ->)]); [left|right]; exists p; auto.
        + intros [(p & K & P)|(p & K & P)]; exists p; (split; [exact P|]); [left|right]; repeat split; congruence. }
    rewrite (Permutation_length P), app_length, !map_length. lia.
Qed.
Print Assumptions C121_printed.

(** *** Examples *)
#[local] Instance ex_EqDec_snap : EqDec snap.
Proof. intros x y. repeat decide equality. Defined.
Definition ex_cond_dec (c d : cond) : {c = d} + {c <> d}.
Proof. repeat decide equality. Defined.
Fixpoint ex_act_dec (a b : act) {struct a} : {a = b} + {a <> b}.
Proof.
  destruct a as [p c d n|s n|k s l n], b as [p' c' d' n'|s' n'|k' s' l' n']; try (right; discriminate).
  - destruct (Bool.bool_dec p p'), (ex_cond_dec c c'), (ex_cond_dec d d'), (string_dec n n'); solve [left; congruence|right; congruence].
  - destruct (Bool.bool_dec s s'), (string_dec n n'); solve [left; congruence|right; congruence].
  - destruct (string_dec k k'), (Bool.bool_dec s s'), (string_dec n n'), (list_eq_dec ex_act_dec l l'); solve [left; congruence|right; congruence].
Defined.
#[local] Instance ex_EqDec_act : EqDec act := ex_act_dec.
Definition ex_name (l : string) (xy : Z * Z) (o : string) : string := ("Place " ++ l ++ " " ++ o)%string.
(** The same part twice at the same place, once with negative indices, is refused. *)
Definition ex_part (i : Z) : part := {| p_id := i; p_label := "lamp" |}.
Definition ex_twice : list (location * part) := [((0, 1, 2)%Z, ex_part 3); ((1, 1, 0)%Z, ex_part 3); ((-2, -1, 2)%Z, ex_part 3)].
Example C121_ex_twice : (forall loc p, In (loc, p) ex_twice -> on_board 2 2 (p_id p) loc) /\ ~ apart 2 2 ex_twice /\ apart 2 2 (firstn 2 ex_twice).
Proof.
  split; [|split].
  - intros loc p [K|[K|[K|[]]]]; injection K as <- <-; apply on_board_iff; cbn; lia.
  - intros H. apply (H 0 2 _ _ ltac:(lia) eq_refl eq_refl). exists 3, 0, 1, 2. unfold takes, designates. cbn. repeat split; lia.
  - intros [|[|[|j]]] [|[|[|k]]] lp lp' J N N'; try lia; try (cbn in N, N'; discriminate); cbn in N, N'; try (destruct k; discriminate). injection N as <-. injection N' as <-. intros (i & x & y & o & (_ & T & _) & (_ & T' & _)). unfold designates in *. lia.
Qed.
Example C121_ex_draws : Forall drawn [(4, 8); (0, 0); (4, 8)]%Z /\ exists path, path_make_L ex_name (fun l => l) (4, 8)%Z = Ok path /\ length path = 5.
Proof. split; [repeat constructor; cbn; lia|]. eexists. split; [vm_compute; reflexivity|reflexivity]. Qed.
Example C121_ex_script : exists g, script ex_name (fun l => l) EAttr empty_task_graph [(4, 8); (0, 0); (4, 8)]%Z = (g, Ok tt) /\ has_path (act_check EAttr) g [] = Ok true.
Proof.
  destruct (C121_script ex_EqDec_snap ex_EqDec_act ex_name (fun l => l) EAttr [(4, 8); (0, 0); (4, 8)]%Z (fun l => Permutation_refl l) (proj1 C121_ex_draws)) as (g & E & H & _).
  exists g. split; [exact E|]. destruct (H [] eq_refl) as (b & B & I). rewrite B. f_equal. apply I. left. reflexivity.
Qed.
