(** C48 and C49: reading the files of the solver. *)
From Verif Require Import PyBase PyBaseFacts QBase ParseModel ParseSpec.
From Coq Require Import Lia.
Local Open Scope list_scope.
Local Open Scope nat_scope.

Lemma is_space_iff c : is_space c = true <-> white c.
Proof.
  unfold is_space, white. set (n := nat_of_ascii c). rewrite !orb_true_iff, !andb_true_iff, !Nat.leb_le, !Nat.eqb_eq. lia.
Qed.
Lemma all_space_iff s : all_space s = true <-> Forall white (chars s).
Proof.
  induction s as [|c t IH]; cbn; [split; constructor|]. rewrite andb_true_iff, is_space_iff, IH. split; [intros [? ?]; constructor; auto|intros H; inversion H; auto].
Qed.
Lemma isspace_iff s : isspace s = true <-> blank s.
Proof.
  unfold blank. rewrite <- all_space_iff. destruct s as [|c t]; cbn [isspace]; [split; [discriminate|intros [H _]; congruence]|].
  split; [intros H; split; [discriminate|auto]|tauto].
Qed.

Section VF.
  Variable parse_int : string -> res Z.
  Variable parse_vector : string -> res (list Q).
  Lemma vf_interleave lines ls : interleave lines ls -> forall h a v, vf_loop parse_int parse_vector lines h a v = vf_loop parse_int parse_vector ls h a v.
  Proof.
    induction 1 as [|l ls rest B I IH|l ls rest B I IH]; intros h a v; [reflexivity| |].
    - cbn [vf_loop]. apply isspace_iff in B. rewrite B. auto.
    - cbn [vf_loop]. rewrite (not_true_is_false (isspace l)) by (rewrite isspace_iff; auto).
      destruct h; [destruct (parse_vector l)|destruct (parse_int l)]; cbn [bind]; auto.
  Qed.
  Lemma interleave_exists lines : exists ls, interleave lines ls /\ Forall (fun l => ~ blank l) ls.
  Proof.
    induction lines as [|l t [ls [I F]]]; [exists []; split; constructor|].
    destruct (isspace l) eqn:E; [apply isspace_iff in E; exists ls; split; [constructor; auto|auto]|].
    assert (~ blank l) by (rewrite <- isspace_iff; congruence). exists (l :: ls). split; [apply il_line; auto|constructor; auto].
  Qed.
  Lemma vf_blocks ls bs : blocks parse_int parse_vector ls bs -> Forall (fun l => ~ blank l) ls -> forall tl a v,
    vf_loop parse_int parse_vector (ls ++ tl) false a v = vf_loop parse_int parse_vector tl false (a ++ map fst bs) (v ++ map snd bs).
  Proof.
    induction 1 as [|la lv x w ls bs Ea Ev B IH]; intros F tl a v; [cbn; rewrite !app_nil_r; reflexivity|].
    inversion F as [|? ? F1 F2]; subst. inversion F2 as [|? ? F3 F4]; subst. cbn [app vf_loop].
    rewrite (not_true_is_false (isspace la)) by (rewrite isspace_iff; auto). rewrite Ea. cbn [bind].
    rewrite (not_true_is_false (isspace lv)) by (rewrite isspace_iff; auto). rewrite Ev. cbn [bind].
    rewrite IH by auto. cbn [map fst snd]. rewrite <- !app_assoc. reflexivity.
  Qed.
  (** What any list of non-blank lines is. *)
  Inductive shape_of (ls : list string) : Prop :=
  | sh_blocks bs : blocks parse_int parse_vector ls bs -> shape_of ls
  | sh_action ls' bs la a : blocks parse_int parse_vector ls' bs -> ls = ls' ++ [la] -> parse_int la = Ok a -> shape_of ls
  | sh_int ls' bs la e rest : blocks parse_int parse_vector ls' bs -> ls = ls' ++ la :: rest -> parse_int la = Err e -> shape_of ls
  | sh_vector ls' bs la a lv e rest : blocks parse_int parse_vector ls' bs -> ls = ls' ++ la :: lv :: rest -> parse_int la = Ok a -> parse_vector lv = Err e -> shape_of ls.
  Lemma shapes : forall n ls, List.length ls <= n -> shape_of ls.
  Proof.
    induction n as [|n IH]; intros ls Hn; (destruct ls as [|la ls]; [apply (sh_blocks [] []); constructor|]); [cbn in Hn; lia|].
    destruct (parse_int la) as [a|e] eqn:Ea; [|apply (sh_int _ [] [] la e ls); [constructor|reflexivity|auto]].
    destruct ls as [|lv ls]; [apply (sh_action _ [] [] la a); [constructor|reflexivity|auto]|].
    destruct (parse_vector lv) as [v|e] eqn:Ev; [|apply (sh_vector _ [] [] la a lv e ls); [constructor|reflexivity|auto|auto]].
    destruct (IH ls) as [bs B|ls' bs lx x B E Ex|ls' bs lx e rest B E Ex|ls' bs lx x ly e rest B E Ex Ey]; [cbn in Hn; lia| | | |].
    - apply (sh_blocks _ ((a, v) :: bs)). constructor; auto.
    - apply (sh_action _ (la :: lv :: ls') ((a, v) :: bs) lx x); [constructor; auto|cbn; congruence|auto].
    - apply (sh_int _ (la :: lv :: ls') ((a, v) :: bs) lx e rest); [constructor; auto|cbn; congruence|auto].
    - apply (sh_vector _ (la :: lv :: ls') ((a, v) :: bs) lx x ly e rest); [constructor; auto|cbn; congruence|auto|auto].
  Qed.
End VF.

Lemma interleave_nonblank lines ls : interleave lines ls -> Forall (fun l => ~ blank l) ls.
Proof. induction 1; auto. Qed.

Theorem C48_reads : forall parse_int parse_vector lines ls bs n,
  interleave lines ls -> blocks parse_int parse_vector ls bs -> bs <> [] -> Forall (fun b => List.length (snd b) = n) bs ->
  parse_value_function parse_int parse_vector lines = Ok (map fst bs, map snd bs).
Proof.
  intros pi pv lines ls bs n I B Hne HF. unfold parse_value_function. rewrite (vf_interleave _ _ _ _ I).
  rewrite <- (app_nil_r ls), (vf_blocks _ _ _ _ B (interleave_nonblank _ _ I)). cbn [vf_loop bind app].
  destruct bs as [|[a v] bs]; [congruence|]. unfold vstack. cbn [map snd].
  assert (forallb (fun w => Nat.eqb (List.length w) (List.length v)) (v :: map snd bs) = true) as ->; [|reflexivity].
  apply forallb_forall. intros w Hw. change (v :: map snd bs) with (map snd ((a, v) :: bs)) in Hw. apply in_map_iff in Hw. destruct Hw as [[x y] [<- Hb]].
  rewrite Forall_forall in HF. apply Nat.eqb_eq. rewrite (HF _ Hb). symmetry. exact (HF _ (or_introl eq_refl)).
Qed.
Print Assumptions C48_reads.

(** Conversely, what is read was written: nothing else is accepted. *)
Theorem C48_only : forall parse_int parse_vector lines acts m, parse_value_function parse_int parse_vector lines = Ok (acts, m) ->
  exists ls bs n, interleave lines ls /\ blocks parse_int parse_vector ls bs /\ bs <> [] /\ Forall (fun b => List.length (snd b) = n) bs /\
    acts = map fst bs /\ m = map snd bs.
Proof.
  intros pi pv lines acts m E. destruct (interleave_exists lines) as (ls & I & F). unfold parse_value_function in E.
  rewrite (vf_interleave _ _ _ _ I) in E. destruct (shapes pi pv (List.length ls) ls (le_n _)) as [bs B|ls' bs la a B El Ea|ls' bs la e rest B El Ea|ls' bs la a lv e rest B El Ea Ev].
  - rewrite <- (app_nil_r ls), (vf_blocks _ _ _ _ B F) in E. cbn [vf_loop bind app] in E. destruct (vstack (map snd bs)) as [w|] eqn:Ew; [|discriminate].
    cbn [bind] in E. unfold vstack in Ew. destruct bs as [|[a v] bs]; [discriminate|]. cbn [map snd] in Ew.
    destruct (forallb _ _) eqn:Ef; [|discriminate]. exists ls, ((a, v) :: bs), (List.length v). split; [auto|]. split; [auto|]. split; [discriminate|].
    split; [|inversion E; inversion Ew; subst; auto]. apply Forall_forall. intros b Hb. rewrite forallb_forall in Ef. apply Nat.eqb_eq. apply Ef.
    change (v :: map snd bs) with (map snd ((a, v) :: bs)). apply in_map. auto.
  - subst ls. apply Forall_app in F. destruct F as [F1 F2]. rewrite (vf_blocks _ _ _ _ B F1) in E. inversion F2; subst. cbn [vf_loop] in E.
    rewrite (not_true_is_false (isspace la)) in E by (rewrite isspace_iff; auto). rewrite Ea in E. discriminate.
  - subst ls. apply Forall_app in F. destruct F as [F1 F2]. rewrite (vf_blocks _ _ _ _ B F1) in E. inversion F2; subst. cbn [vf_loop] in E.
    rewrite (not_true_is_false (isspace la)) in E by (rewrite isspace_iff; auto). rewrite Ea in E. discriminate.
  - subst ls. apply Forall_app in F. destruct F as [F1 F2]. rewrite (vf_blocks _ _ _ _ B F1) in E. inversion F2 as [|? ? G1 G2]; subst. inversion G2; subst. cbn [vf_loop] in E.
    rewrite (not_true_is_false (isspace la)) in E by (rewrite isspace_iff; auto). rewrite Ea in E. cbn [bind] in E.
    rewrite (not_true_is_false (isspace lv)) in E by (rewrite isspace_iff; auto). rewrite Ev in E. discriminate.
Qed.
Print Assumptions C48_only.

Theorem C48_missing_vector : forall parse_int parse_vector lines,
  (forall s, parse_int s <> Err EParse) -> (forall s, parse_vector s <> Err EParse) ->
  (parse_value_function parse_int parse_vector lines = Err EParse <->
   exists ls bs la a, interleave lines (ls ++ [la]) /\ blocks parse_int parse_vector ls bs /\ parse_int la = Ok a).
Proof.
  intros pi pv lines H1 H2. split.
  - intros E. destruct (interleave_exists lines) as (ls & I & F). unfold parse_value_function in E.
    rewrite (vf_interleave _ _ _ _ I) in E. destruct (shapes pi pv (List.length ls) ls (le_n _)) as [bs B|ls' bs la a B El Ea|ls' bs la e rest B El Ea|ls' bs la a lv e rest B El Ea Ev].
    + exfalso. rewrite <- (app_nil_r ls), (vf_blocks _ _ _ _ B F) in E. cbn [vf_loop bind app] in E.
      unfold vstack in E. destruct (map snd bs); [discriminate|]. destruct (forallb _ _); discriminate.
    + subst ls. eauto 8.
    + exfalso. subst ls. apply Forall_app in F. destruct F as [F1 F2]. rewrite (vf_blocks _ _ _ _ B F1) in E. inversion F2; subst. cbn [vf_loop] in E.
      rewrite (not_true_is_false (isspace la)) in E by (rewrite isspace_iff; auto). rewrite Ea in E. cbn [bind] in E. specialize (H1 la). congruence.
    + exfalso. subst ls. apply Forall_app in F. destruct F as [F1 F2]. rewrite (vf_blocks _ _ _ _ B F1) in E. inversion F2 as [|? ? G1 G2]; subst. inversion G2; subst. cbn [vf_loop] in E.
      rewrite (not_true_is_false (isspace la)) in E by (rewrite isspace_iff; auto). rewrite Ea in E. cbn [bind] in E.
      rewrite (not_true_is_false (isspace lv)) in E by (rewrite isspace_iff; auto). rewrite Ev in E. cbn [bind] in E. specialize (H2 lv). congruence.
  - intros (ls & bs & la & a & I & B & Ea). unfold parse_value_function. rewrite (vf_interleave _ _ _ _ I).
    pose proof (interleave_nonblank _ _ I) as F. apply Forall_app in F. destruct F as [F1 F2]. rewrite (vf_blocks _ _ _ _ B F1). inversion F2; subst. cbn [vf_loop].
    rewrite (not_true_is_false (isspace la)) by (rewrite isspace_iff; auto). rewrite Ea. reflexivity.
Qed.
Print Assumptions C48_missing_vector.

(** A concrete way of reading numbers, for the examples: single digits. *)
Definition digit (c : ascii) : option Z := let n := Z.of_nat (nat_of_ascii c) in if ((48 <=? n) && (n <=? 57))%Z then Some (n - 48)%Z else None.
Definition ex_int (s : string) : res Z :=
  match rstrip s with String c EmptyString => match digit c with Some z => Ok z | None => Err EValue end | _ => Err EValue end.
Definition ex_vector (s : string) : res (list Q) := mapM (fun w => do z <- ex_int w; Ok (inject_Z z)) (split (rstrip s)).
Definition nl : string := String newline EmptyString.
Example C48_ex : parse_value_function ex_int ex_vector [nl; "1" ++ nl; " " ++ nl; "3 4" ++ nl; "0" ++ nl; "5 6" ++ nl; nl]%string = Ok ([1; 0]%Z, [[3; 4]; [5; 6]]%Q) /\
  parse_value_function ex_int ex_vector ["1" ++ nl; "3 4" ++ nl; "0" ++ nl]%string = Err EParse.
Proof. split; vm_compute; reflexivity. Qed.

(** *** C49 *)
Lemma rstrip_white f s e : (forall c, In c (chars e) -> f c = true) -> rstrip_by f (s ++ e) = rstrip_by f s.
Proof.
  intros He. assert (H0 : rstrip_by f e = EmptyString).
  { induction e as [|c t IH]; [reflexivity|]. cbn [rstrip_by]. rewrite IH by (intros; apply He; simpl; auto). rewrite (He c) by (simpl; auto). reflexivity. }
  induction s as [|c t IH]; cbn [append rstrip_by]; [exact H0|]. rewrite IH. reflexivity.
Qed.
Definition ends_ok (f : ascii -> bool) (s : string) : Prop := rstrip_by f s = s.
Lemma ends_app f s t : t <> EmptyString -> ends_ok f t -> ends_ok f (s ++ t).
Proof.
  unfold ends_ok. intros Hne Ht. induction s as [|c s IH]; [exact Ht|]. cbn [append rstrip_by]. rewrite IH.
  destruct (s ++ t)%string eqn:E; [|reflexivity]. destruct s; [cbn in E; congruence|discriminate].
Qed.
Lemma ends_word f s : s <> EmptyString -> Forall (fun c => f c = false) (chars s) -> ends_ok f s.
Proof.
  unfold ends_ok. induction s as [|c s IH]; [congruence|]. intros _ H. inversion H; subst. cbn [rstrip_by]. destruct s as [|d s].
  - cbn. match goal with H : f c = false |- _ => rewrite H end. reflexivity.
  - rewrite IH by (auto; discriminate). reflexivity.
Qed.
Lemma rstrip_newline_idem s : rstrip (rstrip_newline s) = rstrip s.
Proof.
  unfold rstrip, rstrip_newline. induction s as [|c t IH]; [reflexivity|]. cbn [rstrip_by].
  destruct (rstrip_by (fun c => Ascii.eqb c newline) t) as [|d u] eqn:E.
  - cbn [rstrip_by] in IH. rewrite <- IH. destruct (Ascii.eqb_spec c newline) as [->|H]; reflexivity.
  - cbn [rstrip_by] in IH |- *. rewrite IH. reflexivity.
Qed.
Lemma split_word x rest : Forall (fun c => c <> " "%char) (chars x) -> split (x ++ " " ++ rest) = x :: split rest.
Proof.
  induction x as [|c t IH]; intros H; [reflexivity|]. inversion H; subst. cbn [append split].
  destruct (Ascii.eqb_spec c " "); [congruence|]. change (t ++ String " " rest)%string with (t ++ " " ++ rest)%string. rewrite IH by auto. reflexivity.
Qed.
Lemma split_last x : Forall (fun c => c <> " "%char) (chars x) -> split x = [x].
Proof.
  induction x as [|c t IH]; intros H; [reflexivity|]. inversion H; subst. cbn [split].
  destruct (Ascii.eqb_spec c " "); [congruence|]. rewrite IH by auto. reflexivity.
Qed.
Lemma split_join l : l <> [] -> Forall (fun x => Forall (fun c => c <> " "%char) (chars x)) l -> split (join l) = l.
Proof.
  induction l as [|x t IH]; [congruence|]. intros _ H. inversion H; subst. destruct t as [|y t]; [apply split_last; auto|].
  change (join (x :: y :: t)) with (x ++ " " ++ join (y :: t))%string. rewrite split_word by auto. rewrite IH by (auto; discriminate). reflexivity.
Qed.
Lemma join_nonempty l : l <> [] -> Forall (fun x => x <> EmptyString) l -> join l <> EmptyString.
Proof. destruct l as [|x [|y t]]; [congruence| |]; intros _ H; inversion H; subst; cbn [join]; [auto|]. destruct x; [congruence|discriminate]. Qed.
Lemma join_ends f l : l <> [] -> Forall (fun x => x <> EmptyString /\ Forall (fun c => f c = false) (chars x)) l -> ends_ok f (join l).
Proof.
  induction l as [|x t IH]; [congruence|]. intros _ H. inversion H as [|? ? [H1 H2] H3]; subst. destruct t as [|y t]; [apply ends_word; auto|].
  change (join (x :: y :: t)) with (x ++ (" " ++ join (y :: t)))%string. apply ends_app; [discriminate|].
  apply (ends_app f " "); [|apply IH; [discriminate|auto]]. apply join_nonempty; [discriminate|].
  eapply Forall_impl; [|exact H3]. intros z [Hz _]. exact Hz.
Qed.
Lemma string_app_assoc (a b c : string) : (a ++ (b ++ c) = (a ++ b) ++ c)%string.
Proof. induction a as [|x a IH]; [reflexivity|]. cbn. rewrite IH. reflexivity. Qed.
Lemma white_space : white " ".
Proof. unfold white. cbn. lia. Qed.

Section PG.
  Variable parse_int : string -> res Z.
  Variable show : Z -> string.
  Hypothesis W : writes parse_int show.
  Lemma show_word z : show z <> EmptyString /\ Forall (fun c => is_space c = false) (chars (show z)) /\ Forall (fun c => c <> " "%char) (chars (show z)).
  Proof.
    destruct (W z) as (_ & H1 & _ & H2). split; [auto|]. split; (eapply Forall_impl; [|exact H2]); intros c Hc.
    - apply not_true_is_false. rewrite is_space_iff. auto.
    - intros ->. apply Hc. apply white_space.
  Qed.
  Lemma entry_word t : entry show t <> EmptyString /\ Forall (fun c => is_space c = false) (chars (entry show t)) /\ Forall (fun c => c <> " "%char) (chars (entry show t)).
  Proof. destruct t as [z|]; [apply show_word|]. cbn. split; [discriminate|]. split; repeat constructor; discriminate. Qed.

  Lemma pg_split n a ts e : Forall white (chars e) ->
    exists l, split (rstrip (rstrip_newline (pg_line show n a ts e))) = l /\ isspace (rstrip (rstrip_newline (pg_line show n a ts e))) = false /\
      hd EmptyString l = show n /\ nth_error l 1 = Some (show a) /\ skipn 3 l = map (entry show) ts.
  Proof.
    intros He. rewrite rstrip_newline_idem. unfold pg_line.
    assert (He' : forall c, In c (chars e) -> is_space c = true) by (intros c Hc; rewrite Forall_forall in He; apply is_space_iff; auto).
    destruct (show_word n) as (N1 & N2 & N3). destruct (show_word a) as (A1 & A2 & A3).
    assert (HB : forall x, isspace (show n ++ x) = false).
    { intros x. destruct (show n) as [|c s]; [congruence|]. cbn [append isspace all_space]. inversion N2; subst. match goal with H : is_space c = false |- _ => rewrite H end. reflexivity. }
    destruct ts as [|t ts].
    - exists [show n; show a]. cbn [map join].
      replace (show n ++ " " ++ show a ++ "  " ++ "" ++ e)%string with ((show n ++ " " ++ show a) ++ ("  " ++ e))%string by (rewrite <- !string_app_assoc; reflexivity).
      unfold rstrip. rewrite rstrip_white.
      2:{ intros c Hc. cbn in Hc. destruct Hc as [<-|[<-|Hc]]; [reflexivity|reflexivity|auto]. }
      assert (ends_ok is_space (show n ++ " " ++ show a)) as ->.
      { apply ends_app; [discriminate|]. apply (ends_app is_space " "); auto. apply ends_word; auto. }
      split; [rewrite split_word by auto; rewrite split_last by auto; reflexivity|]. split; [apply HB|]. auto.
    - set (w := map (entry show) (t :: ts)). assert (Hw : w <> []) by discriminate.
      assert (FW : Forall (fun x => x <> EmptyString /\ Forall (fun c => is_space c = false) (chars x)) w).
      { apply Forall_forall. intros x Hx. apply in_map_iff in Hx. destruct Hx as [y [<- _]]. split; apply entry_word. }
      assert (FS : Forall (fun x => Forall (fun c => c <> " "%char) (chars x)) w).
      { apply Forall_forall. intros x Hx. apply in_map_iff in Hx. destruct Hx as [y [<- _]]. apply entry_word. }
      exists (show n :: show a :: EmptyString :: w).
      replace (show n ++ " " ++ show a ++ "  " ++ join w ++ e)%string with ((show n ++ " " ++ show a ++ " " ++ " " ++ join w) ++ e)%string.
      2:{ rewrite <- !string_app_assoc. reflexivity. }
      unfold rstrip. rewrite rstrip_white by auto.
      assert (ends_ok is_space (show n ++ " " ++ show a ++ " " ++ " " ++ join w)) as ->.
      { assert (join w <> EmptyString). { apply join_nonempty; auto. eapply Forall_impl; [|exact FW]. intros z [Hz _]. exact Hz. }
        apply ends_app; [discriminate|]. apply (ends_app is_space " "); [destruct (show a); discriminate|]. apply ends_app; [discriminate|].
        apply (ends_app is_space " "); [discriminate|]. apply (ends_app is_space " "); [auto|]. apply join_ends; auto. }
      split; [|split; [apply HB|auto]]. rewrite split_word by auto. rewrite split_word by auto. cbn [append split]. rewrite Ascii.eqb_refl. rewrite split_join by auto. reflexivity.
  Qed.
  Lemma mapM_entries ts : mapM (fun x => if String.eqb x "-" then Ok None else do z <- parse_int x; Ok (Some z)) (map (entry show) ts) = Ok ts.
  Proof.
    induction ts as [|t ts IH]; [reflexivity|]. cbn [map mapM]. rewrite IH. destruct t as [z|]; cbn [entry]; [|reflexivity].
    destruct (W z) as (H1 & _ & H2 & _). destruct (String.eqb_spec (show z) "-"); [congruence|]. rewrite H1. reflexivity.
  Qed.
  Lemma pg_reads l : forall n tl acts trans, Forall (fun x => Forall white (chars (snd x))) l ->
    pg_loop parse_int n (pg_file show n l ++ tl) acts trans =
    pg_loop parse_int (n + Z.of_nat (List.length l)) tl (acts ++ map (fun x => fst (fst x)) l) (trans ++ map (fun x => snd (fst x)) l).
  Proof.
    induction l as [|[[a ts] e] l IH]; intros n tl acts trans F.
    - cbn. rewrite !app_nil_r, Z.add_0_r. reflexivity.
    - inversion F as [|? ? F1 F2]; subst. cbn [pg_file app pg_loop]. destruct (pg_split n a ts e F1) as (w & Ew & Eb & E1 & E2 & E3).
      rewrite Eb, Ew, E1, (proj1 (W n)). cbn [bind]. rewrite Z.eqb_refl. cbn [negb]. rewrite E2. cbn [bind]. rewrite (proj1 (W a)). cbn [bind].
      rewrite E3, mapM_entries. cbn [bind]. rewrite IH by auto. cbn [map fst snd List.length]. rewrite <- !app_assoc. cbn [app]. f_equal. lia.
  Qed.
End PG.

(** Any graph without blank lines is read back, whatever white space ends the lines. *)
Theorem C49_reads_partial : forall parse_int show l, writes parse_int show -> Forall (fun x => Forall white (chars (snd x))) l ->
  parse_policy_graph parse_int (pg_file show 0 l) = Ok (map (fun x => fst (fst x)) l, map (fun x => snd (fst x)) l).
Proof.
  intros pi show l W F. unfold parse_policy_graph. rewrite <- (app_nil_r (pg_file show 0 l)). rewrite (pg_reads pi show W) by auto. reflexivity.
Qed.
Print Assumptions C49_reads_partial.

(** Blank lines are not skipped: every file with a blank line after some valid lines is rejected. *)
Theorem C49_blank_lines_refuted : forall parse_int show l line rest, writes parse_int show -> parse_int EmptyString = Err EValue ->
  Forall (fun x => Forall white (chars (snd x))) l -> blank line ->
  parse_policy_graph parse_int (pg_file show 0 l ++ line :: rest) = Err EValue.
Proof.
  intros pi show l line rest W E0 F [B1 B2]. unfold parse_policy_graph. rewrite (pg_reads pi show W) by auto. cbn [pg_loop].
  rewrite rstrip_newline_idem. assert (rstrip line = EmptyString) as ->.
  { apply (rstrip_white is_space EmptyString line). intros c Hc. rewrite Forall_forall in B2. apply is_space_iff. auto. }
  cbn [isspace split hd]. rewrite E0. reflexivity.
Qed.
Print Assumptions C49_blank_lines_refuted.

(** The hypotheses can be met: an integer z is written with |z| + 1 letters. *)
Definition ex_show (z : Z) : string :=
  let fix rep n c := match n with 0 => EmptyString | S n => String c (rep n c) end in
  if (z <? 0)%Z then rep (S (Z.to_nat (- z))) "m"%char else rep (S (Z.to_nat z)) "p"%char.
Definition ex_read (s : string) : res Z :=
  match s with
  | String "p" t => if forallb (fun c => Ascii.eqb c "p") (chars t) then Ok (Z.of_nat (String.length t)) else Err EValue
  | String "m" t => if forallb (fun c => Ascii.eqb c "m") (chars t) then Ok (- Z.of_nat (String.length t))%Z else Err EValue
  | _ => Err EValue
  end.
Example C49_writes : writes ex_read ex_show.
Proof.
  intros z. unfold ex_show. set (rep := fix rep n c := match n with 0 => EmptyString | S n => String c (rep n c) end).
  assert (H1 : forall n c, Forall (fun x => x = c) (chars (rep n c))) by (induction n; intros; constructor; auto).
  assert (H2 : forall n c, String.length (rep n c) = n) by (induction n; intros; cbn; auto).
  assert (H3 : forall n c, forallb (fun x => Ascii.eqb x c) (chars (rep n c)) = true).
  { intros n c. apply forallb_forall. intros x Hx. specialize (H1 n c). rewrite Forall_forall in H1. rewrite (H1 x Hx). apply Ascii.eqb_refl. }
  assert (H4 : forall n c, ~ white c -> Forall (fun x => ~ white x) (chars (rep n c))).
  { intros n c Hc. eapply Forall_impl; [|exact (H1 n c)]. intros x ->. auto. }
  assert (P : ~ white "p") by (rewrite <- is_space_iff; discriminate). assert (Mm : ~ white "m") by (rewrite <- is_space_iff; discriminate).
  destruct (Z.ltb_spec z 0).
  - split; [cbn [rep ex_read]; fold rep; rewrite H3, H2; f_equal; lia|]. split; [discriminate|]. split; [destruct (Z.to_nat _); discriminate|]. exact (H4 (S (Z.to_nat (- z))) "m"%char Mm).
  - split; [cbn [rep ex_read]; fold rep; rewrite H3, H2; f_equal; lia|]. split; [discriminate|]. split; [destruct (Z.to_nat _); discriminate|]. exact (H4 (S (Z.to_nat z)) "p"%char P).
Qed.
Example C49_ex : parse_policy_graph ex_int ["0 3  1 - " ++ nl; "1 2  0 1" ++ nl]%string = Ok ([3; 2]%Z, [[Some 1; None]; [Some 0; Some 1]]%Z) /\
  parse_policy_graph ex_int ["0 3  1 - " ++ nl; nl; "2 2  0 1" ++ nl]%string = Err EValue.
Proof. split; vm_compute; reflexivity. Qed.
