(** Proofs for C76. *)
From Coq Require Import DecimalString Lia.
From Verif Require Import PyBase ElapsedModel ElapsedSpec.
Local Open Scope list_scope.
Local Open Scope Z_scope.

Definition is_digit (c : ascii) : Prop := exists v, In (c, v) digits.
Ltac digit_cases H := unfold digits in H; cbn [In] in H; repeat (destruct H as [H|H]; [injection H as <- <-|]); [..|destruct H].
Inductive all_digits : string -> Prop := ad_one c : is_digit c -> all_digits (String c "") | ad_more c s : is_digit c -> all_digits s -> all_digits (String c s).
Lemma all_digits_snoc s c : all_digits s -> is_digit c -> all_digits (s ++ String c "").
Proof. intros A D. induction A; cbn; apply ad_more; auto. apply ad_one; auto. Qed.
Lemma writes_digits s v : writes s v -> all_digits s.
Proof. induction 1; [apply ad_one; eexists; eauto|]. apply all_digits_snoc; auto. eexists; eauto. Qed.

(** Horner *)
Definition digit_value (c : ascii) : Z := Z.of_nat (nat_of_ascii c) - 48.
Fixpoint horner (acc : Z) (s : string) : Z := match s with EmptyString => acc | String c s => horner (10 * acc + digit_value c) s end.
Lemma horner_snoc s acc c : horner acc (s ++ String c "") = 10 * horner acc s + digit_value c.
Proof. revert acc. induction s as [|d s IH]; intros acc; [reflexivity|]. cbn [append horner]. apply IH. Qed.
Lemma digit_value_ok c v : In (c, v) digits -> digit_value c = v.
Proof. intros H. digit_cases H; reflexivity. Qed.
Lemma writes_horner s v : writes s v -> horner 0 s = v.
Proof. induction 1 as [c v H|s c v w _ IH H]; [cbn [horner]; rewrite (digit_value_ok c v H); lia|]. rewrite horner_snoc, IH, (digit_value_ok c w H). reflexivity. Qed.
Lemma digits_parse s : all_digits s -> exists d, NilEmpty.uint_of_string s = Some d /\ (forall acc, Z.pos (Pos.of_uint_acc d acc) = horner (Z.pos acc) s) /\ Z.of_N (Pos.of_uint d) = horner 0 s.
Proof.
  assert (G : forall c s, is_digit c -> (exists d, NilEmpty.uint_of_string s = Some d /\ (forall acc, Z.pos (Pos.of_uint_acc d acc) = horner (Z.pos acc) s) /\ Z.of_N (Pos.of_uint d) = horner 0 s) ->
    exists d, NilEmpty.uint_of_string (String c s) = Some d /\ (forall acc, Z.pos (Pos.of_uint_acc d acc) = horner (Z.pos acc) (String c s)) /\ Z.of_N (Pos.of_uint d) = horner 0 (String c s)).
  { intros c s' [v H] (d & E & A & B). cbn [NilEmpty.uint_of_string]. rewrite E. digit_cases H; eexists; (split; [reflexivity|]); (split; [intros acc; cbn [Pos.of_uint_acc horner]; rewrite A; apply (f_equal (fun z => horner z s')); match goal with |- context[digit_value ?c] => let v := eval vm_compute in (digit_value c) in change (digit_value c) with v end; unfold Pos.of_uint_acc; lia|]); cbn [Pos.of_uint horner]; unfold digit_value; first [rewrite B; f_equal; reflexivity|cbn [Z.of_N]; rewrite A; f_equal; reflexivity]. }
  induction 1 as [c D|c s D _ IH]; apply G; auto. exists Decimal.Nil. repeat split.
Qed.
Lemma writes_int s v : writes s v -> int_of s = Ok v.
Proof.
  intros W. pose proof (writes_digits s v W) as D. destruct (digits_parse s D) as (d & E & _ & B). rewrite (writes_horner s v W) in B. unfold int_of.
  assert (NilZero.int_of_string s = Some (Decimal.Pos d)) as ->; [|cbn [Z.of_int]; unfold Z.of_uint; rewrite B; reflexivity].
  assert (F : forall c s', s = String c s' -> is_digit c -> NilZero.int_of_string s = Some (Decimal.Pos d)).
  { intros c s' -> [w H]. unfold NilZero.int_of_string, NilZero.uint_of_string. rewrite E. digit_cases H; reflexivity. }
  destruct D; eapply F; eauto.
Qed.

(** Splitting *)
Lemma split_digits s t : all_digits s -> split_char ":" (s ++ String ":" t) = s :: split_char ":" t.
Proof. induction 1 as [c [v H]|c s [v H] _ IH]; cbn [append split_char]; [digit_cases H; reflexivity|]. rewrite IH. digit_cases H; reflexivity. Qed.
Lemma split_last s : all_digits s -> split_char ":" s = [s].
Proof. induction 1 as [c [v H]|c s [v H] _ IH]; cbn [split_char]; [digit_cases H; reflexivity|]. rewrite IH. digit_cases H; reflexivity. Qed.
Lemma replace_app a b s t : replace_char a b (s ++ t) = (replace_char a b s ++ replace_char a b t)%string.
Proof. induction s as [|c s IH]; [reflexivity|]. cbn [append replace_char]. rewrite IH. reflexivity. Qed.
Lemma replace_digits s : all_digits s -> replace_char "-" ":" s = s.
Proof. induction 1 as [c [v H]|c s [v H] _ IH]; cbn [replace_char]; rewrite ?IH; digit_cases H; reflexivity. Qed.

(** Stripping *)
Lemma blank_char c : In c blanks -> is_blank c = true.
Proof. intros H. cbn in H. repeat (destruct H as [<-|H]; [reflexivity|]). destruct H. Qed.
Lemma digit_not_blank c : is_digit c -> is_blank c = false.
Proof. intros [v H]. digit_cases H; reflexivity. Qed.
Lemma rstrip_blank b : blank b -> rstrip b = ""%string.
Proof. induction 1 as [|c s H _ IH]; [reflexivity|]. cbn [rstrip]. rewrite IH, (blank_char c H). reflexivity. Qed.
Lemma rstrip_end s c b : is_blank c = false -> blank b -> rstrip (s ++ String c b) = (s ++ String c "")%string.
Proof.
  intros H B. induction s as [|d s IH]; cbn [append rstrip]; [rewrite (rstrip_blank b B), H; reflexivity|]. rewrite IH. destruct s; reflexivity.
Qed.
Lemma lstrip_blank b s : blank b -> lstrip (b ++ s) = lstrip s.
Proof. induction 1 as [|c b H _ IH]; [reflexivity|]. cbn [append lstrip]. rewrite (blank_char c H). exact IH. Qed.
Lemma digits_last s : all_digits s -> exists s' c, s = (s' ++ String c "")%string /\ is_digit c.
Proof. induction 1 as [c D|c s D _ (s' & e & -> & H)]; [exists ""%string, c; auto|]. exists (String c s'), e. auto. Qed.
Lemma app_assoc' (a b c : string) : ((a ++ b) ++ c = a ++ (b ++ c))%string.
Proof. induction a as [|x a IH]; [reflexivity|]. cbn. rewrite IH. reflexivity. Qed.
Lemma strip_ok pre s t post : blank pre -> blank post -> all_digits s -> all_digits t -> forall m, lstrip (rstrip (pre ++ (s ++ m ++ t) ++ post)) = (s ++ m ++ t)%string.
Proof.
  intros Bp Bq S T m. destruct (digits_last t T) as (t' & c & -> & H).
  replace (pre ++ (s ++ m ++ (t' ++ String c "")) ++ post)%string with ((pre ++ s ++ m ++ t') ++ String c post)%string by (rewrite !app_assoc'; reflexivity).
  rewrite rstrip_end by (auto using digit_not_blank). replace ((pre ++ s ++ m ++ t') ++ String c "")%string with (pre ++ (s ++ m ++ t' ++ String c ""))%string by (rewrite !app_assoc'; reflexivity). rewrite lstrip_blank by auto.
  destruct S as [d D|d s D _]; cbn [append lstrip]; rewrite (digit_not_blank d D); reflexivity.
Qed.

(** *** Other texts *)
Lemma is_blank_in c : is_blank c = true -> In c blanks.
Proof. destruct c as [[|] [|] [|] [|] [|] [|] [|] [|]]; intros H; try discriminate H; cbn; tauto. Qed.
Lemma uses_cons c d s : uses c (String d s) <-> c = d \/ uses c s.
Proof.
  split.
  - intros (a & b & E). destruct a as [|e a]; cbn in E; injection E as <- E; [left; auto|right; exists a, b; auto].
  - intros [->|(a & b & ->)]; [exists ""%string, s; auto|exists (String d a), b; auto].
Qed.
Lemma uses_nil c : ~ uses c "".
Proof. intros (a & b & E). destruct a; discriminate. Qed.
Lemma uses_rstrip c s : is_blank c = false -> uses c s -> uses c (rstrip s).
Proof.
  intros B. induction s as [|d s IH]; intros U; [destruct (uses_nil _ U)|]. cbn [rstrip]. apply uses_cons in U. destruct U as [<-|U].
  - rewrite B. destruct (rstrip s); apply uses_cons; auto.
  - specialize (IH U). destruct (rstrip s) as [|e t]; [destruct (uses_nil _ IH)|]. apply uses_cons. auto.
Qed.
Lemma uses_lstrip c s : is_blank c = false -> uses c s -> uses c (lstrip s).
Proof.
  intros B. induction s as [|d s IH]; intros U; [auto|]. cbn [lstrip]. destruct (is_blank d) eqn:D; [|auto]. apply uses_cons in U. destruct U as [<-|U]; [congruence|auto].
Qed.
Lemma uses_replace c s : c <> "-"%char -> uses c s -> uses c (replace_char "-" ":" s).
Proof.
  intros N. induction s as [|d s IH]; intros U; [auto|]. cbn [replace_char]. apply uses_cons. apply uses_cons in U. destruct U as [<-|U]; [|auto]. left. destruct (Ascii.eqb_spec c "-"); congruence.
Qed.
Lemma uses_split c s : c <> ":"%char -> uses c s -> exists x, In x (split_char ":" s) /\ uses c x.
Proof.
  intros N. induction s as [|d s IH]; intros U; [destruct (uses_nil _ U)|]. cbn [split_char]. apply uses_cons in U. destruct U as [<-|U].
  - destruct (Ascii.eqb_spec c ":"); [congruence|]. destruct (split_char ":" s) as [|x l] eqn:E; [|exists (String c x); split; [left; auto|apply uses_cons; auto]].
    exfalso. clear - E. destruct s as [|e s]; cbn in E; [discriminate|]. destruct (Ascii.eqb e ":"); [discriminate|]. revert e E. induction s as [|f s IH]; intros e E; cbn in E; [discriminate|]. destruct (Ascii.eqb f ":"); [discriminate|]. destruct (split_char ":" s); [|discriminate]. apply (IH f). reflexivity.
  - destruct (IH U) as (x & Hx & Ux). destruct (Ascii.eqb d ":"); [exists x; split; [right; auto|auto]|]. destruct (split_char ":" s) as [|y l]; [destruct Hx|]. destruct Hx as [->|Hx]; [exists (String d x); split; [left; auto|apply uses_cons; auto]|exists x; split; [right; auto|auto]].
Qed.
Lemma int_or s : (exists z, int_of s = Ok z) \/ int_of s = Err EValue.
Proof. unfold int_of. destruct (NilZero.int_of_string s); eauto. Qed.
Lemma uint_digits s : forall d, NilEmpty.uint_of_string s = Some d -> forall c, uses c s -> is_digit c.
Proof.
  induction s as [|e s IH]; intros d E c U; [destruct (uses_nil _ U)|]. cbn [NilEmpty.uint_of_string] in E. destruct (NilEmpty.uint_of_string s) as [d'|] eqn:E'; [|discriminate].
  apply uses_cons in U. destruct U as [<-|U]; [|eapply IH; eauto]. apply uint_of_char_spec in E. unfold is_digit, digits. intuition; subst; eexists; cbn; eauto 15.
Qed.
Lemma int_foreign s c : uses c s -> foreign c -> int_of s = Err EValue.
Proof.
  intros U (F1 & F2 & F3). unfold int_of. destruct (NilZero.int_of_string s) as [d|] eqn:E; [exfalso|reflexivity].
  destruct s as [|e s]; [discriminate|]. unfold NilZero.int_of_string in E. destruct (Ascii.eqb_spec e "-") as [->|N].
  - apply uses_cons in U. destruct U as [->|U]; [apply F1; cbn; auto|]. destruct s as [|f s]; [destruct (uses_nil _ U)|]. cbn [NilZero.uint_of_string] in E. destruct (NilEmpty.uint_of_string (String f s)) as [d'|] eqn:E'; [|discriminate]. destruct (uint_digits _ _ E' c U) as [v H]. exact (F3 v H).
  - cbn [NilZero.uint_of_string] in E. destruct (NilEmpty.uint_of_string (String e s)) as [d'|] eqn:E'; [|discriminate]. destruct (uint_digits _ _ E' c U) as [v H]. exact (F3 v H).
Qed.
Lemma sep_cons c s : separators (String c s) = ((if Ascii.eqb c ":" || Ascii.eqb c "-" then 1 else 0) + separators s)%nat.
Proof. destruct c as [[|] [|] [|] [|] [|] [|] [|] [|]]; reflexivity. Qed.
Lemma sep_rstrip s : (separators (rstrip s) <= separators s)%nat.
Proof.
  induction s as [|c s IH]; [auto|]. cbn [rstrip]. rewrite (sep_cons c s). destruct (rstrip s) as [|d t]; [destruct (is_blank c); [cbn; lia|rewrite sep_cons; cbn [separators]; lia]|]. rewrite sep_cons. lia.
Qed.
Lemma sep_lstrip s : (separators (lstrip s) <= separators s)%nat.
Proof. induction s as [|c s IH]; [auto|]. cbn [lstrip]. destruct (is_blank c); [rewrite sep_cons; lia|auto]. Qed.
Lemma split_replace s : List.length (split_char ":" (replace_char "-" ":" s)) = S (separators s).
Proof.
  induction s as [|c s IH]; [reflexivity|]. cbn [replace_char]. rewrite sep_cons. cbn [split_char]. destruct (Ascii.eqb_spec c "-") as [->|N].
  - cbn [Ascii.eqb orb andb Bool.eqb length]. rewrite IH. reflexivity.
  - rewrite orb_false_r. destruct (Ascii.eqb c ":"); cbn [length]; [rewrite IH; reflexivity|]. destruct (split_char ":" (replace_char "-" ":" s)); [discriminate|]. cbn [length] in *. lia.
Qed.
Lemma elapsed_or s : (exists d, elapsed s = Ok d) \/ elapsed s = Err EValue.
Proof.
  unfold elapsed. set (t := rev _). remember (t ++ repeat "0"%string (4 - List.length t))%list as u eqn:E.
  assert (L : (4 <= List.length u)%nat) by (subst u; rewrite app_length, repeat_length; lia). clearbody t. clear E.
  destruct u as [|t0 [|t1 [|t2 [|t3 u]]]]; cbn in L; try lia.
  destruct (int_or t0) as [[z0 ->]| ->], (int_or t1) as [[z1 ->]| ->], (int_or t2) as [[z2 ->]| ->], (int_or t3) as [[z3 ->]| ->]; cbn [bind]; eauto.
Qed.
Lemma elapsed_foreign s c : uses c s -> foreign c -> (separators s <= 3)%nat -> elapsed s = Err EValue.
Proof.
  intros U F L. assert (B : is_blank c = false) by (destruct (is_blank c) eqn:B; [|reflexivity]; destruct F as (_ & F & _); destruct (F (is_blank_in c B))).
  assert (N1 : c <> "-"%char) by (intros ->; destruct F as (F & _); apply F; cbn; auto). assert (N2 : c <> ":"%char) by (intros ->; destruct F as (F & _); apply F; cbn; auto).
  destruct (uses_split c _ N2 (uses_replace c _ N1 (uses_lstrip c _ B (uses_rstrip c s B U)))) as (x & Hx & Ux). pose proof (int_foreign x c Ux F) as EX.
  unfold elapsed. pose proof (split_replace (lstrip (rstrip s))) as SL. pose proof (sep_lstrip (rstrip s)). pose proof (sep_rstrip s).
  apply in_rev in Hx. rewrite <- rev_length in SL. set (t := rev _) in *. clearbody t.
  assert (HX : In x (t ++ repeat "0"%string (4 - List.length t))%list) by (apply in_or_app; auto).
  assert (LL : List.length (t ++ repeat "0"%string (4 - List.length t))%list = 4%nat) by (rewrite app_length, repeat_length; lia).
  destruct (t ++ repeat "0"%string (4 - List.length t))%list as [|t0 [|t1 [|t2 [|t3 [|u]]]]]; try discriminate LL.
  destruct HX as [<-|[<-|[<-|[<-|[]]]]]; rewrite ?EX;
  repeat match goal with |- context [int_of ?y] => destruct (int_or y) as [[? ->]| ->] end; reflexivity.
Qed.
Lemma elapsed_blank b : blank b -> elapsed b = Err EValue.
Proof. intros B. unfold elapsed. rewrite (rstrip_blank b B). reflexivity. Qed.
