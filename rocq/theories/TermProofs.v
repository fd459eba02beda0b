(** Proofs for C109. *)
From Coq Require Import Ascii String ZArith Sorted.
From Verif Require Import PyBase TermModel TermSpec.
From Verif Require TowerProofs TrajSpec TrajProofs.
From Coq Require Import Lia.
Local Open Scope list_scope.
Local Open Scope nat_scope.

(** *** Texts *)
Lemma chars_length s : length (chars s) = String.length s.
Proof. induction s; cbn; auto. Qed.
Lemma digits_mono i j : i <= j -> length (digits i) <= length (digits j).
Proof. intros H. unfold digits. rewrite !chars_length. apply (TrajProofs.numeral_length (Z.of_nat i) (Z.of_nat j)). lia. Qed.
Lemma digits_pos i : 1 <= length (digits i).
Proof. exact (digits_mono 0 i ltac:(lia)). Qed.
Lemma chars_has s c : In c (chars s) -> TowerProofs.has c s.
Proof. induction s as [|d s IH]; cbn; [auto|]. intros [->|H]; auto. Qed.
Lemma digits_chars i c : In c (digits i) -> In c ["0"; "1"; "2"; "3"; "4"; "5"; "6"; "7"; "8"; "9"]%char.
Proof. intros H. apply chars_has in H. apply TowerProofs.str_chars in H; [auto|lia]. Qed.

Lemma commas_short k l : length l <= k -> commas_rev k l = l.
Proof. revert k. induction l as [|c l IH]; intros [|k] H; cbn in *; try reflexivity; [lia|]. rewrite IH by lia. reflexivity. Qed.
Lemma commas_more l : l <> [] -> commas_rev 0 l = ","%char :: commas_rev 3 l.
Proof. destruct l; [congruence|]. reflexivity. Qed.
Lemma with_commas_grouped n : forall l, length l <= n -> grouped l (with_commas l).
Proof.
  induction n as [|n IH]; intros l H.
  - destruct l; [|cbn in H; lia]. apply grouped_short. cbn. lia.
  - destruct (Nat.le_gt_cases (length l) 3) as [S|L].
    + unfold with_commas. rewrite commas_short by (rewrite rev_length; auto). rewrite rev_involutive. apply grouped_short. auto.
    + rewrite <- (firstn_skipn (length l - 3) l). set (s := firstn (length l - 3) l). assert (Ls : length s = length l - 3) by (unfold s; rewrite firstn_length; lia).
      assert (Lu : length (skipn (length l - 3) l) = 3) by (rewrite skipn_length; lia). destruct (skipn (length l - 3) l) as [|a [|b [|c [|]]]]; cbn in Lu; try lia.
      assert (N : s <> []) by (intros K; rewrite K in Ls; cbn in Ls; lia).
      assert (E : with_commas (s ++ [a; b; c]) = with_commas s ++ ","%char :: [a; b; c]).
      { unfold with_commas. rewrite rev_app_distr. cbn [rev app commas_rev]. rewrite commas_more by (intros K; apply N; apply (f_equal (@rev _)) in K; rewrite rev_involutive in K; exact K). cbn [rev]. rewrite <- !app_assoc. reflexivity. }
      rewrite E. apply grouped_more; auto. apply IH. lia.
Qed.
Lemma grouped_length s t : grouped s t -> s <> [] -> length t = length s + (length s - 1) / 3.
Proof.
  induction 1 as [s H|s t u N G IH L]; intros K.
  - rewrite Nat.div_small by lia. lia.
  - rewrite !app_length. cbn [length]. rewrite IH by auto. rewrite L. destruct s as [|x s]; [congruence|]. cbn [length].
    replace (S (length s) + 3 - 1) with (length s + 1 * 3) by lia. rewrite Nat.div_add by lia. replace (S (length s) - 1) with (length s) by lia. lia.
Qed.
Lemma grouped_last s t : grouped s t -> s <> [] -> exists t' c, t = t' ++ [c] /\ In c s.
Proof.
  intros G N. destruct G as [s H|s t u N' G L].
  - destruct (exists_last N) as (s' & c & ->). exists s', c. split; [auto|]. apply in_app_iff. cbn. auto.
  - assert (Nu : u <> []) by (intros ->; cbn in L; lia). destruct (exists_last Nu) as (u' & c & ->). exists (t ++ ","%char :: u'), c. split; [rewrite <- app_assoc; reflexivity|]. rewrite !in_app_iff. cbn. auto.
Qed.
Lemma grouped_chars s t c : grouped s t -> In c t -> In c s \/ c = ","%char.
Proof. induction 1 as [|s t u N G IH L]; intros I; [auto|]. apply in_app_iff in I. rewrite in_app_iff. destruct I as [I|[I|I]]; auto. destruct (IH I); auto. Qed.

Definition number (n : nat) : text := with_commas (digits n).
Lemma digits_ne n : digits n <> [].
Proof. intros K. pose proof (digits_pos n) as H. rewrite K in H. cbn in H. lia. Qed.
Lemma number_grouped n : grouped (digits n) (number n).
Proof. eapply with_commas_grouped; auto. Qed.
Lemma number_length n : length (number n) = length (digits n) + (length (digits n) - 1) / 3.
Proof. apply grouped_length; [apply number_grouped|apply digits_ne]. Qed.
Lemma number_mono i j : i <= j -> length (number i) <= length (number j).
Proof. intros H. rewrite !number_length. pose proof (digits_mono i j H). assert ((length (digits i) - 1) / 3 <= (length (digits j) - 1) / 3) by (apply Nat.div_le_mono; lia). lia. Qed.
Lemma right_length w t : length (right_aligned w t) = max w (length t).
Proof. unfold right_aligned. rewrite app_length, repeat_length. lia. Qed.
Lemma number_field w n : field w n (right_aligned w (number n)).
Proof. exists (w - length (number n)), (number n). split; [apply number_grouped|]. split; [reflexivity|apply right_length]. Qed.

Lemma part_div a b : b <> 0 -> part a b (a / b).
Proof. intros H. unfold part. pose proof (Nat.div_mod a b H). pose proof (Nat.mod_upper_bound a b H). nia. Qed.

(** *** The bar *)
Definition counts (done todo : nat) (count : bool) : text :=
  if count then chars " " ++ right_aligned (todo / 10) (number done) ++ chars "/" ++ right_aligned (todo / 10) (number todo) else [].
Lemma bar_shows done todo count size : done <= todo -> todo <> 0 -> exists t, progress_bar done todo count size = Ok t /\ shows_bar done todo count size t /\ length t = size + 8 + length (counts done todo count).
Proof.
  intros H N. unfold progress_bar. destruct (Nat.eqb_spec todo 0); [contradiction|]. eexists. split; [reflexivity|].
  set (full := size * done / todo). set (pc := 100 * done / todo).
  assert (F : full <= size) by (unfold full; apply Nat.div_le_upper_bound; [auto|]; nia).
  assert (Pc : pc <= 100) by (unfold pc; apply Nat.div_le_upper_bound; [auto|]; nia).
  assert (Lp : length (digits pc) <= 3) by (apply (digits_mono pc 100); auto).
  split.
  - exists full, (size - full), (3 - length (digits pc)), pc, (counts done todo count). split; [lia|]. split; [apply part_div; auto|]. split; [apply part_div; auto|]. split; [lia|]. split.
    + change (if count then _ else _) with (counts done todo count). fold full pc. unfold left_aligned, right_aligned. rewrite repeat_length. change (chars "[") with ["["%char]. change (chars " ") with [" "%char]. change (chars "%] ") with ["%"; "]"; " "]%char. rewrite <- !app_assoc. reflexivity.
    + destruct count; [|reflexivity]. exists (right_aligned (todo / 10) (number done)), (right_aligned (todo / 10) (number todo)). split; [apply number_field|]. split; [apply number_field|reflexivity].
  - fold full pc. change (if count then _ else _) with (counts done todo count). rewrite !app_length, right_length. unfold left_aligned. rewrite app_length, !repeat_length. change (length (chars "[")) with 1. change (length (chars " ")) with 1. change (length (chars "%] ")) with 3. lia.
Qed.
Lemma counts_mono i j todo count : i <= j -> length (counts i todo count) <= length (counts j todo count).
Proof. intros H. unfold counts. destruct count; [|auto]. rewrite !app_length, !right_length. pose proof (number_mono i j H). lia. Qed.

Lemma plain_app s t : plain s -> plain t -> plain (s ++ t).
Proof. intros A B c H. apply in_app_iff in H. destruct H; auto. Qed.
Lemma plain_repeat c n : nat_of_ascii c <> 13 /\ nat_of_ascii c <> 10 -> plain (repeat c n).
Proof. intros H d K. apply repeat_spec in K. subst. auto. Qed.
Lemma plain_digits n : plain (digits n).
Proof. intros c H. apply digits_chars in H. cbn in H. repeat (destruct H as [<-|H]; [cbn; lia|]). destruct H. Qed.
Lemma plain_chars l : Forall (fun c => nat_of_ascii c <> 13 /\ nat_of_ascii c <> 10) l -> plain l.
Proof. rewrite Forall_forall. auto. Qed.
Lemma plain_number n : plain (number n).
Proof. intros c H. apply (grouped_chars (digits n)) in H; [|apply number_grouped]. destruct H as [H| ->]; [exact (plain_digits n c H)|cbn; lia]. Qed.
Lemma plain_counts done todo count : plain (counts done todo count).
Proof.
  unfold counts, right_aligned. destruct count; [|intros c []]. repeat match goal with |- plain (_ ++ _) => apply plain_app end; try (apply plain_repeat; split; vm_compute; discriminate); try apply plain_number; apply plain_chars; repeat constructor; vm_compute; discriminate.
Qed.
Lemma plain_bar done todo count size t : progress_bar done todo count size = Ok t -> plain t.
Proof.
  unfold progress_bar. destruct (Nat.eqb todo 0); [discriminate|]. match goal with |- Ok ?u = Ok t -> _ => intros E; assert (K : t = u) by congruence end. subst t. clear E. change (if count then _ else _) with (counts done todo count).
  unfold left_aligned, right_aligned. repeat match goal with |- plain (_ ++ _) => apply plain_app end; try apply plain_counts; try (apply plain_repeat; split; vm_compute; discriminate); try apply plain_digits; apply plain_chars; repeat constructor; vm_compute; discriminate.
Qed.

(** *** The terminal *)
Lemma put_plain x c : nat_of_ascii c <> 13 /\ nat_of_ascii c <> 10 ->
  put x c = {| left_lines := left_lines x; line := fun i => if Nat.eqb i (column x) then c else line x i; column := S (column x) |}.
Proof. intros [A B]. unfold put. destruct (Nat.eqb_spec (nat_of_ascii c) 13); [contradiction|]. destruct (Nat.eqb_spec (nat_of_ascii c) 10); [contradiction|]. reflexivity. Qed.
Lemma write_plain t : forall x, plain t -> let y := write t x in
  left_lines y = left_lines x /\ column y = column x + length t /\
  forall i, line y i = if Nat.leb (column x) i then nth (i - column x) t (line x i) else line x i.
Proof.
  induction t as [|c t IH]; intros x H; cbn [write fold_left].
  - split; [auto|]. split; [cbn; lia|]. intros i. destruct (Nat.leb_spec (column x) i); [|auto]. destruct (i - column x); reflexivity.
  - rewrite put_plain by (apply H; left; auto). set (x' := {| left_lines := left_lines x; line := _; column := _ |}).
    destruct (IH x' ltac:(intros d Hd; apply H; right; auto)) as (A & B & C). unfold write in *. split; [exact A|]. split; [rewrite B; cbn; lia|].
    intros i. rewrite C. cbn [x' column line]. destruct (Nat.leb_spec (S (column x)) i) as [L|L].
    + destruct (Nat.leb_spec (column x) i); [|lia]. destruct (Nat.eqb_spec i (column x)); [lia|]. replace (i - column x) with (S (i - S (column x))) by lia. reflexivity.
    + destruct (Nat.leb_spec (column x) i) as [L'|L'].
      * assert (i = column x) as -> by lia. rewrite Nat.eqb_refl, Nat.sub_diag. reflexivity.
      * destruct (Nat.eqb_spec i (column x)); [lia|]. reflexivity.
Qed.
Lemma write_app s t x : write (s ++ t) x = write t (write s x).
Proof. apply fold_left_app. Qed.
(** From the first column *)
Lemma write_line t x : plain t -> column x = 0 -> let y := write (t ++ [return_char]) x in
  left_lines y = left_lines x /\ column y = 0 /\ forall i, line y i = nth i t (line x i).
Proof.
  intros H C. rewrite write_app. destruct (write_plain t x H) as (A & _ & B). cbv zeta. change (write [return_char] (write t x)) with {| left_lines := left_lines (write t x); line := line (write t x); column := 0 |}.
  cbn [left_lines column line]. split; [auto|]. split; [auto|]. intros i. rewrite B, C. cbn [Nat.leb]. rewrite Nat.sub_0_r. reflexivity.
Qed.
Lemma nth_default_le {A} (l : list A) i d d' : i < length l -> nth i l d = nth i l d'.
Proof. intros. apply nth_indep. auto. Qed.
(** A longer text hides what was there. *)
Lemma write_over s t x : plain t -> column x = 0 -> reads (line x) s -> length s <= length t -> let y := write (t ++ [return_char]) x in
  left_lines y = left_lines x /\ column y = 0 /\ reads (line y) t.
Proof.
  intros H C R L. destruct (write_line t x H C) as (A & B & D). split; [auto|]. split; [auto|]. intros i. rewrite D. destruct (Nat.lt_ge_cases i (length t)) as [K|K]; [apply nth_default_le; auto|]. rewrite !nth_overflow by auto. rewrite R, nth_overflow by lia. reflexivity.
Qed.
(** Spaces erase a text exactly when the rest of it is spaces. *)
Lemma erase n s x : column x = 0 -> reads (line x) s -> let y := write (repeat " "%char n ++ [return_char]) x in
  left_lines y = left_lines x /\ column y = 0 /\ forall i, line y i = if Nat.ltb i n then " "%char else nth i s " "%char.
Proof.
  intros C R. destruct (write_line (repeat " "%char n) x ltac:(apply plain_repeat; cbn; lia) C) as (A & B & D). split; [auto|]. split; [auto|]. intros i. rewrite D.
  destruct (Nat.ltb_spec i n) as [K|K]; [|rewrite nth_overflow by (rewrite repeat_length; auto); apply R].
  rewrite (nth_default_le _ i _ " "%char) by (rewrite repeat_length; auto). apply nth_repeat.
Qed.
Lemma ends_app {A} (c : A) a b : (exists u, b = u ++ [c]) -> exists u, a ++ b = u ++ [c].
Proof. intros (u & ->). exists (a ++ u). apply app_assoc. Qed.
Lemma ends_cons {A} (c x : A) b : (exists u, b = u ++ [c]) -> exists u, x :: b = u ++ [c].
Proof. intros (u & ->). exists (x :: u). reflexivity. Qed.
