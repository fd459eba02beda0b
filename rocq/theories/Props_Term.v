(** C109: progress bars. *)
From Coq Require Import Ascii String ZArith Sorted.
From Verif Require Import PyBase TermModel TermSpec TermProofs.
From Coq Require Import Lia.
Local Open Scope list_scope.
Local Open Scope nat_scope.

(** Without termcolor *)
Definition same (t : text) : text := t.

Theorem C109_bar : forall done todo count size, done <= todo -> 0 < todo ->
  exists t, progress_bar done todo count size = Ok t /\ shows_bar done todo count size t.
Proof. intros done todo count size H P. destruct (bar_shows done todo count size H ltac:(lia)) as (t & E & S & _). eauto. Qed.
Print Assumptions C109_bar.
Theorem C109_nothing_to_do : forall done count size, progress_bar done 0 count size = Err EZeroDiv.
Proof. reflexivity. Qed.
Print Assumptions C109_nothing_to_do.
(** The bar is full, and the percentage 100, exactly at the end. *)
Theorem C109_end : forall done todo size full percent, done <= todo -> 0 < todo -> 0 < size -> part (size * done) todo full -> part (100 * done) todo percent ->
  (full = size <-> done = todo) /\ (percent = 100 <-> done = todo).
Proof.
  intros done todo size full percent H P Sz [A1 A2] [B1 B2]. split; (split; [|intros ->]).
  - intros ->. nia.
  - assert (full < S size) by (apply (Nat.mul_lt_mono_pos_r todo); lia). assert (size < S full) by (apply (Nat.mul_lt_mono_pos_r todo); lia). lia.
  - intros ->. lia.
  - assert (percent < 101) by (apply (Nat.mul_lt_mono_pos_r todo); lia). assert (100 < S percent) by (apply (Nat.mul_lt_mono_pos_r todo); lia). lia.
Qed.
Print Assumptions C109_end.

(** Bars printed while the work proceeds: one reads only the last one, in place. *)
Theorem C109_progress : forall todo count size prefix dones x, plain prefix -> fresh x -> StronglySorted le dones -> (forall d, In d dones -> d < todo) ->
  forall last bar, progress_bar last todo count size = Ok bar -> (exists l, dones = l ++ [last]) ->
  exists out, mapM (fun d => print_progress_bar same d todo count size prefix) dones = Ok out /\
    let y := write (List.concat out) x in left_lines y = left_lines x /\ column y = 0 /\ reads (line y) (prefix ++ bar).
Proof.
  intros todo count size prefix dones x Hp [Fx Cx] S B last bar Eb [l ->].
  assert (G : forall l last bar s x, column x = 0 -> reads (line x) s -> (forall d t, In d (l ++ [last]) -> progress_bar d todo count size = Ok t -> length s <= length (prefix ++ t)) ->
    StronglySorted le (l ++ [last]) -> (forall d, In d (l ++ [last]) -> d < todo) -> progress_bar last todo count size = Ok bar ->
    exists out, mapM (fun d => print_progress_bar same d todo count size prefix) (l ++ [last]) = Ok out /\
      let y := write (List.concat out) x in left_lines y = left_lines x /\ column y = 0 /\ reads (line y) (prefix ++ bar)).
  { clear - Hp. induction l as [|d l IH]; intros last bar s x C R L S B Eb; cbn [app mapM].
    - pose proof (B last (or_introl eq_refl)). unfold print_progress_bar at 1. destruct (Nat.ltb_spec todo last); [lia|]. rewrite Eb. cbn [bind]. destruct (Nat.eqb_spec todo last); [lia|]. eexists. split; [reflexivity|].
      cbn [List.concat]. rewrite !app_nil_r. unfold same. rewrite app_assoc. apply (write_over s); auto. apply plain_app; auto. eapply plain_bar; eauto. apply (L last bar); auto. left; auto.
    - pose proof (B d (or_introl eq_refl)). destruct (bar_shows d todo count size ltac:(lia) ltac:(lia)) as (t & Et & _ & Lt).
      cbn [app] in S. inversion S as [|? ? S' F]; subst. rewrite Forall_forall in F.
      unfold print_progress_bar at 1. destruct (Nat.ltb_spec todo d); [lia|]. rewrite Et. cbn [bind]. destruct (Nat.eqb_spec todo d); [lia|].
      destruct (write_over s (prefix ++ t) x) as (A1 & A2 & A3); [apply plain_app; auto; eapply plain_bar; eauto|auto|auto|apply (L d t); auto; left; auto|].
      destruct (IH last bar (prefix ++ t) (write ((prefix ++ t) ++ [return_char]) x) A2 A3) as (out & E & K).
      + intros d' t' Hd' Et'. pose proof (B d' (or_intror Hd')). destruct (bar_shows d' todo count size ltac:(lia) ltac:(lia)) as (t2 & Et2 & _ & Lt2). rewrite Et' in Et2. injection Et2 as <-. rewrite !app_length, Lt, Lt2. pose proof (counts_mono d d' todo count (F d' Hd')). lia.
      + auto.
      + intros; apply B; right; auto.
      + auto.
      + rewrite E. cbn [bind]. eexists. split; [reflexivity|]. cbn [List.concat]. unfold same. rewrite app_nil_r, write_app, app_assoc. cbv zeta in *. destruct K as (K1 & K2 & K3). rewrite K1, A1. auto. }
  apply (G l last bar []); auto. intros i. rewrite Fx. destruct i; reflexivity. intros; cbn; lia.
Qed.
Print Assumptions C109_progress.

(** When all is done the bar is left on its line. *)
Theorem C109_done : forall todo count size prefix bar x, plain prefix -> fresh x -> 0 < todo -> progress_bar todo todo count size = Ok bar ->
  exists out, print_progress_bar same todo todo count size prefix = Ok out /\
    fresh (write out x) /\ exists l, left_lines (write out x) = left_lines x ++ [l] /\ reads l (prefix ++ bar).
Proof.
  intros todo count size prefix bar x Hp [Fx Cx] P Eb. unfold print_progress_bar. rewrite Nat.ltb_irrefl, Eb, Nat.eqb_refl. cbn [bind]. eexists. split; [reflexivity|]. unfold same.
  rewrite app_assoc, app_assoc, write_app. destruct (write_over [] (prefix ++ bar) x) as (A1 & A2 & A3); [apply plain_app; auto; eapply plain_bar; eauto|auto|intros i; rewrite Fx; destruct i; reflexivity|cbn; lia|].
  set (y := write ((prefix ++ bar) ++ [return_char]) x) in *. cbv zeta in *. change (write [newline] y) with {| left_lines := left_lines y ++ [line y]; line := blank; column := 0 |}.
  split; [split; [intros i; reflexivity|reflexivity]|]. exists (line y). cbn [left_lines]. rewrite A1. auto.
Qed.
Print Assumptions C109_done.

(** Too much done: nothing is printed. *)
Theorem C109_too_much : forall colored done todo count size prefix, todo < done -> print_progress_bar colored done todo count size prefix = Ok [].
Proof. intros. unfold print_progress_bar. destruct (Nat.ltb_spec todo done); [reflexivity|lia]. Qed.
Print Assumptions C109_too_much.

(** Clearing does not erase the bar of a work of 50 or more that is counted, which is the default: the last digit stays. *)
Theorem C109_clear_refuted : forall done todo size prefix x, plain prefix -> fresh x -> done < todo -> 50 <= todo ->
  exists out, print_progress_bar same done todo true size prefix = Ok out /\ exists i, line (write (clear_progress_bar done todo true size prefix) (write out x)) i <> " "%char.
Proof.
  intros done todo size prefix x Hp [Fx Cx] P K. destruct (bar_shows done todo true size ltac:(lia) ltac:(lia)) as (t & Et & (full & rest & k & percent & c & S1 & S2 & S3 & S4 & S5 & S6) & Lt).
  unfold print_progress_bar. destruct (Nat.ltb_spec todo done); [lia|]. rewrite Et. cbn [bind]. destruct (Nat.eqb_spec todo done); [lia|]. eexists. split; [reflexivity|]. unfold same. rewrite app_nil_r, app_assoc.
  destruct (write_over [] (prefix ++ t) x) as (A1 & A2 & A3); [apply plain_app; auto; eapply plain_bar; eauto|auto|intros i; rewrite Fx; destruct i; reflexivity|cbn; lia|].
  cbv zeta. set (y := write ((prefix ++ t) ++ [return_char]) x) in *. unfold clear_progress_bar. destruct (erase (7 + size + 12 * 1 + length prefix) (prefix ++ t) y A2 A3) as (B1 & B2 & B3).
  cbv zeta in *. 
  assert (N : forall i, length prefix <= i -> nth i (prefix ++ t) " "%char = nth (i - length prefix) t " "%char) by (intros; apply app_nth2; lia).
  assert (Lc : length (counts done todo true) = 2 + max (todo / 10) (length (number done)) + max (todo / 10) (length (number todo))) by (unfold counts; rewrite !app_length, !right_length; change (length (chars " ")) with 1; change (length (chars "/")) with 1; lia).
  assert (5 <= todo / 10) by (apply (Nat.div_le_lower_bound todo 10 5); lia).
      destruct S6 as (a & b & _ & (kb & g & G1 & G2 & _) & Ec). destruct (grouped_last _ _ G1 (digits_ne todo)) as (g' & ch & Eg & Ich).
      assert (Ech : nth (length t - 1) t " "%char = ch).
      { rewrite S5, Ec, G2, Eg. clear. match goal with |- nth (length ?l - 1) ?l _ = _ => assert (E : exists u, l = u ++ [ch]) end.
        { repeat first [exists []; reflexivity | apply ends_cons | apply ends_app]. }
        destruct E as (u & ->). rewrite app_length. cbn [length]. replace (length u + 1 - 1) with (length u) by lia. rewrite app_nth2, Nat.sub_diag by lia. reflexivity. }
      exists (length prefix + (length t - 1)). intros H1. rewrite B3 in H1. destruct (Nat.ltb_spec (length prefix + (length t - 1)) (7 + size + 12 * 1 + length prefix)); [lia|].
      rewrite N in H1 by lia. replace (length prefix + (length t - 1) - length prefix) with (length t - 1) in H1 by lia. rewrite Ech in H1. rewrite H1 in Ich. clear - Ich. apply digits_chars in Ich. cbn in Ich. repeat (destruct Ich as [Ich|Ich]; [discriminate Ich|]). destruct Ich.
Qed.
Print Assumptions C109_clear_refuted.
(** Clearing a bar leaves a blank line only for counts below 50, or without counts. *)
Theorem C109_clear_partial : forall done todo count size prefix x, plain prefix -> fresh x -> done < todo ->
  exists out, print_progress_bar same done todo count size prefix = Ok out /\
    let y := write (clear_progress_bar done todo count size prefix) (write out x) in
    left_lines y = left_lines x /\ column y = 0 /\
    ((forall i, line y i = " "%char) <-> count = false \/ todo < 50).
Proof.
  intros done todo count size prefix x Hp [Fx Cx] P. destruct (bar_shows done todo count size ltac:(lia) ltac:(lia)) as (t & Et & (full & rest & k & percent & c & S1 & S2 & S3 & S4 & S5 & S6) & Lt).
  unfold print_progress_bar. destruct (Nat.ltb_spec todo done); [lia|]. rewrite Et. cbn [bind]. destruct (Nat.eqb_spec todo done); [lia|]. eexists. split; [reflexivity|]. unfold same. rewrite app_nil_r, app_assoc.
  destruct (write_over [] (prefix ++ t) x) as (A1 & A2 & A3); [apply plain_app; auto; eapply plain_bar; eauto|auto|intros i; rewrite Fx; destruct i; reflexivity|cbn; lia|].
  cbv zeta. set (y := write ((prefix ++ t) ++ [return_char]) x) in *. unfold clear_progress_bar. destruct (erase (7 + size + 12 * (if count then 1 else 0) + length prefix) (prefix ++ t) y A2 A3) as (B1 & B2 & B3).
  cbv zeta in *. split; [congruence|]. split; [auto|].
  assert (N : forall i, length prefix <= i -> nth i (prefix ++ t) " "%char = nth (i - length prefix) t " "%char) by (intros; apply app_nth2; lia).
  destruct count.
  - assert (Lc : length (counts done todo true) = 2 + max (todo / 10) (length (number done)) + max (todo / 10) (length (number todo))) by (unfold counts; rewrite !app_length, !right_length; change (length (chars " ")) with 1; change (length (chars "/")) with 1; lia).
    split.
    + intros H1. right. destruct (Nat.lt_ge_cases todo 50) as [|K]; [auto|]. exfalso.
      destruct (C109_clear_refuted done todo size prefix x Hp (conj Fx Cx) P K) as (out & Eo & i & Hi). unfold print_progress_bar in Eo. destruct (Nat.ltb_spec todo done); [lia|]. rewrite Et in Eo. cbn [bind] in Eo. destruct (Nat.eqb_spec todo done); [lia|]. assert (out = prefix ++ same t ++ [return_char] ++ []) as -> by congruence. apply Hi. unfold same. rewrite app_nil_r, app_assoc. apply H1.
    + intros [K|K]; [discriminate|]. intros i. rewrite B3. destruct (Nat.ltb_spec i (7 + size + 12 * 1 + length prefix)) as [|L]; [auto|].
      assert (todo / 10 <= 4) by (apply Nat.lt_succ_r, Nat.div_lt_upper_bound; lia). assert (length (number todo) <= 2) by (apply (number_mono todo 49); lia). pose proof (number_mono done todo ltac:(lia)).
      apply nth_overflow. rewrite app_length. lia.
  - cbn in S6. subst c. split; [auto|]. intros _ i. rewrite B3. destruct (Nat.ltb_spec i (7 + size + 12 * 0 + length prefix)) as [|L]; [auto|]. rewrite N by lia.
    assert (E : exists u, t = u ++ [" "%char] /\ length u = size + 7).
    { assert (E : exists u, t = u ++ [" "%char]) by (rewrite S5, app_nil_r; repeat first [exists []; reflexivity | apply ends_cons | apply ends_app]).
      destruct E as (u & E). exists u. split; [auto|]. rewrite E, app_length in Lt. cbn in Lt. lia. }
    destruct E as (u & -> & Lu). destruct (Nat.eq_dec (i - length prefix) (size + 7)) as [->|D]; [rewrite app_nth2, Lu, Nat.sub_diag by lia; reflexivity|]. apply nth_overflow. rewrite app_length. cbn. lia.
Qed.
Print Assumptions C109_clear_partial.
Definition blank_screen : screen := {| left_lines := []; line := blank; column := 0 |}.
Example C109_ex_bar : exists t, progress_bar 12 60 true 10 = Ok t /\ string_of_list_ascii t = "[##........  20%]      12/    60"%string.
Proof. eexists. split; [vm_compute; reflexivity|]. reflexivity. Qed.
Example C109_ex_commas : string_of_list_ascii (with_commas (digits 4321)) = "4,321"%string.
Proof. vm_compute. reflexivity. Qed.
Example C109_ex_hypotheses : plain (chars "Run: ") /\ fresh blank_screen /\ StronglySorted le [3; 3; 12; 47].
Proof.
  split; [intros c H; cbn in H; repeat (destruct H as [<-|H]; [vm_compute; split; discriminate|]); destruct H|]. split; [split; reflexivity|].
  repeat constructor.
Qed.
(** Of "[##........  20%]      12/    60" the last 3 characters stay, and of "[##........  20%]    9/  45" none. *)
Example C109_ex_clear : exists out out', print_progress_bar same 12 60 true 10 [] = Ok out /\ print_progress_bar same 9 45 true 10 [] = Ok out' /\
  let y := write (clear_progress_bar 12 60 true 10 []) (write out blank_screen) in
  string_of_list_ascii (map (line y) (seq 28 6)) = "  60  "%string /\
  let y := write (clear_progress_bar 9 45 true 10 []) (write out' blank_screen) in
  string_of_list_ascii (map (line y) (seq 0 40)) = string_of_list_ascii (repeat " "%char 40).
Proof. eexists; eexists. split; [vm_compute; reflexivity|]. split; [vm_compute; reflexivity|]. split; vm_compute; reflexivity. Qed.
