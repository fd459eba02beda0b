(** C76: time elapsed since a process was started. *)
From Coq Require Import Lia.
From Verif Require Import PyBase ElapsedModel ElapsedSpec ElapsedProofs.
Local Open Scope list_scope.
Local Open Scope Z_scope.

(** All texts of ps, with blanks around them, are decoded. *)
Theorem C76_decodes : forall pre s post d, blank pre -> blank post -> etime s d -> elapsed (pre ++ s ++ post) = Ok d.
Proof.
  intros pre s post d Bp Bq H. unfold elapsed. destruct H as [m s vm vs Wm Ws|h m s vh vm vs Wh Wm Ws|dd h m s vd vh vm vs Wd Wh Wm Ws].
  - rewrite (strip_ok pre m s post Bp Bq (writes_digits _ _ Wm) (writes_digits _ _ Ws) ":"). rewrite !replace_app, (replace_digits m (writes_digits _ _ Wm)), (replace_digits s (writes_digits _ _ Ws)). change (replace_char "-" ":" ":") with ":"%string. cbn [append]. rewrite split_digits, split_last by eauto using writes_digits. cbn [rev app length Nat.sub repeat]. rewrite (writes_int _ _ Wm), (writes_int _ _ Ws). change (int_of "0") with (Ok 0). cbn [bind]. f_equal. lia.
  - replace (h ++ ":" ++ m ++ ":" ++ s)%string with (h ++ (":" ++ m ++ ":") ++ s)%string by (rewrite !app_assoc'; reflexivity). rewrite (strip_ok pre h s post Bp Bq (writes_digits _ _ Wh) (writes_digits _ _ Ws) (":" ++ m ++ ":")). rewrite !replace_app, (replace_digits m (writes_digits _ _ Wm)), (replace_digits s (writes_digits _ _ Ws)), (replace_digits h (writes_digits _ _ Wh)). change (replace_char "-" ":" ":") with ":"%string. rewrite !app_assoc'. cbn [append]. rewrite split_digits, split_digits, split_last by eauto using writes_digits. cbn [rev app length Nat.sub repeat]. rewrite (writes_int _ _ Wm), (writes_int _ _ Ws), (writes_int _ _ Wh). change (int_of "0") with (Ok 0). cbn [bind]. f_equal. lia.
  - replace (dd ++ "-" ++ h ++ ":" ++ m ++ ":" ++ s)%string with (dd ++ ("-" ++ h ++ ":" ++ m ++ ":") ++ s)%string by (rewrite !app_assoc'; reflexivity). rewrite (strip_ok pre dd s post Bp Bq (writes_digits _ _ Wd) (writes_digits _ _ Ws) ("-" ++ h ++ ":" ++ m ++ ":")). rewrite !replace_app, (replace_digits m (writes_digits _ _ Wm)), (replace_digits s (writes_digits _ _ Ws)), (replace_digits h (writes_digits _ _ Wh)), (replace_digits dd (writes_digits _ _ Wd)). change (replace_char "-" ":" ":") with ":"%string. change (replace_char "-" ":" "-") with ":"%string. rewrite !app_assoc'. cbn [append]. rewrite split_digits, split_digits, split_digits, split_last by eauto using writes_digits. cbn [rev app length Nat.sub repeat]. rewrite (writes_int _ _ Wm), (writes_int _ _ Ws), (writes_int _ _ Wh), (writes_int _ _ Wd). cbn [bind]. f_equal. lia.
Qed.
Print Assumptions C76_decodes.

Lemma digit_in v : 0 <= v < 10 -> exists c, In (c, v) digits /\ digit_of v = String c "".
Proof.
  intros H. assert (K : v = 0 \/ v = 1 \/ v = 2 \/ v = 3 \/ v = 4 \/ v = 5 \/ v = 6 \/ v = 7 \/ v = 8 \/ v = 9) by lia.
  repeat (destruct K as [->|K]; [eexists; split; [|reflexivity]; cbn; tauto|]). subst. eexists; split; [|reflexivity]; cbn; tauto.
Qed.
Lemma two_writes v : 0 <= v < 100 -> writes (two v) v.
Proof.
  intros H. unfold two. pose proof (Z.div_mod v 10 ltac:(lia)) as E. pose proof (Z.mod_pos_bound v 10 ltac:(lia)) as B. assert (0 <= v / 10 < 10) by (split; [apply Z.div_pos|apply Z.div_lt_upper_bound]; lia).
  destruct (digit_in (v / 10)) as (c & Hc & ->); [auto|]. destruct (digit_in (v mod 10)) as (e & He & ->); [auto|]. rewrite E. apply w_digits; [apply w_digit; auto|auto].
Qed.
Lemma some_writes v : 0 <= v -> exists s, writes s v.
Proof.
  revert v. apply (Zlt_0_ind (fun v => exists s, writes s v)). intros v IH H. destruct (Z_lt_le_dec v 10) as [L|L].
  - destruct (digit_in v) as (c & Hc & _); [lia|]. exists (String c ""). apply w_digit. auto.
  - pose proof (Z.div_mod v 10 ltac:(lia)) as E. pose proof (Z.mod_pos_bound v 10 ltac:(lia)) as B. destruct (IH (v / 10)) as [s Hs]; [split; [apply Z.div_pos; lia|apply Z.div_lt; lia]|]. destruct (digit_in (v mod 10)) as (c & Hc & _); [lia|]. exists (s ++ String c "")%string. rewrite E. apply w_digits; auto.
Qed.

Lemma etime_eq s x d : etime s x -> x = d -> etime s d.
Proof. intros H <-. exact H. Qed.

(** Every number of seconds has such a text, as ps shows it. *)
Theorem C76_every : forall d, 0 <= d -> (exists s, shown d s) /\ forall s, shown d s -> etime s d.
Proof.
  intros d H. split.
  - destruct (Z_lt_le_dec d 3600); [eexists; apply sh_minutes; auto|]. destruct (Z_lt_le_dec d 86400); [eexists; apply sh_hours; lia|]. destruct (some_writes (d / 86400)) as [n Hn]; [apply Z.div_pos; lia|]. eexists. apply sh_days; eauto.
  - pose proof (Z.div_mod d 60 ltac:(lia)) as E1. pose proof (Z.mod_pos_bound d 60 ltac:(lia)) as B1. pose proof (Z.div_mod (d / 60) 60 ltac:(lia)) as E2. pose proof (Z.mod_pos_bound (d / 60) 60 ltac:(lia)) as B2. rewrite Z.div_div in E2 by lia. change (60 * 60) with 3600 in E2.
    assert (Wm : writes (two (d / 60 mod 60)) (d / 60 mod 60)) by (apply two_writes; lia). assert (Ws : writes (two (d mod 60)) (d mod 60)) by (apply two_writes; lia).
    intros s S. destruct S as [L|L|n L W]; unfold clock.
    + assert (d / 3600 = 0) by (apply Z.div_small; lia). apply (etime_eq _ (60 * (d / 60 mod 60) + d mod 60)); [|lia]. apply et_minutes; auto.
    + assert (0 <= d / 3600 < 24) by (split; [apply Z.div_pos|apply Z.div_lt_upper_bound]; lia). apply (etime_eq _ (3600 * (d / 3600) + 60 * (d / 60 mod 60) + d mod 60)); [|lia]. apply et_hours; auto. apply two_writes; lia.
    + pose proof (Z.div_mod (d / 3600) 24 ltac:(lia)) as E3. pose proof (Z.mod_pos_bound (d / 3600) 24 ltac:(lia)) as B3. rewrite Z.div_div in E3 by lia. change (3600 * 24) with 86400 in E3. apply (etime_eq _ (86400 * (d / 86400) + 3600 * (d / 3600 mod 24) + 60 * (d / 60 mod 60) + d mod 60)); [|lia]. apply et_days; auto. apply two_writes; lia.
Qed.
Print Assumptions C76_every.

(** Any other text either has a value or is refused with ValueError. *)
Theorem C76_refused : forall s, ((exists d, elapsed s = Ok d) \/ elapsed s = Err EValue) /\
  (blank s -> elapsed s = Err EValue) /\
  (forall c, uses c s -> foreign c -> (separators s <= 3)%nat -> elapsed s = Err EValue).
Proof. intros s. split; [apply elapsed_or|split; [apply elapsed_blank|intros c; apply elapsed_foreign]]. Qed.
Print Assumptions C76_refused.

Example C76_ex_refused : uses "x" "0x:12" /\ foreign "x" /\ elapsed "0x:12" = Err EValue /\ elapsed "x:0-00:00:01" = Ok 1 /\ uses "014" (String "014" "00:00") /\ foreign "014".
Proof.
  split; [exists "0"%string, ":12"%string; reflexivity|]. split; [unfold foreign, blanks, digits; cbn; intuition (try discriminate; congruence)|]. split; [reflexivity|]. split; [reflexivity|].
  split; [exists ""%string, "00:00"%string; reflexivity|]. unfold foreign, blanks, digits; cbn; intuition (try discriminate; congruence).
Qed.

Example C76_ex : blank "   " /\ blank (String "010" "") /\ shown 93784 "1-02:03:04" /\ elapsed ("   " ++ "1-02:03:04" ++ String "010" "") = Ok 93784 /\ elapsed "02:03" = Ok 123 /\ elapsed "" = Err EValue.
Proof.
  split; [repeat (apply b_more; [cbn; tauto|]); apply b_none|]. split; [apply b_more; [cbn; tauto|apply b_none]|]. split; [|repeat split; reflexivity].
  apply (sh_days 93784 "1"); [lia|]. apply w_digit. cbn. tauto.
Qed.
