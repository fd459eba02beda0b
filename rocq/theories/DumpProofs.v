(** Proofs for C113. *)
From Coq Require Import String Ascii DecimalString DecimalPos.
From Verif Require Import PyBase PyBaseFacts QBase PomdpModel PomdpSpec PomdpProofs PomdpProofs2 Props_Pomdp TowerModel TowerProofs DumpModel DumpSpec.
From Coq Require Import Lia Lqa.
Local Open Scope list_scope.
Local Open Scope nat_scope.

(** ** Tokens *)
Lemma push_app w l x : push w (l ++ x) = push w l ++ x.
Proof. destruct w; reflexivity. Qed.
Lemma words_blank c s2 : blank c = true -> forall s1, words (s1 ++ String c s2) = (fst (words s1), snd (words s1) ++ tokens s2).
Proof.
  intros H. induction s1 as [|d s1 IH]; cbn [words append].
  - rewrite H. unfold tokens. destruct (words s2); reflexivity.
  - rewrite IH. destruct (words s1) as [w l]. cbn [fst snd]. destruct (blank d); [cbn [fst snd]; rewrite push_app; reflexivity|]. destruct (colon d); cbn [fst snd]; [rewrite push_app|]; reflexivity.
Qed.
Lemma tokens_blank c s1 s2 : blank c = true -> tokens (s1 ++ String c s2) = tokens s1 ++ tokens s2.
Proof. intros H. unfold tokens at 1. rewrite (words_blank c s2 H s1). cbn [fst snd]. apply push_app. Qed.
Lemma words_colon s2 : forall s1, words (s1 ++ String ":" s2) = (fst (words s1), snd (words s1) ++ ":"%string :: tokens s2).
Proof.
  induction s1 as [|d s1 IH]; cbn [words append].
  - unfold tokens. destruct (words s2); reflexivity.
  - rewrite IH. destruct (words s1) as [w l]. cbn [fst snd]. destruct (blank d); [cbn [fst snd]; rewrite push_app; reflexivity|]. destruct (colon d); cbn [fst snd]; [rewrite push_app|]; reflexivity.
Qed.
Lemma tokens_colon s1 s2 : tokens (s1 ++ String ":" s2) = tokens s1 ++ ":"%string :: tokens s2.
Proof. unfold tokens at 1. rewrite words_colon. cbn [fst snd]. apply push_app. Qed.
Lemma tokens_space s1 s2 : tokens (s1 ++ " " ++ s2) = tokens s1 ++ tokens s2.
Proof. apply tokens_blank. reflexivity. Qed.
Lemma tokens_nl s1 s2 : tokens (s1 ++ nl ++ s2) = tokens s1 ++ tokens s2.
Proof. apply tokens_blank. reflexivity. Qed.
Lemma tokens_lead c s : blank c = true -> tokens (String c s) = tokens s.
Proof. intros H. exact (tokens_blank c "" s H). Qed.
Lemma tokens_sep s1 s2 : tokens (s1 ++ " : " ++ s2) = tokens s1 ++ ":"%string :: tokens s2.
Proof. cbn [append]. rewrite tokens_blank by reflexivity. f_equal. etransitivity; [exact (tokens_colon "" (String " " s2))|]. cbn [tokens words push fst snd app]. rewrite tokens_lead by reflexivity. reflexivity. Qed.
Lemma tokens_head s1 s2 : tokens (s1 ++ ": " ++ s2) = tokens s1 ++ ":"%string :: tokens s2.
Proof. cbn [append]. rewrite tokens_colon. rewrite tokens_lead by reflexivity. reflexivity. Qed.
Lemma concat_cons sep x l : String.concat sep (x :: l) = match l with [] => x | _ => (x ++ sep ++ String.concat sep l)%string end.
Proof. destruct l; reflexivity. Qed.
Lemma tokens_concat sep l : (forall s1 s2, tokens (s1 ++ sep ++ s2) = tokens s1 ++ tokens s2) -> tokens (String.concat sep l) = flat_map tokens l.
Proof.
  intros H. induction l as [|x l IH]; [reflexivity|]. rewrite concat_cons. cbn [flat_map]. destruct l as [|y l]; [cbn [flat_map]; rewrite app_nil_r; reflexivity|]. rewrite H, IH. reflexivity.
Qed.
Lemma tokens_nlnl s1 s2 : tokens (s1 ++ (nl ++ nl) ++ s2) = tokens s1 ++ tokens s2.
Proof. change ((nl ++ nl) ++ s2)%string with (nl ++ (nl ++ s2))%string. rewrite tokens_nl. f_equal. exact (tokens_nl "" s2). Qed.
Fixpoint clean (s : string) : bool := match s with EmptyString => true | String c t => negb (blank c) && negb (colon c) && clean t end.
Lemma words_clean s : clean s = true -> words s = (s, []).
Proof. induction s as [|c s IH]; cbn [clean words]; [reflexivity|]. intros H. apply andb_prop in H. destruct H as [H1 H2]. apply andb_prop in H1. destruct H1 as [H0 H1]. rewrite (IH H2). destruct (blank c); [discriminate|]. destruct (colon c); [discriminate|]. reflexivity. Qed.
Lemma tokens_clean s : clean s = true -> s <> EmptyString -> tokens s = [s].
Proof. intros H N. unfold tokens. rewrite words_clean by auto. cbn. destruct s; [congruence|reflexivity]. Qed.
Lemma clean_app a b : clean (a ++ b) = clean a && clean b.
Proof. induction a as [|c a IH]; [reflexivity|]. cbn [append clean]. rewrite IH. apply andb_assoc. Qed.
Lemma app_assoc_s (a b c : string) : ((a ++ b) ++ c)%string = (a ++ b ++ c)%string.
Proof. induction a as [|x a IH]; [reflexivity|]. cbn [append]. rewrite IH. reflexivity. Qed.

(** ** Numbers *)
Section Horner.
  Context {X : Type} (F : Z -> string -> X).
  Hypothesis HF : forall acc c t d, digit_value c = Some d -> F acc (String c t) = F (10 * acc + d)%Z t.
  Ltac step := match goal with |- F _ (String ?c _) = _ => let v := eval vm_compute in (digit_value c) in match v with Some ?d => rewrite (HF _ c _ d eq_refl) end end.
  Lemma horner_acc d : forall acc s, F (Zpos acc) (NilEmpty.string_of_uint d ++ s) = F (Zpos (Pos.of_uint_acc d acc)) s.
  Proof. induction d; intros acc s; cbn [NilEmpty.string_of_uint append Pos.of_uint_acc]; [reflexivity|..]; step; rewrite <- IHd; f_equal; rewrite ?Pos2Z.inj_add, ?Pos2Z.inj_mul; lia. Qed.
  Lemma horner_zero d s : F 0%Z (NilEmpty.string_of_uint d ++ s) = F (Z.of_N (Pos.of_uint d)) s.
  Proof.
    induction d; cbn [NilEmpty.string_of_uint append Pos.of_uint]; [reflexivity|..]; step.
    - exact IHd.
    - exact (horner_acc d 1 s).
    - exact (horner_acc d 2 s).
    - exact (horner_acc d 3 s).
    - exact (horner_acc d 4 s).
    - exact (horner_acc d 5 s).
    - exact (horner_acc d 6 s).
    - exact (horner_acc d 7 s).
    - exact (horner_acc d 8 s).
    - exact (horner_acc d 9 s).
  Qed.
  Lemma horner_int n s : (0 <= n)%Z -> F 0%Z (str_int n ++ s) = F n s.
  Proof.
    intros P. unfold str_int. destruct n as [|p|p]; [cbn [Z.to_int NilZero.string_of_int NilZero.string_of_uint append]| |lia].
    - change (F 0%Z (String "0" s) = F 0%Z s). step. reflexivity.
    - cbn [Z.to_int NilZero.string_of_int]. unfold NilZero.string_of_uint. destruct (Pos.to_uint p) eqn:Ep; [apply Unsigned.to_uint_nonnil in Ep; destruct Ep|..]; rewrite <- Ep, horner_zero, Unsigned.of_to; reflexivity.
  Qed.
End Horner.
Lemma digit_value_of d : (0 <= d < 10)%Z -> digit_value (ascii_of_nat (48 + Z.to_nat d)) = Some d.
Proof. intros H. assert (In d (map Z.of_nat (seq 0 10))) as I by (apply in_map_iff; exists (Z.to_nat d); split; [lia|apply in_seq; lia]). cbn in I. repeat (destruct I as [<-|I]; [reflexivity|]). destruct I. Qed.
Lemma str_int_digits n : (0 <= n)%Z -> exists c t, str_int n = String c t /\ exists d, digit_value c = Some d.
Proof.
  intros P. destruct (str_int n) as [|c t] eqn:E.
  - exfalso. pose proof (horner_int (fun acc s => (acc, s)) (X := Z * string)) as _. unfold str_int in E. destruct n as [|p|p]; [discriminate| |lia]. cbn [Z.to_int NilZero.string_of_int] in E. unfold NilZero.string_of_uint in E. destruct (Pos.to_uint p); discriminate.
  - exists c, t. split; [reflexivity|]. assert (Hc : has c (str_int n)) by (rewrite E; left; auto). apply (str_chars n c P) in Hc. repeat (destruct Hc as [<-|Hc]; [eexists; reflexivity|]). destruct Hc.
Qed.
Lemma digit_clean c d : digit_value c = Some d -> blank c = false /\ colon c = false /\ (nat_of_ascii c =? 45) = false.
Proof.
  unfold digit_value, blank, colon. set (n := nat_of_ascii c). destruct (Nat.leb_spec 48 n), (Nat.leb_spec n 57); cbn [andb]; try discriminate. intros _.
  split; [|split]; [destruct (Nat.leb_spec 9 n), (Nat.leb_spec n 13), (Nat.eqb_spec n 32); cbn; auto; lia|apply Nat.eqb_neq; lia|apply Nat.eqb_neq; lia].
Qed.
Lemma str_int_clean n : (0 <= n)%Z -> clean (str_int n) = true.
Proof.
  intros P. assert (H : forall c, has c (str_int n) -> exists d, digit_value c = Some d) by (intros c Hc; apply (str_chars n c P) in Hc; repeat (destruct Hc as [<-|Hc]; [eexists; reflexivity|]); destruct Hc).
  revert H. generalize (str_int n). induction s as [|c s IH]; intros H; [reflexivity|]. cbn [clean]. destruct (H c (or_introl eq_refl)) as [d D]. destruct (digit_clean c d D) as (-> & -> & _). apply IH. intros x Hx. apply H. right. exact Hx.
Qed.

Definition val5 (z : Z) : Q := if (z <? 0)%Z then Qopp (inject_Z (Z.abs z) / inject_Z (10 ^ 5)) else (inject_Z (Z.abs z) / inject_Z (10 ^ 5))%Q.
Lemma val5_eq z : (val5 z == inject_Z z / 100000)%Q.
Proof.
  unfold val5. change (inject_Z (10 ^ 5)) with 100000%Q. destruct (Z.ltb_spec z 0).
  - rewrite Z.abs_neq by lia. rewrite inject_Z_opp. field.
  - rewrite Z.abs_eq by lia. reflexivity.
Qed.
Definition unsigned5 (n : Z) : string :=
  (str_int (n / 100000) ++ "." ++ digit (n / 10000 mod 10) ++ digit (n / 1000 mod 10) ++ digit (n / 100 mod 10) ++ digit (n / 10 mod 10) ++ digit (n mod 10))%string.
Lemma unsigned_read n : (0 <= n)%Z -> unsigned (unsigned5 n) = Some (inject_Z n / inject_Z (10 ^ 5))%Q.
Proof.
  intros P. assert (P5 : (0 <= n / 100000)%Z) by (apply Z.div_pos; lia). destruct (str_int_digits _ P5) as (c & t & E & d & D).
  unfold unsigned. unfold unsigned5 at 1. rewrite E. cbn [append]. rewrite D. change (String c (t ++ ?x)) with (String c t ++ x)%string. unfold unsigned5. rewrite E. cbn [append]. change (String c (t ++ ?x)) with (String c t ++ x)%string. rewrite <- E.
  rewrite (horner_int (fun acc s => decimal acc None s)); [|intros acc c0 t0 d0 H0; cbn [decimal]; rewrite H0; reflexivity|exact P5].
  cbn [append decimal]. change (digit_value ".") with (@None Z). cbn [andb]. change (nat_of_ascii "." =? 46) with true. cbn [andb]. unfold digit. cbn [append decimal].
  assert (M : forall x, (0 <= x mod 10 < 10)%Z) by (intros x; apply Z.mod_pos_bound; lia).
  rewrite !digit_value_of by apply M. cbn [option_map]. change (Z.of_nat 5) with 5%Z.
  match goal with |- Some (inject_Z ?x / _)%Q = _ => assert (x = n) as ->; [|reflexivity] end.
  assert (Dv : forall k, (0 < k)%Z -> (n / (k * 10) = n / k / 10)%Z) by (intros k Hk; rewrite Z.div_div by lia; reflexivity).
  change 100000%Z with (10000 * 10)%Z at 1. rewrite (Dv 10000%Z) by lia. change 10000%Z with (1000 * 10)%Z. rewrite (Dv 1000%Z) by lia. change 1000%Z with (100 * 10)%Z. rewrite (Dv 100%Z) by lia. change 100%Z with (10 * 10)%Z. rewrite (Dv 10%Z) by lia.
  pose proof (Z.div_mod n 10 ltac:(lia)). set (n1 := (n / 10)%Z) in *. pose proof (Z.div_mod n1 10 ltac:(lia)). set (n2 := (n1 / 10)%Z) in *. pose proof (Z.div_mod n2 10 ltac:(lia)). set (n3 := (n2 / 10)%Z) in *.
  pose proof (Z.div_mod n3 10 ltac:(lia)). set (n4 := (n3 / 10)%Z) in *. pose proof (Z.div_mod n4 10 ltac:(lia)). set (n5 := (n4 / 10)%Z) in *. lia.
Qed.
Lemma number_show z : number (show5 z) = Some (val5 z).
Proof.
  unfold val5, show5. fold (unsigned5 (Z.abs z)). assert (P : (0 <= Z.abs z)%Z) by lia. pose proof (unsigned_read _ P) as U. destruct (Z.ltb_spec z 0).
  - cbn [append number]. change (nat_of_ascii "-" =? 45) with true. cbn iota. rewrite U. reflexivity.
  - cbn [append]. assert (P5 : (0 <= Z.abs z / 100000)%Z) by (apply Z.div_pos; lia). destruct (str_int_digits _ P5) as (c & t & E & d & D).
    rewrite <- U. unfold number, unsigned5. rewrite E. cbn [append]. destruct (digit_clean c d D) as (_ & _ & ->). reflexivity.
Qed.
Lemma digit_clean5 x : clean (digit (x mod 10)) = true.
Proof. unfold digit. cbn [clean]. pose proof (digit_value_of (x mod 10) (Z.mod_pos_bound x 10 ltac:(lia))) as D. destruct (digit_clean _ _ D) as (-> & -> & _). reflexivity. Qed.
Lemma show_tokens z : tokens (show5 z) = [show5 z].
Proof.
  apply tokens_clean.
  - unfold show5. rewrite !clean_app, !digit_clean5, str_int_clean by (apply Z.div_pos; lia). destruct (z <? 0)%Z; reflexivity.
  - unfold show5. destruct (z <? 0)%Z; [discriminate|]. destruct (str_int_digits (Z.abs z / 100000)) as (c & t & -> & _); [apply Z.div_pos; lia|discriminate].
Qed.
Lemma app_nil_s (s : string) : (s ++ "")%string = s.
Proof. induction s as [|c s IH]; [reflexivity|]. cbn [append]. rewrite IH. reflexivity. Qed.
Lemma whole_int n : whole (str_int (Z.of_nat n)) = Some n.
Proof.
  destruct (str_int_digits (Z.of_nat n)) as (c & t & E & _); [lia|]. unfold whole. rewrite E, <- E.
  rewrite <- (app_nil_s (str_int (Z.of_nat n))). rewrite (horner_int digits_value); [|intros acc c0 t0 d0 H0; cbn [digits_value]; rewrite H0; reflexivity|lia]. cbn. rewrite Nat2Z.id. reflexivity.
Qed.

(** ** Rows *)
Lemma sum_val l : (sumQ (map val5 l) == inject_Z (sumZ l) / 100000)%Q.
Proof.
  induction l as [|z l IH]; [reflexivity|]. cbn [map]. change (sumQ (val5 z :: map val5 l)) with (val5 z + sumQ (map val5 l))%Q. rewrite IH, val5_eq. cbn [sumZ fold_right]. fold (sumZ l). rewrite inject_Z_plus. field.
Qed.
Lemma scaled a z e : (Qabs (a * 100000 - inject_Z z) <= e)%Q -> (Qabs (a - inject_Z z / 100000) <= e / 100000)%Q.
Proof.
  intros H. setoid_replace (a - inject_Z z / 100000)%Q with ((a * 100000 - inject_Z z) * (1 # 100000))%Q by field. rewrite Qabs_Qmult. change (Qabs (1 # 100000)) with (1 # 100000).
  setoid_replace (e / 100000)%Q with (e * (1 # 100000))%Q by field. apply Qmult_le_compat_r; [exact H|discriminate].
Qed.
Lemma Qabs_wd' a b : (a == b)%Q -> (Qabs a == Qabs b)%Q.
Proof. intros ->. reflexivity. Qed.
Lemma written_dump a l : dump_1d_array a = Ok l -> written a (map val5 l).
Proof.
  intros E. destruct (C46_dump a l E) as (L & [S1 _] & k & Hk & Hi & Hm). split; [rewrite map_length; exact L|].
  assert (N : forall i, (nth i (map val5 l) 0 == inject_Z (nth i l 0%Z) / 100000)%Q).
  { intros i. rewrite <- val5_eq. destruct (Nat.lt_ge_cases i (length l)) as [Hl|Hl].
    - rewrite (nth_indep _ _ (val5 0)) by (rewrite map_length; exact Hl). rewrite map_nth. reflexivity.
    - rewrite !nth_overflow by (rewrite ?map_length; exact Hl). rewrite val5_eq. reflexivity. }
  split; [intros x Hx; apply in_map_iff in Hx; destruct Hx as (z & <- & _); exists z; apply val5_eq|].
  split; [|split].
  - rewrite (Qabs_wd' _ (sumQ a - inject_Z (sumZ l) / 100000)%Q) by (rewrite sum_val; reflexivity). apply Qle_trans with ((1 # 2) / 100000)%Q; [apply scaled; exact S1|vm_compute; discriminate].
  - intros Ea. rewrite sum_val. rewrite (Qabs_wd' _ (100000 - inject_Z (sumZ l))%Q) in S1 by (rewrite Ea; ring).
    assert (sumZ l = 100000%Z) as ->; [|reflexivity].
    apply Qabs_Qle_condition in S1. destruct S1 as [S1 S2].
    assert (A1 : (inject_Z (sumZ l) < inject_Z 100001)%Q) by (change (inject_Z 100001) with 100001%Q; lra). assert (A2 : (inject_Z 99999 < inject_Z (sumZ l))%Q) by (change (inject_Z 99999) with 99999%Q; lra).
    rewrite <- Zlt_Qlt in A1, A2. lia.
  - exists k. split; [exact Hk|]. split.
    + intros i Hl Ne. destruct (Hi i Hl Ne) as [D _]. rewrite (Qabs_wd' _ (nth i a 0 - inject_Z (nth i l 0%Z) / 100000)%Q) by (rewrite N; reflexivity). apply Qle_trans with ((1 # 2) / 100000)%Q; [apply scaled; exact D|vm_compute; discriminate].
    + rewrite (Qabs_wd' _ (nth k a 0 - inject_Z (nth k l 0%Z) / 100000)%Q) by (rewrite N; reflexivity). apply scaled. exact Hm.
Qed.
Lemma dump_total a : a <> [] -> exists l, dump_1d_array a = Ok l.
Proof.
  intros H. unfold dump_1d_array. destruct (argmax_spec (map around5 a)) as (k & -> & _); [destruct a; [congruence|discriminate]|]. cbn [bind]. eauto.
Qed.
Lemma row_written a : a <> [] -> exists t l, dump_1d a = Ok t /\ tokens t = map show5 l /\ length l = length a /\ written a (map val5 l).
Proof.
  intros H. destruct (dump_total a H) as [l E]. exists (String.concat " " (map show5 l)), l. unfold dump_1d. rewrite E. cbn [bind]. split; [reflexivity|]. split.
  - rewrite (tokens_concat " ") by apply tokens_space. clear. induction l as [|z l IH]; [reflexivity|]. cbn [map flat_map]. rewrite show_tokens, IH. reflexivity.
  - split; [apply (C46_dump a l E)|apply written_dump; exact E].
Qed.

(** ** Matrices *)
Definition flat (L : list (list Z)) : list string := flat_map (map show5) L.
Definition mat (L : list (list Z)) : matrix := map (map val5) L.
Definition good_block (n m : nat) (f : nat -> nat -> Q) (L : list (list Z)) : Prop :=
  length L = n /\ Forall (fun l => length l = m) L /\ forall i, i < n -> written (map (f i) (seq 0 m)) (nth i (mat L) []).
Lemma mapM_exists {A B} (f : A -> res B) l : (forall x, In x l -> exists y, f x = Ok y) -> exists ys, mapM f l = Ok ys.
Proof. induction l as [|x l IH]; intros H; [exists []; reflexivity|]. destruct (H x (or_introl eq_refl)) as [y E]. destruct IH as [ys Es]; [intros z Hz; apply H; right; exact Hz|]. exists (y :: ys). cbn [mapM]. rewrite E. cbn [bind]. rewrite Es. reflexivity. Qed.
Lemma mapM_build {A B C} (f : A -> res B) (R : A -> B -> C -> Prop) l : (forall x, In x l -> exists y z, f x = Ok y /\ R x y z) ->
  exists ys zs, mapM f l = Ok ys /\ length ys = length l /\ length zs = length l /\ forall i x, nth_error l i = Some x -> exists y z, nth_error ys i = Some y /\ nth_error zs i = Some z /\ R x y z.
Proof.
  induction l as [|x l IH]; intros H.
  - exists [], []. split; [reflexivity|]. split; [reflexivity|]. split; [reflexivity|]. intros [|i] x E; discriminate.
  - destruct (H x (or_introl eq_refl)) as (y & z & E & HR). destruct IH as (ys & zs & Es & L1 & L2 & HI); [intros w Hw; apply H; right; exact Hw|].
    exists (y :: ys), (z :: zs). cbn [mapM]. rewrite E. cbn [bind]. rewrite Es. cbn [bind length]. split; [reflexivity|]. split; [rewrite L1; reflexivity|]. split; [rewrite L2; reflexivity|].
    intros [|i] w; cbn [nth_error]; [intros Ew; assert (w = x) as -> by congruence; eauto|apply HI].
Qed.
Lemma nth_error_seq n i x : nth_error (seq 0 n) i = Some x -> x = i /\ i < n.
Proof.
  intros E. assert (i < n) by (rewrite <- (seq_length n 0); apply nth_error_Some; congruence). rewrite (nth_error_nth' _ 0) in E by (rewrite seq_length; auto). rewrite seq_nth in E by auto. cbn in E. split; [congruence|auto].
Qed.
Lemma flat_nth (ts : list string) (L : list (list Z)) : length ts = length L -> (forall i t l, nth_error ts i = Some t -> nth_error L i = Some l -> tokens t = map show5 l) -> flat_map tokens ts = flat L.
Proof.
  revert L. induction ts as [|t ts IH]; intros [|l L] HL H; try discriminate; [reflexivity|]. cbn [flat_map flat]. rewrite (H 0 t l eq_refl eq_refl). unfold flat in IH |- *. cbn [flat_map]. f_equal. apply IH; [cbn in HL; lia|]. intros i t' l' E1 E2. exact (H (S i) t' l' E1 E2).
Qed.
Lemma block2 a n m : shape a = [n; m] -> 0 < m -> exists t L, dump_2d a = Ok t /\ tokens t = flat L /\ good_block n m (fun i k => at_ a [i; k]) L.
Proof.
  intros Sh Hm. unfold dump_2d. rewrite Sh. cbn [hd].
  destruct (mapM_build (fun i => dump_1d (row a [i])) (fun i t l => tokens t = map show5 l /\ length l = m /\ written (map (fun k => at_ a [i; k]) (seq 0 m)) (map val5 l)) (seq 0 n)) as (ts & L & E & L1 & L2 & H).
  { intros i _. assert (Er : row a [i] = map (fun k => at_ a [i; k]) (seq 0 m)) by (unfold row; rewrite Sh; reflexivity).
    destruct (row_written (row a [i])) as (t & l & E & T & Ll & W); [rewrite Er; destruct m; [lia|discriminate]|]. exists t, l. split; [exact E|]. split; [exact T|]. rewrite Er in Ll, W. rewrite map_length, seq_length in Ll. split; assumption. }
  rewrite E. cbn [bind]. rewrite seq_length in L1, L2. exists (String.concat nl ts), L. split; [reflexivity|]. split.
  - rewrite (tokens_concat nl) by apply tokens_nl. apply flat_nth; [congruence|]. intros i t l E1 E2. assert (Hi : i < n) by (rewrite <- L1; apply nth_error_Some; congruence).
    destruct (H i i) as (y & z & Y & Z0 & HT & _); [rewrite (nth_error_nth' _ 0) by (rewrite seq_length; exact Hi); rewrite seq_nth by exact Hi; reflexivity|]. congruence.
  - split; [exact L2|]. split.
    + apply Forall_forall. intros l Hl. apply In_nth_error in Hl. destruct Hl as [i Ei]. assert (Hi : i < n) by (rewrite <- L2; apply nth_error_Some; congruence).
      destruct (H i i) as (y & z & Y & Z0 & _ & HL & _); [rewrite (nth_error_nth' _ 0) by (rewrite seq_length; exact Hi); rewrite seq_nth by exact Hi; reflexivity|]. congruence.
    + intros i Hi. destruct (H i i) as (y & z & Y & Z0 & _ & _ & HW); [rewrite (nth_error_nth' _ 0) by (rewrite seq_length; exact Hi); rewrite seq_nth by exact Hi; reflexivity|].
      assert (nth i (mat L) [] = map val5 z) as ->; [|exact HW]. unfold mat. change [] with (map val5 []). rewrite map_nth. f_equal. apply nth_error_nth. exact Z0.
Qed.
Lemma take_numbers_ok l rest : take_numbers (length l) (map show5 l ++ rest) = Some (map val5 l, rest).
Proof. induction l as [|z l IH]; [reflexivity|]. cbn [length map app take_numbers take_word obind fst snd]. rewrite number_show. cbn [obind]. rewrite IH. reflexivity. Qed.
Lemma take_rows_ok m L rest : Forall (fun l => length l = m) L -> take_rows (length L) m (flat L ++ rest) = Some (mat L, rest).
Proof.
  induction 1 as [|l L Hl _ IH]; [reflexivity|]. cbn [length take_rows flat flat_map]. unfold flat in *. rewrite <- app_assoc. rewrite <- Hl at 1. rewrite take_numbers_ok. cbn [obind snd fst]. rewrite IH. reflexivity.
Qed.

(** Blocks of a table: each with the tokens of its title *)
Definition titled (nm : string) (xb : list string * list (list Z)) : list string := nm :: ":"%string :: fst xb ++ flat (snd xb).
Lemma titled_nth nm xs : forall ts Ls, length ts = length xs -> length Ls = length xs ->
  (forall i, i < length xs -> exists x t L, nth_error xs i = Some x /\ nth_error ts i = Some t /\ nth_error Ls i = Some L /\ tokens t = titled nm (tokens x, L)) ->
  flat_map tokens ts = flat_map (titled nm) (combine (map tokens xs) Ls).
Proof.
  induction xs as [|x xs IH]; intros ts Ls L1 L2 HN.
  - destruct ts; [|discriminate]. reflexivity.
  - destruct ts as [|t ts]; [discriminate|]. destruct Ls as [|L Ls]; [discriminate|]. cbn [flat_map map combine]. destruct (HN 0) as (x' & t' & L' & A1 & A2 & A3 & A4); [cbn; lia|]. cbn in A1, A2, A3.
    assert (x' = x) as -> by congruence. assert (t' = t) as -> by congruence. assert (L' = L) as -> by congruence. rewrite A4. f_equal. apply IH; cbn in L1, L2; try lia; auto.
    intros i Hi. destruct (HN (S i)) as (x' & t' & L' & B1 & B2 & B3 & B4); [cbn; lia|]. exists x', t', L'. auto.
Qed.
Lemma block3 a nm c n m xs : shape a = [c; n; m] -> 0 < m -> length xs = c -> tokens nm = [nm] ->
  exists t Ls, dump_3d a nm xs = Ok t /\ length Ls = c /\ tokens t = flat_map (titled nm) (combine (map tokens xs) Ls) /\
    forall i, i < c -> good_block n m (fun j k => at_ a [i; j; k]) (nth i Ls []).
Proof.
  intros Sh Hm Hx Hnm. unfold dump_3d, enumerate.
  destruct (mapM_build (fun ix : nat * string => do b <- slice a (fst ix); do t <- dump_2d b; Ok (nm ++ " : " ++ snd ix ++ nl ++ t)%string)
     (fun ix t L => tokens t = titled nm (tokens (snd ix), L) /\ good_block n m (fun j k => at_ a [fst ix; j; k]) L) (combine (seq 0 (length xs)) xs)) as (ts & Ls & E & L1 & L2 & H).
  { intros [i x] Hi. apply in_combine_l in Hi. apply in_seq in Hi. cbn [fst snd]. unfold slice. rewrite Sh. cbn [hd]. destruct (Nat.ltb_spec i c); [|lia]. cbn [bind].
    destruct (block2 {| shape := tl [c; n; m]; at_ := fun idx => at_ a (i :: idx) |} n m eq_refl Hm) as (t & L & E & T & G). rewrite E. cbn [bind]. eexists _, L. split; [reflexivity|]. split; [|exact G].
    rewrite tokens_sep, tokens_nl, T, Hnm. reflexivity. }
  rewrite combine_length, seq_length, Nat.min_id, Hx in L1, L2. rewrite E. cbn [bind]. exists (String.concat nl ts), Ls. split; [reflexivity|]. split; [exact L2|].
  assert (HN : forall i, i < c -> exists x t L, nth_error xs i = Some x /\ nth_error ts i = Some t /\ nth_error Ls i = Some L /\ tokens t = titled nm (tokens x, L) /\ good_block n m (fun j k => at_ a [i; j; k]) L).
  { intros i Hi. destruct (nth_error xs i) as [x|] eqn:Ex; [|apply nth_error_None in Ex; lia]. destruct (H i (i, x)) as (t & L & E1 & E2 & E3 & E4); [|eauto 10].
    clear -Ex Hi Hx. rewrite <- Hx in Hi. assert (G : forall (l : list string) o j y, nth_error l j = Some y -> nth_error (combine (seq o (length l)) l) j = Some (o + j, y)).
    { induction l as [|z l IH]; intros o [|j] y Ey; try discriminate; cbn [length seq combine nth_error] in *; [rewrite Nat.add_0_r; congruence|]. rewrite (IH (S o) j y Ey). f_equal. f_equal. lia. }
    exact (G xs 0 i x Ex). }
  split.
  - rewrite (tokens_concat nl) by apply tokens_nl. apply titled_nth; [congruence|congruence|]. intros i Hi. rewrite Hx in Hi. destruct (HN i Hi) as (x & t & L & A1 & A2 & A3 & A4 & _). eauto 10.
  - intros i Hi. destruct (HN i Hi) as (x & t & L & A1 & A2 & A3 & A4 & A5). rewrite (nth_error_nth _ _ _ A3). exact A5.
Qed.
Lemma joined {A B} (g : A -> B -> list string) xs : forall ts Ls, length ts = length xs -> length Ls = length xs ->
  (forall i x, nth_error xs i = Some x -> exists t L, nth_error ts i = Some t /\ nth_error Ls i = Some L /\ tokens t = g x L) ->
  flat_map tokens ts = flat_map (fun xL => g (fst xL) (snd xL)) (combine xs Ls).
Proof.
  induction xs as [|x xs IH]; intros ts Ls L1 L2 HN.
  - destruct ts; [|discriminate]. reflexivity.
  - destruct ts as [|t ts]; [discriminate|]. destruct Ls as [|L Ls]; [discriminate|]. cbn [flat_map combine fst snd]. destruct (HN 0 x eq_refl) as (t' & L' & A2 & A3 & A4). cbn in A2, A3.
    assert (t' = t) as -> by congruence. assert (L' = L) as -> by congruence. rewrite A4. f_equal. apply IH; cbn in L1, L2; try lia; auto.
    intros i y Hi. exact (HN (S i) y Hi).
Qed.
Lemma nth_enumerate {A} (l : list A) : forall o j y, nth_error l j = Some y -> nth_error (combine (seq o (length l)) l) j = Some (o + j, y).
Proof. induction l as [|z l IH]; intros o [|j] y Ey; try discriminate; cbn [length seq combine nth_error] in *; [rewrite Nat.add_0_r; congruence|]. rewrite (IH (S o) j y Ey). f_equal. f_equal. lia. Qed.
Lemma block4 a nm c d n m xs ys : shape a = [c; d; n; m] -> 0 < m -> length xs = c -> length ys = d -> tokens nm = [nm] ->
  exists t Lss, dump_4d a nm xs ys = Ok t /\ length Lss = c /\
    tokens t = flat_map (fun xL => flat_map (titled nm) (combine (map (fun y => tokens (fst xL) ++ ":"%string :: tokens y) ys) (snd xL))) (combine xs Lss) /\
    forall i, i < c -> length (nth i Lss []) = d /\ forall j, j < d -> good_block n m (fun k l => at_ a [i; j; k; l]) (nth j (nth i Lss []) []).
Proof.
  intros Sh Hm Hx Hy Hnm. unfold dump_4d, enumerate.
  destruct (mapM_build (fun ix : nat * string => do b <- slice a (fst ix); dump_3d b nm (map (fun y => (snd ix ++ " : " ++ y)%string) ys))
     (fun ix t Ls => tokens t = flat_map (titled nm) (combine (map (fun y => tokens (snd ix) ++ ":"%string :: tokens y) ys) Ls) /\ length Ls = d /\
        forall j, j < d -> good_block n m (fun k l => at_ a [fst ix; j; k; l]) (nth j Ls [])) (combine (seq 0 (length xs)) xs)) as (ts & Lss & E & L1 & L2 & H).
  { intros [i x] Hi. apply in_combine_l in Hi. apply in_seq in Hi. cbn [fst snd]. unfold slice. rewrite Sh. cbn [hd]. destruct (Nat.ltb_spec i c); [|lia]. cbn [bind].
    destruct (block3 {| shape := tl [c; d; n; m]; at_ := fun idx => at_ a (i :: idx) |} nm d n m (map (fun y => (x ++ " : " ++ y)%string) ys) eq_refl Hm) as (t & Ls & E & L & T & G); [rewrite map_length; exact Hy|exact Hnm|].
    exists t, Ls. split; [exact E|]. split; [|split; [exact L|exact G]]. rewrite T, map_map. f_equal. f_equal. apply map_ext. intros y. apply tokens_sep. }
  rewrite combine_length, seq_length, Nat.min_id, Hx in L1, L2. rewrite E. cbn [bind]. exists (String.concat nl ts), Lss. split; [reflexivity|]. split; [exact L2|].
  assert (HN : forall i x, nth_error xs i = Some x -> exists t Ls, nth_error ts i = Some t /\ nth_error Lss i = Some Ls /\ tokens t = flat_map (titled nm) (combine (map (fun y => tokens x ++ ":"%string :: tokens y) ys) Ls) /\ length Ls = d /\
        forall j, j < d -> good_block n m (fun k l => at_ a [i; j; k; l]) (nth j Ls [])).
  { intros i x Ex. destruct (H i (i, x) (nth_enumerate xs 0 i x Ex)) as (t & Ls & HH). exists t, Ls. cbn [fst snd] in HH. tauto. }
  split.
  - rewrite (tokens_concat nl) by apply tokens_nl. apply (joined (fun x Ls => flat_map (titled nm) (combine (map (fun y => tokens x ++ ":"%string :: tokens y) ys) Ls))); [congruence|congruence|]. intros i x Ex. destruct (HN i x Ex) as (t & Ls & A1 & A2 & A3 & _). eauto.
  - intros i Hi. destruct (nth_error xs i) as [x|] eqn:Ex; [|apply nth_error_None in Ex; lia]. destruct (HN i x Ex) as (t & Ls & _ & A2 & _ & A4 & A5). rewrite (nth_error_nth _ _ _ A2). auto.
Qed.

(** ** Reading the tables *)
Section Reading.
  Variables ds da do_ : declared.
  Definition resolves (d : declared) (o : nat) (xs : list string) : Prop := forall j x, nth_error xs j = Some x -> tokens x = [x] /\ resolve d x = Some (o + j).
  Definition rect (n m : nat) (L : list (list Z)) : Prop := length L = n /\ Forall (fun l => length l = m) L.
  Definition in_range (o len i : nat) : bool := (o <=? i) && (i <? o + len).
  Lemma rect_rows n m L rest : rect n m L -> take_rows n m (flat L ++ rest) = Some (mat L, rest).
  Proof. intros [<- F]. apply take_rows_ok. exact F. Qed.
  Lemma resolves_tl d o x xs : resolves d o (x :: xs) -> tokens x = [x] /\ resolve d x = Some o /\ resolves d (S o) xs.
  Proof. intros H. destruct (H 0 x eq_refl) as [H1 H2]. rewrite Nat.add_0_r in H2. split; [exact H1|]. split; [exact H2|]. intros j y E. destruct (H (S j) y E) as [A B]. rewrite Nat.add_succ_r in B. auto. Qed.
  Lemma entries_T xs : forall Ls o k rest t, length Ls = length xs -> resolves da o xs -> Forall (rect (declared_size ds) (declared_size ds)) Ls ->
    exists t', entries ds da do_ (length xs + k) (flat_map (titled "T") (combine (map tokens xs) Ls) ++ rest) t = entries ds da do_ k rest t' /\ f_O t' = f_O t /\ f_R t' = f_R t /\
      forall i, f_T t' i = if in_range o (length xs) i then Some (mat (nth (i - o) Ls [])) else f_T t i.
  Proof.
    induction xs as [|x xs IH]; intros Ls o k rest t HL HR HF.
    - destruct Ls; [|discriminate]. exists t. split; [reflexivity|]. split; [reflexivity|]. split; [reflexivity|]. intros i. unfold in_range. cbn [length]. destruct (Nat.leb_spec o i), (Nat.ltb_spec i (o + 0)); cbn; try reflexivity; lia.
    - destruct Ls as [|L Ls]; [discriminate|]. apply resolves_tl in HR. destruct HR as (Tx & Rx & HR). inversion HF as [|? ? HF1 HF2]; subst.
      destruct (IH Ls (S o) k rest {| f_T := set_at (f_T t) o (Some (mat L)); f_O := f_O t; f_R := f_R t |}) as (t' & E & E1 & E2 & E3); [cbn in HL; lia|exact HR|exact HF2|].
      exists t'. split; [|split; [exact E1|split; [exact E2|]]].
      + cbn [map combine flat_map length Nat.add]. rewrite Tx. unfold titled at 1. cbn [fst snd app]. cbn [entries]. change (expect [":"%string] (":"%string :: ?l)) with (Some l). cbn [expect String.eqb Ascii.eqb Bool.eqb obind take_word fst snd]. rewrite Rx. cbn [obind String.eqb Ascii.eqb Bool.eqb].
        rewrite <- app_assoc, (rect_rows _ _ _ _ HF1). cbn [obind fst snd]. exact E.
      + intros i. rewrite E3. cbn [f_T length]. unfold set_at, in_range. destruct (Nat.eqb_spec i o) as [->|Ne].
        * destruct (Nat.leb_spec (S o) o), (Nat.leb_spec o o), (Nat.ltb_spec o (o + S (length xs))); cbn; try lia. rewrite Nat.sub_diag. reflexivity.
        * destruct (Nat.leb_spec (S o) i), (Nat.leb_spec o i), (Nat.ltb_spec i (o + S (length xs))), (Nat.ltb_spec i (S o + length xs)); cbn; try lia; try reflexivity. replace (i - o) with (S (i - S o)) by lia. reflexivity.
  Qed.
  Lemma entries_O xs : forall Ls o k rest t, length Ls = length xs -> resolves da o xs -> Forall (rect (declared_size ds) (declared_size do_)) Ls ->
    exists t', entries ds da do_ (length xs + k) (flat_map (titled "O") (combine (map tokens xs) Ls) ++ rest) t = entries ds da do_ k rest t' /\ f_T t' = f_T t /\ f_R t' = f_R t /\
      forall i, f_O t' i = if in_range o (length xs) i then Some (mat (nth (i - o) Ls [])) else f_O t i.
  Proof.
    induction xs as [|x xs IH]; intros Ls o k rest t HL HR HF.
    - destruct Ls; [|discriminate]. exists t. split; [reflexivity|]. split; [reflexivity|]. split; [reflexivity|]. intros i. unfold in_range. cbn [length]. destruct (Nat.leb_spec o i), (Nat.ltb_spec i (o + 0)); cbn; try reflexivity; lia.
    - destruct Ls as [|L Ls]; [discriminate|]. apply resolves_tl in HR. destruct HR as (Tx & Rx & HR). inversion HF as [|? ? HF1 HF2]; subst.
      destruct (IH Ls (S o) k rest {| f_O := set_at (f_O t) o (Some (mat L)); f_T := f_T t; f_R := f_R t |}) as (t' & E & E1 & E2 & E3); [cbn in HL; lia|exact HR|exact HF2|].
      exists t'. split; [|split; [exact E1|split; [exact E2|]]].
      + cbn [map combine flat_map length Nat.add]. rewrite Tx. unfold titled at 1. cbn [fst snd app]. cbn [entries]. cbn [expect String.eqb Ascii.eqb Bool.eqb obind take_word fst snd]. rewrite Rx. cbn [obind String.eqb Ascii.eqb Bool.eqb].
        rewrite <- app_assoc, (rect_rows _ _ _ _ HF1). cbn [obind fst snd]. exact E.
      + intros i. rewrite E3. cbn [f_O length]. unfold set_at, in_range. destruct (Nat.eqb_spec i o) as [->|Ne].
        * destruct (Nat.leb_spec (S o) o), (Nat.leb_spec o o), (Nat.ltb_spec o (o + S (length xs))); cbn; try lia. rewrite Nat.sub_diag. reflexivity.
        * destruct (Nat.leb_spec (S o) i), (Nat.leb_spec o i), (Nat.ltb_spec i (o + S (length xs))), (Nat.ltb_spec i (S o + length xs)); cbn; try lia; try reflexivity. replace (i - o) with (S (i - S o)) by lia. reflexivity.
  Qed.
  Lemma entries_R1 x a ys : tokens x = [x] -> resolve da x = Some a -> forall Ls o k rest t, length Ls = length ys -> resolves ds o ys -> Forall (rect (declared_size ds) (declared_size do_)) Ls ->
    exists t', entries ds da do_ (length ys + k) (flat_map (titled "R") (combine (map (fun y => tokens x ++ ":"%string :: tokens y) ys) Ls) ++ rest) t = entries ds da do_ k rest t' /\ f_T t' = f_T t /\ f_O t' = f_O t /\
      forall b i, f_R t' b i = if (b =? a) && in_range o (length ys) i then Some (mat (nth (i - o) Ls [])) else f_R t b i.
  Proof.
    intros Tx Rx. induction ys as [|y ys IH]; intros Ls o k rest t HL HR HF.
    - destruct Ls; [|discriminate]. exists t. split; [reflexivity|]. split; [reflexivity|]. split; [reflexivity|]. intros b i. unfold in_range. cbn [length]. destruct (Nat.leb_spec o i), (Nat.ltb_spec i (o + 0)), (b =? a); cbn; try reflexivity; lia.
    - destruct Ls as [|L Ls]; [discriminate|]. apply resolves_tl in HR. destruct HR as (Ty & Ry & HR). inversion HF as [|? ? HF1 HF2]; subst.
      destruct (IH Ls (S o) k rest {| f_T := f_T t; f_O := f_O t; f_R := set_at (f_R t) a (set_at (f_R t a) o (Some (mat L))) |}) as (t' & E & E1 & E2 & E3); [cbn in HL; lia|exact HR|exact HF2|].
      exists t'. split; [|split; [exact E1|split; [exact E2|]]].
      + cbn [map combine flat_map length Nat.add]. rewrite Tx in E |- *. rewrite Ty. unfold titled at 1. cbn [fst snd app]. cbn [entries]. cbn [expect String.eqb Ascii.eqb Bool.eqb obind take_word fst snd]. rewrite Rx. cbn [expect obind take_word fst snd String.eqb Ascii.eqb Bool.eqb]. rewrite Ry. cbn [obind].
        rewrite <- app_assoc, (rect_rows _ _ _ _ HF1). cbn [obind fst snd]. exact E.
      + intros b i. rewrite E3. cbn [f_R length]. unfold set_at, in_range. destruct (Nat.eqb_spec b a) as [->|Nb]; [|reflexivity]. destruct (Nat.eqb_spec i o) as [->|Ne].
        * destruct (Nat.leb_spec (S o) o), (Nat.leb_spec o o), (Nat.ltb_spec o (o + S (length ys))); cbn; try lia. rewrite Nat.sub_diag. reflexivity.
        * destruct (Nat.leb_spec (S o) i), (Nat.leb_spec o i), (Nat.ltb_spec i (o + S (length ys))), (Nat.ltb_spec i (S o + length ys)); cbn; try lia; try reflexivity. replace (i - o) with (S (i - S o)) by lia. reflexivity.
  Qed.
  Lemma entries_R xs ys : resolves ds 0 ys -> forall Lss o k rest t, length Lss = length xs -> resolves da o xs ->
    Forall (fun Ls => length Ls = length ys /\ Forall (rect (declared_size ds) (declared_size do_)) Ls) Lss ->
    exists t', entries ds da do_ (length xs * length ys + k) (flat_map (fun xL => flat_map (titled "R") (combine (map (fun y => tokens (fst xL) ++ ":"%string :: tokens y) ys) (snd xL))) (combine xs Lss) ++ rest) t = entries ds da do_ k rest t' /\ f_T t' = f_T t /\ f_O t' = f_O t /\
      forall b i, f_R t' b i = if in_range o (length xs) b && in_range 0 (length ys) i then Some (mat (nth i (nth (b - o) Lss []) [])) else f_R t b i.
  Proof.
    intros HY. induction xs as [|x xs IH]; intros Lss o k rest t HL HR HF.
    - destruct Lss; [|discriminate]. exists t. split; [reflexivity|]. split; [reflexivity|]. split; [reflexivity|]. intros b i. unfold in_range at 1. cbn [length]. destruct (Nat.leb_spec o b), (Nat.ltb_spec b (o + 0)); cbn; try reflexivity; lia.
    - destruct Lss as [|Ls Lss]; [discriminate|]. apply resolves_tl in HR. destruct HR as (Tx & Rx & HR). inversion HF as [|? ? [HF0 HF1] HF2]; subst.
      cbn [length combine flat_map fst snd]. rewrite <- app_assoc. cbn [Nat.mul]. rewrite <- Nat.add_assoc.
      destruct (entries_R1 x o ys Tx Rx Ls 0 (length xs * length ys + k) (flat_map (fun xL => flat_map (titled "R") (combine (map (fun y => tokens (fst xL) ++ ":"%string :: tokens y) ys) (snd xL))) (combine xs Lss) ++ rest) t HF0 HY HF1) as (t1 & -> & A1 & A2 & A3).
      destruct (IH Lss (S o) k rest t1) as (t' & E & E1 & E2 & E3); [cbn in HL; lia|exact HR|exact HF2|].
      exists t'. split; [exact E|]. split; [congruence|]. split; [congruence|]. intros b i. rewrite E3, A3, Nat.sub_0_r. unfold in_range at 1 4. destruct (Nat.eqb_spec b o) as [->|Ne].
      + destruct (Nat.leb_spec (S o) o), (Nat.leb_spec o o), (Nat.ltb_spec o (o + S (length xs))); cbn; try lia. rewrite Nat.sub_diag. reflexivity.
      + destruct (Nat.leb_spec (S o) b), (Nat.leb_spec o b), (Nat.ltb_spec b (o + S (length xs))), (Nat.ltb_spec b (S o + length xs)); cbn; try lia; try reflexivity. replace (b - o) with (S (b - S o)) by lia. reflexivity.
  Qed.
End Reading.

(** ** The preamble *)
Lemma decimal_clean s : forall acc p q, decimal acc p s = Some q -> clean s = true.
Proof.
  induction s as [|c s IH]; intros acc p q; [reflexivity|]. cbn [decimal clean]. destruct (digit_value c) as [d|] eqn:D.
  - destruct (digit_clean c d D) as (-> & -> & _). intros E. exact (IH _ _ _ E).
  - destruct ((nat_of_ascii c =? 46) && match p with None => true | Some _ => false end) eqn:P; [|discriminate]. intros E. apply andb_prop in P. destruct P as [P _]. apply Nat.eqb_eq in P.
    unfold blank, colon. rewrite P. cbn. exact (IH _ _ _ E).
Qed.
Lemma unsigned_clean s q : unsigned s = Some q -> clean s = true /\ s <> EmptyString.
Proof.
  unfold unsigned. destruct s as [|c s]; [discriminate|]. destruct (digit_value c); [|discriminate]. intros E. split; [|discriminate]. exact (decimal_clean _ _ _ _ E).
Qed.
Lemma number_tokens s q : number s = Some q -> tokens s = [s].
Proof.
  intros E. assert (clean s = true /\ s <> EmptyString) as [C N]; [|apply tokens_clean; assumption]. unfold number in E. destruct s as [|c s]; [discriminate|].
  destruct (nat_of_ascii c =? 45) eqn:M; [|exact (unsigned_clean _ _ E)]. destruct (unsigned s) as [r|] eqn:U; [|discriminate]. destruct (unsigned_clean _ _ U) as [C _]. split; [|discriminate].
  apply Nat.eqb_eq in M. cbn [clean]. unfold blank, colon. rewrite M. cbn. exact C.
Qed.
Lemma name_char_clean c : name_char c = true -> blank c = false /\ colon c = false.
Proof.
  unfold name_char, letter, digit_value, blank, colon. set (n := nat_of_ascii c). intros H.
  destruct (Nat.leb_spec 65 n), (Nat.leb_spec n 90), (Nat.leb_spec 97 n), (Nat.leb_spec n 122), (Nat.leb_spec 48 n), (Nat.leb_spec n 57), (Nat.eqb_spec n 45), (Nat.eqb_spec n 95); cbn in H; try discriminate;
  destruct (Nat.leb_spec 9 n), (Nat.leb_spec n 13), (Nat.eqb_spec n 32), (Nat.eqb_spec n 58); cbn; try lia; auto.
Qed.
Lemma name_chars_clean s : name_chars s = true -> clean s = true.
Proof. induction s as [|c s IH]; [reflexivity|]. cbn [name_chars clean]. intros H. apply andb_prop in H. destruct H as [H1 H2]. destruct (name_char_clean c H1) as [-> ->]. exact (IH H2). Qed.
Lemma identifier_tokens s : identifier s = true -> tokens s = [s] /\ whole s = None /\ is_reserved s = false.
Proof.
  unfold identifier. destruct s as [|c t]; [discriminate|]. intros H. apply andb_prop in H. destruct H as [H H3]. apply andb_prop in H. destruct H as [H1 H2]. split; [|split].
  - apply tokens_clean; [|discriminate]. apply name_chars_clean. cbn [name_chars]. rewrite H2. unfold name_char. rewrite H1. reflexivity.
  - unfold whole. cbn [digits_value]. assert (digit_value c = None) as ->; [|reflexivity]. unfold letter, digit_value in *. set (n := nat_of_ascii c) in *.
    destruct (Nat.leb_spec 65 n), (Nat.leb_spec n 90), (Nat.leb_spec 97 n), (Nat.leb_spec n 122), (Nat.leb_spec 48 n), (Nat.leb_spec n 57); cbn in *; try discriminate; try reflexivity; lia.
  - destruct (is_reserved (String c t)); [discriminate|reflexivity].
Qed.
Definition decl (x : names) : declared := match x with NCount n => Counted n | NList l => Named (map name_text l) end.
Lemma decl_size x : declared_size (decl x) = length (as_list x).
Proof. destruct x; cbn; rewrite ?map_length, ?seq_length; reflexivity. Qed.
Lemma good_strings l : good_names (NList l) -> exists ls, l = map NStr ls /\ map name_text l = ls /\ Forall (fun s => identifier s = true) ls.
Proof.
  cbn. induction l as [|y l IH]; intros H; [exists []; auto|]. destruct (H y (or_introl eq_refl)) as (s & -> & I). destruct IH as (ls & -> & E & F); [intros z Hz; apply H; right; exact Hz|].
  exists (s :: ls). cbn [map name_text]. rewrite E. auto.
Qed.
Lemma declared_decl x : good_names x -> declared_as x (decl x).
Proof. destruct x as [n|l]; intros H; [reflexivity|]. destruct (good_strings l H) as (ls & E1 & E2 & _). exists ls. cbn [decl]. rewrite E2. auto. Qed.
Lemma position_nth l : NoDup l -> forall j x, nth_error l j = Some x -> position x l = Some j.
Proof.
  induction 1 as [|y l Hy _ IH]; intros [|j] x E; try discriminate; cbn [position nth_error] in *.
  - assert (y = x) as -> by congruence. rewrite String.eqb_refl. reflexivity.
  - destruct (String.eqb_spec x y) as [->|_]; [exfalso; apply Hy; exact (nth_error_In _ _ E)|]. rewrite (IH j x E). reflexivity.
Qed.
Lemma str_int_tokens n : (0 <= n)%Z -> tokens (str_int n) = [str_int n].
Proof. intros H. apply tokens_clean; [apply str_int_clean; exact H|]. destruct (str_int_digits n H) as (c & t & -> & _). discriminate. Qed.
Lemma resolves_decl x : good_names x -> NoDup (as_list x) -> resolves (decl x) 0 (map name_text (as_list x)).
Proof.
  intros G ND j s E. destruct x as [n|l].
  - cbn [as_list decl] in *. rewrite map_map in E. rewrite nth_error_map in E. destruct (nth_error (seq 0 n) j) as [i|] eqn:Ei; [|discriminate]. apply nth_error_seq in Ei. destruct Ei as [-> Hj]. cbn in E. assert (s = str_int (Z.of_nat j)) as -> by congruence.
    split; [apply str_int_tokens; lia|]. unfold resolve. rewrite whole_int. cbn [declared_size]. destruct (Nat.ltb_spec j n); [reflexivity|lia].
  - cbn [as_list decl] in *. destruct (good_strings l G) as (ls & E1 & E2 & F). rewrite E2 in *. pose proof (proj1 (Forall_forall _ _) F s (nth_error_In _ _ E)) as I. destruct (identifier_tokens s I) as (T & W & _). split; [exact T|].
    unfold resolve. rewrite W. apply position_nth; [|exact E]. subst l. apply NoDup_map_inv in ND. exact ND.
Qed.
Lemma take_names_stop ls kw rest : Forall (fun s => is_reserved s = false) ls -> is_reserved kw = true -> take_names (ls ++ kw :: rest) = (ls, kw :: rest).
Proof. induction 1 as [|s ls Hs _ IH]; intros K; cbn [app take_names]; [rewrite K; reflexivity|]. rewrite Hs, (IH K). reflexivity. Qed.
Lemma digit_not_reserved n : (0 <= n)%Z -> is_reserved (str_int n) = false.
Proof.
  intros H. destruct (str_int_digits n H) as (c & t & -> & d & D). unfold is_reserved. apply not_true_iff_false. intros X. apply existsb_exists in X. destruct X as (r & Hr & E). apply String.eqb_eq in E. subst r.
  cbn in Hr. repeat (destruct Hr as [Hr|Hr]; [injection Hr as <- _; vm_compute in D; discriminate|]). destruct Hr.
Qed.
Lemma distinct_nodup l : NoDup l -> distinct l = true.
Proof.
  induction 1 as [|x l Hx _ IH]; [reflexivity|]. cbn [distinct]. rewrite IH, andb_true_r. apply negb_true_iff. apply not_true_iff_false. intros E. apply existsb_exists in E. destruct E as (y & Hy & E). apply String.eqb_eq in E. subst y. exact (Hx Hy).
Qed.
Lemma declare_decl x kw rest : good_names x -> NoDup (as_list x) -> 0 < length (as_list x) -> is_reserved kw = true ->
  exists l, take_names (tokens (dump_list_or_count x) ++ kw :: rest) = (l, kw :: rest) /\ declare l = Some (decl x).
Proof.
  intros G ND HL K. destruct x as [n|l].
  - cbn [as_list dump_list_or_count decl] in *. rewrite map_length, seq_length in HL. rewrite str_int_tokens by lia. exists [str_int (Z.of_nat n)]. split; [apply take_names_stop; [constructor; [apply digit_not_reserved; lia|constructor]|exact K]|].
    cbn [declare]. rewrite whole_int. destruct (Nat.eqb_spec n 0); [lia|reflexivity].
  - cbn [as_list dump_list_or_count decl] in *. unfold dump_list. destruct (good_strings l G) as (ls & E1 & E2 & F). rewrite E2. exists ls. split.
    + rewrite (tokens_concat " ") by apply tokens_space.
      assert (flat_map tokens ls = ls) as ->. { clear -F. induction F as [|s ls Hs _ IH]; [reflexivity|]. cbn [flat_map]. rewrite IH, (proj1 (identifier_tokens s Hs)). reflexivity. }
      apply take_names_stop; [|exact K]. eapply Forall_impl; [|exact F]. intros s Hs. apply (identifier_tokens s Hs).
    + assert (Hd : distinct ls = true) by (apply distinct_nodup; subst l; apply NoDup_map_inv in ND; exact ND).
      assert (Hi : forallb identifier ls = true) by (apply forallb_forall; intros s Hs; exact (proj1 (Forall_forall _ _) F s Hs)).
      destruct ls as [|s ls]; [subst l; cbn in HL; lia|]. unfold declare. rewrite (proj1 (proj2 (identifier_tokens s (Forall_inv F)))). rewrite Hi, Hd. reflexivity.
Qed.
Lemma rect_of n m f L : good_block n m f L -> rect n m L.
Proof. intros (A & B & _). split; assumption. Qed.
Lemma matrix_of n m f L : good_block n m f L -> written_matrix n m f (Some (mat L)).
Proof. intros (A & _ & B). exists (mat L). split; [reflexivity|]. split; [unfold mat; rewrite map_length; exact A|exact B]. Qed.
Lemma Forall_nth_lt {A} (P : A -> Prop) l d : (forall i, i < length l -> P (nth i l d)) -> Forall P l.
Proof. intros H. apply Forall_forall. intros x Hx. destruct (In_nth l x d Hx) as (i & Hi & <-). auto. Qed.
Lemma flat_map_len {A} (f : A -> list string) l : (forall x, In x l -> 0 < length (f x)) -> length l <= length (flat_map f l).
Proof. induction l as [|x l IH]; intros H; [auto|]. cbn [flat_map length]. rewrite app_length. specialize (IH (fun y Hy => H y (or_intror Hy))). specialize (H x (or_introl eq_refl)). lia. Qed.
Lemma titled_len nm l : length l <= length (flat_map (titled nm) l).
Proof. apply flat_map_len. intros x _. unfold titled. cbn. lia. Qed.
Lemma flat_map_mul {A} (f : A -> list string) l k : (forall x, In x l -> k <= length (f x)) -> length l * k <= length (flat_map f l).
Proof. induction l as [|x l IH]; intros H; [auto|]. cbn [flat_map length]. rewrite app_length. specialize (IH (fun y Hy => H y (or_intror Hy))). specialize (H x (or_introl eq_refl)). cbn [Nat.mul]. lia. Qed.

Theorem dump_reads str_float T O R start discount gs ga go values solver p q : mk_pomdp T O R start discount gs ga go values solver = Ok p -> 0 < nA p ->
  good_names (p_s p) -> good_names (p_a p) -> good_names (p_o p) -> number (str_float (p_discount p)) = Some q -> (q == p_discount p)%Q ->
  exists text f, dump str_float p = Ok text /\ read_text text = Some f /\ describes p f.
Proof.
  intros E HA Gs Ga Go Dq Dd. destruct (accepted_sizes _ _ _ _ _ _ _ _ _ _ _ E) as [HS HO]. specialize (HO HA).
  destruct (proj1 (C43_accepts T O R start discount gs ga go values) solver p E) as [(_ & S1 & S2 & S3 & S4 & _ & _ & _ & N1 & N2 & N3 & _) (_ & _ & _ & ET & EO & ES & _ & ER & _)].
  rewrite <- ET in S2. rewrite <- EO in S3. rewrite <- ES in S1. rewrite <- ER in S4. clear ET EO ES ER E.
  unfold dump.
  assert (Er : row (p_start p) [] = map (Start p) (seq 0 (nS p))) by (unfold row; rewrite S1; reflexivity).
  destruct (row_written (row (p_start p) [])) as (st & sl & E1 & E2 & E3 & E4); [rewrite Er; destruct (nS p); [lia|discriminate]|]. rewrite E1. cbn [bind]. rewrite Er in E3, E4. rewrite map_length, seq_length in E3.
  destruct (block3 (p_T p) "T" (nA p) (nS p) (nS p) (map name_text (p_actions p)) S2 HS ltac:(apply map_length) eq_refl) as (tT & LT & -> & LT1 & TT & GT). cbn [bind].
  destruct (block3 (p_O p) "O" (nA p) (nS p) (nO p) (map name_text (p_actions p)) S3 HO ltac:(apply map_length) eq_refl) as (tO & LO & -> & LO1 & TO & GO). cbn [bind].
  destruct (block4 (p_R p) "R" (nA p) (nS p) (nS p) (nO p) (map name_text (p_actions p)) (map name_text (states p)) S4 HO ltac:(apply map_length) ltac:(apply map_length) eq_refl) as (tR & LR & -> & LR1 & TR & GR). cbn [bind].
  set (ds := decl (p_s p)). set (da := decl (p_a p)). set (do_ := decl (p_o p)).
  assert (Zs : declared_size ds = nS p) by apply decl_size. assert (Za : declared_size da = nA p) by apply decl_size. assert (Zo : declared_size do_ = nO p) by apply decl_size.
  pose proof (resolves_decl _ Gs N1) as Rs. pose proof (resolves_decl _ Ga N2) as Ra. fold (states p) in Rs. fold (p_actions p) in Ra.
  set (toksT := flat_map (titled "T") (combine (map tokens (map name_text (p_actions p))) LT)) in *.
  set (toksO := flat_map (titled "O") (combine (map tokens (map name_text (p_actions p))) LO)) in *.
  set (toksR := flat_map (fun xL => flat_map (titled "R") (combine (map (fun y => tokens (fst xL) ++ ":"%string :: tokens y) (map name_text (states p))) (snd xL))) (combine (map name_text (p_actions p)) LR)) in *.
  set (t0 := {| f_T := fun _ => None; f_O := fun _ => None; f_R := fun _ _ => None |}).
  assert (LenA : length (map name_text (p_actions p)) = nA p) by apply map_length. assert (LenS : length (map name_text (states p)) = nS p) by apply map_length.
  assert (HE : exists t', entries ds da do_ (length (toksT ++ toksO ++ toksR)) (toksT ++ toksO ++ toksR) t0 = Some t' /\
     (forall a, a < nA p -> f_T t' a = Some (mat (nth a LT [])) /\ f_O t' a = Some (mat (nth a LO [])) /\ forall s, s < nS p -> f_R t' a s = Some (mat (nth s (nth a LR []) [])))).
  { assert (B1 : nA p <= length toksT) by (unfold toksT; etransitivity; [|apply titled_len]; rewrite combine_length, map_length, LenA, LT1; lia).
    assert (B2 : nA p <= length toksO) by (unfold toksO; etransitivity; [|apply titled_len]; rewrite combine_length, map_length, LenA, LO1; lia).
    assert (B3 : nA p * nS p <= length toksR).
    { unfold toksR. etransitivity; [|apply (flat_map_mul _ _ (nS p))]; [rewrite combine_length, LenA, LR1, Nat.min_id; lia|]. intros [x Ls] Hx. cbn [fst snd]. etransitivity; [|apply titled_len]. rewrite combine_length, map_length, LenS.
      apply in_combine_r in Hx. destruct (In_nth _ _ [] Hx) as (i & Hi & <-). rewrite LR1 in Hi. rewrite (proj1 (GR i Hi)). lia. }
    rewrite !app_length.
    replace (length toksT + (length toksO + length toksR)) with (nA p + (nA p + (nA p * nS p + (length toksT + length toksO + length toksR - nA p - nA p - nA p * nS p)))) by lia.
    generalize (length toksT + length toksO + length toksR - nA p - nA p - nA p * nS p). intros k.
    replace (nA p + (nA p + (nA p * nS p + k))) with (length (map name_text (p_actions p)) + (length (map name_text (p_actions p)) + (length (map name_text (p_actions p)) * length (map name_text (states p)) + k))) by (rewrite LenA, LenS; reflexivity).
    destruct (entries_T ds da do_ (map name_text (p_actions p)) LT 0 (length (map name_text (p_actions p)) + (length (map name_text (p_actions p)) * length (map name_text (states p)) + k)) (toksO ++ toksR) t0) as (t1 & X1 & X2 & X3 & X4); [congruence|exact Ra|apply (Forall_nth_lt _ _ []); intros i Hi; rewrite LT1 in Hi; rewrite Zs; exact (rect_of _ _ _ _ (GT i Hi))|].
    destruct (entries_O ds da do_ (map name_text (p_actions p)) LO 0 (length (map name_text (p_actions p)) * length (map name_text (states p)) + k) toksR t1) as (t2 & Y1 & Y2 & Y3 & Y4); [congruence|exact Ra|apply (Forall_nth_lt _ _ []); intros i Hi; rewrite LO1 in Hi; rewrite Zs, Zo; exact (rect_of _ _ _ _ (GO i Hi))|].
    destruct (entries_R ds da do_ (map name_text (p_actions p)) (map name_text (states p)) Rs LR 0 k [] t2) as (t3 & W1 & W2 & W3 & W4); [congruence|exact Ra| |].
    { apply (Forall_nth_lt _ _ []). intros i Hi. rewrite LR1 in Hi. destruct (GR i Hi) as [G1 G2]. split; [congruence|]. apply (Forall_nth_lt _ _ []). intros j Hj. rewrite G1 in Hj. rewrite Zs, Zo. exact (rect_of _ _ _ _ (G2 j Hj)). }
    exists t3. split.
    - fold toksT in X1. fold toksO in Y1. fold toksR in W1. rewrite app_nil_r in W1. etransitivity; [exact X1|]. etransitivity; [exact Y1|]. etransitivity; [exact W1|]. destruct k; reflexivity.
    - intros a Ha. assert (Ia : in_range 0 (length (map name_text (p_actions p))) a = true) by (unfold in_range; rewrite LenA; apply andb_true_intro; split; [reflexivity|apply Nat.ltb_lt; lia]).
      split; [rewrite W2, Y2, X4, Ia, Nat.sub_0_r; reflexivity|]. split; [rewrite W3, Y4, Ia, Nat.sub_0_r; reflexivity|]. intros s Hs. rewrite W4, Ia.
      assert (in_range 0 (length (map name_text (states p))) s = true) as -> by (unfold in_range; rewrite LenS; apply andb_true_intro; split; [reflexivity|apply Nat.ltb_lt; lia]). cbn [andb]. rewrite Nat.sub_0_r. reflexivity. }
  destruct HE as (t' & HE & HT).
  eexists _, {| f_discount := q; f_values := "reward"; f_states := ds; f_actions := da; f_observations := do_; f_start := map val5 sl; f_tables := t' |}.
  split; [reflexivity|]. split.
  - unfold read_text. rewrite (tokens_concat (nl ++ nl)%string) by apply tokens_nlnl. cbn [flat_map]. rewrite app_nil_r, TT, TO, TR.
    change ("start: " ++ st)%string with ("start" ++ ": " ++ st)%string. rewrite (tokens_head "start"), E2. change (tokens "start") with ["start"%string]. fold toksT toksO toksR.
    assert (P : tokens ("discount: " ++ str_float (p_discount p) ++ nl ++ "values: reward" ++ nl ++ "states: " ++ dump_list_or_count (p_s p) ++ nl ++ "actions: " ++ dump_list_or_count (p_a p) ++ nl ++ "observations: " ++ dump_list_or_count (p_o p) ++ nl)%string =
       (["discount"; ":"; str_float (p_discount p); "values"; ":"; "reward"; "states"; ":"]%string ++ tokens (dump_list_or_count (p_s p)) ++ ["actions"; ":"]%string ++ tokens (dump_list_or_count (p_a p)) ++ ["observations"; ":"]%string ++ tokens (dump_list_or_count (p_o p)))).
    { change "discount: "%string with ("discount" ++ ": ")%string. rewrite app_assoc_s, tokens_head, tokens_nl, (number_tokens _ _ Dq). rewrite tokens_nl.
      change "states: "%string with ("states" ++ ": ")%string. rewrite app_assoc_s, tokens_head, tokens_nl. change "actions: "%string with ("actions" ++ ": ")%string. rewrite app_assoc_s, tokens_head, tokens_nl.
      change "observations: "%string with ("observations" ++ ": ")%string. rewrite app_assoc_s, tokens_head. rewrite <- (app_nil_s nl) at 1. rewrite tokens_nl. change (tokens "") with (@nil string). rewrite app_nil_r. reflexivity. }
    rewrite P. clear P. rewrite <- !app_assoc. cbn [app]. cbn [expect String.eqb Ascii.eqb Bool.eqb obind take_word fst snd]. rewrite Dq. cbn [expect String.eqb Ascii.eqb Bool.eqb obind take_word fst snd orb negb].
    destruct (declare_decl (p_s p) "actions" (":"%string :: tokens (dump_list_or_count (p_a p)) ++ "observations"%string :: ":"%string :: tokens (dump_list_or_count (p_o p)) ++ "start"%string :: ":"%string :: map show5 sl ++ toksT ++ toksO ++ toksR) Gs N1 HS eq_refl) as (l1 & -> & D1). rewrite D1. cbn [expect String.eqb Ascii.eqb Bool.eqb obind].
    destruct (declare_decl (p_a p) "observations" (":"%string :: tokens (dump_list_or_count (p_o p)) ++ "start"%string :: ":"%string :: map show5 sl ++ toksT ++ toksO ++ toksR) Ga N2 HA eq_refl) as (l2 & -> & D2). rewrite D2. cbn [expect String.eqb Ascii.eqb Bool.eqb obind].
    destruct (declare_decl (p_o p) "start" (":"%string :: map show5 sl ++ toksT ++ toksO ++ toksR) Go N3 HO eq_refl) as (l3 & -> & D3). rewrite D3. cbn [expect String.eqb Ascii.eqb Bool.eqb obind].
    fold ds. rewrite Zs, <- E3, take_numbers_ok. cbn [obind fst snd]. fold da do_ t0. rewrite HE. reflexivity.
  - split; [exact Dd|]. split; [reflexivity|]. split; [apply declared_decl; exact Gs|]. split; [apply declared_decl; exact Ga|]. split; [apply declared_decl; exact Go|]. split; [exact E4|].
    intros a Ha. cbn [f_tables]. destruct (HT a Ha) as (H1 & H2 & H3). rewrite H1, H2. split; [exact (matrix_of _ _ _ _ (GT a Ha))|]. split; [exact (matrix_of _ _ _ _ (GO a Ha))|]. intros s Hs. rewrite (H3 s Hs). exact (matrix_of _ _ _ _ (proj2 (GR a Ha) s Hs)).
Qed.
