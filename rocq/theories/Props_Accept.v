(** C49: exactly which policy graph files are accepted, and the error for the others. *)
From Verif Require Import PyBase PyBaseFacts QBase ParseModel ParseSpec Props_Parse.
From Coq Require Import Lia.
Local Open Scope list_scope.
Local Open Scope nat_scope.

(** The words of a line: it is these words with one space between them, then white space.  A word may be empty, but the line
    without its last white space does not end with white space. *)
Definition words (line : string) (ws : list string) : Prop :=
  ws <> [] /\ Forall (fun w => ~ In " "%char (chars w)) ws /\
  exists e, line = (join ws ++ e)%string /\ Forall white (chars e) /\ forall pre c, chars (join ws) = pre ++ [c] -> ~ white c.
(** A word says a transition. *)
Definition says (parse_int : string -> res Z) (w : string) (t : option Z) : Prop :=
  match t with None => w = "-"%string | Some z => w <> "-"%string /\ parse_int w = Ok z end.
(** A line says the action and the transitions of the node n: number, action, a word that is not looked at, transitions. *)
Definition line_says (parse_int : string -> res Z) (n : Z) (line : string) (a : Z) (ts : list (option Z)) : Prop :=
  exists w0 w1 rest, words line (w0 :: w1 :: rest) /\ parse_int w0 = Ok n /\ parse_int w1 = Ok a /\ Forall2 (says parse_int) (tl rest) ts.
(** What is wrong with a line. *)
Inductive line_wrong (parse_int : string -> res Z) (n : Z) (line : string) : exn -> Prop :=
| lw_number w0 ws e : words line (w0 :: ws) -> parse_int w0 = Err e -> line_wrong parse_int n line e
| lw_other w0 ws m : words line (w0 :: ws) -> parse_int w0 = Ok m -> m <> n -> line_wrong parse_int n line EAssert
| lw_short w0 : words line [w0] -> parse_int w0 = Ok n -> line_wrong parse_int n line EIndex
| lw_action w0 w1 ws e : words line (w0 :: w1 :: ws) -> parse_int w0 = Ok n -> parse_int w1 = Err e -> line_wrong parse_int n line e
| lw_transition w0 w1 w2 ws ts w rest a e : words line (w0 :: w1 :: w2 :: ws ++ w :: rest) -> parse_int w0 = Ok n -> parse_int w1 = Ok a ->
    Forall2 (says parse_int) ws ts -> w <> "-"%string -> parse_int w = Err e -> line_wrong parse_int n line e.

Lemma chars_app s t : chars (s ++ t) = chars s ++ chars t.
Proof. induction s as [|c s IH]; [reflexivity|]. cbn. rewrite IH. reflexivity. Qed.
Lemma rstrip_cut f s : exists e, s = (rstrip_by f s ++ e)%string /\ Forall (fun c => f c = true) (chars e).
Proof.
  induction s as [|c s (e & IH1 & IH2)]; [exists EmptyString; split; [reflexivity|constructor]|]. cbn [rstrip_by]. destruct (rstrip_by f s) as [|d u] eqn:E.
  - cbn in IH1. subst e. destruct (f c) eqn:F; [exists (String c s); split; [reflexivity|constructor; assumption]|]. exists s. split; [reflexivity|assumption].
  - exists e. split; [|exact IH2]. cbn [append]. f_equal. exact IH1.
Qed.
Lemma rstrip_end f s : forall pre c, chars (rstrip_by f s) = pre ++ [c] -> f c = false.
Proof.
  induction s as [|x s IH]; intros pre c H; [destruct pre; discriminate|]. cbn [rstrip_by] in H. destruct (rstrip_by f s) as [|d u] eqn:E.
  - destruct (f x) eqn:F; [destruct pre; discriminate|]. cbn in H. destruct pre as [|y [|]]; cbn in H; try discriminate. congruence.
  - destruct pre as [|y pre]; [cbn in H; discriminate|]. cbn [chars] in H. assert (H' : chars (String d u) = pre ++ [c]) by (cbn [chars]; cbn [app] in H; congruence). exact (IH pre c H').
Qed.
Lemma split_ne s : split s <> [].
Proof. destruct s as [|c s]; [discriminate|]. cbn [split]. destruct (Ascii.eqb c " "); [discriminate|]. destruct (split s); discriminate. Qed.
Lemma join_split s : join (split s) = s /\ Forall (fun w => ~ In " "%char (chars w)) (split s).
Proof.
  induction s as [|c s [IH1 IH2]]; [split; [reflexivity|repeat constructor; intros []]|]. cbn [split]. destruct (Ascii.eqb_spec c " ") as [->|N].
  - split; [|constructor; [intros []|exact IH2]]. destruct (split s) as [|w ws] eqn:E; [destruct (split_ne s E)|]. change (join (EmptyString :: w :: ws)) with (String " " (join (w :: ws))). rewrite IH1. reflexivity.
  - destruct (split s) as [|w ws] eqn:E; [destruct (split_ne s E)|]. split.
    + rewrite <- IH1. destruct ws; reflexivity.
    + inversion IH2 as [|? ? J1 J2]; subst. constructor; [|exact J2]. cbn [chars]. intros [K|K]; [congruence|exact (J1 K)].
Qed.
Lemma ends_id f s : (forall pre c, chars s = pre ++ [c] -> f c = false) -> rstrip_by f s = s.
Proof.
  induction s as [|x s IH]; intros H; [reflexivity|]. cbn [rstrip_by]. destruct s as [|y s].
  - cbn. rewrite (H [] x eq_refl). reflexivity.
  - rewrite IH; [reflexivity|]. intros pre c K. apply (H (x :: pre) c). cbn [chars app] in *. rewrite K. reflexivity.
Qed.
Lemma words_iff line ws : words line ws <-> split (rstrip (rstrip_newline line)) = ws.
Proof.
  rewrite rstrip_newline_idem. split.
  - intros (H1 & H2 & e & -> & H3 & H4). unfold rstrip. rewrite rstrip_white; [|intros c Hc; apply is_space_iff; rewrite Forall_forall in H3; auto].
    rewrite ends_id; [|intros pre c K; apply not_true_is_false; rewrite is_space_iff; exact (H4 pre c K)]. apply split_join; [exact H1|]. eapply Forall_impl; [|exact H2]. intros w Hw. apply Forall_forall. intros c Hc ->. exact (Hw Hc).
  - intros <-. destruct (join_split (rstrip line)) as [J1 J2]. split; [apply split_ne|]. split; [exact J2|]. destruct (rstrip_cut is_space line) as (e & E1 & E2). exists e. rewrite J1. split; [exact E1|]. split.
    + eapply Forall_impl; [|exact E2]. intros c. apply is_space_iff.
    + intros pre c K W. apply is_space_iff in W. pose proof (rstrip_end is_space line pre c K). congruence.
Qed.
Lemma never_space line : isspace (rstrip (rstrip_newline line)) = false.
Proof.
  rewrite rstrip_newline_idem. destruct (rstrip line) as [|c s] eqn:E; [reflexivity|]. cbn [isspace]. apply not_true_is_false. intros H. apply all_space_iff in H.
  assert (K : exists pre x, chars (rstrip line) = pre ++ [x]). { rewrite E. cbn [chars]. destruct (exists_last (l := c :: chars s)) as (pre & x & ->); [discriminate|]. eauto. }
  destruct K as (pre & x & K). pose proof (rstrip_end is_space line pre x K) as F. rewrite <- E, K in H. apply Forall_app in H. destruct H as [_ H]. inversion H as [|? ? W _]; subst. apply is_space_iff in W. congruence.
Qed.

Section One.
  Variable parse_int : string -> res Z.
  Definition read_transition (x : string) : res (option Z) := if String.eqb x "-" then Ok None else do z <- parse_int x; Ok (Some z).
  Lemma read_says x t : read_transition x = Ok t <-> says parse_int x t.
  Proof.
    unfold read_transition, says. destruct (String.eqb_spec x "-") as [->|N].
    - destruct t as [z|]; split; intros H; try discriminate; try reflexivity. destruct H; congruence.
    - destruct (parse_int x) as [z'|e]; cbn [bind]; destruct t as [z|]; split; intros H; try discriminate; try congruence.
      + split; congruence.
      + destruct H; congruence.
      + destruct H; congruence.
  Qed.
  Lemma read_all l : match mapM read_transition l with
    | Ok ts => Forall2 (says parse_int) l ts
    | Err e => exists ws ts w rest, l = ws ++ w :: rest /\ Forall2 (says parse_int) ws ts /\ w <> "-"%string /\ parse_int w = Err e
    end.
  Proof.
    induction l as [|x l IH]; cbn [mapM]; [constructor|]. destruct (read_transition x) as [t|e] eqn:E; cbn [bind].
    - apply read_says in E. destruct (mapM read_transition l) as [ts|e]; cbn [bind]; [constructor; assumption|]. destruct IH as (ws & ts & w & rest & -> & H). exists (x :: ws), (t :: ts), w, rest. split; [reflexivity|]. destruct H. split; [constructor; assumption|assumption].
    - exists [], [], x, l. split; [reflexivity|]. split; [constructor|]. unfold read_transition in E. destruct (String.eqb_spec x "-") as [->|N]; [discriminate|]. split; [exact N|]. destruct (parse_int x); cbn [bind] in E; congruence.
  Qed.
  (** Each line says something or is wrong *)
  Lemma one_line n line t acts trans :
    (exists a ts, line_says parse_int n line a ts /\ pg_loop parse_int n (line :: t) acts trans = pg_loop parse_int (n + 1) t (acts ++ [a]) (trans ++ [ts])) \/
    (exists e, line_wrong parse_int n line e /\ pg_loop parse_int n (line :: t) acts trans = Err e).
  Proof.
    cbn [pg_loop]. rewrite never_space. destruct (split (rstrip (rstrip_newline line))) as [|w0 l] eqn:S; [destruct (split_ne _ S)|]. pose proof (proj2 (words_iff line _) S) as W. cbn [hd].
    destruct (parse_int w0) as [m|e] eqn:P0; cbn [bind]; [|right; exists e; split; [eapply lw_number; eassumption|reflexivity]].
    destruct (Z.eqb_spec m n) as [->|N]; cbn [negb]; [|right; exists EAssert; split; [eapply lw_other; eassumption|reflexivity]].
    destruct l as [|w1 l]; cbn [nth_error bind]; [right; exists EIndex; split; [eapply lw_short; eassumption|reflexivity]|].
    destruct (parse_int w1) as [a|e] eqn:P1; cbn [bind]; [|right; exists e; split; [eapply lw_action; eassumption|reflexivity]].
    cbn [skipn]. fold read_transition. pose proof (read_all (tl l)) as R. assert (X : match l with [] => [] | _ :: l0 => l0 end = tl l) by (destruct l; reflexivity). rewrite X.
    destruct (mapM read_transition (tl l)) as [ts|e]; cbn [bind].
    - left. exists a, ts. split; [|reflexivity]. exists w0, w1, l. auto.
    - right. exists e. split; [|reflexivity]. destruct R as (ws & ts & w & rest & E & R1 & R2 & R3). destruct l as [|w2 l]; [destruct ws; discriminate|]. cbn [tl] in E. subst l. eapply lw_transition; eassumption.
  Qed.
  Lemma words_fun line ws ws' : words line ws -> words line ws' -> ws = ws'.
  Proof. intros H1 H2. apply words_iff in H1, H2. congruence. Qed.
  Lemma says_fun x t t' : says parse_int x t -> says parse_int x t' -> t = t'.
  Proof. intros H1 H2. apply read_says in H1, H2. congruence. Qed.
  Lemma says_all_fun l : forall ts ts', Forall2 (says parse_int) l ts -> Forall2 (says parse_int) l ts' -> ts = ts'.
  Proof. induction l as [|x l IH]; intros ts ts' H1 H2; inversion H1; inversion H2; subst; [reflexivity|]. f_equal; [eapply says_fun; eassumption|apply IH; assumption]. Qed.
  Lemma line_fun n line a ts a' ts' : line_says parse_int n line a ts -> line_says parse_int n line a' ts' -> a = a' /\ ts = ts'.
  Proof.
    intros (w0 & w1 & rest & W & _ & H1 & H2) (v0 & v1 & rest' & W' & _ & H1' & H2'). pose proof (words_fun _ _ _ W W') as E. assert (w1 = v1 /\ rest = rest') as [-> ->] by (split; congruence).
    split; [congruence|eapply says_all_fun; eassumption].
  Qed.
  Lemma not_both n line a ts e : line_says parse_int n line a ts -> line_wrong parse_int n line e -> False.
  Proof.
    intros (w0 & w1 & rest & W & H0 & H1 & H2) B. destruct B as [v0 ws e W' P|v0 ws m W' P P'|v0 W' P|v0 v1 ws e W' P P'|v0 v1 v2 ws ts' w tl' a' e W' P P' F N U]; pose proof (words_fun _ _ _ W W') as E; try congruence.
    assert (rest = v2 :: ws ++ w :: tl') as -> by congruence. cbn [tl] in H2. apply Forall2_app_inv_l in H2. destruct H2 as (t1 & t2 & _ & H2 & _). inversion H2 as [|? t ? ? S]; subst. destruct t; cbn in S; [destruct S; congruence|congruence].
  Qed.
  Lemma read_stops ws ts w rest e : Forall2 (says parse_int) ws ts -> w <> "-"%string -> parse_int w = Err e -> mapM read_transition (ws ++ w :: rest) = Err e.
  Proof.
    intros F N U. induction F as [|x t ws ts S F IH]; cbn [app mapM].
    - unfold read_transition at 1. destruct (String.eqb_spec w "-") as [|_]; [contradiction|]. rewrite U. reflexivity.
    - apply read_says in S. rewrite S. cbn [bind]. rewrite IH. reflexivity.
  Qed.
  Lemma wrong_stops n line e t acts trans : line_wrong parse_int n line e -> pg_loop parse_int n (line :: t) acts trans = Err e.
  Proof.
    intros B. cbn [pg_loop]. rewrite never_space.
    destruct B as [v0 ws e W' P|v0 ws m W' P P'|v0 W' P|v0 v1 ws e W' P P'|v0 v1 v2 ws ts' w tl' a' e W' P P' F N U]; apply words_iff in W'; rewrite W'; cbn [hd]; rewrite P; cbn [bind]; try reflexivity.
    - apply Z.eqb_neq in P'. rewrite P'. reflexivity.
    - rewrite Z.eqb_refl. reflexivity.
    - rewrite Z.eqb_refl. cbn [negb nth_error bind]. rewrite P'. reflexivity.
    - rewrite Z.eqb_refl. cbn [negb nth_error bind skipn]. rewrite P'. cbn [bind]. fold read_transition. rewrite (read_stops _ _ _ _ _ F N U). reflexivity.
  Qed.
  Lemma says_goes n line a ts t acts trans : line_says parse_int n line a ts -> pg_loop parse_int n (line :: t) acts trans = pg_loop parse_int (n + 1) t (acts ++ [a]) (trans ++ [ts]).
  Proof.
    intros L. destruct (one_line n line t acts trans) as [(a' & ts' & L' & E)|(e & B & _)]; [|destruct (not_both _ _ _ _ _ L B)]. destruct (line_fun _ _ _ _ _ _ L L') as [-> ->]. exact E.
  Qed.

  (** The lines from number n on say these actions and transitions. *)
  Inductive file_says : Z -> list string -> list Z -> list (list (option Z)) -> Prop :=
  | fs_nil n : file_says n [] [] []
  | fs_line n line rest a ts acts trans : line_says parse_int n line a ts -> file_says (n + 1) rest acts trans -> file_says n (line :: rest) (a :: acts) (ts :: trans).
  Lemma loop_says n ls acts trans : file_says n ls acts trans -> forall rest acts0 trans0,
    pg_loop parse_int n (ls ++ rest) acts0 trans0 = pg_loop parse_int (n + Z.of_nat (List.length ls)) rest (acts0 ++ acts) (trans0 ++ trans).
  Proof.
    induction 1 as [n|n line ls a ts acts trans L F IH]; intros rest acts0 trans0.
    - cbn [app List.length]. rewrite Z.add_0_r, !app_nil_r. reflexivity.
    - cbn [app]. rewrite (says_goes _ _ _ _ _ _ _ L), IH, <- !app_assoc. cbn [app List.length]. f_equal. lia.
  Qed.
  Lemma loop_cases ls : forall n, (exists acts trans, file_says n ls acts trans) \/
    (exists pre line rest acts trans e, ls = pre ++ line :: rest /\ file_says n pre acts trans /\ line_wrong parse_int (n + Z.of_nat (List.length pre)) line e).
  Proof.
    induction ls as [|line ls IH]; intros n; [left; exists [], []; constructor|].
    destruct (one_line n line [] [] []) as [(a & ts & L & _)|(e & B & _)].
    - destruct (IH (n + 1)%Z) as [(acts & trans & F)|(pre & l & rest & acts & trans & e & -> & F & B)].
      + left. exists (a :: acts), (ts :: trans). constructor; assumption.
      + right. exists (line :: pre), l, rest, (a :: acts), (ts :: trans), e. split; [reflexivity|]. split; [constructor; assumption|]. cbn [List.length]. replace (n + Z.of_nat (S (List.length pre)))%Z with (n + 1 + Z.of_nat (List.length pre))%Z by lia. exact B.
    - right. exists [], line, ls, [], [], e. split; [reflexivity|]. split; [constructor|]. cbn [List.length]. rewrite Z.add_0_r. exact B.
  Qed.
  Lemma loop_exact ls r : pg_loop parse_int 0 ls [] [] = r <->
    match r with
    | Ok (acts, trans) => file_says 0 ls acts trans
    | Err e => exists pre line rest acts trans, ls = pre ++ line :: rest /\ file_says 0 pre acts trans /\ line_wrong parse_int (Z.of_nat (List.length pre)) line e
    end.
  Proof.
    assert (G : forall acts trans, file_says 0 ls acts trans -> pg_loop parse_int 0 ls [] [] = Ok (acts, trans)).
    { intros acts trans F. rewrite <- (app_nil_r ls), (loop_says _ _ _ _ F). reflexivity. }
    assert (B : forall pre line rest acts trans e, ls = pre ++ line :: rest -> file_says 0 pre acts trans -> line_wrong parse_int (Z.of_nat (List.length pre)) line e -> pg_loop parse_int 0 ls [] [] = Err e).
    { intros pre line rest acts trans e -> F W. rewrite (loop_says _ _ _ _ F), Z.add_0_l. apply wrong_stops. exact W. }
    split.
    - intros <-. destruct (loop_cases ls 0) as [(acts & trans & F)|(pre & line & rest & acts & trans & e & E & F & W)].
      + rewrite (G _ _ F). exact F.
      + rewrite Z.add_0_l in W. rewrite (B _ _ _ _ _ _ E F W). exists pre, line, rest, acts, trans. auto.
    - destruct r as [[acts trans]|e]; [apply G|]. intros (pre & line & rest & acts & trans & E & F & W). eauto.
  Qed.
  Lemma file_says_nth n ls acts trans : file_says n ls acts trans <->
    List.length acts = List.length ls /\ List.length trans = List.length ls /\
    forall i line, nth_error ls i = Some line -> exists a ts, nth_error acts i = Some a /\ nth_error trans i = Some ts /\ line_says parse_int (n + Z.of_nat i) line a ts.
  Proof.
    split.
    - induction 1 as [n|n line ls a ts acts trans L F (H1 & H2 & H3)]; [split; [reflexivity|]; split; [reflexivity|]; intros [|] ? ?; discriminate|].
      cbn [List.length]. split; [congruence|]. split; [congruence|]. intros [|i] l Hl; cbn [nth_error] in *.
      + exists a, ts. assert (l = line) as -> by congruence. rewrite Z.add_0_r. auto.
      + destruct (H3 i l Hl) as (a' & ts' & E1 & E2 & E3). exists a', ts'. split; [exact E1|]. split; [exact E2|]. replace (n + Z.of_nat (S i))%Z with (n + 1 + Z.of_nat i)%Z by lia. exact E3.
    - revert n acts trans. induction ls as [|line ls IH]; intros n acts trans (H1 & H2 & H3).
      + destruct acts, trans; try discriminate. constructor.
      + destruct acts as [|a acts]; [discriminate|]. destruct trans as [|ts trans]; [discriminate|]. destruct (H3 0 line eq_refl) as (a' & ts' & E1 & E2 & E3). cbn in E1, E2. assert (a' = a /\ ts' = ts) as [-> ->] by (split; congruence). rewrite Z.add_0_r in E3.
        constructor; [exact E3|]. apply IH. cbn [List.length] in *. split; [lia|]. split; [lia|]. intros i l Hl. destruct (H3 (S i) l Hl) as (a' & ts' & F1 & F2 & F3). exists a', ts'. split; [exact F1|]. split; [exact F2|]. replace (n + 1 + Z.of_nat i)%Z with (n + Z.of_nat (S i))%Z by lia. exact F3.
  Qed.
End One.

(** A file is accepted exactly when the line number i says an action and transitions of the node i, for each i; these are what
    is returned, in the order of the file.  Nothing else is looked at: not the third word, nor the number of transitions. *)
Theorem C49_accepts : forall parse_int lines acts trans, parse_policy_graph parse_int lines = Ok (acts, trans) <->
  List.length acts = List.length lines /\ List.length trans = List.length lines /\
  forall i line, nth_error lines i = Some line -> exists a ts, nth_error acts i = Some a /\ nth_error trans i = Some ts /\ line_says parse_int (Z.of_nat i) line a ts.
Proof.
  intros pi lines acts trans. unfold parse_policy_graph. rewrite loop_exact. apply (file_says_nth pi 0).
Qed.
Print Assumptions C49_accepts.

(** Otherwise the error is that of the first line that is wrong. *)
Theorem C49_errors : forall parse_int lines e, parse_policy_graph parse_int lines = Err e <->
  exists i line, nth_error lines i = Some line /\ line_wrong parse_int (Z.of_nat i) line e /\
    forall j line', j < i -> nth_error lines j = Some line' -> exists a ts, line_says parse_int (Z.of_nat j) line' a ts.
Proof.
  intros pi lines e. unfold parse_policy_graph. rewrite loop_exact. split.
  - intros (pre & line & rest & acts & trans & -> & F & W). exists (List.length pre), line. split; [rewrite nth_error_app2, Nat.sub_diag by lia; reflexivity|]. split; [exact W|].
    intros j l Hj Hl. rewrite nth_error_app1 in Hl by exact Hj. apply (file_says_nth pi 0) in F. destruct F as (_ & _ & F). destruct (F j l Hl) as (a & ts & _ & _ & L). eauto.
  - intros (i & line & Hi & W & L). apply nth_error_split in Hi. destruct Hi as (pre & rest & -> & <-).
    destruct (loop_cases pi pre 0) as [(acts & trans & F)|(p1 & l & p2 & acts & trans & e' & -> & F & B)].
    + exists pre, line, rest, acts, trans. auto.
    + exfalso. destruct (L (List.length p1) l) as (a & ts & L'); [rewrite app_length; cbn; lia|rewrite <- app_assoc, nth_error_app2, Nat.sub_diag by lia; reflexivity|]. rewrite Z.add_0_l in B. exact (not_both _ _ _ _ _ _ L' B).
Qed.
Print Assumptions C49_errors.

(** No line of white space is accepted, whatever the way of reading numbers. *)
Theorem C49_no_blank : forall parse_int lines acts trans line, parse_policy_graph parse_int lines = Ok (acts, trans) -> In line lines -> ~ Forall white (chars line).
Proof.
  intros pi lines acts trans line E I W. apply C49_accepts in E. destruct E as (_ & _ & E). apply In_nth_error in I. destruct I as [i Hi]. destruct (E i line Hi) as (a & ts & _ & _ & w0 & w1 & rest & Ws & _).
  assert (X : words line [EmptyString]). { split; [discriminate|]. split; [repeat constructor; intros []|]. exists line. split; [reflexivity|]. split; [exact W|]. intros [|] c K; discriminate. }
  pose proof (words_fun _ _ _ X Ws). discriminate.
Qed.
Print Assumptions C49_no_blank.

(** With a single space after the action the first transition is lost without an error. *)
Theorem C49_one_space_refuted : forall parse_int show n a t ts, writes parse_int show ->
  line_says parse_int n (join (show n :: show a :: map (entry show) (t :: ts))) a ts.
Proof.
  intros pi show n a t ts W. exists (show n), (show a), (map (entry show) (t :: ts)). pose proof (show_word pi show W) as SW. pose proof (entry_word pi show W) as EW.
  split; [|split; [apply W|]; split; [apply W|]; cbn [map tl]].
  - apply words_iff. rewrite rstrip_newline_idem. unfold rstrip. assert (F : Forall (fun x => x <> EmptyString /\ Forall (fun c => is_space c = false) (chars x)) (show n :: show a :: map (entry show) (t :: ts))).
    { constructor; [split; apply SW|]. constructor; [split; apply SW|]. apply Forall_map, Forall_forall. intros x _. split; apply EW. }
    rewrite (join_ends is_space) by (discriminate || exact F). apply split_join; [discriminate|]. constructor; [apply SW|]. constructor; [apply SW|]. apply Forall_map, Forall_forall. intros x _. apply EW.
  - induction ts as [|x ts IH]; [constructor|]. cbn [map]. constructor; [|exact IH]. destruct x as [z|]; [|reflexivity]. split; apply W.
Qed.
Print Assumptions C49_one_space_refuted.

Example C49_accepts_ex : parse_policy_graph ex_int ["0 3 x 1 - " ++ nl; "1 2"]%string = Ok ([3; 2], [[Some 1; None]; []])%Z /\
  parse_policy_graph ex_int ["0 3  1 - " ++ nl; "1" ++ nl]%string = Err EIndex /\ parse_policy_graph ex_int ["0 3  1" ++ nl; "0 2  1"]%string = Err EAssert /\ parse_policy_graph ex_int ["0 3  1  2"]%string = Err EValue.
Proof. repeat split; vm_compute; reflexivity. Qed.
Example C49_one_space_ex : writes ex_read ex_show /\ parse_policy_graph ex_int ["0 3 1 - 1"]%string = Ok ([3], [[None; Some 1]])%Z.
Proof. split; [exact C49_writes|vm_compute; reflexivity]. Qed.
