(** C123: the texts of histories. *)
From Verif Require Import PyBase PyBaseFacts PomdpModel TowerModel ElapsedModel LabelModel LabelSpec.
From Coq Require Import String Ascii Lia.
Local Open Scope list_scope.
Local Open Scope nat_scope.

Lemma split_nil a s : split_char a s <> [].
Proof. induction s as [|c s IH]; cbn [split_char]; [discriminate|]. destruct (Ascii.eqb c a); [discriminate|]. destruct (split_char a s); [congruence|discriminate]. Qed.
Lemma split_words s : words s (split_char "-" s).
Proof.
  split; [apply split_nil|]. induction s as [|c s [IH1 IH2]].
  - split; [|reflexivity]. constructor; [intros []|constructor].
  - cbn [split_char]. destruct (Ascii.eqb_spec c "-") as [->|N].
    + split; [constructor; [intros []|exact IH1]|]. pose proof (split_nil "-" s) as NN. rewrite IH2 at 1. destruct (split_char "-" s) as [|x l]; [congruence|]. reflexivity.
    + pose proof (split_nil "-" s) as NN. destruct (split_char "-" s) as [|x l]; [congruence|]. inversion IH1 as [|? ? W WL]; subst. split.
      * constructor; [|exact WL]. intros [E|E]; [congruence|auto].
      * cbn [String.concat]. destruct l; [reflexivity|]. reflexivity.
Qed.
Lemma word_one w : word w -> split_char "-" w = [w].
Proof.
  induction w as [|c w IH]; intros W; [reflexivity|]. cbn [split_char]. destruct (Ascii.eqb_spec c "-") as [->|N]; [destruct W; left; reflexivity|]. rewrite IH; [reflexivity|]. intros K. apply W. right. exact K.
Qed.
Lemma word_more w s : word w -> split_char "-" (w ++ "-" ++ s) = w :: split_char "-" s.
Proof.
  induction w as [|c w IH]; intros W; [reflexivity|]. cbn [split_char append]. destruct (Ascii.eqb_spec c "-") as [->|N]; [destruct W; left; reflexivity|].
  change (w ++ "-" ++ s)%string with (w ++ "-" ++ s)%string in IH. cbn [append] in IH. rewrite IH; [reflexivity|]. intros K. apply W. right. exact K.
Qed.
Lemma words_split s l : words s l -> l = split_char "-" s.
Proof.
  intros (N & W & ->). induction W as [|w l Hw W IH]; [congruence|]. destruct l as [|w' l]; [cbn; symmetry; apply word_one; auto|].
  change (String.concat "-" (w :: w' :: l)) with (w ++ "-" ++ String.concat "-" (w' :: l))%string. rewrite word_more by auto. f_equal. apply IH. discriminate.
Qed.
Lemma firsts l cs : mapM first_char l = Ok cs <-> exists t, Forall2 starts_with l t /\ cs = map (fun c => String c EmptyString) t.
Proof.
  revert cs. induction l as [|w l IH]; intros cs; cbn [mapM].
  - split; [intros E; exists (@nil ascii); split; [apply Forall2_nil|cbn; congruence]|]. intros (t & F & ->). inversion F. reflexivity.
  - destruct w as [|c w]; cbn [first_char bind]; [split; [discriminate|]; intros (t & F & _); inversion F as [|? ? ? ? (r & E)]; discriminate|].
    destruct (mapM first_char l) as [cs'|e]; cbn [bind].
    + destruct (proj1 (IH cs') eq_refl) as (t' & F' & E'). split.
      * intros E. exists (c :: t'). split; [constructor; [exists w; reflexivity|auto]|]. cbn [map]. congruence.
      * intros (t & F & ->). inversion F as [|? d ? t2 (r & E) F2]; subst. assert (d = c) as -> by congruence. cbn [map]. do 2 f_equal. assert (Ok (A := list string) (map (fun c => String c EmptyString) t') = Ok (map (fun c => String c EmptyString) t2)) as X by (apply IH; eauto). congruence.
    + split; [discriminate|]. intros (t & F & ->). inversion F as [|? d ? t2 (r & E) F2]; subst. assert (Err e = Ok (map (fun c => String c EmptyString) t2)) as X by (apply IH; eauto). discriminate.
Qed.
Lemma concat_chars t : String.concat "" (map (fun c => String c EmptyString) t) = string_of_list_ascii t.
Proof. induction t as [|c t IH]; [reflexivity|]. cbn [map string_of_list_ascii]. rewrite <- IH. destruct t; reflexivity. Qed.

(** The text of an action is made of the first characters of its words; it fails, with an IndexError, exactly if a word is
    empty. *)
Theorem C123_action : forall s, (forall t, short_a (NStr s) = Ok t <-> action_text s t) /\
  ((exists l, words s l /\ In ""%string l) <-> short_a (NStr s) = Err EIndex).
Proof.
  intros s. cbn [short_a]. split.
  - intros t. split.
    + destruct (mapM first_char (split_char "-" s)) as [cs|e] eqn:E; cbn [bind]; [|discriminate]. apply firsts in E. destruct E as (cl & F & ->). rewrite concat_chars. intros E.
      exists (split_char "-" s). split; [apply split_words|]. assert (t = string_of_list_ascii cl) as -> by congruence. rewrite list_ascii_of_string_of_list_ascii. exact F.
    + intros (l & W & F). rewrite <- (words_split _ _ W). assert (E : mapM first_char l = Ok (map (fun c => String c EmptyString) (list_ascii_of_string t))) by (apply firsts; eauto).
      rewrite E. cbn [bind]. rewrite concat_chars, string_of_list_ascii_of_string. reflexivity.
  - assert (X : forall l, In ""%string l <-> mapM first_char l = Err EIndex).
    { induction l as [|w l IH]; cbn [mapM In]; [split; [intros []|discriminate]|]. destruct w as [|c w]; cbn [first_char bind]; [split; auto|].
      split; [intros [E|I]; [discriminate|]; apply IH in I; rewrite I; reflexivity|]. destruct (mapM first_char l) as [cs|e]; cbn [bind]; [discriminate|]. intros E. right. apply IH. congruence. }
    split.
    + intros (l & W & I). rewrite <- (words_split _ _ W). apply X in I. rewrite I. reflexivity.
    + destruct (mapM first_char (split_char "-" s)) as [cs|e] eqn:E; cbn [bind]; [discriminate|]. intros Ee. exists (split_char "-" s). split; [apply split_words|]. apply X. congruence.
Qed.
Print Assumptions C123_action.

Lemma observation_iff s t : short_o (NStr s) = Ok t <-> observation_text s t.
Proof.
  cbn [short_o]. unfold observation_text. destruct (String.eqb_spec s "none") as [->|N].
  - split; [intros E; left; split; [reflexivity|congruence]|]. intros [[_ ->]|[N _]]; [reflexivity|congruence].
  - destruct s as [|c s]; cbn [first_char]; split.
    + discriminate.
    + intros [[E _]|(_ & c & (r & E) & _)]; discriminate.
    + intros E. right. split; [exact N|]. exists c. split; [exists s; reflexivity|congruence].
    + intros [[E _]|(_ & d & (r & E) & ->)]; [congruence|]. assert (d = c) as -> by congruence. reflexivity.
Qed.
Lemma pair_iff ao t : format_pair ao = Ok t <-> pair_text ao t.
Proof.
  destruct ao as [a o]. unfold format_pair, pair_text. cbn [fst snd]. split.
  - destruct (short_a a) as [ta|e] eqn:Ea; cbn [bind]; [|discriminate]. destruct (short_o o) as [to|e] eqn:Eo; cbn [bind]; [|discriminate]. intros E.
    destruct a as [z|a]; [discriminate|]. destruct o as [z|o]; [discriminate|]. exists a, o, ta, to. split; [reflexivity|]. split; [apply C123_action; auto|]. split; [apply observation_iff; auto|congruence].
  - intros (a' & o' & ta & to & E & A & O & ->). assert (a = NStr a' /\ o = NStr o') as [-> ->] by (split; congruence). apply C123_action in A. apply observation_iff in O. rewrite A, O. reflexivity.
Qed.
Lemma pairs_iff ps ws : mapM format_pair ps = Ok ws <-> Forall2 pair_text ps ws.
Proof.
  revert ws. induction ps as [|p ps IH]; intros ws; cbn [mapM].
  - split; [intros E; assert (ws = []) as -> by congruence; constructor|]. intros F. inversion F. reflexivity.
  - split.
    + destruct (format_pair p) as [w|e] eqn:Ep; cbn [bind]; [|discriminate]. destruct (mapM format_pair ps) as [ws'|e] eqn:E; cbn [bind]; [|discriminate]. intros E'. assert (ws = w :: ws') as -> by congruence.
      constructor; [apply pair_iff; auto|apply IH; reflexivity].
    + intros F. inversion F as [|? w ? ws' Hp Hps]; subst. apply pair_iff in Hp. rewrite Hp. cbn [bind]. apply IH in Hps. rewrite Hps. reflexivity.
Qed.
Lemma by_two_flat {A} (l : list A) : forall n, List.length l <= n -> exists alone, l = flat (by_two l) ++ alone /\ List.length alone <= 1.
Proof.
  intros n. revert l. induction n as [|n IH]; intros [|a [|b l]] L; cbn [List.length] in L; try lia.
  - exists []. auto.
  - exists []. auto.
  - exists [a]. auto.
  - destruct (IH l) as (alone & E & H); [lia|]. exists alone. split; [|exact H]. cbn [by_two]. unfold flat in *. cbn [map List.concat app fst snd]. congruence.
Qed.
Lemma flat_by_two {A} (ps : list (A * A)) alone : List.length alone <= 1 -> by_two (flat ps ++ alone) = ps.
Proof.
  intros H. induction ps as [|[a b] ps IH]; [destruct alone as [|x [|y alone]]; [reflexivity|reflexivity|cbn in H; lia]|]. unfold flat in *. cbn [map List.concat app fst snd by_two]. congruence.
Qed.
Lemma flat_length {A} (ps : list (A * A)) : List.length (flat ps) = 2 * List.length ps.
Proof. induction ps as [|p ps IH]; [reflexivity|]. unfold flat in *. cbn [map List.concat app List.length]. lia. Qed.

(** Before Python 3.7: the texts of the pairs, an element left alone is ignored, and the number of elements: twice that of the
    pairs. *)
Theorem C123_before : forall h t, format_history false h = Ok t <-> history_text h t.
Proof.
  intros h t. unfold format_history, history_text. cbn [by_two_end bind]. split.
  - destruct (mapM format_pair (by_two h)) as [ws|e] eqn:E; cbn [bind]; [|discriminate]. apply pairs_iff in E. intros Et.
    destruct (by_two_flat h (List.length h) (le_n _)) as (alone & Eh & Ha). exists (by_two h), alone, ws. split; [exact Eh|]. split; [exact Ha|]. split; [exact E|].
    assert (L : List.length h = 2 * List.length (by_two h) + List.length alone) by (rewrite Eh at 1; rewrite app_length, flat_length; reflexivity). rewrite <- L. congruence.
  - intros (ps & alone & ws & -> & Ha & F & ->). rewrite flat_by_two by auto. apply pairs_iff in F. rewrite F. cbn [bind]. rewrite app_length, flat_length. reflexivity.
Qed.
Print Assumptions C123_before.

(** It fails exactly if an action has an empty word or an observation is empty, with an IndexError. *)
Theorem C123_errors : forall (pairs : list (string * string)) alone, List.length alone <= 1 ->
  let r := format_history false (flat (map (fun p => (NStr (fst p), NStr (snd p))) pairs) ++ alone) in
  ((exists a o, In (a, o) pairs /\ (o = ""%string \/ exists l, words a l /\ In ""%string l)) <-> r = Err EIndex) /\ ((exists t, r = Ok t) \/ r = Err EIndex).
Proof.
  intros pairs alone Ha r. subst r. unfold format_history. rewrite flat_by_two by auto. cbn [by_two_end bind].
  assert (One : forall a o, ((o = ""%string \/ exists l, words a l /\ In ""%string l) <-> format_pair (NStr a, NStr o) = Err EIndex) /\ ((exists t, format_pair (NStr a, NStr o) = Ok t) \/ format_pair (NStr a, NStr o) = Err EIndex)).
  { intros a o. unfold format_pair. cbn [fst snd]. rewrite (proj2 (C123_action a)).
    assert (Ea : (exists t, short_a (NStr a) = Ok t) \/ short_a (NStr a) = Err EIndex).
    { cbn [short_a]. generalize (split_char "-" a). intros l. assert (X : (exists t, mapM first_char l = Ok t) \/ mapM first_char l = Err EIndex).
      { induction l as [|w l IH]; cbn [mapM]; [left; eauto|]. destruct w as [|c w]; cbn [first_char bind]; [right; reflexivity|]. destruct IH as [[t ->]| ->]; cbn [bind]; [left; eauto|right; reflexivity]. }
      destruct X as [[t ->]| ->]; cbn [bind]; [left; eauto|right; reflexivity]. }
    assert (Eo : (o = ""%string /\ short_o (NStr o) = Err EIndex) \/ (o <> ""%string /\ exists t, short_o (NStr o) = Ok t)).
    { cbn [short_o]. destruct o as [|c o]; [left; split; reflexivity|]. right. split; [discriminate|]. destruct (String.eqb (String c o) "none"); [eauto|]. cbn. eauto. }
    destruct Ea as [[ta ->]| ->]; cbn [bind].
    - destruct Eo as [[-> ->]|[N [to ->]]]; cbn [bind]; split; [split; auto|right; reflexivity|split; [intros [D|D]; [congruence|discriminate]|discriminate]|left; eauto].
    - split; [split; auto|right; reflexivity]. }
  set (f := fun p : string * string => (NStr (fst p), NStr (snd p))).
  assert (All : ((exists a o, In (a, o) pairs /\ (o = ""%string \/ exists l, words a l /\ In ""%string l)) <-> mapM format_pair (map f pairs) = Err EIndex) /\ ((exists t, mapM format_pair (map f pairs) = Ok t) \/ mapM format_pair (map f pairs) = Err EIndex)).
  { clear Ha. induction pairs as [|[a o] pairs [IH1 IH2]]; cbn [map mapM]; [split; [split; [intros (? & ? & [] & _)|discriminate]|left; eauto]|].
    change (f (a, o)) with (NStr a, NStr o). destruct (One a o) as [O1 O2]. destruct (format_pair (NStr a, NStr o)) as [t|e]; cbn [bind].
    - destruct IH2 as [[ts E]|E]; rewrite E in *; cbn [bind].
      + split; [split; [|discriminate]|left; eauto]. intros (a' & o' & [D|I] & X); [exfalso; assert (a' = a /\ o' = o) as [-> ->] by (split; congruence); apply O1 in X; discriminate|]. exfalso. assert (Ok ts = Err EIndex) by (apply IH1; eauto). discriminate.
      + split; [split; [reflexivity|]|right; reflexivity]. intros _. destruct (proj2 IH1 eq_refl) as (a' & o' & I & X). exists a', o'. split; [right; auto|auto].
    - assert (e = EIndex) as -> by (destruct O2 as [[t D]|D]; congruence). split; [split; [reflexivity|]|right; reflexivity]. intros _. exists a, o. split; [left; auto|apply O1; reflexivity]. }
  destruct All as [A1 A2]. destruct A2 as [[t E]|E]; rewrite E in *; cbn [bind].
  - split; [rewrite A1; split; discriminate|left; eauto].
  - split; [rewrite A1; split; reflexivity|right; reflexivity].
Qed.
Print Assumptions C123_errors.

(** Since Python 3.7 no history has a text: a RuntimeError is raised, even for those that had one. *)
Theorem C123_after_refuted : forall h t, format_history true h <> Ok t /\ (history_text h t -> format_history true h = Err ERuntime).
Proof.
  intros h t. unfold format_history. cbn [by_two_end]. destruct (mapM format_pair (by_two h)) as [ws|e] eqn:E; cbn [bind]; (split; [discriminate|]); [reflexivity|].
  intros (ps & alone & ws & -> & Ha & F & _). rewrite flat_by_two in E by auto. apply pairs_iff in F. congruence.
Qed.
Print Assumptions C123_after_refuted.

(** A history of two pairs; another one has the same text, and their names have no empty word. *)
Example C123_ex : action_text "phy-left-leg" "pll" /\ observation_text "none" "∅" /\
  history_text [NStr "phy-left-leg"; NStr "none"; NStr "wait"; NStr "yes"] "pll:∅, w:y [4]" /\
  history_text [NStr "phy-lower-leg"; NStr "none"; NStr "wander"; NStr "yellow"] "pll:∅, w:y [4]" /\
  history_text [NStr "wait"; NStr "no"; NStr "wait"] "w:n [3]" /\ short_a (NStr "a--b") = Err EIndex /\ exists l, words "a--b" l /\ In ""%string l.
Proof.
  split; [apply C123_action; reflexivity|]. split; [apply observation_iff; reflexivity|]. split; [apply C123_before; reflexivity|]. split; [apply C123_before; reflexivity|]. split; [apply C123_before; reflexivity|].
  split; [reflexivity|]. apply C123_action. reflexivity.
Qed.
