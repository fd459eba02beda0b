(** C114: solving a model. *)
From Coq Require Import String Ascii.
From Verif Require Import PyBase PyBaseFacts QBase PomdpModel PomdpSpec Props_Pomdp PolicyModel PolicySpec PolicyProofs2 Props_Policy ParseModel ParseSpec Props_Parse TowerModel DumpModel DumpSpec Props_Dump DumpProofs TowerProofs SolveModel SolveSpec SolveProofs.
From Coq Require Import Lia.
Local Open Scope list_scope.
Local Open Scope nat_scope.

(** *** C114 *)
(** One call of the solver, with the options asked for, on the text of the model. *)
Theorem C114_call : forall str_float parse_int parse_vector run opens tmpdir random_seed p solver_path timeout n_iterations method grid_type seed w text,
  dump str_float p = Ok text -> opens (tmpdir ++ "/tosolve.pomdp")%string = true ->
  exists c, w_calls (fst (solve str_float parse_int parse_vector run opens tmpdir random_seed p solver_path timeout n_iterations method grid_type seed w)) = w_calls w ++ [c] /\
    right_call solver_path tmpdir text w (asked timeout n_iterations method grid_type seed random_seed tmpdir) c.
Proof.
  intros sf pi pv run opens dir rs p sp t n m g s w text D Op. unfold solve, in_directory, dump_to.
  change (join_path dir ("tosolve" ++ ".pomdp")) with (dir ++ "/tosolve.pomdp")%string. rewrite Op, D. cbn [negb].
  rewrite args_pairs. destruct (run _) as [fs r] eqn:Er. eexists. split.
  - destruct r as [code|e]; [destruct (Z.eqb code 0)|]; reflexivity.
  - split; [reflexivity|]. split; [reflexivity|]. split; [apply put_same|]. split; [intros f N; apply put_other; exact N|]. eexists. split; [reflexivity|]. split; [apply pairs_distinct|]. intros fl v. apply pairs_asked.
Qed.
Print Assumptions C114_call.

(** Without the text, or if it cannot be written, no call, and this failure. *)
Theorem C114_no_call : forall str_float parse_int parse_vector run opens tmpdir random_seed p solver_path timeout n_iterations method grid_type seed w,
  let result := solve str_float parse_int parse_vector run opens tmpdir random_seed p solver_path timeout n_iterations method grid_type seed w in
  (opens (tmpdir ++ "/tosolve.pomdp")%string = false -> w_calls (fst result) = w_calls w /\ snd result = inr (FIO (tmpdir ++ "/tosolve.pomdp"))) /\
  (forall e, opens (tmpdir ++ "/tosolve.pomdp")%string = true -> dump str_float p = Err e -> w_calls (fst result) = w_calls w /\ snd result = inr (FPython e)).
Proof.
  intros sf pi pv run opens dir rs p sp t n m g s w. cbn zeta. unfold solve, in_directory, dump_to.
  change (join_path dir ("tosolve" ++ ".pomdp")) with (dir ++ "/tosolve.pomdp")%string. split; [intros ->; split; reflexivity|intros e -> ->; split; reflexivity].
Qed.
Print Assumptions C114_no_call.

(** The outcome is that of the solver, and a policy is read from the files it leaves. *)
Theorem C114_result : forall str_float parse_int parse_vector run opens tmpdir random_seed p solver_path timeout n_iterations method grid_type seed w c fs r,
  let result := solve str_float parse_int parse_vector run opens tmpdir random_seed p solver_path timeout n_iterations method grid_type seed w in
  w_calls (fst result) = w_calls w ++ [c] -> run c = (fs, r) ->
  (forall e, r = inr e -> snd result = inr e) /\
  (forall code, r = inl code -> code <> 0%Z -> snd result = inr (FExit code)) /\
  (r = inl 0%Z -> forall g, snd result = inl g <->
     exists vt vlines vf pt plines pg, fs (tmpdir ++ "/tosolve.alpha")%string = Some vt /\ has_lines vt vlines /\ parse_value_function parse_int parse_vector vlines = Ok vf /\
       fs (tmpdir ++ "/tosolve.pg")%string = Some pt /\ has_lines pt plines /\ parse_policy_graph parse_int plines = Ok pg /\ load_policy p vf pg = Ok g) /\
  (r = inl 0%Z -> fs (tmpdir ++ "/tosolve.alpha")%string = None -> snd result = inr (FIO (tmpdir ++ "/tosolve.alpha"))) /\
  (* the exception, when one of the files is missing or malformed *)
  (r = inl 0%Z -> forall vt vlines, fs (tmpdir ++ "/tosolve.alpha")%string = Some vt -> has_lines vt vlines ->
     (forall e, parse_value_function parse_int parse_vector vlines = Err e -> snd result = inr (FPython e)) /\
        (forall vf, parse_value_function parse_int parse_vector vlines = Ok vf ->
        (fs (tmpdir ++ "/tosolve.pg")%string = None -> snd result = inr (FIO (tmpdir ++ "/tosolve.pg"))) /\
        (forall pt plines, fs (tmpdir ++ "/tosolve.pg")%string = Some pt -> has_lines pt plines ->
           (forall e, parse_policy_graph parse_int plines = Err e -> snd result = inr (FPython e)) /\
        (forall pg e, parse_policy_graph parse_int plines = Ok pg -> load_policy p vf pg = Err e -> snd result = inr (FPython e))))).
Proof.
  intros sf pi pv run opens dir rs p sp t n m g s w c fs r. cbn zeta. unfold solve, in_directory, dump_to.
  change (join_path dir ("tosolve" ++ ".pomdp")) with (dir ++ "/tosolve.pomdp")%string. destruct (opens _); cbn [negb].
  2:{ cbn. intros H _. exfalso. rewrite <- (app_nil_r (w_calls w)) in H at 1. apply app_inv_head in H. discriminate. }
  destruct (dump sf p) as [text|e].
  2:{ cbn. intros H _. exfalso. rewrite <- (app_nil_r (w_calls w)) in H at 1. apply app_inv_head in H. discriminate. }
  destruct (run _) as [fs' r'] eqn:Er. intros H Ec.
  assert (Ec' : {| c_path := sp; c_args := solver_args rs t n m g s ++ ["-o"; "tosolve"; "-pomdp"; dir ++ "/tosolve.pomdp"]%string; c_cwd := dir; c_files := put (w_files w) (dir ++ "/tosolve.pomdp") text |} = c).
  { destruct r' as [code|e]; [destruct (Z.eqb code 0)|]; cbn [fst w_calls] in H; apply app_inv_head in H; congruence. }
  rewrite Ec' in Er. rewrite Er in Ec. clear H. assert (fs' = fs) as -> by congruence. assert (r' = r) as -> by congruence. clear Er Ec.
  split; [intros e ->; reflexivity|]. split; [intros code -> N; destruct (Z.eqb_spec code 0); [congruence|reflexivity]|]. split; [|split].
  - intros ->. intros gp. cbn [Z.eqb snd fst]. unfold load_policy_from. change (join_path dir ("tosolve" ++ ".alpha")) with (dir ++ "/tosolve.alpha")%string. change (join_path dir ("tosolve" ++ ".pg")) with (dir ++ "/tosolve.pg")%string. split.
    + destruct (fs (dir ++ "/tosolve.alpha")%string) as [vt|]; [|discriminate]. destruct (parse_value_function pi pv (lines_of vt)) as [vf|] eqn:Ev; [|discriminate]. destruct (fs (dir ++ "/tosolve.pg")%string) as [pt|]; [|discriminate].
      destruct (parse_policy_graph pi (lines_of pt)) as [pg|] eqn:Ep; [|discriminate]. cbn [bind]. destruct (load_policy p vf pg) as [g'|] eqn:El; [|discriminate]. cbn. intros E. assert (g' = gp) as -> by congruence.
      exists vt, (lines_of vt), vf, pt, (lines_of pt), pg. split; [reflexivity|]. split; [apply lines_exist|]. split; [exact Ev|]. split; [reflexivity|]. split; [apply lines_exist|]. split; [exact Ep|exact El].
    + intros (vt & vl & vf & pt & pl & pg & -> & L1 & Ev & -> & L2 & Ep & El). rewrite (has_lines_of _ _ L1), Ev, (has_lines_of _ _ L2), Ep. cbn [bind]. rewrite El. reflexivity.
  - intros -> N. cbn [Z.eqb snd fst]. unfold load_policy_from. change (join_path dir ("tosolve" ++ ".alpha")) with (dir ++ "/tosolve.alpha")%string. rewrite N. reflexivity.
  - intros -> vt vl Ea L1. cbn [Z.eqb snd fst]. unfold load_policy_from. change (join_path dir ("tosolve" ++ ".alpha")) with (dir ++ "/tosolve.alpha")%string. change (join_path dir ("tosolve" ++ ".pg")) with (dir ++ "/tosolve.pg")%string.
    rewrite Ea, (has_lines_of _ _ L1). split; [intros e Ev; rewrite Ev; reflexivity|]. intros vf Ev. rewrite Ev. split; [intros Np; rewrite Np; reflexivity|].
    intros pt pl Ep L2. rewrite Ep, (has_lines_of _ _ L2). split; [intros e Eg; rewrite Eg; reflexivity|]. intros pg e Eg El. rewrite Eg. cbn [bind]. rewrite El. reflexivity.
Qed.
Print Assumptions C114_result.

(** The directory is removed whatever happens, and other files are as the solver leaves them. *)
Theorem C114_clean : forall str_float parse_int parse_vector run opens tmpdir random_seed p solver_path timeout n_iterations method grid_type seed w,
  let after := fst (solve str_float parse_int parse_vector run opens tmpdir random_seed p solver_path timeout n_iterations method grid_type seed w) in
  (forall f, inside tmpdir f -> w_files after f = None) /\
  (w_calls after = w_calls w -> forall f, ~ inside tmpdir f -> w_files after f = w_files w f) /\
  (forall c, w_calls after = w_calls w ++ [c] -> forall f, ~ inside tmpdir f -> w_files after f = fst (run c) f) /\
  (confined run -> fresh tmpdir w -> forall f, w_files after f = w_files w f).
Proof.
  intros sf pi pv run opens dir rs p sp t n m g s w. cbn zeta.
  assert (X : exists fs, w_files (fst (solve sf pi pv run opens dir rs p sp t n m g s w)) = remove_tree dir fs /\
     ((w_calls (fst (solve sf pi pv run opens dir rs p sp t n m g s w)) = w_calls w /\ forall f, ~ inside dir f -> fs f = w_files w f) \/
      (exists c, w_calls (fst (solve sf pi pv run opens dir rs p sp t n m g s w)) = w_calls w ++ [c] /\ c_cwd c = dir /\ fs = fst (run c) /\ forall f, ~ inside dir f -> c_files c f = w_files w f))).
  { unfold solve, in_directory, dump_to. change (join_path dir ("tosolve" ++ ".pomdp")) with (dir ++ "/tosolve.pomdp")%string.
    assert (P : forall x f, ~ inside dir f -> put (w_files w) (dir ++ "/tosolve.pomdp") x f = w_files w f). { intros x f N. apply put_other. intros ->. apply N. exists "tosolve.pomdp"%string. reflexivity. }
    destruct (opens _); cbn [negb]; [|eexists; split; [reflexivity|left; auto]]. destruct (dump sf p) as [text|e]; [|eexists; split; [reflexivity|left; split; [reflexivity|apply P]]].
    destruct (run _) as [fs r] eqn:Er. exists fs. split; [destruct r as [code|e]; [destruct (Z.eqb code 0)|]; reflexivity|]. right. eexists. split; [destruct r as [code|e]; [destruct (Z.eqb code 0)|]; reflexivity|]. split; [reflexivity|]. split; [rewrite Er; reflexivity|]. apply P. }
  destruct X as (fs & Ef & X). rewrite Ef. split; [intros f; apply remove_inside|]. split; [|split].
  - intros E f N. rewrite (proj2 (remove_inside dir fs f) N). destruct X as [[_ X]|(c & Ec & _)]; [exact (X f N)|]. exfalso. rewrite E in Ec. rewrite <- (app_nil_r (w_calls w)) in Ec at 1. apply app_inv_head in Ec. discriminate.
  - intros c E f N. rewrite (proj2 (remove_inside dir fs f) N). destruct X as [[Ec _]|(c' & Ec & _ & -> & _)]; [|rewrite E in Ec; apply app_inv_head in Ec; congruence]. exfalso. rewrite E in Ec. apply (f_equal (@length call)) in Ec. rewrite app_length in Ec. cbn in Ec. lia.
  - intros C F f. destruct (String.prefix (dir ++ "/") f) eqn:Pf.
    + apply prefix_inside in Pf. rewrite (proj1 (remove_inside dir fs f) Pf), (F f Pf). reflexivity.
    + assert (N : ~ inside dir f) by (intros I; apply prefix_inside in I; congruence). rewrite (proj2 (remove_inside dir fs f) N). destruct X as [[_ X]|(c & _ & Ec & -> & X)]; [exact (X f N)|]. rewrite C by (rewrite Ec; exact N). exact (X f N).
Qed.
Print Assumptions C114_clean.

(** With the formats of C48 and C49: whatever policy the solver writes is the one that is returned, its actions and
    observations named as in the model, its first node the best one for the start. *)
Theorem C114_policy : forall str_float parse_int parse_vector show run opens tmpdir random_seed p solver_path timeout n_iterations method grid_type seed w c fs vt vlines ls bs k pt l,
  let result := solve str_float parse_int parse_vector run opens tmpdir random_seed p solver_path timeout n_iterations method grid_type seed w in
  w_calls (fst result) = w_calls w ++ [c] -> run c = (fs, inl 0%Z) ->
  fs (tmpdir ++ "/tosolve.alpha")%string = Some vt -> has_lines vt vlines -> interleave vlines ls -> blocks parse_int parse_vector ls bs -> bs <> [] -> Forall (fun b => length (snd b) = k) bs ->
  fs (tmpdir ++ "/tosolve.pg")%string = Some pt -> has_lines pt (pg_file show 0 l) -> writes parse_int show -> Forall (fun x => Forall white (chars (snd x))) l ->
  let vf := (map fst bs, map snd bs) in let pg := (map (fun x => fst (fst x)) l, map (fun x => snd (fst x)) l) in
  loadable p vf pg ->
  exists g n, snd result = inl g /\ g_trans g = snd pg /\ g_values g = snd vf /\ g_observations g = p_observations p /\ Forall2 (action_name p) (fst vf) (g_actions g) /\
    g_init g = Z.of_nat n /\ best (snd vf) (start_list p) n.
Proof.
  intros sf pi pv show run opens dir rs p sp t n m g s w c fs vt vl ls bs k pt l result Ec Er V1 V2 V3 V4 V5 V6 P1 P2 P3 P4 vf pg L.
  destruct (proj2 (proj1 (C50_accepts p vf pg)) L) as [gp G]. destruct (proj2 (C50_accepts p vf pg) gp G) as (A1 & A2 & A3 & A4 & i & A5 & A6).
  exists gp, i. split; [|auto 10]. apply (proj1 (proj2 (proj2 (C114_result _ _ _ _ _ _ _ _ _ _ _ _ _ _ _ _ _ _ Ec Er))) eq_refl).
  exists vt, vl, vf, pt, (pg_file show 0 l), pg. split; [exact V1|]. split; [exact V2|]. split; [exact (C48_reads pi pv vl ls bs k V3 V4 V5 V6)|]. split; [exact P1|]. split; [exact P2|]. split; [exact (C49_reads_partial pi show l P3 P4)|exact G].
Qed.
Print Assumptions C114_policy.

(** The solver reads the model: C113 for the file it is given. *)
Theorem C114_described_partial : forall str_float parse_int parse_vector run opens tmpdir random_seed T O R start discount gs ga go values ok p q solver_path timeout n_iterations method grid_type seed w,
  mk_pomdp T O R start discount gs ga go values ok = Ok p -> 0 < nA p -> good_names (p_s p) -> good_names (p_a p) -> good_names (p_o p) ->
  number (str_float (p_discount p)) = Some q -> (q == p_discount p)%Q -> opens (tmpdir ++ "/tosolve.pomdp")%string = true ->
  exists c text f, w_calls (fst (solve str_float parse_int parse_vector run opens tmpdir random_seed p solver_path timeout n_iterations method grid_type seed w)) = w_calls w ++ [c] /\
    c_files c (tmpdir ++ "/tosolve.pomdp")%string = Some text /\ read_text text = Some f /\ describes p f.
Proof.
  intros sf pi pv run opens dir rs T O R start discount gs ga go values ok p q sp t n m g s w E HA G1 G2 G3 D1 D2 Op.
  destruct (C113_text_partial sf _ _ _ _ _ _ _ _ _ _ _ _ E HA G1 G2 G3 D1 D2) as (text & f & Dt & Rt & De).
  destruct (C114_call sf pi pv run opens dir rs p sp t n m g s w text Dt Op) as (c & Ec & _ & _ & Cf & _). exists c, text, f. auto.
Qed.
Print Assumptions C114_described_partial.

(** Methods other than grid are not passed to the solver, and without it the type of grid is not either. *)
Theorem C114_ignored : forall str_float parse_int parse_vector run opens tmpdir random_seed p solver_path timeout n_iterations method grid_type seed w,
  method <> "grid"%string ->
  solve str_float parse_int parse_vector run opens tmpdir random_seed p solver_path timeout n_iterations method grid_type seed w =
  solve str_float parse_int parse_vector run opens tmpdir random_seed p solver_path timeout n_iterations "incprune" None seed w.
Proof.
  intros sf pi pv run opens dir rs p sp t n m g s w N. unfold solve, solver_args. destruct (String.eqb_spec m "grid"); [congruence|]. reflexivity.
Qed.
Print Assumptions C114_ignored.

(** A run for the tiger: the solver leaves a policy of three nodes, a file of its own, and nothing else. *)
Fixpoint int_digits (acc : Z) (s : string) : res Z :=
  match s with
  | EmptyString => Ok acc
  | String c t => match digit_value c with Some d => int_digits (10 * acc + d) t | None => if all_space s then Ok acc else Err EValue end
  end.
Definition int_unsigned (s : string) : res Z := match s with String c _ => match digit_value c with Some _ => int_digits 0 s | None => Err EValue end | EmptyString => Err EValue end.
Definition int_text (s : string) : res Z :=
  match s with String c t => if Ascii.eqb c "-" then do z <- int_unsigned t; Ok (- z)%Z else int_unsigned s | EmptyString => Err EValue end.
Definition ex_vector (s : string) : res (list Q) := mapM (fun x => match number x with Some q => Ok q | None => Err EValue end) (tokens s).
Definition ex_alpha : string := ("0" ++ nl ++ "1.5 -2" ++ nl ++ nl ++ "1" ++ nl ++ "10 -100" ++ nl ++ nl ++ "2" ++ nl ++ "-100 10" ++ nl)%string.
Definition ex_graph : string := ("0 0  2 1" ++ nl ++ "1 1  0 0" ++ nl ++ "2 2  0 -" ++ nl)%string.
Definition ex_solver (code : Z) : solver := fun c => (put (put (put (c_files c) (c_cwd c ++ "/log") "done") (c_cwd c ++ "/tosolve.alpha") ex_alpha) (c_cwd c ++ "/tosolve.pg") ex_graph, inl code).
Definition ex_before : world := {| w_files := put (fun _ => None) "/tmp/notes" "mine"; w_calls := [] |}.
Definition ex_solve (code : Z) (method : string) := solve ex_float int_text ex_vector (ex_solver code) (fun _ => true) "/tmp/x" 7 tiger "/bin/pomdp-solve" (Some 60%Z) None method None None ex_before.
Example C114_ex : exists g, snd (ex_solve 0 "grid") = inl g /\ g_actions g = map NStr ["listen"; "left"; "right"]%string /\ g_trans g = [[Some 2; Some 1]; [Some 0; Some 0]; [Some 0; None]]%Z /\
  map c_args (w_calls (fst (ex_solve 0 "grid"))) = [["-time_limit"; "60"; "-rand_seed"; "7"; "-method"; "grid"; "-fg_type"; "simplex"; "-o"; "tosolve"; "-pomdp"; "/tmp/x/tosolve.pomdp"]]%string /\
  map c_args (w_calls (fst (ex_solve 0 "pruning"))) = [["-time_limit"; "60"; "-rand_seed"; "7"; "-o"; "tosolve"; "-pomdp"; "/tmp/x/tosolve.pomdp"]]%string /\
  map (w_files (fst (ex_solve 0 "grid"))) ["/tmp/x/tosolve.pomdp"; "/tmp/x/tosolve.alpha"; "/tmp/x/log"; "/tmp/notes"]%string = [None; None; None; Some "mine"%string].
Proof. eexists. split; [vm_compute; reflexivity|]. repeat split; vm_compute; reflexivity. Qed.
Example C114_ex_failed : snd (ex_solve 2 "grid") = inr (FExit 2) /\ map (w_files (fst (ex_solve 2 "grid"))) ["/tmp/x/tosolve.pomdp"; "/tmp/x/log"; "/tmp/notes"]%string = [None; None; Some "mine"%string].
Proof. split; vm_compute; reflexivity. Qed.
Example C114_ex_confined : confined (ex_solver 0) /\ fresh "/tmp/x" ex_before.
Proof.
  split.
  - intros c f N. cbn [fst ex_solver]. rewrite !put_other; [reflexivity| | |]; intros ->; apply N; eexists; reflexivity.
  - intros f [x ->]. reflexivity.
Qed.
(** The files meet the conditions of C114_policy: integers are written in decimal. *)
Lemma digits_white c : (exists d, digit_value c = Some d) -> ~ white c.
Proof. intros [d D] W. unfold digit_value in D. unfold white in W. set (n := nat_of_ascii c) in *. destruct (Nat.leb_spec 48 n), (Nat.leb_spec n 57); cbn in D; try discriminate. lia. Qed.
Lemma unsigned_int n : (0 <= n)%Z -> int_unsigned (str_int n) = Ok n /\ str_int n <> EmptyString /\ str_int n <> "-"%string /\ Forall (fun c => ~ white c) (chars (str_int n)) /\ exists c t, str_int n = String c t /\ Ascii.eqb c "-" = false.
Proof.
  intros P. destruct (str_int_digits n P) as (c & t & E & d & D). split; [|split; [|split; [|split]]].
  - unfold int_unsigned. rewrite E, D, <- E. rewrite <- (app_nil_s (str_int n)). rewrite (horner_int int_digits); [reflexivity| |exact P]. intros acc c0 t0 d0 H0. cbn [int_digits]. rewrite H0. reflexivity.
  - rewrite E. discriminate.
  - rewrite E. intros X. injection X as -> ->. discriminate.
  - assert (H : forall c, has c (str_int n) -> exists d, digit_value c = Some d) by (intros x Hx; apply (str_chars n x P) in Hx; repeat (destruct Hx as [<-|Hx]; [eexists; reflexivity|]); destruct Hx).
    revert H. generalize (str_int n). induction s as [|x s IH]; intros H; [constructor|]. constructor; [apply digits_white, H; left; reflexivity|]. apply IH. intros y Hy. apply H. right. exact Hy.
  - exists c, t. split; [exact E|]. destruct (Ascii.eqb_spec c "-") as [->|]; [discriminate|reflexivity].
Qed.
Example C114_ex_writes : writes int_text str_int.
Proof.
  intros z. destruct (Z.ltb_spec z 0) as [N|P].
  - assert (Ez : str_int z = String "-" (str_int (- z))) by (destruct z; [lia|lia|reflexivity]). destruct (unsigned_int (- z)) as (U1 & U2 & U3 & U4 & _); [lia|]. rewrite Ez. split; [|split; [discriminate|split]].
    + unfold int_text. change (Ascii.eqb "-" "-") with true. cbv iota. rewrite U1. cbn [bind]. f_equal. lia.
    + intros X. injection X as X. exact (U2 X).
    + cbn [chars]. constructor; [|exact U4]. intros W. unfold white in W. change (nat_of_ascii "-") with 45 in W. lia.
  - destruct (unsigned_int z P) as (U1 & U2 & U3 & U4 & c & t & Et & Nc). split; [|auto]. unfold int_text. rewrite Et, Nc, <- Et. exact U1.
Qed.
Lemma ex_loadable bs : map fst bs = [0; 1; 2]%Z -> map (fun b : Z * list Q => length (snd b)) bs = [2; 2; 2] ->
  loadable tiger (map fst bs, map snd bs) ([0; 1; 2], [[Some 2; Some 1]; [Some 0; Some 0]; [Some 0; None]])%Z.
Proof.
  intros E1 E2. unfold loadable. cbn [fst snd]. rewrite E1. split; [reflexivity|]. split; [discriminate|]. split; [|split; [|split; [|split; [|split; [|split]]]]].
  - intros a Ha. change (nA tiger) with 3. cbn in Ha. lia.
  - exists [Some 2; Some 1]%Z, 2%Z. split; left; reflexivity.
  - intros row t Hr Ht. cbn in Hr. destruct Hr as [<-|[<-|[<-|[]]]]; cbn in Ht; destruct Ht as [Ht|[Ht|[]]]; try discriminate; injection Ht as <-; cbn; lia.
  - reflexivity.
  - intros row Hr. cbn in Hr. destruct Hr as [<-|[<-|[<-|[]]]]; reflexivity.
  - destruct bs; discriminate.
  - intros row Hr. apply in_map_iff in Hr. destruct Hr as (b & <- & Hb). assert (In (length (snd b)) [2; 2; 2]) as H by (rewrite <- E2; apply (in_map (fun b : Z * list Q => length (snd b))); exact Hb). change (length (start_list tiger)) with 2. cbn in H. lia.
Qed.
Example C114_ex_policy : exists c fs vlines ls bs,
  w_calls (fst (ex_solve 0 "grid")) = [c] /\ ex_solver 0 c = (fs, inl 0%Z) /\ fs "/tmp/x/tosolve.alpha"%string = Some ex_alpha /\ has_lines ex_alpha vlines /\
  interleave vlines ls /\ blocks int_text ex_vector ls bs /\ map fst bs = [0; 1; 2]%Z /\ map (fun b => length (snd b)) bs = [2; 2; 2] /\
  fs "/tmp/x/tosolve.pg"%string = Some ex_graph /\ has_lines ex_graph (pg_file str_int 0 [(0, [Some 2; Some 1], nl); (1, [Some 0; Some 0], nl); (2, [Some 0; None], nl)]%Z) /\
  loadable tiger (map fst bs, map snd bs) ([0; 1; 2], [[Some 2; Some 1]; [Some 0; Some 0]; [Some 0; None]])%Z.
Proof.
  destruct (C114_call ex_float int_text ex_vector (ex_solver 0) (fun _ => true) "/tmp/x" 7 tiger "/bin/pomdp-solve" (Some 60%Z) None "grid" None None ex_before ex_text) as (c & Ec & C1 & C2 & _); [vm_compute; reflexivity|reflexivity|].
  exists c. eexists. exists (lines_of ex_alpha), ["0" ++ nl; "1.5 -2" ++ nl; "1" ++ nl; "10 -100" ++ nl; "2" ++ nl; "-100 10" ++ nl]%string. eexists. split; [exact Ec|]. split; [reflexivity|].
  split; [rewrite C2; reflexivity|]. split; [apply lines_exist|]. split; [|split; [|split; [|split; [|split; [|split]]]]].
  - change (lines_of ex_alpha) with ["0" ++ nl; "1.5 -2" ++ nl; nl; "1" ++ nl; "10 -100" ++ nl; nl; "2" ++ nl; "-100 10" ++ nl]%string.
    repeat first [apply il_nil | apply il_line; [intros [_ B]; inversion B as [|? ? W _]; vm_compute in W; lia|] | apply il_blank; [split; [discriminate|repeat constructor; vm_compute; lia]|]].
  - do 3 (eapply bl_cons; [vm_compute; reflexivity|vm_compute; reflexivity|]). apply bl_nil.
  - reflexivity.
  - reflexivity.
  - rewrite C2. reflexivity.
  - exact (lines_exist ex_graph).
  - apply ex_loadable; reflexivity.
Qed.
