(** Proofs for C114. *)
From Coq Require Import String Ascii.
From Verif Require Import PyBase PyBaseFacts QBase PomdpModel PomdpSpec PolicyModel PolicySpec ParseModel ParseSpec TowerModel DumpModel SolveModel SolveSpec.
From Coq Require Import Lia.
Local Open Scope list_scope.
Local Open Scope nat_scope.

Lemma prefix_inside dir f : String.prefix (dir ++ "/") f = true <-> inside dir f.
Proof.
  unfold inside. revert f. induction dir as [|c dir IH]; intros f.
  - cbn [append]. destruct f as [|d f]; cbn [String.prefix append]; [split; [discriminate|intros [n E]; discriminate]|]. destruct (ascii_dec "/" d) as [<-|N]; [split; [intros _; exists f; reflexivity|]|split; [discriminate|intros [n E]; congruence]]. destruct f; auto.
  - cbn [append]. destruct f as [|d f]; cbn [String.prefix]; [split; [discriminate|intros [n E]; discriminate]|]. destruct (ascii_dec c d) as [<-|N]; [|split; [discriminate|intros [n E]; congruence]].
    rewrite IH. split; intros [n E]; exists n; cbn [append] in *; congruence.
Qed.
Lemma remove_inside dir fs f : (inside dir f -> remove_tree dir fs f = None) /\ (~ inside dir f -> remove_tree dir fs f = fs f).
Proof. unfold remove_tree. pose proof (prefix_inside dir f) as H. destruct (String.prefix (dir ++ "/") f); split; intros X; try reflexivity; [exfalso; apply X, H; reflexivity|apply H in X; discriminate]. Qed.
Lemma put_same fs x t : put fs x t x = Some t.
Proof. unfold put. rewrite String.eqb_refl. reflexivity. Qed.
Lemma put_other fs x t f : f <> x -> put fs x t f = fs f.
Proof. intros N. unfold put. destruct (String.eqb_spec f x); [congruence|reflexivity]. Qed.

(** Arguments *)
Definition arg_pairs (random_seed : Z) (timeout n_iterations : option Z) (method : string) (grid_type : option string) (seed : option Z) (file : string) : list (string * string) :=
  match timeout with Some t => [("-time_limit", str_int t)] | None => [] end%string ++
  match n_iterations with Some n => [("-horizon", str_int n)] | None => [] end%string ++
  [("-rand_seed", str_int (match seed with Some s => s | None => random_seed end))]%string ++
  (if String.eqb method "grid" then [("-method", "grid"); ("-fg_type", match grid_type with Some g => g | None => "simplex" end)] else [])%string ++
  [("-o", "tosolve"); ("-pomdp", file)]%string.
Lemma args_pairs r t n m g s file : solver_args r t n m g s ++ ["-o"; "tosolve"; "-pomdp"; file]%string = command_line (arg_pairs r t n m g s file).
Proof.
  unfold solver_args, arg_pairs, command_line. destruct (String.eqb_spec m "grid") as [->|_]; destruct t, n; reflexivity.
Qed.
Lemma pairs_asked r t n m g s dir fl v : In (fl, v) (arg_pairs r t n m g s (join_path dir "tosolve.pomdp")) <-> asked t n m g s r dir fl v.
Proof.
  unfold arg_pairs. rewrite !in_app_iff. split.
  - intros [H|[H|[H|[H|H]]]].
    + destruct t; [destruct H as [H|[]]; injection H as <- <-; constructor; reflexivity|destruct H].
    + destruct n; [destruct H as [H|[]]; injection H as <- <-; constructor; reflexivity|destruct H].
    + destruct H as [H|[]]. injection H as <- <-. destruct s; constructor; reflexivity.
    + destruct (String.eqb_spec m "grid") as [->|_]; [|destruct H]. destruct H as [H|[H|[]]]; injection H as <- <-; [constructor; reflexivity|]. destruct g; constructor; reflexivity.
    + destruct H as [H|[H|[]]]; injection H as <- <-; constructor.
  - intros H. destruct H; subst; cbn; auto 10. all: rewrite ?H, ?H0; cbn; auto 10.
Qed.
Lemma pairs_distinct r t n m g s file : NoDup (map fst (arg_pairs r t n m g s file)).
Proof. unfold arg_pairs. destruct t, n, (String.eqb m "grid"); cbn; repeat (constructor; [cbn; intuition discriminate|]); constructor. Qed.

(** Lines *)
Lemma ended_app_unended l : forall s, ended l -> lines_of (l ++ s) = l :: lines_of s.
Proof.
  induction l as [|c l IH]; intros s E; [destruct E|]. destruct l as [|d l].
  - cbn in E. subst c. reflexivity.
  - destruct E as [N E]. cbn [append lines_of] in *. specialize (IH s E). cbn [append lines_of] in IH. destruct (Ascii.eqb_spec c newline) as [->|_]; [exfalso; apply N; reflexivity|]. rewrite IH. reflexivity.
Qed.
Lemma lines_last l : l <> EmptyString -> unended l -> lines_of l = [l].
Proof.
  induction l as [|c l IH]; intros N U; [congruence|]. cbn [lines_of]. destruct U as [U1 U2]. destruct (Ascii.eqb_spec c newline) as [->|_]; [exfalso; apply U1; reflexivity|]. destruct l as [|d l]; [reflexivity|]. rewrite IH; [reflexivity|discriminate|exact U2].
Qed.
Lemma has_lines_of s ls : has_lines s ls -> lines_of s = ls.
Proof. induction 1 as [|l N U|l s ls E _ IH]; [reflexivity|apply lines_last; assumption|]. rewrite ended_app_unended by exact E. rewrite IH. reflexivity. Qed.
Lemma lines_exist s : has_lines s (lines_of s).
Proof.
  induction s as [|c s IH]; [constructor|]. cbn [lines_of]. destruct (Ascii.eqb_spec c newline) as [->|N].
  - change (String newline s) with (String newline EmptyString ++ s)%string. constructor; [reflexivity|exact IH].
  - destruct IH as [|l Nl U|l s ls E H].
    + constructor; [discriminate|split; [exact N|exact I]].
    + constructor; [discriminate|split; [exact N|exact U]].
    + change (String c (l ++ s)) with (String c l ++ s)%string. constructor; [|exact H]. destruct l as [|d l]; [destruct E|]. split; [exact N|exact E].
Qed.
