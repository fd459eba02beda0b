(** Specification for C114: what a run of the solver is asked, and what it leaves. *)
From Coq Require Import String Ascii.
From Verif Require Import PyBase QBase PomdpModel PomdpSpec TowerModel SolveModel.
Local Open Scope list_scope.
Local Open Scope nat_scope.

(** The files of a directory and of its subdirectories *)
Definition inside (dir f : string) : Prop := exists name, f = (dir ++ "/" ++ name)%string.
(** The solver writes only in its working directory. *)
Definition confined (run : solver) : Prop := forall c f, ~ inside (c_cwd c) f -> fst (run c) f = c_files c f.
(** A new directory is empty. *)
Definition fresh (dir : string) (w : world) : Prop := forall f, inside dir f -> w_files w f = None.

(** The options asked for, with their values *)
Section Asked.
  Variables (timeout n_iterations : option Z) (method : string) (grid_type : option string) (seed : option Z) (random_seed : Z) (tmpdir : string).
  Inductive asked : string -> string -> Prop :=
  | ask_time t : timeout = Some t -> asked "-time_limit" (str_int t)
  | ask_horizon n : n_iterations = Some n -> asked "-horizon" (str_int n)
  | ask_seed s : seed = Some s -> asked "-rand_seed" (str_int s)
  | ask_random : seed = None -> asked "-rand_seed" (str_int random_seed)
  | ask_grid : method = "grid"%string -> asked "-method" "grid"
  | ask_grid_type g : method = "grid"%string -> grid_type = Some g -> asked "-fg_type" g
  | ask_simplex : method = "grid"%string -> grid_type = None -> asked "-fg_type" "simplex"
  | ask_output : asked "-o" "tosolve"
  | ask_input : asked "-pomdp" (tmpdir ++ "/tosolve.pomdp").
End Asked.
(** A command line: options followed by their values *)
Definition command_line (l : list (string * string)) : list string := flat_map (fun x => [fst x; snd x]) l.

(** The lines of a text: in order, each with the newline that ends it; the last may have none. *)
Fixpoint ended (s : string) : Prop := (* no newline but at the end, where there is one *)
  match s with EmptyString => False | String c EmptyString => c = ascii_of_nat 10 | String c t => c <> ascii_of_nat 10 /\ ended t end.
Fixpoint unended (s : string) : Prop := match s with EmptyString => True | String c t => c <> ascii_of_nat 10 /\ unended t end.
Inductive has_lines : string -> list string -> Prop :=
| hl_nil : has_lines EmptyString []
| hl_last l : l <> EmptyString -> unended l -> has_lines l [l]
| hl_line l s ls : ended l -> has_lines s ls -> has_lines (l ++ s) (l :: ls).

(** The call that should be made: the model is in its file, nothing else has changed, and the options are those asked for. *)
Definition right_call (solver_path tmpdir text : string) (w : world) (ask : string -> string -> Prop) (c : call) : Prop :=
  c_path c = solver_path /\ c_cwd c = tmpdir /\ c_files c (tmpdir ++ "/tosolve.pomdp")%string = Some text /\
  (forall f, f <> (tmpdir ++ "/tosolve.pomdp")%string -> c_files c f = w_files w f) /\
  exists l, c_args c = command_line l /\ NoDup (map fst l) /\ forall flag v, In (flag, v) l <-> ask flag v.
