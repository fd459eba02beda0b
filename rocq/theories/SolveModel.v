(** Model of POMDP.solve, dump_to and load_policy_from (task_models/lib/pomdp.py 290-294 and 338-379) and of the temporary
    directory (task_models/lib/py23.py and tempfile.TemporaryDirectory). The external solver, the name of the temporary
    directory, the random seed and the files that cannot be opened are arguments. *)
From Coq Require Import String Ascii.
From Verif Require Export PyBase QBase PomdpModel PolicyModel ParseModel DumpModel.
From Verif Require Import TowerModel.
Local Open Scope list_scope.
Local Open Scope nat_scope.

(** Files by their full paths *)
Definition files := string -> option string.
Definition put (fs : files) (path text : string) : files := fun f => if String.eqb f path then Some text else fs f.
(** A call of the solver: executable, arguments, working directory, and the files at this time *)
Record call := { c_path : string; c_args : list string; c_cwd : string; c_files : files }.
(** Exceptions: those of Python code, IOError, CalledProcessError, and others raised while the solver runs (it cannot be
    started, or the user interrupts it) *)
Inductive failure := FPython (e : exn) | FIO (path : string) | FExit (code : Z) | FOther.
Record world := { w_files : files; w_calls : list call }.
(** What the solver does: the files it leaves, and its exit code, or the exception that interrupts it *)
Definition solver := call -> files * (Z + failure).

(** [os.path.join(path, name)] for a directory that does not end with a slash *)
Definition join_path (path name : string) : string := (path ++ "/" ++ name)%string.
(** shutil.rmtree, called by __exit__: all files of the directory and of its subdirectories *)
Definition remove_tree (dir : string) (fs : files) : files := fun f => if String.prefix (dir ++ "/") f then None else fs f.
(** The lines of a file, with their ends *)
Fixpoint lines_of (s : string) : list string :=
  match s with
  | EmptyString => []
  | String c t => if Ascii.eqb c newline then String c EmptyString :: lines_of t
                  else match lines_of t with [] => [String c EmptyString] | l :: ls => String c l :: ls end
  end.

Section Solve.
  Variable str_float : Q -> string.               (* text of the discount *)
  Variable parse_int : string -> res Z.           (* int(s) *)
  Variable parse_vector : string -> res (list Q). (* np.fromstring(s, sep=' ') *)
  Variable run : solver.
  Variable opens : string -> bool.                (* the files that can be opened for writing *)
  Variable tmpdir : string.                       (* the directory made by tempfile.mkdtemp *)
  Variable random_seed : Z.                       (* np.random.randint(1.e10) *)
  Variable p : pomdp.
  Variable solver_path : string.

  Definition lift {A} (x : res A) : A + failure := match x with Ok a => inl a | Err e => inr (FPython e) end.

  (** dump_to, 290-294: the file is opened, then the text is made *)
  Definition dump_to (path name : string) (fs : files) : files * (string + failure) :=
    let full_path := join_path path (name ++ ".pomdp") in
    if negb (opens full_path) then (fs, inr (FIO full_path)) else
    match dump str_float p with
    | Ok text => (put fs full_path text, inl full_path)
    | Err e => (put fs full_path EmptyString, inr (FPython e))
    end.
  (** load_policy_from, 366-379 *)
  Definition load_policy_from (path name : string) (fs : files) : graph_policy + failure :=
    let value_function_file := join_path path (name ++ ".alpha") in
    let policy_graph_file := join_path path (name ++ ".pg") in
    match fs value_function_file with
    | None => inr (FIO value_function_file)
    | Some vf =>
        match parse_value_function parse_int parse_vector (lines_of vf) with
        | Err e => inr (FPython e)
        | Ok vf =>
            match fs policy_graph_file with
            | None => inr (FIO policy_graph_file)
            | Some pg => lift (do pg <- parse_policy_graph parse_int (lines_of pg); load_policy p vf pg)
            end
        end
    end.
  (** The arguments made before the temporary directory, 344-357. Numbers are integers here. *)
  Definition solver_args (timeout n_iterations : option Z) (method : string) (grid_type : option string) (seed : option Z) : list string :=
    let args := match timeout with Some t => ["-time_limit"%string; str_int t] | None => [] end in
    let args := args ++ match n_iterations with Some n => ["-horizon"%string; str_int n] | None => [] end in
    let seed := match seed with Some s => s | None => random_seed end in
    let args := args ++ ["-rand_seed"%string; str_int seed] in
    if String.eqb method "grid" then
      let grid_type := match grid_type with Some g => g | None => "simplex"%string end in
      args ++ ["-method"%string; method; "-fg_type"%string; grid_type]
    else args.
  (** The body of the with statement, 359-364 *)
  Definition in_directory (args : list string) (name : string) (w : world) : world * (graph_policy + failure) :=
    let (fs, f) := dump_to tmpdir name (w_files w) in
    match f with
    | inr e => ({| w_files := fs; w_calls := w_calls w |}, inr e)
    | inl pomdp_file =>
        let c := {| c_path := solver_path; c_args := args ++ ["-o"%string; name; "-pomdp"%string; pomdp_file]; c_cwd := tmpdir; c_files := fs |} in
        let (fs, r) := run c in
        let w := {| w_files := fs; w_calls := w_calls w ++ [c] |} in
        match r with
        | inr e => (w, inr e)
        | inl code => if Z.eqb code 0 then (w, load_policy_from tmpdir name fs) else (w, inr (FExit code))
        end
    end.
  (** solve, 338-364: the directory is removed in all cases *)
  Definition solve (timeout n_iterations : option Z) (method : string) (grid_type : option string) (seed : option Z) (w : world)
    : world * (graph_policy + failure) :=
    let name := "tosolve"%string in
    let args := solver_args timeout n_iterations method grid_type seed in
    let (w, r) := in_directory args name w in
    ({| w_files := remove_tree tmpdir (w_files w); w_calls := w_calls w |}, r).
End Solve.
