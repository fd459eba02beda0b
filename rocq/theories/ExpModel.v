(** Experiments: SupportiveExperiment and the reading of results, task_models/evaluation.py 98-262. *)
From Coq Require Export String ZArith.
From Verif Require Export PyBase EvalModel.
Local Open Scope list_scope.
Local Open Scope nat_scope.

(** What JSON can hold.  Simplification: a number is a rational, whether it is an int or a float. *)
Inductive json :=
| JNull | JNum (q : Q) | JBool (b : bool) | JText (s : string) | JList (l : list json) | JDict (d : list (string * json)).
(** The dictionary returned by simulate_one_evaluation, 86-93. *)
Record evaluation := { ev_record : record Z; ev_elapsed : Q; ev_calls : nat }.
(** Values of the dictionaries [parameters] and [results].  Dictionaries are objects: [VDict a] refers to the one at
    address a.  [VObject] is an object that json cannot write.  Simplification: lists and dictionaries inside JSON values
    are not objects that can be changed. *)
Inductive pval := VJson (j : json) | VDict (a : nat) | VEvals (l : list evaluation) | VObject.
Definition pdict := list (string * pval).
Fixpoint lookup {V} (d : list (string * V)) (k : string) : option V :=
  match d with [] => None | (k', v) :: d => if String.eqb k' k then Some v else lookup d k end.
(** [d[k] = v]: in place, or at the end *)
Fixpoint assign {V} (d : list (string * V)) (k : string) (v : V) : list (string * V) :=
  match d with
  | [] => [(k, v)]
  | (k', v') :: d => if String.eqb k' k then (k', v) :: d else (k', v') :: assign d k v
  end.
(** [d.update(e)] *)
Definition update {V} (d e : list (string * V)) : list (string * V) := fold_left (fun d kv => assign d (fst kv) (snd kv)) e d.

(** DEFAULT_PARAMETERS, 105-120 *)
Definition num (z : Z) : pval := VJson (JNum (inject_Z z)).
Definition flag (b : bool) : pval := VJson (JBool b).
Definition text (s : string) : pval := VJson (JText s).
Definition base_parameters : pdict :=
  [("n_warmup", num 2000); ("n_evaluations", num 20); ("iterations", num 1000); ("rollout-iterations", num 1); ("exploration", num 50);
   ("relative-explo", flag false); ("belief-values", flag false); ("n_particles", num 150); ("horizon-type", text "transitions");
   ("horizon-length", num 20); ("intermediate-rewards", flag false); ("p_preference", VJson (JNum (3 # 10))); ("policy", text "pomcp")]%string.
(** The assignments of set_debug_parameters, 133-138 *)
Definition debug_parameters : pdict :=
  [("n_warmup", num 2); ("n_evaluations", num 2); ("iterations", num 10); ("n_particles", num 20); ("horizon-length", num 2)]%string.

(** An experiment object, 124-131: the addresses of its dictionaries and its path.  [e_class] is the number of its class. *)
Record experiment := { e_class : nat; e_params : nat; e_results : nat; e_path : option string }.
(** A file: what it holds as JSON, or [None] when writing it was interrupted by an exception. *)
Definition file := option json.
Record world := {
  heap : list pdict;                       (* the dictionaries, by address *)
  classes : list nat;                      (* the address of DEFAULT_PARAMETERS of each class *)
  given : list nat;                        (* the addresses of the dictionaries built by the caller *)
  exps : list experiment;
  files : list (string * file) }.
(** The program when evaluation.py has been imported: class 0 is SupportiveExperiment. *)
Definition imported (files : list (string * file)) : world :=
  {| heap := [base_parameters]; classes := [0]; given := []; exps := []; files := files |}.

Definition at_ (w : world) (a : nat) : pdict := nth a (heap w) [].
Fixpoint replace {X} (l : list X) (i : nat) (x : X) : list X :=
  match l, i with
  | [], _ => []
  | _ :: l, O => x :: l
  | y :: l, S i => y :: replace l i x
  end.
Definition set_heap (w : world) (h : list pdict) : world := {| heap := h; classes := classes w; given := given w; exps := exps w; files := files w |}.
Definition put (w : world) (a : nat) (d : pdict) : world := set_heap w (replace (heap w) a d).
(** [obj[k] = v] for the dictionary at address a *)
Definition item (w : world) (a : nat) (k : string) (v : pval) : world := put w a (assign (at_ w a) k v).
(** A new dictionary and its address *)
Definition alloc (w : world) (d : pdict) : world * nat := (set_heap w (heap w ++ [d]), length (heap w)).
Definition set_file (w : world) (p : string) (f : file) : world :=
  {| heap := heap w; classes := classes w; given := given w; exps := exps w; files := assign (files w) p f |}.

(** __init__, 124-131: [parameters] is the address of the argument, if there is one *)
Definition create (w : world) (c : nat) (dflt : nat) (parameters : option nat) : world :=
  let (w1, p) := alloc w (at_ w dflt) in
  let w2 := match parameters with Some a => put w1 p (update (at_ w1 p) (at_ w1 a)) | None => w1 end in
  let (w3, r) := alloc w2 [] in
  {| heap := heap w3; classes := classes w3; given := given w3; exps := exps w3 ++ [{| e_class := c; e_params := p; e_results := r; e_path := None |}]; files := files w3 |}.
(** set_debug_parameters, 133-138 *)
Definition set_debug (w : world) (x : experiment) : world := fold_left (fun w kv => item w (e_params x) (fst kv) (snd kv)) debug_parameters w.

(** How results are written, with json.dump and NPEncoder (lib/utils.py 13-23): dictionaries are followed when they are met.
    [None] is TypeError.  The evaluations, 86-93. *)
Definition json_numbers (l : list Z) : json := JList (map (fun z => JNum (inject_Z z)) l).
Definition json_of_evaluation (e : evaluation) : json :=
  JDict [("return", JNum (r_return (ev_record e))); ("states", json_numbers (r_states (ev_record e)));
         ("actions", json_numbers (map Z.of_nat (r_actions (ev_record e)))); ("observations", json_numbers (map Z.of_nat (r_observations (ev_record e))));
         ("rewards", JList (map JNum (r_rewards (ev_record e)))); ("elapsed-time", JNum (ev_elapsed e));
         ("simulator-calls", JNum (inject_Z (Z.of_nat (ev_calls e))))]%string.
Fixpoint all_some {X} (l : list (string * option X)) : option (list (string * X)) :=
  match l with
  | [] => Some []
  | (k, Some x) :: l => match all_some l with Some r => Some ((k, x) :: r) | None => None end
  | (_, None) :: _ => None
  end.
Fixpoint json_of (w : world) (depth : nat) (v : pval) : option json :=
  match v with
  | VJson j => Some j
  | VEvals l => Some (JList (map json_of_evaluation l))
  | VObject => None
  | VDict a => match depth with
               | O => None
               | S n => match all_some (map (fun kv => (fst kv, json_of w n (snd kv))) (at_ w a)) with Some d => Some (JDict d) | None => None end
               end
  end.

(** Exceptions, with IOError for files *)
Inductive problem := Raises (e : exn) | CannotOpen.
Definition outcome := option problem.

(** write_result, 194-196: opening the file empties it.  [opens p]: the file system lets p be opened.
    The dictionaries of results have depth 2: results and parameters. *)
Definition write_result (opens : string -> bool) (w : world) (x : experiment) (p : string) : world * outcome :=
  if opens p
  then match json_of w 2 (VDict (e_results x)) with
       | Some j => (set_file w p (Some j), None)
       | None => (set_file w p None, Some (Raises EType))
       end
  else (w, Some CannotOpen).

(** What subclasses and policies do: [S] is the model and the policy.  init_run, 169-174, reads the parameters; the
    warmup get_action(iterations=n), 151, takes some time; evaluate, 155-157 and 96-100; finish_run, 176.
    Simplification: they do not change the dictionaries. *)
Record hooks (S : Type) := {
  h_init : pdict -> res S;
  h_warmup : S -> pval -> res (S * Q);
  h_evaluate : S -> pval -> res (list evaluation);
  h_finish : S -> list evaluation -> res unit }.
Arguments h_init {S}. Arguments h_warmup {S}. Arguments h_evaluate {S}. Arguments h_finish {S}.

(** run, 140-162; logging is not modelled.  [self.parameters[k]] may be a KeyError. *)
Definition run {S} (opens : string -> bool) (hk : hooks S) (w : world) (x : experiment) (debug : bool) : world * outcome :=
  let w1 := if debug then set_debug w x else w in
  let w2 := item w1 (e_results x) "parameters" (VDict (e_params x)) in
  match h_init hk (at_ w2 (e_params x)) with
  | Err e => (w2, Some (Raises e))
  | Ok s =>
    match lookup (at_ w2 (e_params x)) "n_warmup" with
    | None => (w2, Some (Raises EKey))
    | Some n =>
      match h_warmup hk s n with
      | Err e => (w2, Some (Raises e))
      | Ok (s1, t) =>
        let w3 := item w2 (e_results x) "t_warmup" (VJson (JNum t)) in
        match lookup (at_ w3 (e_params x)) "n_evaluations" with
        | None => (w3, Some (Raises EKey))
        | Some n =>
          match h_evaluate hk s1 n with
          | Err e => (w3, Some (Raises e))
          | Ok l =>
            let w4 := item w3 (e_results x) "evaluations" (VEvals l) in
            match h_finish hk s1 l with
            | Err e => (w4, Some (Raises e))
            | Ok _ => match e_path x with Some p => write_result opens w4 x p | None => (w4, None) end
            end
          end
        end
      end
    end
  end.

(** os.path.join(a, b) of posixpath *)
Definition slash : Ascii.ascii := Ascii.ascii_of_nat 47.
Definition starts_slash (s : string) : bool := match s with String c _ => Ascii.eqb c slash | EmptyString => false end.
Fixpoint ends_slash (s : string) : bool :=
  match s with EmptyString => false | String c s => match s with EmptyString => Ascii.eqb c slash | _ => ends_slash s end end.
Definition path_join (a b : string) : string :=
  if starts_slash b then b else if String.eqb a "" || ends_slash a then (a ++ b)%string else (a ++ "/" ++ b)%string.
(** [os.path.join(path, name + '.json')], 222-223 and 246 *)
Definition result_path (path name : string) : string := path_join path (name ++ ".json").

(** The values of a JSON dictionary as parameters *)
Definition values (d : list (string * json)) : pdict := map (fun kv => (fst kv, VJson (snd kv))) d.
(** [if parameters:], 126 *)
Definition truthy (j : json) : bool :=
  match j with
  | JNull => false | JBool b => b | JNum q => negb (Qeq_bool q 0) | JText s => negb (String.eqb s "")
  | JList l => match l with [] => false | _ => true end | JDict d => match d with [] => false | _ => true end
  end.
(** load_from_serialized, 198-202: reading what is not JSON is ValueError.  Simplification: [dict.update] of anything but a
    dictionary is a TypeError (Python accepts a list of pairs, and has ValueError for a text). *)
Definition load (w : world) (c : nat) (dflt : nat) (config : string) : world * outcome :=
  match lookup (files w) config with
  | None => (w, Some CannotOpen)
  | Some None => (w, Some (Raises EValue))
  | Some (Some (JDict d)) => let (w1, a) := alloc w (update [] (values d)) in (create w1 c dflt (Some a), None)
  | Some (Some j) => if truthy j then (w, Some (Raises EType)) else (create w c dflt None, None)
  end.
(** action_prepare, 255-258, for one experiment whose parameters are the dictionary at address a *)
Definition prepare (opens : string -> bool) (w : world) (config : string) (a : nat) : world * outcome :=
  if opens config
  then match json_of w 1 (VDict a) with
       | Some j => (set_file w config (Some j), None)
       | None => (set_file w config None, Some (Raises EType))
       end
  else (w, Some CannotOpen).

(** A value given by a program: JSON, or an object that json cannot write. *)
Definition val_of (v : option json) : pval := match v with Some j => VJson j | None => VObject end.
Definition vals_of (d : list (string * option json)) : pdict := map (fun kv => (fst kv, val_of (snd kv))) d.
(** What a program does with experiments. *)
Inductive op (S : Type) :=
| NewDict (d : list (string * option json))          (* the caller builds a dictionary *)
| SetItem (i : nat) (k : string) (j : option json)   (* and changes it *)
| DefClass (c : nat) (own : option (list (string * option json))) (* class D(C), with DEFAULT_PARAMETERS = C's copy, updated, or without *)
| Create (c : nat) (i : option nat)                  (* C(parameters=d) *)
| Load (c : nat) (config : string)                   (* C.load_from_serialized(config) *)
| SetParam (e : nat) (k : string) (j : option json)  (* exp.parameters[k] = j *)
| SetPath (e : nat) (p : option string)              (* exp.path = p *)
| Debug (e : nat)                                    (* exp.set_debug_parameters() *)
| Run (e : nat) (debug : bool) (hk : hooks S) (opens : string -> bool)  (* exp.run(debug) *)
| Prepare (i : nat) (config : string) (opens : string -> bool).
Arguments NewDict {S}. Arguments SetItem {S}. Arguments DefClass {S}. Arguments Create {S}. Arguments Load {S}. Arguments SetParam {S}.
Arguments SetPath {S}. Arguments Debug {S}. Arguments Run {S}. Arguments Prepare {S}.

(** One operation; those on things that do not exist do nothing (NameError or IndexError of the program). *)
Definition apply {S} (o : op S) (w : world) : world * outcome :=
  match o with
  | NewDict d => let (w1, a) := alloc w (update [] (vals_of d)) in
                 ({| heap := heap w1; classes := classes w1; given := given w1 ++ [a]; exps := exps w1; files := files w1 |}, None)
  | SetItem i k j => match nth_error (given w) i with Some a => (item w a k (val_of j), None) | None => (w, Some (Raises EIndex)) end
  | DefClass c own =>
      match nth_error (classes w) c with
      | None => (w, Some (Raises EIndex))
      | Some a =>
          match own with
          | None => ({| heap := heap w; classes := classes w ++ [a]; given := given w; exps := exps w; files := files w |}, None)
          | Some d => let (w1, b) := alloc w (update (at_ w a) (vals_of d)) in
                      ({| heap := heap w1; classes := classes w1 ++ [b]; given := given w1; exps := exps w1; files := files w1 |}, None)
          end
      end
  | Create c i =>
      match nth_error (classes w) c with
      | None => (w, Some (Raises EIndex))
      | Some dflt =>
          match i with
          | None => (create w c dflt None, None)
          | Some i => match nth_error (given w) i with Some a => (create w c dflt (Some a), None) | None => (w, Some (Raises EIndex)) end
          end
      end
  | Load c config => match nth_error (classes w) c with Some dflt => load w c dflt config | None => (w, Some (Raises EIndex)) end
  | SetParam e k j => match nth_error (exps w) e with Some x => (item w (e_params x) k (val_of j), None) | None => (w, Some (Raises EIndex)) end
  | SetPath e p =>
      match nth_error (exps w) e with
      | Some x => ({| heap := heap w; classes := classes w; given := given w; files := files w;
                      exps := replace (exps w) e {| e_class := e_class x; e_params := e_params x; e_results := e_results x; e_path := p |} |}, None)
      | None => (w, Some (Raises EIndex))
      end
  | Debug e => match nth_error (exps w) e with Some x => (set_debug w x, None) | None => (w, Some (Raises EIndex)) end
  | Run e debug hk opens => match nth_error (exps w) e with Some x => run opens hk w x debug | None => (w, Some (Raises EIndex)) end
  | Prepare i config opens => match nth_error (given w) i with Some a => prepare opens w config a | None => (w, Some (Raises EIndex)) end
  end.
Fixpoint after_all {S} (l : list (op S)) (w : world) : world := match l with [] => w | o :: l => after_all l (fst (apply o w)) end.

(** get_results_from_one, 243-249 *)
Fixpoint mapR {A B} (f : A -> res B) (l : list A) : res (list B) :=
  match l with [] => Ok [] | x :: l => do y <- f x; do r <- mapR f l; Ok (y :: r) end.
Definition jget (j : json) (k : string) : res json :=
  match j with JDict d => match lookup d k with Some x => Ok x | None => Err EKey end | _ => Err EType end.
Definition get_results (w : world) (path name : string) : res (list json * list json * list json) + problem :=
  match lookup (files w) (result_path path name) with
  | None => inr CannotOpen
  | Some None => inr (Raises EValue)
  | Some (Some j) =>
      inl (do e <- jget j "evaluations";
           match e with
           | JList l => do a <- mapR (fun r => jget r "return") l; do b <- mapR (fun r => jget r "elapsed-time") l;
                        do c <- mapR (fun r => jget r "simulator-calls") l; Ok (a, b, c)
           | _ => Err EType
           end)
  end.
(** run_from_arguments, 204-224, once the arguments are parsed: the configuration, the path, the name and the option.
    Simplification: the experiment made is the last one of the world. *)
Definition run_from_arguments {S} (opens : string -> bool) (hk : hooks S) (w : world) (c : nat) (config path name : option string) (debug : bool)
  : world * outcome :=
  let made := match config with Some f => apply (Load c f : op S) w | None => apply (Create c None : op S) w end in
  match snd made with
  | Some p => (fst made, Some p)
  | None =>
      let e := length (exps w) in
      match path, name with
      | None, _ => apply (Run e debug hk opens) (fst made)
      | Some _, None => (fst made, Some (Raises EType))
      | Some p, Some n => apply (Run e debug hk opens) (fst (apply (SetPath e (Some (result_path p n)) : op S) (fst made)))
      end
  end.
