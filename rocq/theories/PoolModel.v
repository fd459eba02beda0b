(** Model of RepeatPool in task_models/utils/multiprocess.py 10-76: repeating a function in several processes. *)
From Coq Require Export List Arith ZArith Bool.
Export ListNotations.
Local Open Scope nat_scope.

(** A process (multiprocessing.Process) is alive, or has exited with a code (negative when it is killed by a signal).
    It has pushed its result to the queue or not: [result_queue.put], 23-26.  Its data is in the pipe of the queue
    before the process exits, as Python waits for the feeder thread of the queue at exit. *)
Inductive status := Alive (pushed : bool) | Dead (code : Z) (pushed : bool).

(** What the processes may do on their own.  Nothing is assumed about the order or the time of these events: a
    process may fail, be killed, or exit with code 0 without its result (when it cannot be pickled). *)
Inductive event := Push (p : nat) | Exit (p : nat) (code : Z).

Fixpoint set_nth {X} (l : list X) (i : nat) (x : X) : list X :=
  match l, i with
  | [], _ => []
  | _ :: l, O => x :: l
  | y :: l, S i => y :: set_nth l i x
  end.

(** The ways [run] raises: RuntimeError of 61-62, queue.Empty of [get_nowait], 43. *)
Inductive failure := SubprocessFailed | QueueEmpty.

Section Pool.
  Context {A : Type}.
  (** What process number p computes when started with a seed, 23-25. *)
  Variable target : nat -> Z -> A.
  (** np.random.randint(2 ** 32), 52: the seeds drawn one after the other by the parent. *)
  Variable draws : nat -> Z.
  (** cpu_count(), 19 *)
  Variable n_processes : nat.
  (** The repetitions asked for, 28; a negative number behaves as 0. *)
  Variable n : nat.
  (** What happens to the processes before each step of the parent. *)
  Variable env : nat -> list event.

  Record world := { procs : list (Z * status); pipe : list A }.
  Definition apply_event (w : world) (e : event) : world :=
    match e with
    | Push p =>
        match nth_error (procs w) p with
        | Some (sd, Alive false) => {| procs := set_nth (procs w) p (sd, Alive true); pipe := pipe w ++ [target p sd] |}
        | _ => w
        end
    | Exit p c =>
        match nth_error (procs w) p with
        | Some (sd, Alive b) => {| procs := set_nth (procs w) p (sd, Dead c b); pipe := pipe w |}
        | _ => w
        end
    end.

  (** Where the parent is in [run], 28-44. *)
  Inductive place := PLoop | PClean (i : nat) | PFill (i : nat) | PGet | PCollect (k : nat) | PDone | PFailed (f : failure).
  (** [workers] holds process numbers.  The lists built by 56-57 and 67-68 are stored entry by entry. *)
  Record st := { workers : list (option nat); to_go : nat; results : list A; wd : world; where_ : place }.

  (** 29-32 *)
  Definition start_state : st := {| workers := repeat None n_processes; to_go := n; results := []; wd := {| procs := []; pipe := [] |}; where_ := PLoop |}.
  (** _still_working, 46-47 *)
  Definition still_working (s : st) : bool := (0 <? to_go s) || existsb (fun w => match w with Some _ => true | None => false end) (workers s).
  Definition goto (s : st) (p : place) : st := {| workers := workers s; to_go := to_go s; results := results s; wd := wd s; where_ := p |}.

  (** _clean and _clean_job for the i-th worker, 55-64 *)
  Definition clean (s : st) (i : nat) : st :=
    match nth_error (workers s) i with
    | None => goto s (PFill 0)
    | Some None => goto s (PClean (S i))
    | Some (Some p) =>
        match nth_error (procs (wd s)) p with
        | Some (_, Dead c _) =>
            if (0 <? c)%Z then goto s (PFailed SubprocessFailed)
            else {| workers := set_nth (workers s) i None; to_go := to_go s; results := results s; wd := wd s; where_ := PClean (S i) |}
        | _ => goto s (PClean (S i))
        end
    end.
  (** _fill and _start_or_None for the i-th worker, 49-54 and 66-68 *)
  Definition fill (s : st) (i : nat) : st :=
    match nth_error (workers s) i with
    | None => goto s PGet
    | Some (Some _) => goto s (PFill (S i))
    | Some None =>
        if 0 <? to_go s
        then {| workers := set_nth (workers s) i (Some (length (procs (wd s)))); to_go := to_go s - 1; results := results s;
                wd := {| procs := procs (wd s) ++ [(draws (length (procs (wd s))), Alive false)]; pipe := pipe (wd s) |}; where_ := PFill (S i) |}
        else goto s (PFill (S i))
    end.
  (** [self.result_queue.get(False, 1)], 37 ([block] is False: it does not wait), and [get_nowait], 43 *)
  Definition get (s : st) (found missing : place) : st :=
    match pipe (wd s) with
    | [] => goto s missing
    | x :: q => {| workers := workers s; to_go := to_go s; results := results s ++ [x]; wd := {| procs := procs (wd s); pipe := q |}; where_ := found |}
    end.

  (** One step of the parent, 33-44. *)
  Definition advance (s : st) : st :=
    match where_ s with
    | PLoop => if still_working s then goto s (PClean 0) else goto s (PCollect (n - length (results s)))
    | PClean i => clean s i
    | PFill i => fill s i
    | PGet => get s PLoop PLoop
    | PCollect 0 => goto s PDone
    | PCollect (S k) => get s (PCollect k) (PFailed QueueEmpty)
    | PDone | PFailed _ => s
    end.
  (** The events of time k, then one step of the parent. *)
  Definition happen (s : st) (l : list event) : st :=
    {| workers := workers s; to_go := to_go s; results := results s; wd := fold_left apply_event l (wd s); where_ := where_ s |}.
  Fixpoint exec (k : nat) : st :=
    match k with
    | O => start_state
    | S k => advance (happen (exec k) (env k))
    end.
End Pool.
Arguments world : clear implicits.
Arguments st : clear implicits.
