(** Specification for C129: what can be written to a file of results, and what is read back. *)
From Verif Require Import PyBase QBase HtmModel TowerModel SaveModel.
Local Open Scope list_scope.

Section Spec.
  Variable float_text : Q -> string.
  (** The keys of JSON are texts. *)
  Inductive key_as : patom -> string -> Prop :=
  | ka_str s : key_as (KStr s) s
  | ka_int z : key_as (KInt z) (str_int z)
  | ka_float q : key_as (KFloat q) (float_text q)
  | ka_true : key_as (KBool true) "true"
  | ka_false : key_as (KBool false) "false"
  | ka_none : key_as KNone "null".

  (** What can be written; with numbers and arrays of numpy if np. *)
  Inductive writable (np : bool) : pobj -> Prop :=
  | wr_none : writable np PNone
  | wr_bool b : writable np (PBool b)
  | wr_int z : writable np (PInt z)
  | wr_float q : writable np (PFloat q)
  | wr_str s : writable np (PStr s)
  | wr_list l : Forall (writable np) l -> writable np (PList l)
  | wr_tuple l : Forall (writable np) l -> writable np (PTuple l)
  | wr_dict l : Forall (fun kv => (exists s, key_as (fst kv) s) /\ writable np (snd kv)) l -> writable np (PDict l)
  | wr_np_int z : np = true -> writable np (PNpInt z)
  | wr_np_float q : np = true -> writable np (PNpFloat q)
  | wr_array v : np = true -> writable np v -> writable np (PArray v).

  Definition last_value (l : list (string * pobj)) (s : string) (v : pobj) : Prop := exists a b, l = a ++ (s, v) :: b /\ ~ In s (map fst b).
  (** The second object is what one expects to read when the first one was written: the numbers of numpy are numbers, its arrays and
      tuples are lists; keys are texts, and the last item counts if two have the same text. *)
  Inductive reads_back : pobj -> pobj -> Prop :=
  | rb_none : reads_back PNone PNone
  | rb_bool b : reads_back (PBool b) (PBool b)
  | rb_int z : reads_back (PInt z) (PInt z)
  | rb_float q : reads_back (PFloat q) (PFloat q)
  | rb_str s : reads_back (PStr s) (PStr s)
  | rb_list l l' : Forall2 reads_back l l' -> reads_back (PList l) (PList l')
  | rb_tuple l l' : Forall2 reads_back l l' -> reads_back (PTuple l) (PList l')
  | rb_dict l items l' : Forall2 (fun kv kv' => key_as (fst kv) (fst kv') /\ reads_back (snd kv) (snd kv')) l items ->
      NoDup (map fst l') -> (forall k v, In (k, v) l' <-> exists s, k = KStr s /\ last_value items s v) -> reads_back (PDict l) (PDict l')
  | rb_np_int z : reads_back (PNpInt z) (PInt z)
  | rb_np_float q : reads_back (PNpFloat q) (PFloat q)
  | rb_array v w : reads_back v w -> reads_back (PArray v) w.

  (** Objects as they are read from files *)
  Inductive from_file : pobj -> Prop :=
  | ff_none : from_file PNone
  | ff_bool b : from_file (PBool b)
  | ff_int z : from_file (PInt z)
  | ff_float q : from_file (PFloat q)
  | ff_str s : from_file (PStr s)
  | ff_list l : Forall from_file l -> from_file (PList l)
  | ff_dict l : NoDup (map fst l) -> Forall (fun kv => (exists s, fst kv = KStr s) /\ from_file (snd kv)) l -> from_file (PDict l).
End Spec.
