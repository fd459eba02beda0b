(** Model of the writing of results: lib/utils.py 13-23 (NPEncoder), evaluation.py 195-197 (write_result) and 258-262
    (action_prepare), and of json.dump and json.load as far as they use them. *)
From Verif Require Import PyBase QBase HtmModel TowerModel.
Local Open Scope list_scope.

(** Python objects that can be given to json.dump.  [PNpInt] and [PNpFloat]: numpy integers of any size, and numpy floats other than
    float64; np.float64 is a subclass of float, so [PFloat].  [PArray v]: an array whose method tolist returns v.  [POther]: any other
    object (sets, complex numbers, functions, ...).  Simplifications: floats are exact; objects are trees (json.dump raises
    ValueError for circular ones); keys of dictionaries are atoms. *)
Inductive patom := KNone | KBool (b : bool) | KInt (z : Z) | KFloat (q : Q) | KStr (s : string) | KNpInt (z : Z) | KNpFloat (q : Q) | KNpBool (b : bool) | KOther.
Inductive pobj :=
| PNone | PBool (b : bool) | PInt (z : Z) | PFloat (q : Q) | PStr (s : string)
| PList (l : list pobj) | PTuple (l : list pobj) | PDict (l : list (patom * pobj))
| PNpInt (z : Z) | PNpFloat (q : Q) | PNpBool (b : bool) | PArray (v : pobj) | POther.
(** What is in the file: JSON values; simplification: the text itself is not modelled, numbers are written exactly. *)
Inductive jval := WNull | WBool (b : bool) | WInt (z : Z) | WFloat (q : Q) | WStr (s : string) | WList (l : list jval) | WDict (l : list (string * jval)).

(** JSONEncoder.default, json/encoder.py: raises TypeError *)
Definition plain_default (o : pobj) : res pobj := Err EType.
(** NPEncoder.default, lib/utils.py 15-23 *)
Definition np_default (o : pobj) : res pobj :=
  match o with
  | PNpInt z => Ok (PInt z)
  | PNpFloat q => Ok (PFloat q)
  | PArray v => Ok v
  | _ => plain_default o
  end.

Section Dump.
  Variable default : pobj -> res pobj.
  (** The text of a float as a key *)
  Variable float_text : Q -> string.
  (** Keys, json/encoder.py: str, float, bool, None and int; others raise TypeError. *)
  Definition key_text (k : patom) : res string :=
    match k with
    | KStr s => Ok s
    | KFloat q => Ok (float_text q)
    | KBool b => Ok (if b then "true" else "false")%string
    | KNone => Ok "null"%string
    | KInt z => Ok (str_int z)
    | _ => Err EType
    end.
  (** _iterencode, json/encoder.py: objects of other types are given to default and what it returns is encoded.  [fuel]: default is
      called again on what it returns. *)
  Fixpoint encode (fuel : nat) (o : pobj) : res jval :=
    match fuel with
    | O => Err EFuel
    | S fuel =>
        match o with
        | PNone => Ok WNull
        | PBool b => Ok (WBool b)
        | PInt z => Ok (WInt z)
        | PFloat q => Ok (WFloat q)
        | PStr s => Ok (WStr s)
        | PList l | PTuple l => do js <- mapM (encode fuel) l; Ok (WList js)
        | PDict l => do js <- mapM (fun kv => do k <- key_text (fst kv); do v <- encode fuel (snd kv); Ok (k, v)) l; Ok (WDict js)
        | _ => do o <- default o; encode fuel o
        end
    end.
End Dump.
(** How often encode calls itself at most *)
Fixpoint weight (o : pobj) : nat :=
  match o with
  | PList l | PTuple l => S (fold_right (fun o n => Nat.max (weight o) n) 0 l)
  | PDict l => S (fold_right (fun kv n => Nat.max (weight (snd kv)) n) 0 l)
  | PArray v => S (weight v)
  | PNpInt _ | PNpFloat _ => 2
  | _ => 1
  end.
(** write_result, evaluation.py 195-197: json.dump with NPEncoder *)
Definition write_result (float_text : Q -> string) (o : pobj) : res jval := encode np_default float_text (weight o) o.
(** action_prepare, evaluation.py 258-262: json.dump *)
Definition write_parameters (float_text : Q -> string) (o : pobj) : res jval := encode plain_default float_text (weight o) o.

(** json.load: of two items with the same key the value of the last one is kept, at the place of the first one. *)
Fixpoint set_item (l : list (patom * pobj)) (k : string) (v : pobj) : list (patom * pobj) :=
  match l with
  | [] => [(KStr k, v)]
  | (KStr k', v') :: l => if String.eqb k' k then (KStr k, v) :: l else (KStr k', v') :: set_item l k v
  | x :: l => x :: set_item l k v
  end.
Fixpoint load (j : jval) : pobj :=
  match j with
  | WNull => PNone
  | WBool b => PBool b
  | WInt z => PInt z
  | WFloat q => PFloat q
  | WStr s => PStr s
  | WList l => PList (map load l)
  | WDict l => PDict (fold_left (fun d kv => set_item d (fst kv) (snd kv)) (map (fun kv => (fst kv, load (snd kv))) l) [])
  end.
