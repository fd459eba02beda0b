(** Specification of the texts of histories, for C123. *)
From Verif Require Import PyBase PomdpModel TowerModel.
From Coq Require Import String Ascii.
Local Open Scope list_scope.
Local Open Scope nat_scope.

(** A word has no hyphen. *)
Definition word (w : string) : Prop := ~ In "-"%char (list_ascii_of_string w).
(** The words of a name, that hyphens separate. *)
Definition words (s : string) (l : list string) : Prop := l <> [] /\ Forall word l /\ s = String.concat "-" l.
(** The text of an action is spelled by the first characters of its words. *)
Definition starts_with (w : string) (c : ascii) : Prop := exists r, w = String c r.
Definition action_text (s t : string) : Prop := exists l, words s l /\ Forall2 starts_with l (list_ascii_of_string t).
(** That of an observation is its first character, or the empty set for none. *)
Definition observation_text (s t : string) : Prop := (s = "none" /\ t = "∅")%string \/ (s <> "none"%string /\ exists c, starts_with s c /\ t = String c EmptyString).
Definition pair_text (ao : name * name) (t : string) : Prop :=
  exists a o ta to, ao = (NStr a, NStr o) /\ action_text a ta /\ observation_text o to /\ t = (ta ++ ":" ++ to)%string.
(** A history: pairs, and perhaps an element left alone. *)
Definition flat {A} (l : list (A * A)) : list A := List.concat (map (fun p => [fst p; snd p]) l).
Definition history_text (h : list name) (t : string) : Prop :=
  exists pairs alone texts, h = flat pairs ++ alone /\ List.length alone <= 1 /\ Forall2 pair_text pairs texts /\
    t = (String.concat ", " texts ++ " [" ++ str_int (Z.of_nat (2 * List.length pairs + List.length alone)) ++ "]")%string.
