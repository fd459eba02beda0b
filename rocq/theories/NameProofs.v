(** The names of the model are those of the specification. *)
From Verif Require Import PyBase NodeModel NameSpec.

Lemma letter c : replaced capitals smalls c = if Ascii.eqb c " "%char then "-"%char else lower_ascii c.
Proof. destruct c as [[] [] [] [] [] [] [] []]; vm_compute; reflexivity. Qed.
Lemma dashed_radix s : dashed s = name_radix s.
Proof. induction s as [|c s IH]; cbn [dashed name_radix]; [reflexivity|]. rewrite IH, letter. reflexivity. Qed.
Lemma dashed_map {A} (f : A -> string) l : map (fun a => dashed (f a)) l = map (fun a => name_radix (f a)) l.
Proof. apply map_ext. intros a. apply dashed_radix. Qed.
